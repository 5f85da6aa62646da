(** * What the scheduler is meant to do

    Vocabulary for the scheduler properties.  Uses only the data types of the model
    (events, hooks, observed calls), none of its functions except the schedule API as
    seen by hooks. *)
From Coq Require Import List Bool ZArith NArith.
From Verif Require Import F32 SchedModel.
Import ListNotations.
Local Open Scope N_scope.

Section Spec.
Context {A S : Type}.

(** All queued events have different ids. *)
Definition unique_ids (q : list (event A)) : Prop := NoDup (map ev_id q).

(** No event is scheduled at time NaN. *)
Definition no_nan (q : list (event A)) : Prop :=
  forall e, In e q -> f32_is_nan (ev_time e) = false.

(** [t] is the smallest time in the queue. *)
Definition earliest (q : list (event A)) (t : f32) : Prop :=
  (exists e, In e q /\ ev_time e = t) /\
  (forall e, In e q -> fleb t (ev_time e) = true).

(** Sorted by ordering value, ties allowed in any order. *)
Fixpoint ord_sorted (l : list (event A)) : Prop :=
  match l with
  | [] => True
  | e :: l' => (forall e', In e' l' -> (ev_ord e <= ev_ord e')%Z) /\ ord_sorted l'
  end.

(** One agent's turn: its three methods in order, then, for repeating agents, the
    question whether it is stopped.  [turn u e s back s']: starting in state [s], the
    event [e] ends in state [s'] and is put back as [back] (or not at all). *)
Inductive turn (u : user A S) : event A -> S -> option (event A) -> S -> Prop :=
| turn_once id ag ag1 ag2 ag3 s s1 s2 s3 p :
    a_before u ag s = (ag1, s1) -> a_step u ag1 s1 = (ag2, s2) ->
    a_after u ag2 s2 = (ag3, s3) ->
    turn u (AI id ag false, p) s None s3
| turn_stop id ag ag1 ag2 ag3 ag4 s s1 s2 s3 s4 p :
    a_before u ag s = (ag1, s1) -> a_step u ag1 s1 = (ag2, s2) ->
    a_after u ag2 s2 = (ag3, s3) -> a_stopped u ag3 s3 = (true, (ag4, s4)) ->
    turn u (AI id ag true, p) s None s4
| turn_again id ag ag1 ag2 ag3 ag4 s s1 s2 s3 s4 t o :
    a_before u ag s = (ag1, s1) -> a_step u ag1 s1 = (ag2, s2) ->
    a_after u ag2 s2 = (ag3, s3) -> a_stopped u ag3 s3 = (false, (ag4, s4)) ->
    turn u (AI id ag true, Prio t o) s (Some (AI id ag4 true, Prio (fadd t f1) o)) s4.

(** The turns of a list of events, one after the other; [backs] are the events put
    back, in that order. *)
Inductive turns (u : user A S) : list (event A) -> S -> list (event A) -> S -> Prop :=
| turns_nil s : turns u [] s [] s
| turns_gone e es s s' backs s'' :
    turn u e s None s' -> turns u es s' backs s'' -> turns u (e :: es) s backs s''
| turns_back e es b s s' backs s'' :
    turn u e s (Some b) s' -> turns u es s' backs s'' ->
    turns u (e :: es) s (b :: backs) s''.

(** The calls one agent receives in its turn (answers of [is_stopped] forgotten). *)
Definition calls_of (e : event A) : list (call A) :=
  [CAgentBefore (ev_id e); CAgentStep (ev_id e); CAgentAfter (ev_id e)].

(** Views of the observed calls. *)
Definition is_api (c : call A) : bool := match c with CApi _ _ => true | _ => false end.
Definition is_stopped_q (c : call A) : bool :=
  match c with CAgentStopped _ _ => true | _ => false end.
Definition engine_calls (tr : list (call A)) : list (call A) :=
  filter (fun c => negb (is_api c)) tr.
Definition turn_calls (tr : list (call A)) : list (call A) :=
  filter (fun c => negb (is_api c) && negb (is_stopped_q c)) tr.

(** ** Abstract bookkeeping of who is scheduled

    The k-th scheduling call (counted from 0) gets id k.  A dequeue of a live id and a
    positive answer of [is_stopped] end the life of that id. *)
Record live_state := Live { l_next : N; l_live : list N }.

Definition live_call (st : live_state) (c : call A) : live_state :=
  match c with
  | CApi (OpRepeating _ _ _) _ | CApi (OpDistRepeating _ _ _) _ =>
      Live (l_next st + 1) (l_next st :: l_live st)
  | CApi (OpDequeue id) _ | CAgentStopped id true =>
      Live (l_next st) (filter (fun i => negb (i =? id)) (l_live st))
  | _ => st
  end.
Definition live_after (tr : list (call A)) : live_state :=
  fold_left live_call tr (Live 0 []).

(** The answers the API must give, given what happened before. *)
Definition answer_ok (st : live_state) (c : call A) : Prop :=
  match c with
  | CApi (OpRepeating _ _ _) r => r = RBool true
  | CApi (OpDistRepeating _ _ _) r => r = RIdBool (l_next st) true
  | CApi (OpDequeue id) r => r = RBool (existsb (N.eqb id) (l_live st))
  | _ => True
  end.
Definition answers_ok (tr : list (call A)) : Prop :=
  forall pre c post, tr = pre ++ c :: post -> answer_ok (live_after pre) c.

Definition is_scheduling (c : call A) : bool :=
  match c with
  | CApi (OpRepeating _ _ _) _ | CApi (OpDistRepeating _ _ _) _ => true
  | _ => false
  end.
Definition is_once (c : call A) : bool :=
  match c with CApi (OpOnce _ _ _) _ => true | _ => false end.

End Spec.

(** ** Shape of the calls made during steps *)

(** One agent's turn as calls; [st] is the answer of [is_stopped] if it was asked. *)
Definition turn_block {A} (x : N * option bool) : list (call A) :=
  [CAgentBefore (fst x); CAgentStep (fst x); CAgentAfter (fst x)] ++
  match snd x with None => [] | Some b => [CAgentStopped (fst x) b] end.

(** Calls of the step that follows step number [i]. *)
Definition step_block {A} (i : N) (agents : list (N * option bool)) : list (call A) :=
  CStateBefore :: flat_map turn_block agents ++ [CStateAfter; CUpdate (i + 1)].

(** Steps [i], [i+1], ... *)
Fixpoint step_blocks {A} (i : N) (runs : list (list (N * option bool))) : list (call A) :=
  match runs with
  | [] => []
  | r :: rs => step_block i r ++ step_blocks (i + 1) rs
  end.

Definition is_step {A} (x : action A) : bool :=
  match x with ActStep _ => true | _ => false end.
Definition count_steps {A} (xs : list (action A)) : nat := length (filter is_step xs).

(** ** Scheduling only in the present or future *)

Section Future.
Context {A S : Type}.

Definition good_time (t : f32) : Prop := f32_valid t /\ f32_is_nan t = false.

(** The schedule holds no event before its current time. *)
Definition no_past (sc : sched A) : Prop :=
  good_time (s_time sc) /\
  forall e, In e (s_events sc) ->
    good_time (ev_time e) /\ fleb (s_time sc) (ev_time e) = true.

(** An API call that does not schedule before the current time. *)
Definition op_future (sc : sched A) (o : sop A) : Prop :=
  match o with
  | OpOnce _ t _ | OpRepeating _ t _ | OpDistRepeating _ t _ =>
      good_time t /\ fleb (s_time sc) t = true
  | _ => True
  end.

(** A hook all of whose calls are like that when it is run on [sc]. *)
Fixpoint prog_future {X} (p : hprog A X) (sc : sched A) : Prop :=
  match p with
  | HRet _ => True
  | HCall o k =>
      op_future sc o /\ prog_future (k (snd (do_op sc o))) (fst (do_op sc o))
  end.

(** User code all of whose state hooks are like that. *)
Definition user_future (u : user A S) : Prop :=
  forall sc s, no_past sc -> prog_future (u_before u s) sc /\ prog_future (u_after u s) sc.

(** A driving program all of whose direct API calls are like that. *)
Fixpoint acts_future (u : user A S) (xs : list (action A)) (c : sched A * world A S) : Prop :=
  match xs with
  | [] => True
  | x :: xs' =>
      match x with ActApi o => op_future (fst c) o | ActStep _ => True end /\
      acts_future u xs' (act u x c)
  end.

(** The agents that ran, in order. *)
Definition ran (tr : list (call A)) : list N :=
  flat_map (fun c => match c with CAgentStep id => [id] | _ => [] end) tr.

End Future.
