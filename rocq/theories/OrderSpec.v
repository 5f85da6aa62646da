(** * What it means that the order of the agents does not matter

    Vocabulary for C116 and C117: models whose agents do not disturb each other, as when
    every agent reads what was published at the end of the previous step and writes only
    what is its own.  Uses the data types of SchedModel.v (user code, events, schedules);
    of its functions only [step] and, in the two definitions at the end, the runs whose
    steps are constrained. *)
From Coq Require Import List Bool ZArith NArith Permutation RelationClasses.
From Verif Require Import F32 SchedModel SchedSpec SimModel ParModel.
Import ListNotations.

Section Spec.
Context {A S K : Type}.

(** What one turn of an agent does: its three methods, then, if it is repeating, the
    question whether it has stopped; [None]: it is not put back. *)
Definition life (u : user A S) (rep : bool) (a : A) (s : S) : option A * S :=
  let (a1, s1) := a_before u a s in
  let (a2, s2) := a_step u a1 s1 in
  let (a3, s3) := a_after u a2 s2 in
  if rep then
    let '(stop, (a4, s4)) := a_stopped u a3 s3 in
    (if stop then None else Some a4, s4)
  else (None, s3).

(** Agents with different keys do not disturb each other, up to states that all user code
    treats alike ([same]). *)
Record independent (u : user A S) (key : A -> K) (same : S -> S -> Prop) : Prop := {
  ind_equiv : Equivalence same;
  (* nobody can tell [same] states apart *)
  ind_same : forall r a s s', same s s' ->
    fst (life u r a s) = fst (life u r a s') /\ same (snd (life u r a s)) (snd (life u r a s'));
  ind_update : forall n s s', same s s' -> same (u_update u n s) (u_update u n s');
  (* what becomes of an agent does not depend on whether another one had its turn before *)
  ind_other : forall r r' a b s, key a <> key b ->
    fst (life u r a (snd (life u r' b s))) = fst (life u r a s);
  (* the effects of two turns do not depend on their order *)
  ind_comm : forall r r' a b s, key a <> key b ->
    same (snd (life u r a (snd (life u r' b s)))) (snd (life u r' b (snd (life u r a s))))
}.

(** Answers of the schedule that a hook must not tell apart: the list of all agents comes
    in no particular order, and 0.0 and -0.0 are the same time. *)
Definition answer_same (r r' : sres A) : Prop :=
  match r, r' with
  | RAgents l, RAgents l' => Permutation l l'
  | RTime t, RTime t' => t = t' \/ feqb t t' = true
  | _, _ => r = r'
  end.

(** Two hooks that make the same calls as long as they get answers related by [R], and
    whose results are then related by [RX]. *)
Inductive hook_same (ok : sop A -> Prop) (R : sres A -> sres A -> Prop) {X}
  (RX : X -> X -> Prop) : hprog A X -> hprog A X -> Prop :=
| hs_ret x x' : RX x x' -> hook_same ok R RX (HRet x) (HRet x')
| hs_call o k k' : ok o -> (forall r r', R r r' -> hook_same ok R RX (k r) (k' r')) ->
    hook_same ok R RX (HCall o k) (HCall o k').

(** The hooks of the state made in a step. *)
Definition step_hooks (ok : sop A -> Prop) (R : sres A -> sres A -> Prop)
  (u : user A S) (same : S -> S -> Prop) : Prop :=
  forall s s', same s s' ->
    hook_same ok R same (u_before u s) (u_before u s') /\
    hook_same ok R same (u_after u s) (u_after u s').

(** The other two. *)
Definition end_same (same : S -> S -> Prop) (x y : bool * S) : Prop :=
  fst x = fst y /\ same (snd x) (snd y).
Definition sim_hooks (u : user A S) (same : S -> S -> Prop) : Prop :=
  forall s s', same s s' ->
    hook_same (fun _ => True) answer_same same (u_init u s) (u_init u s') /\
    hook_same (fun _ => True) answer_same (end_same same) (u_end u s) (u_end u s').

(** Schedules with the same content. *)
Definition sched_same (sc sc' : sched A) : Prop :=
  s_step sc = s_step sc' /\ s_ids sc = s_ids sc' /\
  (s_time sc = s_time sc' \/ feqb (s_time sc) (s_time sc') = true) /\
  Permutation (s_events sc) (s_events sc').

(** A queue whose agents have different keys and whose times are numbers. *)
Definition distinct_agents (key : A -> K) (q : list (event A)) : Prop :=
  NoDup (map (fun e => key (ai_agent (fst e))) q) /\ no_nan q.

(** The queue as [before_step] leaves it in the next step. *)
Definition queue_before (u : user A S) (sc : sched A) (w : world A S) : list (event A) :=
  let s := if (s_step sc =? 0)%N then u_update u 0 (w_st w) else w_st w in
  s_events (fst (fst (run_hprog (u_before u s) sc))).

(** In every step of this run the queue satisfies [P]. *)
Fixpoint along (u : user A S) (P : list (event A) -> Prop) (chs : list (nat -> nat))
    (sc : sched A) (w : world A S) : Prop :=
  match chs with
  | [] => True
  | ch :: chs' =>
      P (queue_before u sc w) /\
      along u P chs' (fst (step u ch sc w)) (snd (step u ch sc w))
  end.

(** The state after some steps. *)
Definition after_steps (u : user A S) (chs : list (nat -> nat)) (sc : sched A) (w : world A S)
  : sched A * world A S := acts u (map ActStep chs) (sc, w).

(** The same for a whole [simulate!]: in every step of every repetition the queue
    satisfies [P]. *)
Fixpoint loop_along (u : user A S) (P : list (event A) -> Prop) (chs : nat -> nat -> nat)
    (i n : nat) (sc : sched A) (w : world A S) : Prop :=
  match n with
  | O => True
  | Datatypes.S n' =>
      P (queue_before u sc w) /\
      let (sc1, w1) := step u (chs i) sc w in
      let '(b, (sc2, w2)) := call_end u sc1 w1 in
      if b then True else loop_along u P chs (Datatypes.S i) n' sc2 w2
  end.
Fixpoint reps_along (u : user A S) (P : list (event A) -> Prop) (chs : nat -> nat -> nat -> nat)
    (r reps n : nat) (w : world A S) : Prop :=
  match reps with
  | O => True
  | Datatypes.S reps' =>
      (let (sc, w1) := call_init u sched_new w in loop_along u P (chs r) O n sc w1) /\
      reps_along u P chs (Datatypes.S r) reps' n (snd (sim_rep u (chs r) n w))
  end.

(** ** The parallel build *)

(** Calls that exist in both builds. *)
Definition both_builds (o : sop A) : Prop :=
  match o with OpDequeue _ | OpDistRepeating _ _ _ => False | _ => True end.
(** [schedule_repeating] answers nothing in the parallel build. *)
Definition answer_par (r r' : sres A) : Prop :=
  match r, r' with
  | RUnit, RBool _ => True
  | _, _ => answer_same r r'
  end.

(** Some parallel steps, each with its own tie-breaks and interleaving; [None] if one of
    them does not complete. *)
Fixpoint par_steps (u : user A S) (n : nat) (l : list ((nat -> nat) * list nat))
    (sc : sched A) (w : world A S) : option (sched A * world A S) :=
  match l with
  | [] => Some (sc, w)
  | (ch, inter) :: l' =>
      match par_step u n ch inter sc w with
      | PDone sc' w' => par_steps u n l' sc' w'
      | _ => None
      end
  end.

(** All agents are due at the same time. *)
Definition one_time (q : list (event A)) : Prop :=
  forall e e', In e q -> In e' q -> feqb (ev_time e) (ev_time e') = true.

End Spec.
