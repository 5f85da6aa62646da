(** * Model of the sequential scheduler

    Models src/engine/schedule.rs (the [else] branch, L225-415), src/engine/priority.rs,
    src/engine/agentimpl.rs and the hook interfaces of src/engine/agent.rs and
    src/engine/state.rs.  Release build: integer overflow wraps. *)
From Coq Require Import List Bool ZArith NArith Arith.
From Verif Require Import F32.
Import ListNotations.
Local Open Scope N_scope.

(** ** Priorities (src/engine/priority.rs) *)

(** [struct Priority], priority.rs L6-9. *)
Record priority := Prio { p_time : f32; p_ord : Z }.

(** [Ord::cmp], priority.rs L21-37: the tests in source order. *)
Definition prio_cmp (p q : priority) : comparison :=
  if fltb (p_time p) (p_time q) then Gt
  else if fgtb (p_time p) (p_time q) then Lt
  else if (p_ord p <? p_ord q)%Z then Gt
  else if (p_ord p >? p_ord q)%Z then Lt
  else Eq.

(** [PartialEq::eq], priority.rs L48-52. *)
Definition prio_eqb (p q : priority) : bool :=
  (p_ord p =? p_ord q)%Z && feqb (p_time p) (p_time q).

Section Scheduler.

(** [A]: the data inside a [Box<dyn Agent>]; [S]: the simulation state. *)
Context {A S : Type}.

(** ** Agents and the priority queue *)

(** [struct AgentImpl], agentimpl.rs L16-20.  Equality and hash are by [id] only
    (L43-55), so the queue below is keyed by [ai_id]. *)
Record agentimpl := AI { ai_id : N; ai_agent : A; ai_rep : bool }.

Definition event : Type := agentimpl * priority.
Definition ev_id (e : event) : N := ai_id (fst e).
Definition ev_time (e : event) : f32 := p_time (snd e).
Definition ev_ord (e : event) : Z := p_ord (snd e).

(** External crate priority-queue 1.2: a map from items (keyed by [Eq]) to priorities.
    [push] of an item equal to a queued one replaces only the priority (the stored item
    stays) and returns the old priority; otherwise it inserts and returns [None]. *)
Fixpoint pq_push (a : agentimpl) (p : priority) (q : list event)
  : list event * option priority :=
  match q with
  | [] => ([(a, p)], None)
  | (b, pb) :: q' =>
      if ai_id b =? ai_id a then ((b, p) :: q', Some pb)
      else let (q'', r) := pq_push a p q' in ((b, pb) :: q'', r)
  end.

(** [PriorityQueue::remove]: by key, returns the removed pair. *)
Fixpoint pq_remove (id : N) (q : list event) : list event * option event :=
  match q with
  | [] => ([], None)
  | e :: q' =>
      if ev_id e =? id then (q', Some e)
      else let (q'', r) := pq_remove id q' in (e :: q'', r)
  end.

(** Events no other event is strictly greater than. *)
Definition maxima (q : list event) : list event :=
  filter (fun e => forallb (fun e' =>
            match prio_cmp (snd e') (snd e) with Gt => false | _ => true end) q) q.

(** [PriorityQueue::peek]: a maximal element; which one among equal priorities is
    unspecified (it depends on the heap layout), so it is chosen by [c].  If the order
    is inconsistent (NaN times) there may be no maximum and any element may come out. *)
Definition pq_peek (c : nat) (q : list event) : option event :=
  let cands := match maxima q with [] => q | ms => ms end in
  nth_error cands (c mod (length cands)).

(** ** The schedule *)

(** [struct Schedule], schedule.rs L227-236. *)
Record sched := Sched {
  s_step : N;            (* u64 *)
  s_time : f32;
  s_events : list event;
  s_ids : N              (* u32, agent_ids_counting *)
}.

Definition u32_mod : N := 4294967296.
Definition u64_mod : N := 18446744073709551616.
Definition u32_succ (n : N) : N := (n + 1) mod u32_mod.
Definition u32_pred (n : N) : N := (n + (u32_mod - 1)) mod u32_mod.
Definition u64_succ (n : N) : N := (n + 1) mod u64_mod.

(** [Schedule::new], L268-275. *)
Definition sched_new : sched := Sched 0 f0 [] 0.

(** [schedule_once], L283-285. *)
Definition schedule_once (sc : sched) (a : agentimpl) (t : f32) (o : Z) : sched :=
  Sched (s_step sc) (s_time sc) (fst (pq_push a (Prio t o) (s_events sc))) (s_ids sc).

(** [schedule_repeating], L295-303. *)
Definition schedule_repeating (sc : sched) (ag : A) (t : f32) (o : Z) : sched * bool :=
  let a := AI (s_ids sc) ag true in
  let (q, r) := pq_push a (Prio t o) (s_events sc) in
  (Sched (s_step sc) (s_time sc) q (u32_succ (s_ids sc)),
   match r with None => true | Some _ => false end).

(** [distributed_schedule_repeating], L305-313. *)
Definition distributed_schedule_repeating (sc : sched) (ag : A) (t : f32) (o : Z)
  : sched * (N * bool) :=
  let a := AI (s_ids sc) ag true in
  let (q, r) := pq_push a (Prio t o) (s_events sc) in
  let ids' := u32_succ (s_ids sc) in
  (Sched (s_step sc) (s_time sc) q ids',
   (u32_pred ids', match r with None => true | Some _ => false end)).

(** [get_all_events], L316-322.  The crate's iteration order is unspecified; here it is
    the list order. *)
Definition get_all_events (sc : sched) : list A :=
  map (fun e => ai_agent (fst e)) (s_events sc).

(** [dequeue], L329-341 (the agent argument only carries the id into the key). *)
Definition dequeue (sc : sched) (id : N) : sched * bool :=
  let (q, r) := pq_remove id (s_events sc) in
  (Sched (s_step sc) (s_time sc) q (s_ids sc),
   match r with Some _ => true | None => false end).

(** ** User hooks

    The state's hooks receive [&mut Schedule].  A hook is modelled as a program that
    calls the schedule API above (and may read [step] and [time]) and decides from the
    answers what to do next.  Not modelled: hooks that assign to the schedule's public
    fields directly or call [Schedule::step] recursively. *)
Inductive sop :=
| OpOnce (a : agentimpl) (t : f32) (o : Z)
| OpRepeating (ag : A) (t : f32) (o : Z)
| OpDistRepeating (ag : A) (t : f32) (o : Z)
| OpDequeue (id : N)
| OpAllEvents
| OpReadStep
| OpReadTime.

Inductive sres :=
| RUnit
| RBool (b : bool)
| RIdBool (id : N) (b : bool)
| RAgents (l : list A)
| RStep (n : N)
| RTime (t : f32).

Definition do_op (sc : sched) (o : sop) : sched * sres :=
  match o with
  | OpOnce a t ord => (schedule_once sc a t ord, RUnit)
  | OpRepeating ag t ord =>
      let (sc', b) := schedule_repeating sc ag t ord in (sc', RBool b)
  | OpDistRepeating ag t ord =>
      let '(sc', (id, b)) := distributed_schedule_repeating sc ag t ord in
      (sc', RIdBool id b)
  | OpDequeue id => let (sc', b) := dequeue sc id in (sc', RBool b)
  | OpAllEvents => (sc, RAgents (get_all_events sc))
  | OpReadStep => (sc, RStep (s_step sc))
  | OpReadTime => (sc, RTime (s_time sc))
  end.

Inductive hprog (X : Type) :=
| HRet (x : X)
| HCall (o : sop) (k : sres -> hprog X).
Arguments HRet {X} x.
Arguments HCall {X} o k.

(** Runs a hook; also returns the API calls it made with their answers. *)
Fixpoint run_hprog {X} (p : hprog X) (sc : sched) : sched * X * list (sop * sres) :=
  match p with
  | HRet x => (sc, x, [])
  | HCall o k =>
      let (sc', r) := do_op sc o in
      let '(sc'', x, log) := run_hprog (k r) sc' in
      (sc'', x, (o, r) :: log)
  end.

(** The user's code: the [State] trait (state.rs L47-63) and the [Agent] trait
    (agent.rs L7-40).  The agents returned by [before_step]/[after_step] of an agent are
    ignored by the scheduler (schedule.rs L397, L399), so they do not appear. *)
Record user := User {
  u_init : S -> hprog S;
  u_update : N -> S -> S;
  u_before : S -> hprog S;
  u_after : S -> hprog S;
  u_end : S -> hprog (bool * S);
  a_before : A -> S -> A * S;
  a_step : A -> S -> A * S;
  a_after : A -> S -> A * S;
  a_stopped : A -> S -> bool * (A * S)
}.

(** ** Observed calls

    [w_trace] records, in order, every call the engine makes into user code and every
    call user code makes into the schedule API; each [call_*] function below both makes
    the call and records it. *)
Inductive call :=
| CInit
| CUpdate (n : N)
| CStateBefore
| CStateAfter
| CEnd (answer : bool)
| CAgentBefore (id : N)
| CAgentStep (id : N)
| CAgentAfter (id : N)
| CAgentStopped (id : N) (answer : bool)
| CApi (o : sop) (r : sres).

Definition api (l : list (sop * sres)) : list call := map (fun x => CApi (fst x) (snd x)) l.

Record world := World { w_st : S; w_trace : list call }.

Definition call_update (u : user) (n : N) (w : world) : world :=
  World (u_update u n (w_st w)) (w_trace w ++ [CUpdate n]).
Definition call_init (u : user) (sc : sched) (w : world) : sched * world :=
  let '(sc', s', log) := run_hprog (u_init u (w_st w)) sc in
  (sc', World s' (w_trace w ++ CInit :: api log)).
Definition call_before (u : user) (sc : sched) (w : world) : sched * world :=
  let '(sc', s', log) := run_hprog (u_before u (w_st w)) sc in
  (sc', World s' (w_trace w ++ CStateBefore :: api log)).
Definition call_after (u : user) (sc : sched) (w : world) : sched * world :=
  let '(sc', s', log) := run_hprog (u_after u (w_st w)) sc in
  (sc', World s' (w_trace w ++ CStateAfter :: api log)).
Definition call_end (u : user) (sc : sched) (w : world) : bool * (sched * world) :=
  let '(sc', (b, s'), log) := run_hprog (u_end u (w_st w)) sc in
  (b, (sc', World s' (w_trace w ++ CEnd b :: api log))).
Definition call_agent (f : A -> S -> A * S) (tag : N -> call) (a : agentimpl) (w : world)
  : agentimpl * world :=
  let (ag', s') := f (ai_agent a) (w_st w) in
  (AI (ai_id a) ag' (ai_rep a), World s' (w_trace w ++ [tag (ai_id a)])).
Definition call_stopped (u : user) (a : agentimpl) (w : world)
  : bool * (agentimpl * world) :=
  let '(b, (ag', s')) := a_stopped u (ai_agent a) (w_st w) in
  (b, (AI (ai_id a) ag' (ai_rep a), World s' (w_trace w ++ [CAgentStopped (ai_id a) b]))).

(** ** [Schedule::step], schedule.rs L347-413 *)

(** The popping loop, L377-393.  [i] counts the peeks so that each one may break ties
    differently; a peek and the pop that follows it agree.  The fuel is the queue length
    (each iteration removes one event). *)
Fixpoint pop_due (fuel : nat) (ch : nat -> nat) (i : nat) (now : f32) (q : list event)
  : list event * list event :=
  match fuel with
  | O => ([], q)
  | Datatypes.S fuel' =>
      match pq_peek (ch i) q with
      | None => ([], q)
      | Some e =>
          if fgtb (ev_time e) now then ([], q)
          else let (es, q') := pop_due fuel' ch (Datatypes.S i) now
                                 (fst (pq_remove (ev_id e) q)) in
               (e :: es, q')
      end
  end.

(** One iteration of the loop over [cevents], L395-408. *)
Definition run_item (u : user) (sc : sched) (w : world) (e : event) : sched * world :=
  let (a1, w1) := call_agent (a_before u) CAgentBefore (fst e) w in
  let (a2, w2) := call_agent (a_step u) CAgentStep a1 w1 in
  let (a3, w3) := call_agent (a_after u) CAgentAfter a2 w2 in
  if ai_rep a3 then
    let '(stop, (a4, w4)) := call_stopped u a3 w3 in
    if stop then (sc, w4)
    else (schedule_once sc a4 (fadd (ev_time e) f1) (ev_ord e), w4)
  else (sc, w3).

Fixpoint run_items (u : user) (sc : sched) (w : world) (es : list event) : sched * world :=
  match es with
  | [] => (sc, w)
  | e :: es' => let (sc', w') := run_item u sc w e in run_items u sc' w' es'
  end.

(** L410-412 (and L361-363 in the empty case). *)
Definition finish_step (u : user) (sc : sched) (w : world) : sched * world :=
  let (sc', w') := call_after u sc w in
  let n := u64_succ (s_step sc') in
  (Sched n (s_time sc') (s_events sc') (s_ids sc'), call_update u n w').

Definition step (u : user) (ch : nat -> nat) (sc : sched) (w : world) : sched * world :=
  let w0 := if s_step sc =? 0 then call_update u (s_step sc) w else w in
  let (sc1, w1) := call_before u sc w0 in
  match pq_peek (ch O) (s_events sc1) with
  | None => finish_step u sc1 w1                        (* events.is_empty(), L357-365 *)
  | Some e0 =>
      let now := ev_time e0 in                           (* L369-375 *)
      let (due, rest) := pop_due (length (s_events sc1)) ch O now (s_events sc1) in
      let sc2 := Sched (s_step sc1) now rest (s_ids sc1) in
      let (sc3, w2) := run_items u sc2 w1 due in
      finish_step u sc3 w2
  end.

(** Programs driving a schedule from outside: API calls and steps, each step with its
    own tie-breaks. *)
Inductive action := ActApi (o : sop) | ActStep (ch : nat -> nat).

Definition act (u : user) (x : action) (c : sched * world) : sched * world :=
  match x with
  | ActApi o =>
      let (sc', r) := do_op (fst c) o in
      (sc', World (w_st (snd c)) (w_trace (snd c) ++ [CApi o r]))
  | ActStep ch => step u ch (fst c) (snd c)
  end.

Definition acts (u : user) (xs : list action) (c : sched * world) : sched * world :=
  fold_left (fun c x => act u x c) xs c.

End Scheduler.

Arguments agentimpl : clear implicits.
Arguments event : clear implicits.
Arguments sched : clear implicits.
Arguments sop : clear implicits.
Arguments sres : clear implicits.
Arguments hprog : clear implicits.
Arguments user : clear implicits.
Arguments world : clear implicits.
Arguments call : clear implicits.
Arguments action : clear implicits.
Arguments HRet {A X} x.
Arguments HCall {A X} o k.
