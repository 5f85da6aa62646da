(** * Panics of the hooks of the state

    [Schedule::step] of both builds (src/engine/schedule.rs L347-413 and L127-221) as in
    FaultModel.v, where now [update], [before_step] and [after_step] of the state (src/engine/state.rs L47-63) may
    panic too.  The queue, the clock and the counter are fields of the schedule, which
    the hooks borrow: a panic drops the borrow and leaves them as they are.  The mutex around the state
    in the parallel build is made by the step (L131) and dropped by the unwinding, so that its
    poison is gone with it.  A panic inside a method of the schedule called by a hook does
    not occur here ([do_op] is total), so the mutex of the queue is not poisoned by a hook. *)
From Coq Require Import List Bool ZArith NArith Arith.
From Verif Require Import F32 SchedModel Merge ParModel FaultModel.
Import ListNotations.

Section Hook.
Context {A S : Type}.

(** The trait [State], state.rs L47-63: what a hook leaves in the state, and whether it
    leaves by a panic ([true]).  [h_agents] has the methods of the agents; the hooks in its
    [f_base] are not used. *)
Record huser := HUser {
  h_agents : fuser A S;
  h_update : N -> S -> S * bool;
  h_before : S -> hprog A (S * bool);
  h_after : S -> hprog A (S * bool)
}.

(** Which call of the step panicked: [update(0)] (L350 and L134), [before_step] (L353 and
    L137), a method of an agent, [after_step] (L361, L410 and L217), the last [update]
    (L363, L412 and L220). *)
Inductive hsite := AtFirstUpdate | AtBefore | AtAgent (f : fault) | AtAfter | AtUpdate.

Definition hcall_update (hu : huser) (n : N) (w : world A S) : world A S * bool :=
  let (s', p) := h_update hu n (w_st w) in (World s' (w_trace w ++ [CUpdate n]), p).
(** L348-351 and L133-135. *)
Definition hfirst (hu : huser) (sc : sched A) (w : world A S) : world A S * bool :=
  if N.eqb (s_step sc) 0 then hcall_update hu (s_step sc) w else (w, false).
(** A hook that borrows the schedule; [run]: how it runs in the build at hand. *)
Definition hcall (run : hprog A (S * bool) -> sched A -> sched A * (S * bool) * list (sop A * sres A))
  (p : hprog A (S * bool)) (tag : call A) (sc : sched A) (w : world A S) : sched A * world A S * bool :=
  let '(sc', (s', b), log) := run p sc in
  (sc', World s' (w_trace w ++ tag :: api log), b).
(** L361-363, L410-412 and L216-220. *)
Definition hfinish (hu : huser) (run : hprog A (S * bool) -> sched A -> sched A * (S * bool) * list (sop A * sres A))
  (sc : sched A) (w : world A S) : sched A * world A S * option hsite :=
  match hcall run (h_after hu (w_st w)) CStateAfter sc w with
  | (sc', w', true) => (sc', w', Some AtAfter)
  | (sc', w', false) =>
      let n := u64_succ (s_step sc') in
      let (w'', p) := hcall_update hu n w' in
      (Sched n (s_time sc') (s_events sc') (s_ids sc'), w'', if p then Some AtUpdate else None)
  end.

(** Sequential build, L347-413. *)
Definition hstep (hu : huser) (ch : nat -> nat) (sc : sched A) (w : world A S) : sched A * world A S * option hsite :=
  match hfirst hu sc w with
  | (w0, true) => (sc, w0, Some AtFirstUpdate)
  | (w0, false) =>
  match hcall run_hprog (h_before hu (w_st w0)) CStateBefore sc w0 with
  | (sc1, w1, true) => (sc1, w1, Some AtBefore)
  | (sc1, w1, false) =>
  match pq_peek (ch O) (s_events sc1) with
  | None => hfinish hu run_hprog sc1 w1
  | Some e0 =>
      let now := ev_time e0 in
      let (due, rest) := pop_due (length (s_events sc1)) ch O now (s_events sc1) in
      match frun_items (h_agents hu) (Sched (s_step sc1) now rest (s_ids sc1)) w1 due with
      | (sc3, w2, Some f) => (sc3, w2, Some (AtAgent f))
      | (sc3, w2, None) => hfinish hu run_hprog sc3 w2
      end
  end end end.

(** A program that catches panics and goes on. *)
Definition hact (hu : huser) (x : action A) (c : sched A * world A S * list hsite) : sched A * world A S * list hsite :=
  let '(sc, w, fs) := c in
  match x with
  | ActApi o => let (sc', r) := do_op sc o in (sc', World (w_st w) (w_trace w ++ [CApi o r]), fs)
  | ActStep ch =>
      let '(sc', w', f) := hstep hu ch sc w in
      (sc', w', fs ++ match f with Some f => [f] | None => [] end)
  end.
Definition hacts (hu : huser) (xs : list (action A)) (c : sched A * world A S * list hsite) :=
  fold_left (fun c x => hact hu x c) xs c.

(** Parallel build, L127-221. *)
Inductive houtcome :=
| HExit (w : world A S)
| HNoThreads
| HRunning (fc : fconfig A S)
| HAgentPanicked (fc : fconfig A S)
| HLeft (sc : sched A) (w : world A S) (f : option hsite).   (* returned, or left by a hook's panic *)

Definition hpar_step (hu : huser) (n : nat) (ch : nat -> nat) (inter : list nat) (sc : sched A) (w : world A S) : houtcome :=
  match hfirst hu sc w with
  | (w0, true) => HLeft sc w0 (Some AtFirstUpdate)
  | (w0, false) =>
  match hcall par_run_hprog (h_before hu (w_st w0)) CStateBefore sc w0 with
  | (sc1, w1, true) => HLeft sc1 w1 (Some AtBefore)
  | (sc1, w1, false) =>
  match pq_peek (ch O) (s_events sc1) with
  | None => HExit w1
  | Some e0 =>
      match n with
      | O => HNoThreads
      | _ =>
        let l := pop_all (length (s_events sc1)) ch O (s_events sc1) in
        let sc2 := Sched (s_step sc1) (ev_time e0) [] (s_ids sc1) in
        let fc := fexec (h_agents hu) inter (fstart sc2 w1 (batches n l)) in
        let c := fc_conf fc in
        if finished c then
          if fc_poisonS fc then HAgentPanicked fc
          else let '(sc3, w3, f) := hfinish hu par_run_hprog (c_sc c) (c_w c) in HLeft sc3 w3 f
        else HRunning fc
      end
  end end end.
End Hook.

Arguments huser : clear implicits.
Arguments houtcome : clear implicits.
