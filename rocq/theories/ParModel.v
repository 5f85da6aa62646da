(** * Model of the parallel scheduler

    Models src/engine/schedule.rs, [parallel] feature, L48-223, at the granularity of
    lock operations and calls into user code: one micro step of a worker thread is one
    lock acquisition, one call, one queue push or one release.  Data types, the priority
    queue and the hooks are those of SchedModel.v (schedule.rs defines the same fields,
    wrapped in [Arc<Mutex<..>>]).  Agents that panic (poisoning a mutex) are not
    modelled.  [ScheduleOptions]/command-line parsing (L20-46) is not modelled: the
    number of threads is a parameter. *)
From Coq Require Import List Bool ZArith NArith Arith.
From Verif Require Import F32 SchedModel Merge.
Import ListNotations.

Section Parallel.
Context {A S : Type}.

(** ** The schedule API of the parallel build *)

(** [schedule_once] L100-108 is [SchedModel.schedule_once] under the queue's lock.
    [schedule_repeating] L110-117 returns nothing.  [get_all_events] L119-125.
    [dequeue] and [distributed_schedule_repeating] do not exist in this build: a hook
    calling them does not compile; here such a call does nothing. *)
Definition par_do_op (sc : sched A) (o : sop A) : sched A * sres A :=
  match o with
  | OpOnce a t ord => (schedule_once sc a t ord, RUnit)
  | OpRepeating ag t ord => (fst (schedule_repeating sc ag t ord), RUnit)
  | OpDistRepeating _ _ _ | OpDequeue _ => (sc, RUnit)
  | OpAllEvents => (sc, RAgents (get_all_events sc))
  | OpReadStep => (sc, RStep (s_step sc))
  | OpReadTime => (sc, RTime (s_time sc))
  end.

Fixpoint par_run_hprog {X} (p : hprog A X) (sc : sched A)
  : sched A * X * list (sop A * sres A) :=
  match p with
  | HRet x => (sc, x, [])
  | HCall o k =>
      let (sc', r) := par_do_op sc o in
      let '(sc'', x, log) := par_run_hprog (k r) sc' in
      (sc'', x, (o, r) :: log)
  end.

(** ** Filling the batches, L145-174 *)

(** The popping loop L154-174: pops until the queue is empty, whatever the times. *)
Fixpoint pop_all (fuel : nat) (ch : nat -> nat) (i : nat) (q : list (event A))
  : list (event A) :=
  match fuel with
  | O => []
  | Datatypes.S fuel' =>
      match pq_peek (ch i) q with
      | None => []
      | Some e => e :: pop_all fuel' ch (Datatypes.S i) (fst (pq_remove (ev_id e) q))
      end
  end.

(** [cevents[i % thread_num].push(..)], L163-168: item [i] (counting from [i0]) goes to
    batch [i mod n]; this is batch [t]. *)
Fixpoint batch (n t i : nat) (l : list (event A)) : list (event A) :=
  match l with
  | [] => []
  | e :: l' => if Nat.eqb (i mod n) t then e :: batch n t (Datatypes.S i) l'
               else batch n t (Datatypes.S i) l'
  end.
Definition batches (n : nat) (l : list (event A)) : list (list (event A)) :=
  map (fun t => batch n t 0 l) (seq 0 n).

(** ** Worker threads, L176-213 *)

(** Where a worker is in the body of its loop, L184-210. *)
Inductive pc :=
| PNext                      (* before [state.lock()], L186 *)
| PBefore (e : event A)      (* holding the state lock; before L190 *)
| PStep (e : event A)        (* before L191 *)
| PAfter (e : event A)       (* before L192 *)
| PCheck (e : event A)       (* before the test of L195 *)
| PLockQ (e : event A)       (* before [events.lock()], L197 *)
| PPush (e : event A)        (* holding both locks; before L199-205 *)
| PUnlockQ                   (* leaving the scope of [q] *)
| PUnlockS.                  (* leaving the scope of [state] *)

Record thread := Thread { t_pc : pc; t_rest : list (event A) }.

(** [c_lockS]/[c_lockQ]: the thread holding the state / queue mutex. *)
Record config := Config {
  c_lockS : option nat;
  c_lockQ : option nat;
  c_sc : sched A;
  c_w : world A S;
  c_threads : list thread
}.

(** One micro step of thread [t]; [None] if it has finished or is blocked on a lock. *)
Definition micro (u : user A S) (t : nat) (c : config) : option config :=
  match nth_error (c_threads c) t with
  | None => None
  | Some th =>
      let goto p := upd (c_threads c) t (Thread p (t_rest th)) in
      match t_pc th with
      | PNext =>
          match t_rest th, c_lockS c with
          | e :: rest, None =>
              Some (Config (Some t) (c_lockQ c) (c_sc c) (c_w c)
                      (upd (c_threads c) t (Thread (PBefore e) rest)))
          | _, _ => None
          end
      | PBefore e =>
          let (a, w) := call_agent (a_before u) CAgentBefore (fst e) (c_w c) in
          Some (Config (c_lockS c) (c_lockQ c) (c_sc c) w (goto (PStep (a, snd e))))
      | PStep e =>
          let (a, w) := call_agent (a_step u) CAgentStep (fst e) (c_w c) in
          Some (Config (c_lockS c) (c_lockQ c) (c_sc c) w (goto (PAfter (a, snd e))))
      | PAfter e =>
          let (a, w) := call_agent (a_after u) CAgentAfter (fst e) (c_w c) in
          Some (Config (c_lockS c) (c_lockQ c) (c_sc c) w (goto (PCheck (a, snd e))))
      | PCheck e =>
          if ai_rep (fst e) then
            let '(stop, (a, w)) := call_stopped u (fst e) (c_w c) in
            Some (Config (c_lockS c) (c_lockQ c) (c_sc c) w
                    (goto (if stop then PUnlockS else PLockQ (a, snd e))))
          else Some (Config (c_lockS c) (c_lockQ c) (c_sc c) (c_w c) (goto PUnlockS))
      | PLockQ e =>
          match c_lockQ c with
          | None => Some (Config (c_lockS c) (Some t) (c_sc c) (c_w c) (goto (PPush e)))
          | Some _ => None
          end
      | PPush e =>
          Some (Config (c_lockS c) (c_lockQ c)
                  (schedule_once (c_sc c) (fst e) (fadd (ev_time e) f1) (ev_ord e))
                  (c_w c) (goto PUnlockQ))
      | PUnlockQ => Some (Config (c_lockS c) None (c_sc c) (c_w c) (goto PUnlockS))
      | PUnlockS => Some (Config None (c_lockQ c) (c_sc c) (c_w c) (goto PNext))
      end
  end.

(** An interleaving is a list of thread numbers; a blocked thread loses its turn. *)
Fixpoint exec (u : user A S) (sched : list nat) (c : config) : config :=
  match sched with
  | [] => c
  | t :: rest => exec u rest (match micro u t c with Some c' => c' | None => c end)
  end.

Definition finished (c : config) : bool :=
  forallb (fun th => match t_pc th, t_rest th with PNext, [] => true | _, _ => false end)
          (c_threads c).

(** [thread::scope] L176-214: spawn one worker per batch, wait for all. *)
Definition start (sc : sched A) (w : world A S) (bs : list (list (event A))) : config :=
  Config None None sc w (map (Thread PNext) bs).

(** ** [Schedule::step], L127-221 *)
Inductive poutcome :=
| PExit (w : world A S)                (* [std::process::exit(0)], L142 *)
| PPanic                               (* [cevents[0]] with no batch, L167 *)
| PRunning (c : config)                (* the interleaving ended before the workers *)
| PDone (sc : sched A) (w : world A S).

Definition par_step (u : user A S) (n : nat) (ch : nat -> nat) (inter : list nat)
  (sc : sched A) (w : world A S) : poutcome :=
  let w0 := if N.eqb (s_step sc) 0 then call_update u (s_step sc) w else w in
  let '(sc1, s1, log1) := par_run_hprog (u_before u (w_st w0)) sc in
  let w1 := World s1 (w_trace w0 ++ CStateBefore :: api log1) in
  match pq_peek (ch O) (s_events sc1) with
  | None => PExit w1                                            (* L138-143 *)
  | Some e0 =>
      match n with
      | O => PPanic
      | _ =>
        let l := pop_all (length (s_events sc1)) ch O (s_events sc1) in
        let sc2 := Sched (s_step sc1) (ev_time e0) [] (s_ids sc1) in
        let c := exec u inter (start sc2 w1 (batches n l)) in
        if finished c then
          let '(sc3, s3, log3) := par_run_hprog (u_after u (w_st (c_w c))) (c_sc c) in
          let w3 := World s3 (w_trace (c_w c) ++ CStateAfter :: api log3) in
          let k := u64_succ (s_step sc3) in
          PDone (Sched k (s_time sc3) (s_events sc3) (s_ids sc3)) (call_update u k w3)
        else PRunning c
      end
  end.

End Parallel.

Arguments thread : clear implicits.
Arguments config : clear implicits.
Arguments pc : clear implicits.
Arguments poutcome : clear implicits.
