(** * The whole interface of agents: returned agents and panics

    Models the same functions as SchedModel.v and ParModel.v (src/engine/schedule.rs,
    [Schedule::step] of both builds), with all an agent's methods can do: [before_step] and
    [after_step] return agents with schedule options (src/engine/agent.rs L22-39,
    [ScheduleOptions] schedule.rs L418-423), and every method may panic.  A panic unwinds
    the thread; a mutex whose guard is dropped while its thread unwinds is poisoned and
    [lock().expect(..)] on a poisoned mutex panics (std::sync::Mutex).  Panics of the hooks
    of the state are added in HookModel.v; aborts (panic = "abort", double panics) are not
    modelled. *)
From Coq Require Import List Bool ZArith NArith Arith.
From Verif Require Import F32 SchedModel Merge ParModel.
Import ListNotations.

Section Fault.
Context {A S : Type}.

(** [struct ScheduleOptions], schedule.rs L420-423. *)
Record options := Options { o_ordering : Z; o_repeating : bool }.

(** What a call of an agent's method does: it returns, or panics leaving the state as it is
    at that moment. *)
Inductive result (R : Type) := Returns (r : R) (a : A) (s : S) | Panics (s : S).
Arguments Returns {R}. Arguments Panics {R}.

Definition offspring : Type := option (list (A * options)).

(** The trait [Agent], agent.rs L7-40; [f_clone]: does the agent's [Clone] return (its
    result is taken to be equal to the original, agentimpl.rs L14).  [f_base] has the hooks
    of the state; its agent methods are not used. *)
Record fuser := FUser {
  f_base : user A S;
  f_before : A -> S -> result offspring;
  f_step : A -> S -> result unit;
  f_after : A -> S -> result offspring;
  f_stopped : A -> S -> result bool;
  f_clone : A -> bool
}.

(** Where a panic started. *)
Inductive site := InBefore | InStep | InAfter | InStopped | InClone.
Definition fault : Type := N * site.

(** A call of one of the first three methods, recorded as in SchedModel.v. *)
Definition fcall {R} (f : A -> S -> result R) (tag : N -> call A) (a : agentimpl A) (w : world A S)
  : option (R * agentimpl A) * world A S :=
  match f (ai_agent a) (w_st w) with
  | Returns r ag' s' => (Some (r, AI (ai_id a) ag' (ai_rep a)), World s' (w_trace w ++ [tag (ai_id a)]))
  | Panics s' => (None, World s' (w_trace w ++ [tag (ai_id a)]))
  end.

(** A call of [is_stopped]; recorded with its answer, so only when it returns. *)
Definition fcall_stopped (fu : fuser) (a : agentimpl A) (w : world A S)
  : option (bool * agentimpl A) * world A S :=
  match f_stopped fu (ai_agent a) (w_st w) with
  | Returns b ag' s' =>
      (Some (b, AI (ai_id a) ag' (ai_rep a)), World s' (w_trace w ++ [CAgentStopped (ai_id a) b]))
  | Panics s' => (None, World s' (w_trace w))
  end.

(** ** Sequential build *)

(** One iteration of the loop over [cevents], schedule.rs L395-408.  The values returned by
    [before_step] and [after_step] are dropped (L397, L399).  [Some f]: the loop was left by
    the panic [f]; the iterator and with it the remaining events are dropped. *)
Definition frun_item (fu : fuser) (sc : sched A) (w : world A S) (e : event A)
  : sched A * world A S * option fault :=
  let id := ev_id e in
  match fcall (f_before fu) CAgentBefore (fst e) w with
  | (None, w1) => (sc, w1, Some (id, InBefore))
  | (Some (_, a1), w1) =>
  match fcall (f_step fu) CAgentStep a1 w1 with
  | (None, w2) => (sc, w2, Some (id, InStep))
  | (Some (_, a2), w2) =>
  match fcall (f_after fu) CAgentAfter a2 w2 with
  | (None, w3) => (sc, w3, Some (id, InAfter))
  | (Some (_, a3), w3) =>
      if ai_rep a3 then
        match fcall_stopped fu a3 w3 with
        | (None, w4) => (sc, w4, Some (id, InStopped))
        | (Some (stop, a4), w4) =>
            if stop then (sc, w4, None)
            else (schedule_once sc a4 (fadd (ev_time e) f1) (ev_ord e), w4, None)
        end
      else (sc, w3, None)
  end end end.

Fixpoint frun_items (fu : fuser) (sc : sched A) (w : world A S) (es : list (event A))
  : sched A * world A S * option fault :=
  match es with
  | [] => (sc, w, None)
  | e :: es' =>
      match frun_item fu sc w e with
      | (sc', w', Some f) => (sc', w', Some f)
      | (sc', w', None) => frun_items fu sc' w' es'
      end
  end.

(** [Schedule::step], schedule.rs L347-413. *)
Definition fstep (fu : fuser) (ch : nat -> nat) (sc : sched A) (w : world A S)
  : sched A * world A S * option fault :=
  let u := f_base fu in
  let w0 := if N.eqb (s_step sc) 0 then call_update u (s_step sc) w else w in
  let (sc1, w1) := call_before u sc w0 in
  match pq_peek (ch O) (s_events sc1) with
  | None => (finish_step u sc1 w1, None)
  | Some e0 =>
      let now := ev_time e0 in
      let (due, rest) := pop_due (length (s_events sc1)) ch O now (s_events sc1) in
      let sc2 := Sched (s_step sc1) now rest (s_ids sc1) in
      match frun_items fu sc2 w1 due with
      | (sc3, w2, Some f) => (sc3, w2, Some f)
      | (sc3, w2, None) => (finish_step u sc3 w2, None)
      end
  end.

(** A program that catches panics ([std::panic::catch_unwind]) and goes on with the
    schedule; the faults are collected. *)
Definition fact (fu : fuser) (x : action A) (c : sched A * world A S * list fault)
  : sched A * world A S * list fault :=
  let '(sc, w, fs) := c in
  match x with
  | ActApi o =>
      let (sc', r) := do_op sc o in (sc', World (w_st w) (w_trace w ++ [CApi o r]), fs)
  | ActStep ch =>
      let '(sc', w', f) := fstep fu ch sc w in
      (sc', w', fs ++ match f with Some f => [f] | None => [] end)
  end.
Definition facts (fu : fuser) (xs : list (action A)) (c : sched A * world A S * list fault) :=
  fold_left (fun c x => fact fu x c) xs c.

(** ** Parallel build *)

(** A configuration of the workers (ParModel.v), the poison flags of the two mutexes, the
    panics of user code, and the threads that died. *)
Record fconfig := FConfig {
  fc_conf : config A S;
  fc_poisonS : bool;
  fc_poisonQ : bool;
  fc_faults : list fault;
  fc_dead : list nat
}.

(** Thread [t] unwinds: it is at an end, its guards are dropped, and the mutexes it held
    are poisoned. *)
Definition die (t : nat) (fc : fconfig) (w : world A S) (fs : list fault) : fconfig :=
  let c := fc_conf fc in
  let holds l := match l with Some h => Nat.eqb h t | None => false end in
  let free (l : option nat) := if holds l then None else l in
  FConfig (Config (free (c_lockS c)) (free (c_lockQ c)) (c_sc c) w (upd (c_threads c) t (Thread PNext [])))
          (fc_poisonS fc || holds (c_lockS c)) (fc_poisonQ fc || holds (c_lockQ c))
          (fc_faults fc ++ fs) (fc_dead fc ++ [t]).

(** One micro step of thread [t], schedule.rs L184-210; compare [ParModel.micro]. *)
Definition fmicro (fu : fuser) (t : nat) (fc : fconfig) : option fconfig :=
  let c := fc_conf fc in
  match nth_error (c_threads c) t with
  | None => None
  | Some th =>
      let ok c' := Some (FConfig c' (fc_poisonS fc) (fc_poisonQ fc) (fc_faults fc) (fc_dead fc)) in
      let goto p := upd (c_threads c) t (Thread p (t_rest th)) in
      match t_pc th with
      | PNext =>
          match t_rest th, c_lockS c with
          | e :: rest, None =>
              if fc_poisonS fc then Some (die t fc (c_w c) [])      (* expect, L186 *)
              else ok (Config (Some t) (c_lockQ c) (c_sc c) (c_w c)
                         (upd (c_threads c) t (Thread (PBefore e) rest)))
          | _, _ => None
          end
      | PBefore e =>
          match fcall (f_before fu) CAgentBefore (fst e) (c_w c) with
          | (Some (_, a), w) => ok (Config (c_lockS c) (c_lockQ c) (c_sc c) w (goto (PStep (a, snd e))))
          | (None, w) => Some (die t fc w [(ev_id e, InBefore)])
          end
      | PStep e =>
          match fcall (f_step fu) CAgentStep (fst e) (c_w c) with
          | (Some (_, a), w) => ok (Config (c_lockS c) (c_lockQ c) (c_sc c) w (goto (PAfter (a, snd e))))
          | (None, w) => Some (die t fc w [(ev_id e, InStep)])
          end
      | PAfter e =>
          match fcall (f_after fu) CAgentAfter (fst e) (c_w c) with
          | (Some (_, a), w) => ok (Config (c_lockS c) (c_lockQ c) (c_sc c) w (goto (PCheck (a, snd e))))
          | (None, w) => Some (die t fc w [(ev_id e, InAfter)])
          end
      | PCheck e =>
          if ai_rep (fst e) then
            match fcall_stopped fu (fst e) (c_w c) with
            | (Some (stop, a), w) =>
                ok (Config (c_lockS c) (c_lockQ c) (c_sc c) w
                      (goto (if stop then PUnlockS else PLockQ (a, snd e))))
            | (None, w) => Some (die t fc w [(ev_id e, InStopped)])
            end
          else ok (Config (c_lockS c) (c_lockQ c) (c_sc c) (c_w c) (goto PUnlockS))
      | PLockQ e =>
          match c_lockQ c with
          | None =>
              if fc_poisonQ fc then Some (die t fc (c_w c) [])      (* expect, L197 *)
              else ok (Config (c_lockS c) (Some t) (c_sc c) (c_w c) (goto (PPush e)))
          | Some _ => None
          end
      | PPush e =>
          if f_clone fu (ai_agent (fst e)) then
            ok (Config (c_lockS c) (c_lockQ c)
                  (schedule_once (c_sc c) (fst e) (fadd (ev_time e) f1) (ev_ord e))
                  (c_w c) (goto PUnlockQ))
          else Some (die t fc (c_w c) [(ev_id e, InClone)])          (* L200 *)
      | PUnlockQ => ok (Config (c_lockS c) None (c_sc c) (c_w c) (goto PUnlockS))
      | PUnlockS => ok (Config None (c_lockQ c) (c_sc c) (c_w c) (goto PNext))
      end
  end.

Fixpoint fexec (fu : fuser) (inter : list nat) (fc : fconfig) : fconfig :=
  match inter with
  | [] => fc
  | t :: rest => fexec fu rest (match fmicro fu t fc with Some fc' => fc' | None => fc end)
  end.

Definition fstart (sc : sched A) (w : world A S) (bs : list (list (event A))) : fconfig :=
  FConfig (start sc w bs) false false [] [].

(** [Schedule::step] of the parallel build, schedule.rs L127-221.  The result of
    [thread::scope] is not looked at (L176); the next lock of the state panics if it is
    poisoned (L216). *)
Inductive foutcome :=
| FExit (w : world A S)                            (* [std::process::exit(0)], L142 *)
| FNoThreads                                       (* [cevents[0]] with no batch, L167 *)
| FRunning (fc : fconfig)                          (* the interleaving ended before the workers *)
| FPanicked (fc : fconfig)                         (* L217 *)
| FDone (sc : sched A) (w : world A S).

Definition fpar_step (fu : fuser) (n : nat) (ch : nat -> nat) (inter : list nat)
  (sc : sched A) (w : world A S) : foutcome :=
  let u := f_base fu in
  let w0 := if N.eqb (s_step sc) 0 then call_update u (s_step sc) w else w in
  let '(sc1, s1, log1) := par_run_hprog (u_before u (w_st w0)) sc in
  let w1 := World s1 (w_trace w0 ++ CStateBefore :: api log1) in
  match pq_peek (ch O) (s_events sc1) with
  | None => FExit w1
  | Some e0 =>
      match n with
      | O => FNoThreads
      | _ =>
        let l := pop_all (length (s_events sc1)) ch O (s_events sc1) in
        let sc2 := Sched (s_step sc1) (ev_time e0) [] (s_ids sc1) in
        let fc := fexec fu inter (fstart sc2 w1 (batches n l)) in
        let c := fc_conf fc in
        if finished c then
          if fc_poisonS fc then FPanicked fc
          else
            let '(sc3, s3, log3) := par_run_hprog (u_after u (w_st (c_w c))) (c_sc c) in
            let w3 := World s3 (w_trace (c_w c) ++ CStateAfter :: api log3) in
            let k := u64_succ (s_step sc3) in
            FDone (Sched k (s_time sc3) (s_events sc3) (s_ids sc3)) (call_update u k w3)
        else FRunning fc
      end
  end.

End Fault.

Arguments result : clear implicits.
Arguments offspring : clear implicits.
Arguments fuser : clear implicits.
Arguments fconfig : clear implicits.
Arguments foutcome : clear implicits.
Arguments Returns {A S R}. Arguments Panics {A S R}.
