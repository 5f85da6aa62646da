(** * Model of simulate_old! and simulate_mpi!

    src/lib.rs L1468-1578 and L1580-1698: the loops of SimModel, with what these macros add,
    the printed report and the calls of MPI.  Durations are a parameter. *)
From Coq Require Import List Bool Arith NArith.
From Verif Require Import F32 SchedModel SimModel.
Import ListNotations.
Local Open Scope N_scope.

(** Length of a number printed in decimal. *)
Fixpoint digits_fuel (fuel : nat) (n : N) : N :=
  match fuel with
  | O => 1
  | Datatypes.S fuel' => if n <? 10 then 1 else 1 + digits_fuel fuel' (n / 10)
  end.
Definition digits (n : N) : N := digits_fuel (N.to_nat (N.size n)) n.
(** A subtraction of [usize]: [None] is a panic (without overflow checks it wraps round, and
    the report is padded with about 2^64 blanks). *)
Definition minus (a b : N) : option N := if b <=? a then Some (a - b) else None.

Inductive info := Normal | Verbose.
(** What a run measured, as printed: the length of the steps per second ([{:.0}]), and the
    time and the average time ([{:.4}]) in units of 0.1 ms. *)
Record timing := Timing { m_rate : N; m_time : N; m_avg : N }.
(** Length of a time printed with four decimals. *)
Definition time_len (t : N) : N := digits (t / 10000) + 5.

Section Old.
Context {A S : Type}.
(** The widths of the report of a run, L1533-1540, L1550 and L1567. *)
Definition report (o : info) (n reps : N) (m : timing) : option (N * N * N * N) :=
  match minus 14 (digits reps) with
  | None => None
  | Some w1 =>
      match minus 15 (digits n) with
      | None => None
      | Some w =>
          match minus w (digits reps), minus 13 (m_rate m), minus 9 (match o with Verbose => time_len (m_time m) | Normal => time_len (m_avg m) end) with
          | Some w2, Some w3, Some w4 => Some (w1, w2, w3, w4)
          | _, _, _ => None
          end
      end
  end.
(** The repetitions, L1503-1577; returns the number of steps of each. *)
Fixpoint old_reps (u : user A S) (chs : nat -> nat -> nat -> nat) (o : info) (ms : nat -> timing) (r todo : nat) (n reps : N) (w : world A S) : option (list N * world A S) :=
  match todo with
  | O => Some ([], w)
  | Datatypes.S todo' =>
      let (sc, w1) := sim_rep u (chs r) (N.to_nat n) w in
      match report o n reps (ms r) with
      | None => None
      | Some _ =>
          match old_reps u chs o ms (Datatypes.S r) todo' n reps w1 with
          | Some (l, w2) => Some (s_step sc :: l, w2)
          | None => None
          end
      end
  end.
Definition simulate_old (u : user A S) (chs : nat -> nat -> nat -> nat) (o : info) (ms : nat -> timing) (n reps : N) (s : S) : option (list N * world A S) :=
  old_reps u chs o ms O (N.to_nat reps) n reps (World s []).

(** ** simulate_mpi! *)
(** The collective calls of a process, in order; those the steps make themselves and the
    report (as above, on process 0) are left out. *)
Inductive mop := Barrier | Finalize.
(** The loop, L1633-1639. *)
Fixpoint mpi_loop (u : user A S) (chs : nat -> nat -> nat) (i n : nat) (sc : sched A) (w : world A S) : (sched A * world A S) * list mop :=
  match n with
  | O => ((sc, w), [])
  | Datatypes.S n' =>
      let (sc1, w1) := step u (chs i) sc w in
      let '(b, (sc2, w2)) := call_end u sc1 w1 in
      if b then ((sc2, w2), [])
      else let (r, ops) := mpi_loop u chs (Datatypes.S i) n' sc2 w2 in (r, Barrier :: ops)
  end.
(** The repetitions, L1629-1695. *)
Fixpoint mpi_reps (u : user A S) (chs : nat -> nat -> nat -> nat) (r reps n : nat) (w : world A S) : (list N * world A S) * list mop :=
  match reps with
  | O => (([], w), [])
  | Datatypes.S reps' =>
      let (sc, w1) := call_init u sched_new w in
      let '((sc', w2), ops) := mpi_loop u (chs r) O n sc w1 in
      let '((l, w3), ops') := mpi_reps u chs (Datatypes.S r) reps' n w2 in
      ((s_step sc' :: l, w3), ops ++ [Finalize] ++ ops')
  end.
(** One process: what it returns (the steps of each repetition, on process 0 only,
    L1644-1690), its final state, and its calls of MPI. *)
Definition simulate_mpi (rank : nat) (u : user A S) (chs : nat -> nat -> nat -> nat) (n reps : nat) (s : S) : (list N * world A S) * list mop :=
  let '((l, w), ops) := mpi_reps u chs O reps n (World s []) in
  ((if Nat.eqb rank 0 then l else [], w), ops).

(** All processes together: a collective call completes when all processes make it.  Any
    call after [MPI_Finalize] is an error. *)
Inductive outcome := Done | Deadlock | Abort.
Definition is_barrier (p : list mop) : bool := match p with Barrier :: _ => true | _ => false end.
Definition is_finalize (p : list mop) : bool := match p with Finalize :: _ => true | _ => false end.
Fixpoint together (fuel : nat) (finalized : bool) (ps : list (list mop)) : outcome :=
  if forallb (fun p => match p with [] => true | _ => false end) ps then Done
  else if finalized then Abort
  else
    match fuel with
    | O => Deadlock
    | Datatypes.S fuel' =>
        if forallb is_barrier ps then together fuel' false (map (@tl mop) ps)
        else if forallb is_finalize ps then together fuel' true (map (@tl mop) ps)
        else Deadlock
    end.
Definition run_together (ps : list (list mop)) : outcome := together (List.length (concat ps)) false ps.
End Old.
