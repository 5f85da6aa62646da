(** * Model of the simulation loops

    Models the loop without UI of [simulate!] (src/lib.rs L1153-1170), the loop of
    [simulate_old!] (src/lib.rs L1503-1560, printing and timing left out) and
    [simulate_explore!] (src/explore/model_exploration.rs L161-191, one repetition).
    Timing results are not modelled; the number of steps each repetition made
    ([schedule.step], recorded by [simulate_old!]) is returned instead. *)
From Coq Require Import List Bool ZArith NArith.
From Verif Require Import F32 SchedModel.
Import ListNotations.
Local Open Scope N_scope.

Section Sim.
Context {A S : Type}.

(** The loop over [0..n_step], lib.rs L1162-1167 / L1508-1514.  [chs] supplies the
    tie-breaks of each step. *)
Fixpoint sim_loop (u : user A S) (chs : nat -> nat -> nat) (i n : nat)
    (sc : sched A) (w : world A S) : sched A * world A S :=
  match n with
  | O => (sc, w)
  | Datatypes.S n' =>
      let (sc1, w1) := step u (chs i) sc w in
      let '(b, (sc2, w2)) := call_end u sc1 w1 in
      if b then (sc2, w2) else sim_loop u chs (Datatypes.S i) n' sc2 w2
  end.

(** One repetition, lib.rs L1159-1167 / L1504-1514, model_exploration.rs L165-180. *)
Definition sim_rep (u : user A S) (chs : nat -> nat -> nat) (n : nat) (w : world A S)
  : sched A * world A S :=
  let (sc, w1) := call_init u sched_new w in
  sim_loop u chs O n sc w1.

(** All repetitions on the same state; returns the steps made by each one. *)
Fixpoint sim_reps (u : user A S) (chs : nat -> nat -> nat -> nat) (r reps n : nat)
    (w : world A S) : list N * world A S :=
  match reps with
  | O => ([], w)
  | Datatypes.S reps' =>
      let (sc, w1) := sim_rep u (chs r) n w in
      let (l, w2) := sim_reps u chs (Datatypes.S r) reps' n w1 in
      (s_step sc :: l, w2)
  end.

Definition simulate (u : user A S) (chs : nat -> nat -> nat -> nat) (n reps : nat)
    (s : S) : list N * world A S :=
  sim_reps u chs O reps n (World s []).

End Sim.
