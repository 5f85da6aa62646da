(** * Programs driving the parallel schedule

    As [action] and [acts] of SchedModel.v: calls of the API (src/engine/schedule.rs L100-125)
    and steps (L127-221), here with the number of threads ([thread_num], L59, is a public
    field, so it may change), the tie-breaks and the interleaving of each step. *)
From Coq Require Import List Bool ZArith NArith Arith.
From Verif Require Import F32 SchedModel ParModel.
Import ListNotations.

Section Hist.
Context {A S : Type}.

Inductive paction := PApi (o : sop A) | PStepping (n : nat) (ch : nat -> nat) (inter : list nat).

(** [None]: the program ended in a step (no agent is scheduled, L138-143; no thread, L167) or
    the interleaving stops in the middle of it. *)
Definition par_act (u : user A S) (x : paction) (c : sched A * world A S) : option (sched A * world A S) :=
  match x with
  | PApi o =>
      let (sc', r) := par_do_op (fst c) o in
      Some (sc', World (w_st (snd c)) (w_trace (snd c) ++ [CApi o r]))
  | PStepping n ch inter =>
      match par_step u n ch inter (fst c) (snd c) with PDone sc' w' => Some (sc', w') | _ => None end
  end.
Fixpoint par_acts (u : user A S) (xs : list paction) (c : sched A * world A S) : option (sched A * world A S) :=
  match xs with
  | [] => Some c
  | x :: xs' => match par_act u x c with Some c' => par_acts u xs' c' | None => None end
  end.
End Hist.
Arguments paction : clear implicits.
