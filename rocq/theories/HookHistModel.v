(** * Programs that catch the panics of hooks and go on, in the parallel build

    As [hact] and [hacts] of HookModel.v, with the calls of the API of the parallel build
    (src/engine/schedule.rs L100-125) and its step (L127-221); see ParHistModel.v. *)
From Coq Require Import List Bool ZArith NArith Arith.
From Verif Require Import F32 SchedModel ParModel ParHistModel FaultModel HookModel.
Import ListNotations.

Section Hist.
Context {A S : Type}.
(** [None]: the program ended in a step, an agent panicked in it (which poisons the mutex
    of the state, and see C130), or the interleaving stops in the middle of it. *)
Definition hpar_act (hu : huser A S) (x : paction A) (c : sched A * world A S * list hsite)
  : option (sched A * world A S * list hsite) :=
  let '(sc, w, fs) := c in
  match x with
  | PApi o => let (sc', r) := par_do_op sc o in Some (sc', World (w_st w) (w_trace w ++ [CApi o r]), fs)
  | PStepping n ch inter =>
      match hpar_step hu n ch inter sc w with
      | HLeft sc' w' f => Some (sc', w', fs ++ match f with Some f => [f] | None => [] end)
      | _ => None
      end
  end.
Fixpoint hpar_acts (hu : huser A S) (xs : list (paction A)) (c : sched A * world A S * list hsite)
  : option (sched A * world A S * list hsite) :=
  match xs with
  | [] => Some c
  | x :: xs' => match hpar_act hu x c with Some c' => hpar_acts hu xs' c' | None => None end
  end.
End Hist.
