(** * What the simulation loops are meant to do *)
From Coq Require Import List Bool ZArith NArith.
From Verif Require Import F32 SchedModel SchedSpec.
Import ListNotations.
Local Open Scope N_scope.

(** Calls of steps [i], [i+1], ... each followed by the answer of [end_condition]. *)
Fixpoint loop_calls {A} (i : N) (steps : list (list (N * option bool) * bool))
  : list (call A) :=
  match steps with
  | [] => []
  | (r, b) :: rest => step_block i r ++ CEnd b :: loop_calls (i + 1) rest
  end.

(** The steps one repetition of at most [n] steps may make: it stops at the first
    positive answer of [end_condition], and otherwise makes all [n] steps. *)
Definition good_run (n : nat) (steps : list (list (N * option bool) * bool)) : Prop :=
  (length steps <= n)%nat /\
  (forall pre r b post, steps = pre ++ (r, b) :: post -> post <> [] -> b = false) /\
  ((length steps < n)%nat -> exists pre r, steps = pre ++ [(r, true)]).

Definition rep_calls {A} (steps : list (list (N * option bool) * bool)) : list (call A) :=
  CInit :: match steps with [] => [] | _ => CUpdate 0 :: loop_calls 0 steps end.
