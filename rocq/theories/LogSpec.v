(** * What the logs are meant to show *)
From Coq Require Import List Bool String.
From Verif Require Import LogModel.
Import ListNotations.

(** The logs written by some operations, in order. *)
Definition written (ops : list log_op) : list log := flat_map (fun o => match o with LLog l => [l] | LNewRep => [] end) ops.

(** [c] is an interleaving of the operations of two threads. *)
Inductive interleaved {X} : list X -> list X -> list X -> Prop :=
| i_nil : interleaved [] [] []
| i_left x a b c : interleaved a b c -> interleaved (x :: a) b (x :: c)
| i_right x a b c : interleaved a b c -> interleaved a (x :: b) (x :: c).
