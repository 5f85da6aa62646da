(** * Vocabulary for the parallel scheduler properties *)
From Coq Require Import List Bool ZArith NArith Arith Permutation.
From Verif Require Import F32 SchedModel SchedSpec.
From Verif Require Export Merge.
Import ListNotations.

(** Sorted by time, then by ordering; ties in any order. *)
Definition not_later {A} (e e' : event A) : Prop :=
  fltb (ev_time e) (ev_time e') = true \/
  (feqb (ev_time e) (ev_time e') = true /\ (ev_ord e <= ev_ord e')%Z).
Fixpoint queue_sorted {A} (l : list (event A)) : Prop :=
  match l with
  | [] => True
  | e :: l' => (forall e', In e' l' -> not_later e e') /\ queue_sorted l'
  end.

(** [order] runs the items of [l], dealt round-robin to [n] threads, each exactly once
    and each thread's items in the order of [l]. *)
Definition dealt_order {X} (n : nat) (l order : list X) : Prop :=
  Permutation l order /\
  forall i j x y, (i < j)%nat -> (i mod n = j mod n)%nat ->
    nth_error l i = Some x -> nth_error l j = Some y -> comes_before order x y.
