(** * Specification: what an exchange between neighbours must do *)
From Coq Require Import List Arith Sorted.
Import ListNotations.

(** Neighbour lists as C75 has them. *)
Definition network (n : nat) (nbrs : nat -> list nat) : Prop :=
  forall r, r < n -> StronglySorted lt (nbrs r) /\ Forall (fun s => s < n) (nbrs r) /\ ~ In r (nbrs r) /\
    forall s, In s (nbrs r) -> In r (nbrs s).

(** [t] calls in lockstep: slot [s] of the result at [r] is what the neighbour [s] addressed
    to [r] in that call; nothing comes from others.  What a process addresses may depend on
    what it got before. *)
Fixpoint ideal {O} (n : nat) (nbrs : nat -> list nat) (payload : nat -> list (list (list O)) -> nat -> list O)
    (t r : nat) : list (list (list O)) :=
  match t with
  | 0 => []
  | S t' => ideal n nbrs payload t' r ++
      [map (fun s => if in_dec Nat.eq_dec s (nbrs r) then payload s (ideal n nbrs payload t' s) r else []) (seq 0 n)]
  end.
