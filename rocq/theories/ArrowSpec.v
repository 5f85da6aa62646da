(** * What an arrow is *)
From Coq Require Import Reals List.
From Verif Require Import ArrowModel.
Import ListNotations.
Open Scope R_scope.

Definition minus (p q : R * R) : R * R := (fst p - fst q, snd p - snd q).
Definition scale (c : R) (p : R * R) : R * R := (c * fst p, c * snd p).
(** A vector turned to the left by an angle. *)
Definition turned (t : R) (v : R * R) : R * R := (cos t * fst v - sin t * snd v, sin t * fst v + cos t * snd v).
Definition norm (v : R * R) : R := sqrt (fst v * fst v + snd v * snd v).

(** The lines drawn by a pen: from where it is to where it goes. *)
Fixpoint drawn (at_ : R * R) (l : list pen) : list ((R * R) * (R * R)) :=
  match l with
  | [] => []
  | Begin p :: l' => drawn p l'
  | LineTo p :: l' => (at_, p) :: drawn p l'
  end.
