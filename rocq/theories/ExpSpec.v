(** * Specification for parameter sweeping *)
From Coq Require Import List Bool Arith NArith.
From Verif Require Import ExpModel.
Import ListNotations.

(** The Cartesian product: one element of each list, the first component varying slowest. *)
Fixpoint product {X} (ls : list (list X)) : list (list X) :=
  match ls with
  | [] => [[]]
  | l :: ls' => flat_map (fun x => map (cons x) (product ls')) l
  end.

(** Lexicographic order. *)
Inductive lex : list nat -> list nat -> Prop :=
| lex_here x y a b : x < y -> lex (x :: a) (y :: b)
| lex_later x a b : lex a b -> lex (x :: a) (x :: b).

(** [a] is configuration number [i] of the inputs. *)
Definition is_config {V} (m : mode) (inputs : list (list V)) (i : nat) (a : list V) : Prop :=
  match m with
  | Exaustive => nth_error (product inputs) i = Some a
  | Matched => Forall2 (fun l x => nth_error l i = Some x) inputs a
  end.
(** The number of configurations: the size of the product, or the common length. *)
Definition has_configs {V} (m : mode) (inputs : list (list V)) (n : nat) : Prop :=
  match m with
  | Exaustive => (forall l, In l inputs -> l <> []) /\ n = length (product inputs)
  | Matched => inputs <> [] /\ forall l, In l inputs -> length l = n
  end.

(** A state after its first [j] simulations. *)
Fixpoint after {S R} (sim : R -> S -> S) (rnd : nat -> R) (j : nat) (s : S) : S :=
  match j with
  | O => s
  | Datatypes.S j' => sim (rnd j') (after sim rnd j' s)
  end.
