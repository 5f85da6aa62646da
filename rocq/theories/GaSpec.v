(** * Specification of a genetic search

    Independent of the loops: the populations of the successive generations, their scores,
    and when a search goes on or stops. *)
From Coq Require Import List Bool Arith NArith.
From Verif Require Import ExpModel GaModel.
Import ListNotations.

Section Spec.
Context {I F S : Type}.
Variable cmp : F -> F -> bool.
Variable desired : F.
Variable reps gnum : nat.
Variable run : nat -> nat -> nat -> I -> S.
Variable fitness : nat -> nat -> list S -> F.
Variable selection : nat -> list (I * F) -> list (I * F).
Variable crossover : nat -> list I -> list I.
Variable mutation : nat -> nat -> I -> I.
Variable init : list I.

(** The score of individual [i] of generation [g]: the fitness of its repetitions. *)
Definition score (g i : nat) (x : I) : F := fitness g i (map (fun r => run g i r x) (seq 0 reps)).
(** A population with its numbering. *)
Definition numbered (pop : list I) : list (nat * I) := combine (seq 0 (length pop)) pop.
Definition scored (g : nat) (pop : list I) : list (I * F) := map (fun ix => (snd ix, score g (fst ix) (snd ix))) (numbered pop).
(** What is selected from the [k+1]-th generation, whose population is given. *)
Definition selected (k : nat) (pop : list I) : list (I * F) := selection (Datatypes.S k) (scored (Datatypes.S k) pop).
(** The population of the [k+1]-th generation. *)
Fixpoint population (k : nat) : list I :=
  match k with
  | O => init
  | Datatypes.S k' => map (fun ix => mutation k (fst ix) (snd ix)) (numbered (crossover k (map fst (selected k' (population k')))))
  end.
(** The rows of a whole generation. *)
Definition gen_rows (k : nat) : list (ga_row I F) :=
  map (fun ix => GaRow (as_u32 (Datatypes.S k)) (fst ix) (score (Datatypes.S k) (fst ix) (snd ix)) (snd ix)) (numbered (population k)).

Definition reaches (r : ga_row I F) : Prop := cmp (ga_fit r) desired = true.
(** The [k+1]-th generation may be computed. *)
Definition within (k : nat) : Prop := gnum = 0 \/ k < gnum.
(** After the [k+1]-th generation the search goes on: it has individuals, none reaches the
    desired fitness, and at least [least] are selected. *)
Definition continues (least k : nat) : Prop :=
  within k /\ population k <> [] /\ (forall r, In r (gen_rows k) -> ~ reaches r) /\ least <= length (selected k (population k)).

(** How a search ends after [m] generations that went on, and the rows of its last
    generation; [whole]: the last generation is always evaluated to its end. *)
Inductive stops (whole : bool) (least m : nat) : list (ga_row I F) -> Prop :=
| stop_limit : gnum <> 0 -> m = gnum -> stops whole least m []
| stop_desired l r rest : within m -> gen_rows m = l ++ r :: rest ->
    (forall r', In r' l -> ~ reaches r') -> reaches r ->
    stops whole least m (if whole then gen_rows m else l ++ [r])
| stop_small : within m -> population m <> [] -> (forall r, In r (gen_rows m) -> ~ reaches r) ->
    length (selected m (population m)) < least -> stops whole least m (gen_rows m).
Definition search_rows (whole : bool) (least m : nat) (rows : list (ga_row I F)) : Prop :=
  (forall k, k < m -> continues least k) /\
  exists last, stops whole least m last /\ rows = flat_map gen_rows (seq 0 m) ++ last.
(** A search whose [m+1]-th generation has no individual. *)
Definition dies (least m : nat) : Prop := (forall k, k < m -> continues least k) /\ within m /\ population m = [].

(** [cmp] is a strict weak order, "strictly better", on the values in [P] ([f32::gt] is
    one on the numbers, not on NaN). *)
Definition strict_weak_order (P : F -> Prop) : Prop :=
  (forall a, cmp a a = false) /\
  (forall a b c, cmp a b = true -> cmp b c = true -> cmp a c = true) /\
  (forall a b c, P b -> cmp a b = false -> cmp b c = false -> cmp a c = false).
(** [cmp] is a total preorder, "at least as good", on the values in [P]. *)
Definition total_preorder (P : F -> Prop) : Prop :=
  (forall a b, P a -> P b -> cmp a b = true \/ cmp b a = true) /\
  (forall a b c, cmp a b = true -> cmp b c = true -> cmp a c = true).
(** All scores of the search are in [P]. *)
Definition scores_in (P : F -> Prop) : Prop := forall k r, In r (gen_rows k) -> P (ga_fit r).
End Spec.
