(** * Specification of the random and the Bayesian search *)
From Coq Require Import List Bool Arith ZArith.
From Verif Require Import F32 OptModel.
Import ListNotations.

(** The first entry of a history that is [better] than [start] and than every earlier one
    that is, and that no later one is better than; [d] if nothing is better than [start]. *)
Definition first_best {A : Type} (better : spec_float -> spec_float -> bool) (start : spec_float) (d : A) (h : list (A * spec_float)) (b : A * spec_float) : Prop :=
  (b = (d, start) /\ forall x c, In (x, c) h -> better c start = false) \/
  (exists l l', h = l ++ b :: l' /\ better (snd b) start = true /\
     (forall x c, In (x, c) l -> better c start = true -> better (snd b) c = true) /\
     (forall x c, In (x, c) l' -> better c (snd b) = false)).

Section Random.
Context {S : Type}.
Variable gen_sample : nat -> nat -> S -> S.
Variable simulate : nat -> nat -> nat -> S -> S.
Variable cost : nat -> nat -> nat -> S -> f32.
Variable target : f32.
Variable n_iter batch_size reps : nat.
Variable init : S.
(** The state of sample [j] of batch [it], drawn from [s], after [r] repetitions. *)
Fixpoint after (it j : nat) (s : S) (r : nat) : S :=
  match r with
  | O => gen_sample it j s
  | Datatypes.S r' => simulate it j r' (after it j s r')
  end.
(** Its mean cost: the sum over the repetitions, divided by their number. *)
Definition mean_cost (it j : nat) (s : S) : f32 :=
  fdiv (fold_left fadd (map (fun r => cost it j r (after it j s (r + 1))) (seq 0 reps)) f0) (f_of_Z (Z.of_nat reps)).
Definition batch (it : nat) (s : S) : list (S * f32) := map (fun j => (after it j s reps, mean_cost it j s)) (seq 0 batch_size).
(** [history k h b]: after [k] batches, the evaluated samples and the best so far; a batch
    is drawn from the best so far, and none after one that reaches the target. *)
Inductive history : nat -> list (S * f32) -> S * f32 -> Prop :=
| history_0 : history 0 [] (init, f32_max)
| history_S k h b b' : history k h b -> (k <> 0 -> fleb (snd b) target = false) ->
    first_best fltb f32_max init (h ++ batch k (fst b)) b' -> history (Datatypes.S k) (h ++ batch k (fst b)) b'.
End Random.

Section Bayes.
Context {X G : Type}.
Variable objective : nat -> X -> f64.
Variable gen_params : nat -> list X -> list X.
Variable gp_new : list X -> list f64 -> G.
Variable gp_add : G -> X -> f64 -> G.
Variable predict variance : G -> X -> f64.
Variable cdf pdf : f64 -> f64.
Variable init : list X.
(** The initial points with their values. *)
Definition evaluated : list (X * f64) := map (fun ix => (snd ix, objective (fst ix) (snd ix))) (combine (seq 0 (length init)) init).
(** [points k h]: the points evaluated after [k] iterations, with their values.  Each new
    point is the first of the generated samples with the greatest score (the first of all
    if no score exceeds the least f64), scored with a process that has seen all points
    before. *)
Inductive points : nat -> list (X * f64) -> G -> Prop :=
| points_0 : points 0 evaluated (gp_new init (map snd evaluated))
| points_S k h g x x0 rest sc : points k h g ->
    gen_params k (map fst h) = x0 :: rest ->
    first_best dgtb f64_min x0 (map (fun x => (x, expected_improvement predict variance cdf pdf (map fst h) g x)) (x0 :: rest)) (x, sc) ->
    points (Datatypes.S k) (h ++ [(x, objective (length h) x)]) (gp_add g x (objective (length h) x)).
End Bayes.
