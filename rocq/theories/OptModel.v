(** * Model of the other searches and of [gen_param!]

    [random_search!] (src/explore/random_search.rs L44-118), [bayesian_search!] with
    [acquisition_function] and [expected_improvement] (src/explore/bayesian.rs L104-329)
    and [gen_param!] (src/lib.rs L1819-1851).

    The user's functions may draw random numbers or keep state of their own; each call is
    identified by the iteration, the sample and the repetition it is made for, which the
    functions below take as extra arguments.  The theorems hold for all such functions.
    Printing is left out. *)
From Coq Require Import List Bool Arith ZArith.
From Verif Require Import F32.
Import ListNotations.

(** [f32::MAX]. *)
Definition f32_max : f32 := S754_finite false 16777215 104.

Section Random.
Context {S : Type}.
Variable gen_sample : nat -> nat -> S -> S.
(** [init] and the steps of one repetition, L81-90: what they do to the state. *)
Variable simulate : nat -> nat -> nat -> S -> S.
(** [$cost_function], L91. *)
Variable cost : nat -> nat -> nat -> S -> f32.
Variable target : f32.
Variable n_iter batch_size reps : nat.

(** The repetitions of one sample, L78-92: all on the same state, one after the other. *)
Fixpoint run_reps (it j r n : nat) (s : S) (c : f32) : S * f32 :=
  match n with
  | O => (s, c)
  | Datatypes.S n' => let s' := simulate it j r s in run_reps it j (r + 1) n' s' (fadd c (cost it j r s'))
  end.
(** The closure, L77-94: the state is changed in place, the result is the mean cost. *)
Definition run_sample (it j : nat) (s : S) : S * f32 :=
  let '(s', c) := run_reps it j 0 reps s f0 in (s', fdiv c (f_of_Z (Z.of_nat reps))).
(** [par_iter_mut().map(..).collect_into_vec(..)] (rayon, external), L75-95: the closure
    runs once per sample, on any thread, in any order; the results are in the order of
    the samples.  [new_samples] afterwards and [results], as pairs. *)
Fixpoint run_batch (it j : nat) (samples : list S) : list (S * f32) :=
  match samples with
  | [] => []
  | s :: samples' => run_sample it j s :: run_batch it (j + 1) samples'
  end.
(** The scan for the least cost, L97-103.  [min_index] is an [i32] with -1 for none; an
    option here (batches of 2^31 samples and more, where it wraps, are not modelled).
    [results[i]] beyond the results panics. *)
Fixpoint scan (results : list f32) (i n : nat) (min_cost : f32) (min_index : option nat) : option (f32 * option nat) :=
  match n with
  | O => Some (min_cost, min_index)
  | Datatypes.S n' =>
      match nth_error results i with
      | None => None
      | Some c => if fltb c min_cost then scan results (i + 1) n' c (Some i) else scan results (i + 1) n' min_cost min_index
      end
  end.
(** [gen_sample] is called once per sample, L67-70. *)
Fixpoint new_samples (it j n : nat) (s : S) : list S :=
  match n with
  | O => []
  | Datatypes.S n' => gen_sample it j s :: new_samples it (j + 1) n' s
  end.
(** The loop, L65-114, from iteration [it] with [n] to go.  [None] is a panic. *)
Fixpoint random_loop (it n : nat) (best : S * f32) (min_cost : f32) : option (S * f32) :=
  match n with
  | O => Some best
  | Datatypes.S n' =>
      let batch := run_batch it 0 (new_samples it 0 batch_size (fst best)) in
      match scan (map snd batch) 0 batch_size min_cost None with
      | None => None
      | Some (min_cost', min_index) =>
          match (match min_index with
                 | None => Some best
                 | Some i => option_map (fun sc => (fst sc, min_cost')) (nth_error batch i)
                 end) with
          | None => None
          | Some best' => if fleb min_cost' target then Some best' else random_loop (it + 1) n' best' min_cost'
          end
      end
  end.
Definition random_search (init : S) : option (S * f32) := random_loop 0 n_iter (init, f32_max) f32_max.
End Random.

(** ** [bayesian_search!] *)
(** f64 by the same executable semantics, precision 53 and maximal exponent 1024. *)
Notation f64 := spec_float (only parsing).
Definition f64_min : f64 := S754_finite true 9007199254740991 971.
Definition dgtb (x y : f64) : bool := SFltb y x.
Definition deqb (x y : f64) : bool := SFeqb x y.
Definition dadd : f64 -> f64 -> f64 := SFadd 53 1024.
Definition dsub : f64 -> f64 -> f64 := SFsub 53 1024.
Definition dmul : f64 -> f64 -> f64 := SFmul 53 1024.
Definition ddiv : f64 -> f64 -> f64 := SFdiv 53 1024.
Definition dsqrt : f64 -> f64 := SFsqrt 53 1024.
Definition d0 : f64 := S754_zero false.

(** [for (i, y) in ys.enumerate() { if y > max { max = y; index = i } }], L124-131,
    L277-284. *)
Fixpoint argmax (ys : list f64) (i : nat) (max : f64) (index : nat) : f64 * nat :=
  match ys with
  | [] => (max, index)
  | y :: ys' => if dgtb y max then argmax ys' (i + 1) y i else argmax ys' (i + 1) max index
  end.
Section Bayes.
(** A point is a [Vec<f64>]; the Gaussian process (friedrich, external) is any value with
    the four operations used. *)
Context {X G : Type}.
Variable objective : nat -> X -> f64.
Variable gen_params : nat -> list X -> list X.
Variable gp_new : list X -> list f64 -> G.
Variable gp_add : G -> X -> f64 -> G.
Variable predict variance : G -> X -> f64.
(** The standard normal distribution (statrs, external). *)
Variable cdf pdf : f64 -> f64.

(** [expected_improvement], L296-329. *)
Fixpoint max_of (l : list f64) (m : f64) : f64 :=
  match l with [] => m | y :: l' => max_of l' (if dgtb y m then y else m) end.
Definition expected_improvement (x_init : list X) (g : G) (x : X) : f64 :=
  let mean_y_new := predict g x in
  let sigma := dsqrt (variance g x) in
  if deqb sigma d0 then d0
  else
    let mean_y_max := max_of (map (predict g) x_init) f64_min in
    let z := ddiv (dsub mean_y_new mean_y_max) sigma in
    dadd (dmul (dsub mean_y_new mean_y_max) (cdf z)) (dmul sigma (pdf z)).
(** [acquisition_function], L267-287; no samples panic. *)
Definition acquisition (x_init x_samples : list X) (g : G) : option X :=
  nth_error x_samples (snd (argmax (map (expected_improvement x_init g) x_samples) 0 f64_min 0)).
(** The loop, L138-163: [e] counts the calls of the objective. *)
Fixpoint bayes_loop (i n e : nat) (x_init : list X) (g : G) (x_max : X) (y_max : f64) : option (X * f64) :=
  match n with
  | O => Some (x_max, y_max)
  | Datatypes.S n' =>
      match acquisition x_init (gen_params i x_init) g with
      | None => None
      | Some x_next =>
          let y_next := objective e x_next in
          let g' := gp_add g x_next y_next in
          let x_init' := x_init ++ [x_next] in
          if dgtb y_next y_max then bayes_loop (i + 1) n' (e + 1) x_init' g' x_next y_next
          else bayes_loop (i + 1) n' (e + 1) x_init' g' x_max y_max
      end
  end.
(** L116-120. *)
Fixpoint objectives (e : nat) (xs : list X) : list f64 :=
  match xs with [] => [] | x :: xs' => objective e x :: objectives (e + 1) xs' end.
(** The macro, L105-166 (and L168-235 with [gen_params] the [generate_samples] of
    L246-258); no initial points panic. *)
Definition bayesian_search (n_iter : nat) (x_init : list X) : option (X * f64) :=
  let y_init := objectives 0 x_init in
  let '(y_max, y_index) := argmax y_init 0 f64_min 0 in
  match nth_error x_init y_index with
  | None => None
  | Some x_max => bayes_loop 0 n_iter (length x_init) x_init (gp_new x_init y_init) x_max y_max
  end.
End Bayes.

(** ** [gen_param!], src/lib.rs L1820-1846 *)
Section GenParam.
Context {T : Type}.
(** [>], [==], [<] and [+ 1] of the type. *)
Variable gt eq lt : T -> T -> bool.
Variable succ : T -> T.
(** The [k]-th draw from [Uniform::from(low..high)] (rand, external). *)
Variable draw : T -> T -> nat -> T.
(** [None]: the assertion [low < high] of [Uniform] fails.  The values taken are [$n],
    not the corrected [n] (L1842). *)
Definition gen_param (min max : T) (n : nat) : option (list T) :=
  let '(minimum, maximum) :=
    if gt min max then (max, min)
    else if eq min max then (min, succ max)
    else (min, max) in
  if lt minimum maximum then Some (map (draw minimum maximum) (seq 0 n)) else None.
End GenParam.
(** [+ 1] of a two's complement integer type with values in [[lo, hi]], in a release
    build (a debug build panics where it wraps). *)
Definition int_succ (lo hi : Z) (x : Z) : Z := (if x =? hi then lo else x + 1)%Z.
