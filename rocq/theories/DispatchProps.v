(** * Property theorems: choosing how an exploration is computed (C138) *)
From Coq Require Import List Bool Arith NArith Permutation Lia.
From Verif Require Import ExpModel ExpSpec ExpProofs ExpMpi ExpProps DispatchModel DispatchSpec.
Import ListNotations.

(** Which uses of [explore!] and [evolutionary_search!] return something, if the two
    explorations themselves do not panic: the parallel mode needs that none of the three
    features is on, the distributed one that distributed_mpi is on and aws is off, the cloud
    never does.  Whatever is returned is what the exploration of the mode asked for gave. *)
Theorem C138_modes_partial :
  forall (X : Type) (f : features) (c : computing) (par dist : option X),
  (forall x, dispatch f c par dist = Returned x ->
     (c = Parallel /\ par = Some x) \/ (c = Distributed /\ dist = Some x)) /\
  (forall x y, par = Some x -> dist = Some y ->
     (returns (dispatch f c par dist) <->
      (c = Parallel /\ distributed_mpi f = false /\ cloud f = false /\ aws f = false) \/
      (c = Distributed /\ distributed_mpi f = true /\ aws f = false))) /\
  (aws f = false -> returns (dispatch f c par dist) \/ dispatch f c par dist = Panicked).
Proof.
  intros X [[] [] []] [] par dist; cbn; (split; [|split]).
  all: try (intros x H; first [discriminate H | destruct par; cbn in H; first [discriminate H | left; split; congruence] | destruct dist; cbn in H; first [discriminate H | right; split; congruence]]; fail).
  all: try (intros x y -> ->; cbn; split; [intros [z Hz]; first [discriminate Hz|intuition congruence]|intros H; first [exists x; reflexivity|exists y; reflexivity|intuition discriminate]]; fail).
  all: intros H; first [discriminate H | destruct par; cbn; unfold returns; eauto; fail | destruct dist; cbn; unfold returns; eauto; fail | right; reflexivity].
Qed.
Print Assumptions C138_modes_partial.

(** The documentation promises more: with the feature aws the cloud returns nothing, and the
    parallel mode, which should need no feature, is not even compiled. *)
Theorem C138_modes_refuted :
  (forall (X : Type) f (par dist : option X), ~ returns (dispatch f Cloud par dist)) /\
  (forall (X : Type) f c (par dist : option X), aws f = true -> ~ returns (dispatch f c par dist)) /\
  (forall (X : Type) c (par dist : option X), dispatch (Features false true false) c par dist = Rejected) /\
  exists f, documented f Parallel /\ forall (X : Type) (par dist : option X), dispatch f Parallel par dist = Panicked.
Proof.
  split; [|split; [|split]].
  - intros X [[] [] []] par dist [x Hx]; discriminate Hx.
  - intros X [[] [] []] [] par dist H [x Hx]; first [discriminate H|discriminate Hx].
  - intros X [] par dist; reflexivity.
  - exists (Features true false false). split; [exact Logic.I|reflexivity].
Qed.
Print Assumptions C138_modes_refuted.

(** Whatever the mode and the features: if [explore!] returns, it has run every configuration
    the number of times asked for, each once, and returns in some order the inputs and outputs
    that the sequential exploration returns, if a simulation starts by resetting the state. *)
Theorem C138_same_runs :
  forall (V S R Out : Type) (new : list V -> S) input_fields (output_fields : S -> Out) (sim : R -> S -> S) f c m inputs n reps p rnd rows,
    (forall r r' s, sim r (sim r' s) = sim r s) -> has_configs m inputs n -> n <> 0 -> p <> 0 -> reps <> 0 ->
    explore new input_fields output_fields sim f c m inputs reps p rnd = Returned rows ->
    exists f0 rows0, explore new input_fields output_fields sim f0 None m inputs reps p rnd = Returned rows0 /\
      length rows = n * reps /\
      Permutation (map (fun r => (row_inputs r, row_outputs r)) rows) (map (fun r => (row_inputs r, row_outputs r)) rows0) /\
      forall i j, i < n -> j < reps -> exists a, is_config m inputs i a /\
        let s := sim (rnd i j) (new a) in
        option_map (fun r => (row_inputs r, row_outputs r)) (nth_error rows0 (i * reps + j)) = Some (input_fields s, output_fields s).
Proof.
  intros V S R Out new inf outf sim f c m inputs n reps p rnd rows HI H Hn HP HR E.
  destruct (C43_sequential V S R Out new inf outf sim m inputs n reps rnd H) as (rows0 & E0 & L0 & A0).
  exists f, rows0. split; [unfold explore; rewrite E0; reflexivity|].
  assert (P : Permutation (map (fun r => (row_inputs r, row_outputs r)) rows) (map (fun r => (row_inputs r, row_outputs r)) rows0)).
  { unfold explore in E. destruct c as [c|].
    - destruct (C138_modes_partial _ f c (explore_parallel new inf outf sim m inputs reps rnd) (explore_mpi new inf outf sim m inputs reps p rnd)) as [D _].
      destruct (D rows E) as [[_ Q]|[_ Q]].
      + pose proof (C43_results_agree_partial V S R Out new inf outf sim m inputs n reps rnd rows0 rows HI H E0 Q) as X.
        apply (f_equal (map (fun t : N * list V * Out => (snd (fst t), snd t)))) in X. rewrite !map_map in X. cbn [fst snd] in X. rewrite X. reflexivity.
      + destruct (C44_same_runs V S R Out new inf outf sim m inputs n reps p rnd H Hn HP HR) as (r1 & r2 & E1 & E2 & X).
        assert (r1 = rows) by congruence. assert (r2 = rows0) by congruence. subst. exact X.
    - rewrite E0 in E. injection E as ->. reflexivity. }
  split; [|split; [exact P|]].
  - apply Permutation_length in P. rewrite !map_length in P. lia.
  - intros i j Hi Hj. destruct (A0 i j Hi Hj) as (a & Ca & Ea). exists a. split; [exact Ca|]. cbv zeta in *. rewrite Ea. cbn [option_map row_inputs row_outputs].
    assert (G : after sim (rnd i) (Datatypes.S j) (new a) = sim (rnd i j) (new a)).
    { cbn [after]. generalize (rnd i j) as r. clear Ea Hj. induction j as [|j IH]; intros r; [reflexivity|]. cbn [after]. rewrite HI. apply IH. }
    rewrite G. reflexivity.
Qed.
Print Assumptions C138_same_runs.

(** Two inputs with two and three values, two repetitions, four processes: all three modes
    that exist return, with the features they need. *)
Example C138_concrete :
  let e f c := explore (fun a : list nat => (a, 0)) fst snd (fun r s => (fst s, fold_right Nat.add r (fst s))) f c Exaustive [[10; 20]; [1; 2; 3]] 2 4 (fun i j => 100 * i + j) in
  (forall r r' (s : list nat * nat), (fun r s => (fst s, fold_right Nat.add r (fst s))) r ((fun r s => (fst s, fold_right Nat.add r (fst s))) r' s) = (fst s, fold_right Nat.add r (fst s))) /\
  has_configs Exaustive [[10; 20]; [1; 2; 3]] 6 /\
  returns (e (Features false false false) (Some Parallel)) /\
  returns (e (Features true false false) (Some Distributed)) /\
  returns (e (Features false true true) None) /\
  e (Features true false false) (Some Parallel) = Panicked /\
  e (Features false true true) (Some Cloud) = Nothing.
Proof.
  split; [reflexivity|]. split; [split; [intros l [<-|[<-|[]]]; discriminate|reflexivity]|].
  split; [eexists; vm_compute; reflexivity|]. split; [eexists; vm_compute; reflexivity|]. split; [eexists; vm_compute; reflexivity|]. split; reflexivity.
Qed.
