(** * Property theorems: parameter sweeping (C42-C45) *)
From Coq Require Import List Bool Arith NArith Lia Permutation Sorted.
From Verif Require Import ExpModel ExpSpec ExpProofs ExpMpi.
Import ListNotations.

(** Column [i] of a table: the entries at position [i] of every row. *)
Definition column (table : list (list nat)) (i : nat) : option (list nat) := all_some (map (fun r => nth_error r i) table).

(** ** C42: the table enumerates the Cartesian product *)
Theorem C42_product :
  forall (lens : list nat) (n_conf : nat),
    (forall len, In len lens -> len <> 0) -> n_conf = fold_right Nat.mul 1 lens ->
    exists table, build_configurations n_conf lens = Some table /\
      length table = length lens /\ (forall r, In r table -> n_conf <= length r) /\
      map (column table) (seq 0 n_conf) = map Some (product (map (seq 0) lens)).
Proof.
  intros lens n H Hn. exists (rows_of n lens). split; [unfold build_configurations; rewrite Hn at 2; apply build_rows_ok; exact H|]. split; [|split].
  - clear. induction lens as [|x lens IH]; [reflexivity|]. cbn [rows_of length]. rewrite IH. reflexivity.
  - clear Hn. induction lens as [|len lens IH]; [intros r []|]. intros r [<-|Hr]; [|apply IH; [intros x Hx; apply H; right; exact Hx|exact Hr]].
    rewrite fill_row_length by (apply H; left; reflexivity).
    assert (PP : fold_right Nat.mul 1 lens <> 0). { assert (H' : forall len, In len lens -> len <> 0) by (intros x Hx; apply H; right; exact Hx). clear -H'. induction lens as [|x lens IH]; [discriminate|]. cbn [fold_right]. apply Nat.neq_mul_0. split; [apply H'; left; reflexivity|apply IH; intros y Hy; apply H'; right; exact Hy]. }
    destruct (fold_right Nat.mul 1 lens); [contradiction|]. rewrite Nat.mul_succ_r. lia.
  - assert (LP : length (product (map (seq 0) lens)) = n).
    { rewrite product_length, <- size_lens, map_map, Hn. f_equal. rewrite <- (map_id lens) at 2. apply map_ext. intros x. apply seq_length. }
    apply nth_ext with (d := None) (d' := None); [rewrite !map_length, seq_length; symmetry; exact LP|]. intros k Hk. rewrite map_length, seq_length in Hk.
    rewrite (nth_indep _ None (column (rows_of n lens) 0)) by (rewrite map_length, seq_length; exact Hk). rewrite (map_nth (column (rows_of n lens)) (seq 0 n) 0 k), seq_nth by exact Hk. cbn [Nat.add].
    unfold column. rewrite (columns_ok n lens k H Hk Hn). destruct (nth_error (product (map (seq 0) lens)) k) as [c|] eqn:F.
    + symmetry. apply nth_error_nth. rewrite nth_error_map, F. reflexivity.
    + apply nth_error_None in F. lia.
Qed.
Print Assumptions C42_product.
(** Every choice of one index per input occurs, once, and in lexicographic order. *)
Theorem C42_choices :
  forall lens : list nat,
    (forall c, In c (product (map (seq 0) lens)) <-> Forall2 lt c lens) /\
    NoDup (product (map (seq 0) lens)) /\ StronglySorted lex (product (map (seq 0) lens)).
Proof.
  intros lens. split; [|split].
  - intros c. rewrite in_product. split.
    + intros H. revert c H. induction lens as [|len lens IH]; intros c H; cbn [map] in H; inversion H as [|? x ? d H1 H2]; subst; constructor; [apply in_seq in H1; lia|apply IH; exact H2].
    + intros H. induction H as [|x len c lens H1 H2 IH]; cbn [map]; constructor; [apply in_seq; lia|exact IH].
  - apply (sorted_nodup lex); [apply lex_irrefl|apply product_sorted].
  - apply product_sorted.
Qed.
Print Assumptions C42_choices.
(** The rows are longer than needed: the row of input [k] has as many times [n_conf] entries
    as there are choices for the later inputs. *)
Theorem C42_row_lengths :
  forall (lens : list nat) (n_conf k len : nat) table r,
    (forall l, In l lens -> l <> 0) -> n_conf = fold_right Nat.mul 1 lens ->
    build_configurations n_conf lens = Some table -> nth_error lens k = Some len -> nth_error table k = Some r ->
    length r = n_conf * fold_right Nat.mul 1 (skipn (S k) lens).
Proof.
  intros lens n k len table r H Hn B L T. unfold build_configurations in B. rewrite Hn in B at 2. rewrite build_rows_ok in B by exact H. cbn [app] in B. injection B as <-. clear Hn.
  revert k L T. induction lens as [|x lens IH]; intros k L T; [destruct k; discriminate|]. destruct k as [|k]; cbn [nth_error rows_of skipn] in *.
  - injection T as <-. rewrite fill_row_length; [reflexivity|]. apply H. left. reflexivity.
  - apply (IH (fun l Hl => H l (or_intror Hl)) k L T).
Qed.
Print Assumptions C42_row_lengths.
(** An empty input panics (division by zero) instead of giving no configuration. *)
Theorem C42_empty_refuted :
  forall (lens : list nat) (n_conf : nat), In 0 lens -> build_configurations n_conf lens = None.
Proof. intros lens n H. apply build_rows_empty. exact H. Qed.
Print Assumptions C42_empty_refuted.
Example C42_concrete :
  exists table, build_configurations 6 [2; 3] = Some table /\ length (nth 0 table []) = 18 /\
    map (column table) (seq 0 6) = map Some [[0; 0]; [0; 1]; [0; 2]; [1; 0]; [1; 1]; [1; 2]].
Proof. eexists. split; [vm_compute; reflexivity|]. split; reflexivity. Qed.

(** ** C43: one row per configuration and repetition *)
Theorem C43_sequential :
  forall (V S R Out : Type) (new : list V -> S) input_fields (output_fields : S -> Out) (sim : R -> S -> S) m inputs n reps rnd,
    has_configs m inputs n ->
    exists rows, explore_sequential new input_fields output_fields sim m inputs reps rnd = Some rows /\ length rows = n * reps /\
      forall i j, i < n -> j < reps -> exists a, is_config m inputs i a /\
        let s := after sim (rnd i) (Datatypes.S j) (new a) in
        nth_error rows (i * reps + j) = Some (Row (as_u32 i) (as_u32 (j + 1)) (input_fields s) (output_fields s)).
Proof. intros. apply explore_sequential_ok. assumption. Qed.
Print Assumptions C43_sequential.
Theorem C43_parallel :
  forall (V S R Out : Type) (new : list V -> S) input_fields (output_fields : S -> Out) (sim : R -> S -> S) m inputs n reps rnd,
    has_configs m inputs n ->
    exists rows, explore_parallel new input_fields output_fields sim m inputs reps rnd = Some rows /\ length rows = n * reps /\
      forall i j, i < n -> j < reps -> exists a, is_config m inputs i a /\
        let s := sim (rnd i j) (new a) in
        nth_error rows (i * reps + j) = Some (Row (as_u32 i) (as_u32 j) (input_fields s) (output_fields s)).
Proof. intros. apply explore_parallel_ok. assumption. Qed.
Print Assumptions C43_parallel.
Lemma is_config_unique {V} m (inputs : list (list V)) i a b : is_config m inputs i a -> is_config m inputs i b -> a = b.
Proof.
  destruct m; cbn [is_config]; [congruence|]. intros H. revert b. induction H as [|l x ls a H1 H2 IH]; intros b Hb; inversion Hb as [|? y ? c H3 H4]; subst; [reflexivity|]. f_equal; [congruence|apply IH; exact H4].
Qed.
Lemma row_position n reps k : k < n * reps -> exists i j, i < n /\ j < reps /\ k = i * reps + j.
Proof.
  intros H. assert (HR : reps <> 0) by lia. exists (k / reps), (k mod reps). split; [apply Nat.div_lt_upper_bound; lia|]. split; [apply Nat.mod_upper_bound; exact HR|].
  pose proof (Nat.div_mod k reps HR). lia.
Qed.
(** Both agree on the inputs of every row, if simulations do not write the input fields. *)
Theorem C43_inputs_agree :
  forall (V S R Out : Type) (new : list V -> S) input_fields (output_fields : S -> Out) (sim : R -> S -> S) m inputs n reps rnd rows rows',
    (forall r s, input_fields (sim r s) = input_fields s) -> has_configs m inputs n ->
    explore_sequential new input_fields output_fields sim m inputs reps rnd = Some rows ->
    explore_parallel new input_fields output_fields sim m inputs reps rnd = Some rows' ->
    map (fun r => (conf_num r, row_inputs r)) rows = map (fun r => (conf_num r, row_inputs r)) rows'.
Proof.
  intros V S R Out new inf outf sim m inputs n reps rnd rows rows' HI H E1 E2.
  destruct (explore_sequential_ok new inf outf sim m inputs n reps rnd H) as (r1 & A1 & A2 & A3). destruct (explore_parallel_ok new inf outf sim m inputs n reps rnd H) as (r2 & B1 & B2 & B3).
  rewrite E1 in A1. injection A1 as <-. rewrite E2 in B1. injection B1 as <-.
  set (f := fun r : row V Out => (conf_num r, row_inputs r)).
  assert (NE : forall k, nth_error (map f rows) k = nth_error (map f rows') k).
  { intros k. destruct (Nat.lt_ge_cases k (n * reps)) as [K|K].
    - destruct (row_position n reps k K) as (i & j & Hi & Hj & ->). destruct (A3 i j Hi Hj) as (a & Ca & Ea). destruct (B3 i j Hi Hj) as (b & Cb & Eb). rewrite (is_config_unique _ _ _ _ _ Cb Ca) in Eb.
      rewrite !nth_error_map, Ea, Eb. cbn [option_map]. unfold f. cbn [conf_num row_inputs]. rewrite (HI (rnd i j) (new a)). do 2 f_equal.
      assert (G : forall k, inf (after sim (rnd i) k (new a)) = inf (new a)). { induction k as [|k IH]; [reflexivity|]. cbn [after]. rewrite HI. exact IH. } apply G.
    - transitivity (@None (N * list V)); [|symmetry]; apply nth_error_None; rewrite map_length; lia. }
  apply nth_ext with (d := (0%N, [])) (d' := (0%N, [])); [rewrite !map_length; lia|]. intros k Hk. specialize (NE k). 
  destruct (nth_error (map f rows) k) as [x|] eqn:F; [|apply nth_error_None in F; lia]. rewrite (nth_error_nth _ _ _ F). symmetry in NE. rewrite (nth_error_nth _ _ _ NE). reflexivity.
Qed.
Print Assumptions C43_inputs_agree.
(** They agree on everything but the number of the repetition if a simulation starts by
    resetting the state (its result depends only on what configures the state). *)
Theorem C43_results_agree_partial :
  forall (V S R Out : Type) (new : list V -> S) input_fields (output_fields : S -> Out) (sim : R -> S -> S) m inputs n reps rnd rows rows',
    (forall r r' s, sim r (sim r' s) = sim r s) -> has_configs m inputs n ->
    explore_sequential new input_fields output_fields sim m inputs reps rnd = Some rows ->
    explore_parallel new input_fields output_fields sim m inputs reps rnd = Some rows' ->
    map (fun r => (conf_num r, row_inputs r, row_outputs r)) rows = map (fun r => (conf_num r, row_inputs r, row_outputs r)) rows'.
Proof.
  intros V S R Out new inf outf sim m inputs n reps rnd rows rows' HI H E1 E2.
  destruct (explore_sequential_ok new inf outf sim m inputs n reps rnd H) as (r1 & A1 & A2 & A3). destruct (explore_parallel_ok new inf outf sim m inputs n reps rnd H) as (r2 & B1 & B2 & B3).
  rewrite E1 in A1. injection A1 as <-. rewrite E2 in B1. injection B1 as <-.
  set (f := fun r : row V Out => (conf_num r, row_inputs r, row_outputs r)).
  assert (NE : forall k, nth_error (map f rows) k = nth_error (map f rows') k).
  { intros k. destruct (Nat.lt_ge_cases k (n * reps)) as [K|K].
    - destruct (row_position n reps k K) as (i & j & Hi & Hj & ->). destruct (A3 i j Hi Hj) as (a & Ca & Ea). destruct (B3 i j Hi Hj) as (b & Cb & Eb). rewrite (is_config_unique _ _ _ _ _ Cb Ca) in Eb.
      rewrite !nth_error_map, Ea, Eb. cbn [option_map]. unfold f. cbn [conf_num row_inputs row_outputs].
      assert (G : after sim (rnd i) (Datatypes.S j) (new a) = sim (rnd i j) (new a)). { cbn [after]. generalize (rnd i j) as r. clear Ea Eb Hj K. induction j as [|j IH]; intros r; [reflexivity|]. cbn [after]. rewrite HI. apply IH. } rewrite G. reflexivity.
    - transitivity (@None (N * list V * Out)); [|symmetry]; apply nth_error_None; rewrite map_length; lia. }
  assert (LL : length (map f rows) = length (map f rows')) by (rewrite !map_length; lia).
  clear -NE LL. revert NE LL. generalize (map f rows) (map f rows'). intros l. induction l as [|x l IH]; intros l' NE LL; destruct l' as [|y l']; try discriminate; [reflexivity|].
  pose proof (NE 0) as N0. cbn in N0. injection N0 as ->. f_equal. apply IH; [intros k; exact (NE (Datatypes.S k))|]. cbn in LL. lia.
Qed.
Print Assumptions C43_results_agree_partial.
(** A state that is not reset by its init carries over: here a counter of simulations. *)
Theorem C43_results_refuted :
  exists (new : list nat -> nat * nat) input_fields (output_fields : nat * nat -> nat) (sim : unit -> nat * nat -> nat * nat) inputs rows rows',
    (forall r s, input_fields (sim r s) = input_fields s) /\ has_configs Exaustive inputs 1 /\
    explore_sequential new input_fields output_fields sim Exaustive inputs 2 (fun _ _ => tt) = Some rows /\
    explore_parallel new input_fields output_fields sim Exaustive inputs 2 (fun _ _ => tt) = Some rows' /\
    map row_outputs rows = [1; 2] /\ map row_outputs rows' = [1; 1].
Proof.
  exists (fun a => (hd 0 a, 0)), (fun s => [fst s]), snd, (fun _ s => (fst s, snd s + 1)), [[7]]. eexists _, _. split; [reflexivity|].
  split; [split; [intros l [<-|[]]; discriminate|reflexivity]|]. split; [vm_compute; reflexivity|]. split; [vm_compute; reflexivity|]. split; reflexivity.
Qed.
Print Assumptions C43_results_refuted.
(** The repetitions are numbered from one in the sequential and from zero in the parallel version. *)
Theorem C43_numbering_refuted :
  exists (new : list nat -> nat) input_fields (output_fields : nat -> nat) (sim : unit -> nat -> nat) inputs rows rows',
    (forall r r' s, sim r (sim r' s) = sim r s) /\ has_configs Matched inputs 1 /\
    explore_sequential new input_fields output_fields sim Matched inputs 2 (fun _ _ => tt) = Some rows /\
    explore_parallel new input_fields output_fields sim Matched inputs 2 (fun _ _ => tt) = Some rows' /\
    map conf_rep rows = [1; 2]%N /\ map conf_rep rows' = [0; 1]%N.
Proof.
  exists (hd 0), (fun s => [s]), (fun s => s), (fun _ s => s), [[7]]. eexists _, _. split; [reflexivity|].
  split; [split; [discriminate|intros l [<-|[]]; reflexivity]|]. split; [vm_compute; reflexivity|]. split; [vm_compute; reflexivity|]. split; reflexivity.
Qed.
Print Assumptions C43_numbering_refuted.
(** Matched inputs of different lengths: the last one decides; an earlier longer one is cut
    silently, an earlier shorter one panics. *)
Theorem C43_matched_refuted :
  (exists rows, explore_sequential (fun a : list nat => a) (fun s => s) (fun _ => tt) (fun (_ : unit) s => s) Matched [[1; 2; 3]; [4]] 1 (fun _ _ => tt) = Some rows /\
     map row_inputs rows = [[1; 4]]) /\
  explore_sequential (fun a : list nat => a) (fun s => s) (fun _ => tt) (fun (_ : unit) s => s) Matched [[4]; [1; 2; 3]] 1 (fun _ _ => tt) = None.
Proof. split; [eexists; split; [vm_compute; reflexivity|reflexivity]|vm_compute; reflexivity]. Qed.
Print Assumptions C43_matched_refuted.
Example C43_concrete :
  has_configs Exaustive [[10; 20]; [1; 2; 3]] 6 /\
  exists rows, explore_sequential (fun a : list nat => (a, 0)) fst snd (fun r s => (fst s, snd s + r)) Exaustive [[10; 20]; [1; 2; 3]] 2 (fun i j => i + j) = Some rows /\
    nth_error rows 9 = Some (Row 4 2 [20; 2] 9).
Proof.
  split; [split; [intros l [<-|[<-|[]]]; discriminate|reflexivity]|]. eexists. split; [vm_compute; reflexivity|reflexivity].
Qed.

(** ** C44: the distributed exploration partitions the configurations *)
(** [mine]: the configurations rank [r] simulates. *)
Theorem C44_partition :
  forall n_conf p, p <> 0 ->
    Permutation (flat_map (mine n_conf p) (seq 0 p)) (seq 0 n_conf) /\
    (forall r, r < p -> forall c, In c (mine n_conf p r) <-> c < n_conf /\ c mod p = r) /\
    (forall r r', r < p -> r' < p -> length (mine n_conf p r) <= length (mine n_conf p r') + 1).
Proof.
  intros n p HP. split; [apply mine_partition; exact HP|]. split; [intros r Hr c; apply in_mine; assumption|].
  intros r r' _ _. unfold mine. rewrite !map_length, !seq_length. destruct (local_balanced n p r), (local_balanced n p r'); lia.
Qed.
Print Assumptions C44_partition.
(** What rank [r] sends: the runs of the configurations [mine], in order. *)
Theorem C44_rank_handles :
  forall (V S R Out : Type) (new : list V -> S) input_fields (output_fields : S -> Out) (sim : R -> S -> S) m inputs table rnd n_conf p reps r (conf : nat -> list V),
    p <> 0 -> r < p -> (forall c, c < n_conf -> args m inputs table c = Some (conf c)) ->
    exists frame, mpi_rank new input_fields output_fields sim m inputs table rnd n_conf p r reps = Some frame /\
      map (fun row => (row_inputs row, row_outputs row)) frame =
      flat_map (fun c => map (fun j => (input_fields (after sim (rnd c) (Datatypes.S j) (new (conf c))), output_fields (after sim (rnd c) (Datatypes.S j) (new (conf c))))) (seq 0 reps)) (mine n_conf p r).
Proof.
  intros V S R Out new inf outf sim m inputs table rnd n p reps r conf HP Hr HC. eexists. split.
  - unfold mpi_rank. apply (mpi_confs_eq new inf outf sim m inputs table rnd p r reps conf). intros i Hi. apply HC. apply (local_spec n p r i HP Hr). exact Hi.
  - unfold mine. generalize (seq 0 (local_conf_size n p r)). induction l as [|i l IL]; [reflexivity|]. cbn [flat_map map]. rewrite map_app, IL. f_equal. rewrite map_map. reflexivity.
Qed.
Print Assumptions C44_rank_handles.
(** The root's counts are what each rank sends, its displacements are their prefix sums. *)
Theorem C44_counts :
  forall (V S R Out : Type) (new : list V -> S) input_fields (output_fields : S -> Out) (sim : R -> S -> S) m inputs table rnd n_conf p reps,
    p <> 0 -> (forall i, i < n_conf -> args m inputs table i <> None) ->
    exists frames, (forall r, r < p -> mpi_rank new input_fields output_fields sim m inputs table rnd n_conf p r reps = Some (nth r frames [])) /\
      length frames = p /\ samples_count n_conf p reps = map (@length _) frames /\
      (forall r, r < p -> nth r (displacements (samples_count n_conf p reps)) 0 = length (concat (firstn r frames))) /\
      length (concat frames) = n_conf * reps.
Proof.
  intros V S R Out new inf outf sim m inputs table rnd n p reps HP HA.
  set (conf := fun i => match args m inputs table i with Some a => a | None => [] end).
  assert (HC : forall i, i < n -> args m inputs table i = Some (conf i)) by (intros i Hi; unfold conf; specialize (HA i Hi); destruct (args m inputs table i); [reflexivity|contradiction]).
  set (frame := fun rank => flat_map (fun i => map (fun j => mpi_row new inf outf sim rnd (i * p + rank) i j (conf (i * p + rank))) (seq 0 reps)) (seq 0 (local_conf_size n p rank))).
  exists (map frame (seq 0 p)).
  assert (LF : forall r, length (frame r) = local_conf_size n p r * reps).
  { intros r. unfold frame. rewrite (flat_map_len _ reps); [rewrite seq_length; reflexivity|]. intros i. rewrite map_length, seq_length. reflexivity. }
  assert (CE : samples_count n p reps = map (@length _) (map frame (seq 0 p))) by (rewrite counts_ok by exact HP; rewrite map_map; apply map_ext; intros r; symmetry; apply LF).
  split; [|split; [rewrite map_length, seq_length; reflexivity|split; [exact CE|split]]].
  - intros r Hr. unfold mpi_rank. rewrite (mpi_confs_eq new inf outf sim m inputs table rnd p r reps conf).
    + f_equal. symmetry. apply nth_error_nth. rewrite nth_error_map. rewrite (nth_error_nth' _ 0) by (rewrite seq_length; exact Hr). rewrite seq_nth by exact Hr. reflexivity.
    + intros i Hi. cbn [Nat.add]. apply HC. apply (local_spec n p r i HP Hr). exact Hi.
  - intros r Hr. rewrite CE. unfold displacements.
    assert (G : forall (l : list (list (row V Out))) d k, k < length l -> nth k (scan_sum d (map (@length _) l)) 0 = d + length (concat (firstn k l))).
    { induction l as [|x l IH]; intros d k Hk; [cbn in Hk; lia|]. cbn [map scan_sum]. destruct k as [|k]; cbn [nth firstn concat]; [cbn; lia|]. cbn [length] in Hk. rewrite IH by lia. rewrite app_length. lia. }
    rewrite (G (map frame (seq 0 p)) 0 r) by (rewrite map_length, seq_length; exact Hr). reflexivity.
  - rewrite <- flat_map_concat_map. pose proof (Permutation_length (mine_partition n p HP)) as PL. rewrite seq_length in PL. rewrite <- PL.
    generalize (seq 0 p). induction l as [|r l IH]; [reflexivity|]. cbn [flat_map]. rewrite !app_length, IH, LF. unfold mine at 2. rewrite map_length, seq_length. lia.
Qed.
Print Assumptions C44_counts.
(** The sequential exploration as a list. *)
Lemma seq_confs_eq {V S R Out} (new : list V -> S) inf (outf : S -> Out) (sim : R -> S -> S) m inputs table rnd reps (conf : nat -> list V) : forall n i0,
  (forall i, i < n -> args m inputs table (i0 + i) = Some (conf (i0 + i))) ->
  seq_confs new inf outf sim m inputs table rnd reps i0 n =
  Some (flat_map (fun c => map (fun j => Row (as_u32 c) (as_u32 (j + 1)) (inf (after sim (rnd c) (Datatypes.S j) (new (conf c)))) (outf (after sim (rnd c) (Datatypes.S j) (new (conf c))))) (seq 0 reps)) (seq i0 n)).
Proof.
  induction n as [|n IH]; intros i0 H; [reflexivity|]. cbn [seq_confs seq flat_map]. pose proof (H 0) as H0. rewrite Nat.add_0_r in H0. rewrite H0 by lia.
  rewrite IH. 2: { intros i Hi. rewrite <- Nat.add_assoc. apply H. lia. } rewrite Nat.add_1_r. cbn [option_map]. do 2 f_equal.
  assert (G : forall k j0 s0 s, s = after sim (rnd i0) j0 s0 -> seq_reps inf outf sim rnd i0 j0 k s =
     map (fun j => let s := after sim (rnd i0) (Datatypes.S j) s0 in Row (as_u32 i0) (as_u32 (j + 1)) (inf s) (outf s)) (seq j0 k)).
  { induction k as [|k IK]; intros j0 s0 s Hs; [reflexivity|]. cbn [seq_reps seq map]. f_equal; [cbn [after]; rewrite Hs; reflexivity|].
    rewrite (IK (j0 + 1) s0); [rewrite Nat.add_1_r; reflexivity|]. rewrite Nat.add_1_r. cbn [after]. rewrite Hs. reflexivity. }
  exact (G reps 0 (new (conf i0)) (new (conf i0)) eq_refl).
Qed.
(** The root returns, in some order, the results of the sequential exploration. *)
Theorem C44_same_runs :
  forall (V S R Out : Type) (new : list V -> S) input_fields (output_fields : S -> Out) (sim : R -> S -> S) m inputs n reps p rnd,
    has_configs m inputs n -> n <> 0 -> p <> 0 -> reps <> 0 ->
    exists rows rows', explore_mpi new input_fields output_fields sim m inputs reps p rnd = Some rows /\
      explore_sequential new input_fields output_fields sim m inputs reps rnd = Some rows' /\
      Permutation (map (fun r => (row_inputs r, row_outputs r)) rows) (map (fun r => (row_inputs r, row_outputs r)) rows').
Proof.
  intros V S R Out new inf outf sim m inputs n reps p rnd H Hn HP HR.
  destruct (explore_mpi_ok new inf outf sim m inputs n reps p rnd H Hn HP HR) as (conf & HC & EM). eexists _, _. split; [exact EM|].
  destruct (configs_ok m inputs n H) as (table & C & HA). split; [unfold explore_sequential; rewrite C; apply (seq_confs_eq new inf outf sim m inputs table rnd reps conf n 0)|].
  - intros i Hi. cbn [Nat.add]. destruct (HA i Hi) as (a & A1 & A2). rewrite A1. f_equal. exact (is_config_unique _ _ _ _ _ A2 (HC i Hi)).
  - set (F := fun c => map (fun j => (inf (after sim (rnd c) (Datatypes.S j) (new (conf c))), outf (after sim (rnd c) (Datatypes.S j) (new (conf c))))) (seq 0 reps)).
    assert (Q1 : forall l, map (fun r : row V Out => (row_inputs r, row_outputs r)) (flat_map (fun rank => flat_map (fun i => map (fun j => mpi_row new inf outf sim rnd (i * p + rank) i j (conf (i * p + rank))) (seq 0 reps)) (seq 0 (local_conf_size n p rank))) l) = flat_map F (flat_map (mine n p) l)).
    { induction l as [|r l IH]; [reflexivity|]. cbn [flat_map]. rewrite map_app, flat_map_app, IH. f_equal. unfold mine. generalize (seq 0 (local_conf_size n p r)). induction l0 as [|i l0 IL]; [reflexivity|]. cbn [flat_map map]. rewrite map_app, IL. f_equal.
      unfold F. rewrite map_map. reflexivity. }
    assert (Q2 : forall l, map (fun r : row V Out => (row_inputs r, row_outputs r)) (flat_map (fun c => map (fun j => Row (as_u32 c) (as_u32 (j + 1)) (inf (after sim (rnd c) (Datatypes.S j) (new (conf c)))) (outf (after sim (rnd c) (Datatypes.S j) (new (conf c))))) (seq 0 reps)) l) = flat_map F l).
    { induction l as [|r l IH]; [reflexivity|]. cbn [flat_map]. rewrite map_app, IH. f_equal. unfold F. rewrite map_map. reflexivity. }
    rewrite Q1, Q2. apply Permutation_flat_map. apply mine_partition. exact HP.
Qed.
Print Assumptions C44_same_runs.
(** With zero repetitions every configuration is simulated once, but the buffer for the
    results has no room: panic. *)
Theorem C44_zero_reps_refuted :
  forall (V S R Out : Type) (new : list V -> S) input_fields (output_fields : S -> Out) (sim : R -> S -> S) m inputs n p rnd,
    has_configs m inputs n -> n <> 0 -> p <> 0 ->
    explore_mpi new input_fields output_fields sim m inputs 0 p rnd = None /\
    explore_sequential new input_fields output_fields sim m inputs 0 rnd = Some [].
Proof.
  intros V S R Out new inf outf sim m inputs n p rnd H Hn HP. destruct (configs_ok m inputs n H) as (table & C & HA). split.
  - unfold explore_mpi. rewrite C. cbn [Nat.eqb]. destruct (all_some _) as [frames|]; [|reflexivity]. destruct frames as [|[|r0 f0] fs]; [reflexivity|reflexivity|]. cbv zeta. rewrite counts_ok by exact HP.
    destruct p as [|p']; [contradiction|]. cbn [seq map]. unfold displacements. cbn [scan_sum gather]. rewrite Nat.mul_0_r. cbn [repeat length].
    assert (L1 : 0 < local_conf_size n (Datatypes.S p') 0) by (apply (local_spec n (Datatypes.S p') 0 0); lia).
    assert (F : 0 + local_conf_size n (Datatypes.S p') 0 * 1 <=? 0 = false) by (apply Nat.leb_gt; lia). rewrite F, andb_false_r. reflexivity.
  - destruct (explore_sequential_ok new inf outf sim m inputs n 0 rnd H) as (rows & E & L & _). rewrite E. rewrite Nat.mul_0_r in L. destruct rows; [reflexivity|discriminate].
Qed.
Print Assumptions C44_zero_reps_refuted.
Example C44_concrete :
  map (mine 7 3) (seq 0 3) = [[0; 3; 6]; [1; 4]; [2; 5]] /\ samples_count 7 3 2 = [6; 4; 4] /\ displacements (samples_count 7 3 2) = [0; 6; 10].
Proof. vm_compute. repeat split. Qed.
Example C44_same_runs_concrete :
  has_configs Exaustive [[10; 20]; [1; 2; 3]] 6 /\
  exists rows, explore_mpi (fun a : list nat => (a, 0)) fst snd (fun r s => (fst s, snd s + r)) Exaustive [[10; 20]; [1; 2; 3]] 2 4 (fun i j => i + j) = Some rows /\
    map row_inputs rows = [[10; 1]; [10; 1]; [20; 2]; [20; 2]; [10; 2]; [10; 2]; [20; 3]; [20; 3]; [10; 3]; [10; 3]; [20; 1]; [20; 1]].
Proof. split; [split; [intros l [<-|[<-|[]]]; discriminate|reflexivity]|]. eexists. split; [vm_compute; reflexivity|reflexivity]. Qed.

(** ** C45: the configuration number of a row of the distributed exploration *)
(** What conf_num is: the number of the configuration divided by the number of processes. *)
Theorem C45_number_partial :
  forall (V S R Out : Type) (new : list V -> S) input_fields (output_fields : S -> Out) (sim : R -> S -> S) m inputs n reps p rnd rows r,
    has_configs m inputs n -> n <> 0 -> p <> 0 -> reps <> 0 ->
    explore_mpi new input_fields output_fields sim m inputs reps p rnd = Some rows -> In r rows ->
    exists c j a, c < n /\ j < reps /\ is_config m inputs c a /\ conf_num r = as_u32 (c / p) /\ conf_rep r = as_u32 j /\
      row_inputs r = input_fields (after sim (rnd c) (Datatypes.S j) (new a)) /\
      row_outputs r = output_fields (after sim (rnd c) (Datatypes.S j) (new a)).
Proof.
  intros V S R Out new inf outf sim m inputs n reps p rnd rows r H Hn HP HR E Hr.
  destruct (explore_mpi_ok new inf outf sim m inputs n reps p rnd H Hn HP HR) as (conf & HC & EM). rewrite E in EM. injection EM as ->.
  apply in_flat_map in Hr. destruct Hr as (rank & R1 & Hr). apply in_seq in R1. apply in_flat_map in Hr. destruct Hr as (i & I1 & Hr). apply in_seq in I1. apply in_map_iff in Hr. destruct Hr as (j & <- & J1). apply in_seq in J1.
  assert (LT : i * p + rank < n) by (apply (local_spec n p rank i HP); lia).
  exists (i * p + rank), j, (conf (i * p + rank)). split; [exact LT|]. split; [lia|]. split; [apply HC; exact LT|]. split; [|repeat split].
  cbn [mpi_row conf_num]. f_equal. rewrite Nat.div_add_l, Nat.div_small by lia. lia.
Qed.
Print Assumptions C45_number_partial.
(** So with one process it is the configuration; with more, different configurations share it. *)
Theorem C45_refuted :
  exists rows, explore_mpi (fun a : list nat => a) (fun s => s) (fun _ => tt) (fun (_ : unit) s => s) Exaustive [[10; 20; 30]] 1 2 (fun _ _ => tt) = Some rows /\
    map (fun r => (conf_num r, row_inputs r)) rows = [(0%N, [10]); (1%N, [30]); (0%N, [20])].
Proof. eexists. split; [vm_compute; reflexivity|reflexivity]. Qed.
Print Assumptions C45_refuted.
Example C45_concrete :
  has_configs Matched [[10; 20; 30]; [1; 2; 3]] 3 /\
  exists rows, explore_mpi (fun a : list nat => a) (fun s => s) (fun _ => tt) (fun (_ : unit) s => s) Matched [[10; 20; 30]; [1; 2; 3]] 1 1 (fun _ _ => tt) = Some rows /\
    map (fun r => (conf_num r, row_inputs r)) rows = [(0%N, [10; 1]); (1%N, [20; 2]); (2%N, [30; 3])].
Proof. split; [split; [discriminate|intros l [<-|[<-|[]]]; reflexivity]|]. eexists. split; [vm_compute; reflexivity|reflexivity]. Qed.
