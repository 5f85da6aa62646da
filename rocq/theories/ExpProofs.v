(** * Parameter sweeping: proofs *)
From Coq Require Import List Bool Arith NArith Lia Permutation Sorted.
From Verif Require Import ExpModel ExpSpec.
Import ListNotations.

Lemma Forall2_len {X Y} (P : X -> Y -> Prop) l l' : Forall2 P l l' -> length l = length l'.
Proof. intros H. induction H as [|x y l l' H1 H2 IH]; [reflexivity|]. cbn [length]. rewrite IH. reflexivity. Qed.

(** ** Products *)
Lemma nth_flat_map {X Y} (f : X -> list Y) P l : P <> 0 -> (forall x, In x l -> length (f x) = P) ->
  forall k, nth_error (flat_map f l) k = match nth_error l (k / P) with Some x => nth_error (f x) (k mod P) | None => None end.
Proof.
  intros HP. induction l as [|x l IH]; intros H k; cbn [flat_map].
  - destruct (k / P); destruct k; reflexivity.
  - pose proof (H x (or_introl eq_refl)) as Hx. destruct (Nat.lt_ge_cases k P) as [K|K].
    + rewrite nth_error_app1 by lia. rewrite Nat.div_small, Nat.mod_small by exact K. reflexivity.
    + rewrite nth_error_app2, Hx by lia. rewrite IH by (intros y Hy; apply H; right; exact Hy).
      assert (K1 : k = P + (k - P)) by lia. assert (D : k / P = S ((k - P) / P)).
      { rewrite K1 at 1. replace (P + (k - P)) with (k - P + 1 * P) by lia. rewrite Nat.div_add by exact HP. lia. }
      assert (M : k mod P = (k - P) mod P). { rewrite K1 at 1. replace (P + (k - P)) with (k - P + 1 * P) by lia. apply Nat.mod_add. exact HP. }
      rewrite D, M. reflexivity.
Qed.
Definition size {X} (ls : list (list X)) : nat := fold_right (fun l n => length l * n) 1 ls.
Lemma product_length {X} (ls : list (list X)) : length (product ls) = size ls.
Proof.
  induction ls as [|l ls IH]; [reflexivity|]. cbn [product size fold_right]. fold (size ls). rewrite <- IH. clear IH.
  induction l as [|x l IH]; [reflexivity|]. cbn [flat_map length]. rewrite app_length, map_length, IH. reflexivity.
Qed.
Lemma size_pos {X} (ls : list (list X)) : (forall l, In l ls -> l <> []) -> size ls <> 0.
Proof.
  induction ls as [|l ls IH]; intros H; [discriminate|]. cbn [size fold_right]. fold (size ls). apply Nat.neq_mul_0. split.
  - pose proof (H l (or_introl eq_refl)). destruct l; [contradiction|discriminate].
  - apply IH. intros l' Hl. apply H. right. exact Hl.
Qed.
Lemma size_map {X Y} (f : list X -> list Y) ls : (forall l, length (f l) = length l) -> size (map f ls) = size ls.
Proof. intros H. induction ls as [|l ls IH]; [reflexivity|]. cbn [map size fold_right]. rewrite H. unfold size in IH. rewrite IH. reflexivity. Qed.

(** The element number [i] of the product, component by component. *)
Fixpoint digits {X} (ls : list (list X)) (i : nat) : list (option X) :=
  match ls with
  | [] => []
  | l :: ls' => nth_error l ((i / size ls') mod length l) :: digits ls' i
  end.
Lemma nth_product {X} (ls : list (list X)) : (forall l, In l ls -> l <> []) ->
  forall i, nth_error (product ls) (i mod size ls) = all_some (digits ls i).
Proof.
  induction ls as [|l ls IH]; intros H i; [cbn [size fold_right]; rewrite Nat.mod_1_r; reflexivity|].
  assert (H' : forall l, In l ls -> l <> []) by (intros l' Hl; apply H; right; exact Hl). pose proof (size_pos ls H') as SP.
  assert (LP : length l <> 0) by (pose proof (H l (or_introl eq_refl)); destruct l; [contradiction|discriminate]).
  cbn [product digits size fold_right]. fold (size ls).
  rewrite (nth_flat_map _ (size ls)); [|exact SP|intros x _; rewrite map_length, product_length; reflexivity].
  rewrite (Nat.mul_comm (length l)), Nat.mod_mul_r by assumption.
  assert (B : i mod size ls < size ls) by (apply Nat.mod_upper_bound; exact SP).
  assert (D : (i mod size ls + size ls * ((i / size ls) mod length l)) / size ls = (i / size ls) mod length l).
  { rewrite (Nat.mul_comm (size ls)), Nat.div_add by exact SP. rewrite Nat.div_small by exact B. reflexivity. }
  assert (M : (i mod size ls + size ls * ((i / size ls) mod length l)) mod size ls = i mod size ls).
  { rewrite (Nat.mul_comm (size ls)), Nat.mod_add by exact SP. apply Nat.mod_mod. exact SP. }
  rewrite D, M. cbn [all_some]. destruct (nth_error l ((i / size ls) mod length l)); [|reflexivity].
  rewrite nth_error_map, IH by exact H'. reflexivity.
Qed.

(** ** build_configurations *)
Lemma push_rep_app rep i : forall row, push_rep rep i row = row ++ repeat i rep.
Proof.
  induction rep as [|rep IH]; intros row; cbn [push_rep repeat]; [rewrite app_nil_r; reflexivity|]. rewrite IH, <- app_assoc. reflexivity.
Qed.
Lemma fill_row_app times rep len : forall i row, fill_row times rep len i row = row ++ fill_row times rep len i [].
Proof.
  induction times as [|times IH]; intros i row; cbn [fill_row]; [rewrite app_nil_r; reflexivity|].
  rewrite (IH _ (push_rep rep i row)), (IH _ (push_rep rep i [])), !push_rep_app, app_nil_l, <- app_assoc. reflexivity.
Qed.
Lemma fill_row_flat times rep len : len <> 0 -> forall i, i < len -> fill_row times rep len i [] = flat_map (fun k => repeat ((i + k) mod len) rep) (seq 0 times).
Proof.
  intros HL. induction times as [|times IH]; intros i Hi; [reflexivity|]. cbn [fill_row seq flat_map]. rewrite fill_row_app, push_rep_app. cbn [app]. f_equal.
  - rewrite Nat.add_0_r, Nat.mod_small by exact Hi. reflexivity.
  - rewrite IH by (apply Nat.mod_upper_bound; exact HL). rewrite <- seq_shift, flat_map_concat_map, flat_map_concat_map, map_map. f_equal. apply map_ext. intros k. f_equal.
    rewrite Nat.add_mod_idemp_l by exact HL. f_equal. lia.
Qed.
Lemma nth_fill_row times rep len k : len <> 0 -> rep <> 0 -> k < times * rep -> nth_error (fill_row times rep len 0 []) k = Some ((k / rep) mod len).
Proof.
  intros HL HR HK. rewrite fill_row_flat by lia. rewrite (nth_flat_map _ rep); [|exact HR|intros x _; apply repeat_length].
  assert (K : k / rep < times) by (apply Nat.div_lt_upper_bound; lia).
  rewrite (nth_error_nth' _ 0) by (rewrite seq_length; exact K). rewrite seq_nth by exact K. cbn [Nat.add].
  rewrite nth_error_repeat; [reflexivity|]. apply Nat.mod_upper_bound. exact HR.
Qed.
Lemma fill_row_length times rep len : len <> 0 -> length (fill_row times rep len 0 []) = times * rep.
Proof.
  intros HL. rewrite fill_row_flat by lia. rewrite flat_map_concat_map. assert (G : forall l, length (concat (map (fun k => repeat ((0 + k) mod len) rep) l)) = length l * rep).
  { induction l as [|x l IH]; [reflexivity|]. cbn [map concat length]. rewrite app_length, repeat_length, IH. reflexivity. }
  rewrite G, seq_length. reflexivity.
Qed.

(** The table, from the product of the lengths that are left. *)
Fixpoint rows_of (n_conf : nat) (lens : list nat) : list (list nat) :=
  match lens with
  | [] => []
  | len :: lens' => fill_row n_conf (fold_right Nat.mul 1 lens') len 0 [] :: rows_of n_conf lens'
  end.
Lemma build_rows_ok n_conf lens : (forall len, In len lens -> len <> 0) -> forall table,
  build_rows n_conf (fold_right Nat.mul 1 lens) lens table = Some (table ++ rows_of n_conf lens).
Proof.
  induction lens as [|len lens IH]; intros H table; cbn [build_rows rows_of]; [rewrite app_nil_r; reflexivity|].
  pose proof (H len (or_introl eq_refl)) as HL. destruct len as [|len0] eqn:EL; [contradiction|]. rewrite <- EL in *.
  cbn [fold_right]. rewrite (Nat.mul_comm len), Nat.div_mul by exact HL. rewrite IH by (intros x Hx; apply H; right; exact Hx). rewrite <- app_assoc. reflexivity.
Qed.
Lemma build_rows_empty n_conf lens : In 0 lens -> forall rep table, build_rows n_conf rep lens table = None.
Proof.
  induction lens as [|len lens IH]; intros H rep table; [destruct H|]. cbn [build_rows]. destruct H as [->|H]; [reflexivity|]. destruct len; [reflexivity|]. apply IH. exact H.
Qed.
Lemma fold_mul l : forall n, fold_left Nat.mul l n = n * fold_right Nat.mul 1 l.
Proof. induction l as [|x l IH]; intros n; cbn [fold_left fold_right]; [lia|]. rewrite IH. lia. Qed.
Lemma size_lens {X} (ls : list (list X)) : fold_right Nat.mul 1 (map (@length X) ls) = size ls.
Proof. induction ls as [|l ls IH]; [reflexivity|]. cbn [map fold_right size]. fold (size ls). rewrite IH. reflexivity. Qed.
Lemma fold_len {X} (ls : list (list X)) : forall n, fold_left (fun n l => n * length l) ls n = n * size ls.
Proof. induction ls as [|l ls IH]; intros n; cbn [fold_left size fold_right]; [lia|]. fold (size ls). rewrite IH. lia. Qed.

Section Explore.
Context {V S R Out : Type}.
Variable new : list V -> S.
Variable input_fields : S -> list V.
Variable output_fields : S -> Out.
Variable sim : R -> S -> S.
Local Notation row := (row V Out).

Lemma exaustive_args_cons k inputs r table i : exaustive_args (Datatypes.S k) inputs (r :: table) i = exaustive_args (V := V) k inputs table i.
Proof.
  revert k. induction inputs as [|l inputs IH]; intros k; [reflexivity|]. cbn [exaustive_args nth_error]. f_equal. apply IH.
Qed.
Lemma exaustive_args_ok n_conf (inputs : list (list V)) i : (forall l, In l inputs -> l <> []) -> i < n_conf ->
  exaustive_args 0 inputs (rows_of n_conf (map (@length V) inputs)) i = digits inputs i.
Proof.
  intros H Hi. induction inputs as [|l inputs IH]; [reflexivity|].
  assert (H' : forall l, In l inputs -> l <> []) by (intros l' Hl; apply H; right; exact Hl). pose proof (size_pos inputs H') as SP.
  cbn [map rows_of exaustive_args digits nth_error Nat.add]. rewrite exaustive_args_cons, IH by exact H'. f_equal. rewrite size_lens.
  assert (LP : length l <> 0) by (pose proof (H l (or_introl eq_refl)); destruct l; [contradiction|discriminate]).
  rewrite nth_fill_row; [reflexivity|exact LP|exact SP|]. apply (Nat.lt_le_trans _ n_conf); [exact Hi|]. destruct (size inputs); [contradiction|]. rewrite Nat.mul_succ_r. lia.
Qed.
Lemma matched_args_ok (inputs : list (list V)) i n : (forall l, In l inputs -> length l = n) -> i < n ->
  exists a, all_some (map (fun l => nth_error l i) inputs) = Some a /\ Forall2 (fun l x => nth_error l i = Some x) inputs a.
Proof.
  intros H Hi. induction inputs as [|l inputs IH]; [exists []; split; [reflexivity|constructor]|].
  destruct IH as (a & A1 & A2); [intros l' Hl; apply H; right; exact Hl|]. destruct (nth_error l i) as [x|] eqn:F.
  - exists (x :: a). cbn [map all_some]. rewrite F, A1. split; [reflexivity|constructor; assumption].
  - apply nth_error_None in F. rewrite (H l (or_introl eq_refl)) in F. lia.
Qed.
(** The arguments of [new] are the configuration. *)
Lemma configs_ok m (inputs : list (list V)) n : has_configs m inputs n ->
  exists table, configurations m inputs = Some (n, table) /\ forall i, i < n -> exists a, args m inputs table i = Some a /\ is_config m inputs i a.
Proof.
  destruct m; cbn [has_configs configurations is_config args].
  - intros [H ->]. rewrite fold_len, Nat.mul_1_l, product_length.
    assert (B : build_configurations (size inputs) (map (@length V) inputs) = Some (rows_of (size inputs) (map (@length V) inputs))).
    { unfold build_configurations. pose proof (build_rows_ok (size inputs) (map (@length V) inputs)) as B. rewrite size_lens in B. apply B.
      intros len Hl. apply in_map_iff in Hl. destruct Hl as (l & <- & Hl). specialize (H l Hl). destruct l; [contradiction|discriminate]. }
    cbv zeta. rewrite B.
    cbn [option_map app]. eexists. split; [reflexivity|]. intros i Hi. rewrite (exaustive_args_ok _ inputs i H Hi).
    rewrite <- nth_product, Nat.mod_small by assumption. destruct (nth_error (product inputs) i) as [a|] eqn:F; [exists a; split; reflexivity|].
    apply nth_error_None in F. rewrite product_length in F. lia.
  - intros [H1 H2]. assert (Q : fold_left (fun _ l => length l) inputs 1 = n).
    { revert H1 H2. generalize 1. induction inputs as [|l inputs IH]; intros k H1 H2; [contradiction|]. cbn [fold_left]. destruct inputs as [|l' inputs'].
      - apply H2. left. reflexivity.
      - apply IH; [discriminate|]. intros x Hx. apply H2. right. exact Hx. }
    rewrite Q. eexists. split; [reflexivity|]. intros i Hi. apply (matched_args_ok inputs i n H2 Hi).
Qed.

(** ** Blocks of rows *)
Lemma all_some_map {X Y} (f : X -> option Y) l : (forall x, In x l -> f x <> None) -> exists ys, all_some (map f l) = Some ys /\ Forall2 (fun x y => f x = Some y) l ys.
Proof.
  induction l as [|x l IH]; intros H; [exists []; split; [reflexivity|constructor]|]. destruct IH as (ys & A & B); [intros y Hy; apply H; right; exact Hy|].
  cbn [map all_some]. destruct (f x) as [y|] eqn:F; [|exfalso; exact (H x (or_introl eq_refl) F)]. exists (y :: ys). rewrite A. split; [reflexivity|constructor; assumption].
Qed.
Lemma Forall2_nth {X Y} (P : X -> Y -> Prop) l l' : Forall2 P l l' -> forall k x, nth_error l k = Some x -> exists y, nth_error l' k = Some y /\ P x y.
Proof.
  intros H. induction H as [|x y l l' H1 H2 IH]; intros k z Hz; [destruct k; discriminate|]. destruct k; cbn [nth_error] in *; [injection Hz as <-; exists y; split; [reflexivity|exact H1]|].
  apply IH. exact Hz.
Qed.
Lemma nth_block {X} (a b : list X) k reps j i : length a = reps -> j < reps -> nth_error (a ++ b) ((Datatypes.S i) * reps + j + k) = nth_error b (i * reps + j + k).
Proof. intros H Hj. rewrite nth_error_app2 by lia. f_equal. lia. Qed.

Lemma seq_reps_length rnd i j n s : length (seq_reps input_fields output_fields sim rnd i j n s) = n.
Proof. revert j s. induction n as [|n IH]; intros j s; cbn [seq_reps length]; [reflexivity|]. rewrite IH. reflexivity. Qed.
Lemma seq_reps_nth rnd i n : forall j0 s0 s, s = after sim (rnd i) j0 s0 -> forall j, j < n ->
  nth_error (seq_reps input_fields output_fields sim rnd i j0 n s) j =
  Some (let s' := after sim (rnd i) (Datatypes.S (j0 + j)) s0 in Row (as_u32 i) (as_u32 (j0 + j + 1)) (input_fields s') (output_fields s')).
Proof.
  induction n as [|n IH]; intros j0 s0 s Hs j Hj; [lia|]. cbn [seq_reps]. destruct j as [|j]; cbn [nth_error].
  - rewrite Nat.add_0_r. cbn [after]. rewrite Hs. reflexivity.
  - rewrite (IH (j0 + 1) s0 (sim (rnd i j0) s)); [|rewrite Nat.add_1_r; cbn [after]; rewrite Hs; reflexivity|lia]. rewrite <- Nat.add_assoc. cbn [Nat.add]. reflexivity.
Qed.
Lemma seq_confs_ok m inputs table rnd reps : forall n i0, (forall i, i < n -> exists a, args m inputs table (i0 + i) = Some a /\ is_config m inputs (i0 + i) a) ->
  exists rows, seq_confs new input_fields output_fields sim m inputs table rnd reps i0 n = Some rows /\ length rows = n * reps /\
    forall i j, i < n -> j < reps -> exists a, is_config m inputs (i0 + i) a /\
      nth_error rows (i * reps + j) =
      Some (let s := after sim (rnd (i0 + i)) (Datatypes.S j) (new a) in Row (as_u32 (i0 + i)) (as_u32 (j + 1)) (input_fields s) (output_fields s)).
Proof.
  induction n as [|n IH]; intros i0 H; cbn [seq_confs]; [exists []; split; [reflexivity|]; split; [reflexivity|]; intros; lia|].
  destruct (H 0) as (a & A1 & A2); [lia|]. rewrite Nat.add_0_r in A1, A2. rewrite A1.
  destruct (IH (i0 + 1)) as (rows & E & LE & HN).
  { intros i Hi. destruct (H (Datatypes.S i)) as (b & B1 & B2); [lia|]. exists b. rewrite <- Nat.add_assoc. cbn [Nat.add]. split; assumption. }
  rewrite E. cbn [option_map]. eexists. split; [reflexivity|]. split; [rewrite app_length, seq_reps_length, LE; lia|].
  intros i j Hi Hj. destruct i as [|i].
  - exists a. rewrite Nat.add_0_r. split; [exact A2|]. cbn [Nat.mul Nat.add]. rewrite nth_error_app1 by (rewrite seq_reps_length; exact Hj).
    rewrite (seq_reps_nth rnd i0 reps 0 (new a) (new a) eq_refl j Hj). reflexivity.
  - destruct (HN i j) as (b & B1 & B2); [lia|exact Hj|]. exists b. replace (i0 + Datatypes.S i) with (i0 + 1 + i) by lia. split; [exact B1|].
    rewrite <- (Nat.add_0_r (Datatypes.S i * reps + j)), (nth_block _ rows 0 reps j i), Nat.add_0_r; [exact B2|apply seq_reps_length|exact Hj].
Qed.

Lemma explore_sequential_ok m inputs n reps rnd : has_configs m inputs n ->
  exists rows, explore_sequential new input_fields output_fields sim m inputs reps rnd = Some rows /\ length rows = n * reps /\
    forall i j, i < n -> j < reps -> exists a, is_config m inputs i a /\
      nth_error rows (i * reps + j) =
      Some (let s := after sim (rnd i) (Datatypes.S j) (new a) in Row (as_u32 i) (as_u32 (j + 1)) (input_fields s) (output_fields s)).
Proof.
  intros H. destruct (configs_ok m inputs n H) as (table & C & HA). unfold explore_sequential. rewrite C. exact (seq_confs_ok m inputs table rnd reps n 0 HA).
Qed.
Lemma explore_parallel_ok m inputs n reps rnd : has_configs m inputs n ->
  exists rows, explore_parallel new input_fields output_fields sim m inputs reps rnd = Some rows /\ length rows = n * reps /\
    forall i j, i < n -> j < reps -> exists a, is_config m inputs i a /\
      nth_error rows (i * reps + j) =
      Some (let s := sim (rnd i j) (new a) in Row (as_u32 i) (as_u32 j) (input_fields s) (output_fields s)).
Proof.
  intros H. destruct (configs_ok m inputs n H) as (table & C & HA). unfold explore_parallel. rewrite C.
  assert (RI : forall i j, i < n -> j < reps -> par_run new input_fields output_fields sim m inputs table reps rnd (i * reps + j) =
     match args m inputs table i with None => None | Some a => Some (let s := sim (rnd i j) (new a) in Row (as_u32 i) (as_u32 j) (input_fields s) (output_fields s)) end).
  { intros i j Hi Hj. unfold par_run. rewrite Nat.div_add_l, Nat.div_small, Nat.add_0_r by lia. rewrite (Nat.add_comm (i * reps)), Nat.mod_add, Nat.mod_small by lia. reflexivity. }
  destruct (all_some_map (par_run new input_fields output_fields sim m inputs table reps rnd) (seq 0 (n * reps))) as (rows & A & B).
  { intros x Hx. apply in_seq in Hx. destruct reps as [|reps0] eqn:ER; [lia|]. rewrite <- ER in *. pose proof (Nat.div_mod x reps ltac:(lia)) as DM. rewrite (Nat.mul_comm reps) in DM. rewrite DM.
    assert (LT : x / reps < n) by (apply Nat.div_lt_upper_bound; lia). rewrite RI; [|exact LT|apply Nat.mod_upper_bound; lia]. destruct (HA (x / reps) LT) as (a & -> & _). discriminate. }
  exists rows. split; [exact A|]. split; [apply Forall2_len in B; rewrite seq_length in B; symmetry; exact B|].
  intros i j Hi Hj. assert (LT : i * reps + j < n * reps) by nia.
  assert (NS : nth_error (seq 0 (n * reps)) (i * reps + j) = Some (i * reps + j)) by (rewrite (nth_error_nth' _ 0) by (rewrite seq_length; exact LT); rewrite seq_nth by exact LT; reflexivity).
  destruct (Forall2_nth _ _ _ B _ _ NS) as (y & Y1 & Y2). rewrite RI in Y2 by assumption. destruct (HA i Hi) as (a & A1 & A2). exists a. split; [exact A2|].
  rewrite A1 in Y2. rewrite Y1. symmetry. exact Y2.
Qed.
End Explore.
