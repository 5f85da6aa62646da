(** * Parameter sweeping: the product and the distributed version *)
From Coq Require Import List Bool Arith NArith Lia Permutation Sorted.
From Verif Require Import ExpModel ExpSpec ExpProofs.
Import ListNotations.

(** ** The product has every choice once, in lexicographic order *)
Lemma in_product {X} (ls : list (list X)) c : In c (product ls) <-> Forall2 (fun l x => In x l) ls c.
Proof.
  revert c. induction ls as [|l ls IH]; intros c; cbn [product].
  - split; [intros [<-|[]]; constructor|]. intros H. inversion H. left. reflexivity.
  - rewrite in_flat_map. split.
    + intros (x & H1 & H2). apply in_map_iff in H2. destruct H2 as (d & <- & H2). constructor; [exact H1|apply IH; exact H2].
    + intros H. inversion H as [|? y ? d H1 H2]; subst. exists y. split; [exact H1|]. apply in_map. apply IH. exact H2.
Qed.
Lemma lex_irrefl a : ~ lex a a.
Proof. induction a as [|x a IH]; intros H; inversion H; subst; [lia|contradiction]. Qed.
Lemma sorted_app {X} (P : X -> X -> Prop) a b : StronglySorted P a -> StronglySorted P b -> (forall x y, In x a -> In y b -> P x y) -> StronglySorted P (a ++ b).
Proof.
  intros Ha Hb H. induction Ha as [|x a Ha IH Hx]; [exact Hb|]. cbn [app]. constructor.
  - apply IH. intros y z Hy. apply H. right. exact Hy.
  - apply Forall_forall. intros y Hy. apply in_app_or in Hy. rewrite Forall_forall in Hx. destruct Hy as [Hy|Hy]; [apply Hx; exact Hy|apply H; [left; reflexivity|exact Hy]].
Qed.
Lemma product_sorted lens : StronglySorted lex (product (map (seq 0) lens)).
Proof.
  induction lens as [|len lens IH]; [repeat constructor|]. cbn [map product]. revert IH. generalize (product (map (seq 0) lens)). intros ps IH. generalize 0. induction len as [|len IL]; intros s; cbn [seq flat_map]; [constructor|].
  apply sorted_app; [|apply IL|].
  - clear IL. induction IH as [|a l IH IH' Ha]; [constructor|]. cbn [map]. constructor; [exact IH'|]. apply Forall_forall. intros y Hy. apply in_map_iff in Hy. destruct Hy as (b & <- & Hb).
    apply lex_later. rewrite Forall_forall in Ha. apply Ha. exact Hb.
  - intros x y Hx Hy. apply in_map_iff in Hx. destruct Hx as (a & <- & _). apply in_flat_map in Hy. destruct Hy as (k & Hk & Hy). apply in_map_iff in Hy. destruct Hy as (b & <- & _).
    apply in_seq in Hk. apply lex_here. lia.
Qed.
Lemma sorted_nodup {X} (P : X -> X -> Prop) l : (forall x, ~ P x x) -> StronglySorted P l -> NoDup l.
Proof.
  intros HP H. induction H as [|x l H IH Hx]; constructor; [|exact IH]. intros F. rewrite Forall_forall in Hx. exact (HP x (Hx x F)).
Qed.
(** Columns of the table. *)
Lemma columns_ok n_conf lens i : (forall len, In len lens -> len <> 0) -> i < n_conf -> n_conf = fold_right Nat.mul 1 lens ->
  all_some (map (fun r => nth_error r i) (rows_of n_conf lens)) = nth_error (product (map (seq 0) lens)) i.
Proof.
  intros H Hi Hn.
  assert (SZ : size (map (seq 0) lens) = fold_right Nat.mul 1 lens).
  { rewrite <- size_lens, map_map. f_equal. rewrite <- (map_id lens) at 2. apply map_ext. intros x. apply seq_length. }
  transitivity (nth_error (product (map (seq 0) lens)) (i mod size (map (seq 0) lens))); [|rewrite Nat.mod_small by lia; reflexivity]. rewrite nth_product.
  2: { intros l Hl. apply in_map_iff in Hl. destruct Hl as (len & <- & Hl). specialize (H len Hl). destruct len; [contradiction|discriminate]. }
  f_equal. clear SZ Hn. induction lens as [|len lens IH]; [reflexivity|].
  assert (H' : forall len, In len lens -> len <> 0) by (intros x Hx; apply H; right; exact Hx).
  pose proof (H len (or_introl eq_refl)) as HL.
  assert (SZ : size (map (seq 0) lens) = fold_right Nat.mul 1 lens).
  { rewrite <- size_lens, map_map. f_equal. rewrite <- (map_id lens) at 2. apply map_ext. intros x. apply seq_length. }
  assert (PP : fold_right Nat.mul 1 lens <> 0). { clear -H'. induction lens as [|x lens IH]; [discriminate|]. cbn [fold_right]. apply Nat.neq_mul_0. split; [apply H'; left; reflexivity|apply IH; intros y Hy; apply H'; right; exact Hy]. }
  cbn [rows_of map digits]. rewrite IH by exact H'. f_equal. rewrite SZ, seq_length. rewrite nth_fill_row; [|exact HL|exact PP|destruct (fold_right Nat.mul 1 lens); [contradiction|]; rewrite Nat.mul_succ_r; lia].
  assert (B : (i / fold_right Nat.mul 1 lens) mod len < len) by (apply Nat.mod_upper_bound; exact HL).
  rewrite (nth_error_nth' _ 0) by (rewrite seq_length; exact B). rewrite seq_nth by exact B. reflexivity.
Qed.

(** ** Configurations of the ranks *)
Definition mine (n_conf p rank : nat) : list nat := map (fun i => i * p + rank) (seq 0 (local_conf_size n_conf p rank)).
Lemma local_spec n p r i : p <> 0 -> r < p -> (i < local_conf_size n p r <-> i * p + r < n).
Proof.
  intros HP Hr. unfold local_conf_size. pose proof (Nat.div_mod n p HP) as D. pose proof (Nat.mod_upper_bound n p HP) as B.
  destruct (r <? n mod p) eqn:F; [apply Nat.ltb_lt in F|apply Nat.ltb_ge in F]; split; intros H; nia.
Qed.
Lemma in_mine n p r c : p <> 0 -> r < p -> (In c (mine n p r) <-> c < n /\ c mod p = r).
Proof.
  intros HP Hr. unfold mine. rewrite in_map_iff. split.
  - intros (i & <- & Hi). apply in_seq in Hi. destruct Hi as [_ Hi]. cbn [Nat.add] in Hi. apply (local_spec n p r i HP Hr) in Hi. split; [exact Hi|].
    rewrite Nat.add_comm, Nat.mod_add, Nat.mod_small by lia. reflexivity.
  - intros [H1 H2]. exists (c / p). pose proof (Nat.div_mod c p HP) as D. split; [lia|]. apply in_seq. split; [lia|]. cbn [Nat.add]. apply (local_spec n p r _ HP Hr). lia.
Qed.
Lemma mine_nodup n p r : p <> 0 -> NoDup (mine n p r).
Proof. intros HP. unfold mine. apply FinFun.Injective_map_NoDup; [|apply seq_NoDup]. intros a b H. nia. Qed.
Lemma mine_partition n p : p <> 0 -> Permutation (flat_map (mine n p) (seq 0 p)) (seq 0 n).
Proof.
  intros HP. apply NoDup_Permutation; [|apply seq_NoDup|].
  - assert (G : forall l, NoDup l -> (forall r, In r l -> r < p) -> NoDup (flat_map (mine n p) l)).
    { induction l as [|r l IH]; intros HN Hl; [constructor|]. cbn [flat_map]. inversion HN as [|? ? N1 N2]; subst.
      assert (K : NoDup (flat_map (mine n p) l)) by (apply IH; [exact N2|intros x Hx; apply Hl; right; exact Hx]).
      pose proof (mine_nodup n p r HP) as M. assert (D : forall x, In x (mine n p r) -> ~ In x (flat_map (mine n p) l)).
      { intros x Hx Hf. apply in_flat_map in Hf. destruct Hf as (r' & R1 & R2). apply in_mine in Hx; [|exact HP|apply Hl; left; reflexivity]. apply in_mine in R2; [|exact HP|apply Hl; right; exact R1].
        destruct Hx as [_ <-]. destruct R2 as [_ R2]. rewrite R2 in N1. contradiction. }
      clear -K M D. induction M as [|x m M1 M2 IHm]; [exact K|]. cbn [app]. constructor; [|apply IHm; intros y Hy; apply D; right; exact Hy].
      intros F. apply in_app_or in F. destruct F as [F|F]; [contradiction|]. exact (D x (or_introl eq_refl) F). }
    apply G; [apply seq_NoDup|]. intros r Hr. apply in_seq in Hr. lia.
  - intros c. rewrite in_flat_map, in_seq. split.
    + intros (r & Hr & Hc). apply in_seq in Hr. apply in_mine in Hc; [|exact HP|lia]. lia.
    + intros [_ Hc]. exists (c mod p). pose proof (Nat.mod_upper_bound c p HP) as B. split; [apply in_seq; lia|]. apply in_mine; [exact HP|exact B|]. split; [exact Hc|reflexivity].
Qed.
Lemma local_balanced n p r : local_conf_size n p r = n / p \/ local_conf_size n p r = n / p + 1.
Proof. unfold local_conf_size. destruct (r <? n mod p); lia. Qed.
Lemma counts_ok n p reps : p <> 0 -> samples_count n p reps = map (fun r => local_conf_size n p r * reps) (seq 0 p).
Proof.
  intros HP. unfold samples_count. apply map_ext. intros r. unfold local_conf_size. destruct (n mod p =? 0) eqn:Z.
  - apply Nat.eqb_eq in Z. rewrite Z. cbn [Nat.ltb Nat.leb]. destruct (r <? 0) eqn:F; [apply Nat.ltb_lt in F; lia|reflexivity].
  - apply Nat.eqb_neq in Z. assert (F : 0 <? n mod p = true) by (apply Nat.ltb_lt; lia). rewrite F, orb_false_r. destruct (r <? n mod p); [reflexivity|]. f_equal. lia.
Qed.

(** ** The gather concatenates *)
Lemma gather_concat {X} (sent : list (list X)) : forall d buf, d + length (concat sent) <= length buf ->
  gather (map (@length X) sent) (scan_sum d (map (@length X) sent)) sent buf =
  Some (firstn d buf ++ concat sent ++ skipn (d + length (concat sent)) buf).
Proof.
  induction sent as [|xs sent IH]; intros d buf H; cbn [map scan_sum gather concat]; [rewrite Nat.add_0_r, app_nil_l, firstn_skipn; reflexivity|].
  cbn [concat] in H. rewrite app_length in H. rewrite Nat.eqb_refl. assert (F : d + length xs <=? length buf = true) by (apply Nat.leb_le; lia). rewrite F. cbn [andb].
  assert (LW : length (write_at d xs buf) = length buf). { unfold write_at. rewrite !app_length, firstn_length, skipn_length. lia. }
  rewrite IH by (rewrite LW; lia). f_equal.
  assert (F1 : firstn (d + length xs) (write_at d xs buf) = firstn d buf ++ xs).
  { unfold write_at. rewrite app_assoc. rewrite firstn_app. assert (L1 : length (firstn d buf ++ xs) = d + length xs) by (rewrite app_length, firstn_length; lia).
    rewrite L1, Nat.sub_diag, firstn_O, app_nil_r. apply firstn_all2. lia. }
  assert (F2 : skipn (d + length xs + length (concat sent)) (write_at d xs buf) = skipn (d + length (xs ++ concat sent)) buf).
  { unfold write_at. rewrite app_assoc, skipn_app. assert (L1 : length (firstn d buf ++ xs) = d + length xs) by (rewrite app_length, firstn_length; lia).
    rewrite (skipn_all2 (firstn d buf ++ xs)) by lia. rewrite L1, app_nil_l. replace (d + length xs + length (concat sent) - (d + length xs)) with (length (concat sent)) by lia.
    rewrite app_length. 
    assert (Q : forall c (l : list X) e, skipn c (skipn e l) = skipn (e + c) l). { intros c l e. revert l. induction e as [|e IHe]; intros l; [reflexivity|]. destruct l; [rewrite !skipn_nil; reflexivity|]. cbn [skipn Nat.add]. apply IHe. }
    rewrite Q. f_equal. lia. }
  rewrite F1, F2, <- !app_assoc. reflexivity.
Qed.

Section Mpi.
Context {V S R Out : Type}.
Variable new : list V -> S.
Variable input_fields : S -> list V.
Variable output_fields : S -> Out.
Variable sim : R -> S -> S.
Local Notation row := (row V Out).

(** The rows a rank sends. *)
Definition mpi_row (rnd : nat -> nat -> R) (c i j : nat) (a : list V) : row :=
  let s := after sim (rnd c) (Datatypes.S j) (new a) in Row (as_u32 i) (as_u32 j) (input_fields s) (output_fields s).
Lemma mpi_reps_eq rnd c i n : forall j0 s0 s, s = after sim (rnd c) j0 s0 ->
  mpi_reps input_fields output_fields sim rnd c i j0 n s =
  map (fun j => let s := after sim (rnd c) (Datatypes.S j) s0 in Row (as_u32 i) (as_u32 j) (input_fields s) (output_fields s)) (seq j0 n).
Proof.
  induction n as [|n IH]; intros j0 s0 s Hs; [reflexivity|]. cbn [mpi_reps seq map]. f_equal; [cbn [after]; rewrite Hs; reflexivity|].
  rewrite (IH (j0 + 1) s0); [rewrite Nat.add_1_r; reflexivity|]. rewrite Nat.add_1_r. cbn [after]. rewrite Hs. reflexivity.
Qed.
Lemma mpi_confs_eq m inputs table rnd p rank reps (conf : nat -> list V) : forall n i0, (forall i, i < n -> args m inputs table ((i0 + i) * p + rank) = Some (conf ((i0 + i) * p + rank))) ->
  mpi_confs new input_fields output_fields sim m inputs table rnd p rank reps i0 n =
  Some (flat_map (fun i => map (fun j => mpi_row rnd (i * p + rank) i j (conf (i * p + rank))) (seq 0 reps)) (seq i0 n)).
Proof.
  induction n as [|n IH]; intros i0 H; [reflexivity|]. cbn [mpi_confs seq flat_map]. pose proof (H 0) as H0. rewrite Nat.add_0_r in H0. rewrite H0 by lia.
  rewrite IH. 2: { intros i Hi. rewrite <- Nat.add_assoc. apply H. lia. } rewrite Nat.add_1_r. cbn [option_map]. do 2 f_equal. rewrite (mpi_reps_eq rnd _ _ reps 0 (new (conf (i0 * p + rank)))) by reflexivity. reflexivity.
Qed.
Lemma flat_map_len {X Y} (f : X -> list Y) k l : (forall x, length (f x) = k) -> length (flat_map f l) = length l * k.
Proof. intros H. induction l as [|x l IH]; [reflexivity|]. cbn [flat_map length]. rewrite app_length, H, IH. reflexivity. Qed.
Lemma choose_confs m (inputs : list (list V)) table n : (forall i, i < n -> exists a, args m inputs table i = Some a /\ is_config m inputs i a) ->
  exists conf, forall i, i < n -> args m inputs table i = Some (conf i) /\ is_config m inputs i (conf i).
Proof.
  intros H. exists (fun i => match args m inputs table i with Some a => a | None => [] end). intros i Hi. destruct (H i Hi) as (a & A1 & A2). rewrite A1. split; [reflexivity|exact A2].
Qed.
Lemma explore_mpi_ok m inputs n reps p rnd : has_configs m inputs n -> n <> 0 -> p <> 0 -> reps <> 0 ->
  exists conf, (forall c, c < n -> is_config m inputs c (conf c)) /\
  explore_mpi new input_fields output_fields sim m inputs reps p rnd =
  Some (flat_map (fun rank => flat_map (fun i => map (fun j => mpi_row rnd (i * p + rank) i j (conf (i * p + rank))) (seq 0 reps))
                                       (seq 0 (local_conf_size n p rank))) (seq 0 p)).
Proof.
  intros H Hn HP HR. destruct (configs_ok m inputs n H) as (table & C & HA). destruct (choose_confs m inputs table n HA) as (conf & HC). exists conf.
  split; [intros c Hc; apply (HC c Hc)|]. unfold explore_mpi. rewrite C. assert (RZ : reps =? 0 = false) by (apply Nat.eqb_neq; exact HR). rewrite RZ.
  set (frame := fun rank => flat_map (fun i => map (fun j => mpi_row rnd (i * p + rank) i j (conf (i * p + rank))) (seq 0 reps)) (seq 0 (local_conf_size n p rank))).
  assert (AS : all_some (map (fun rank => mpi_rank new input_fields output_fields sim m inputs table rnd n p rank reps) (seq 0 p)) = Some (map frame (seq 0 p))).
  { assert (G : forall l, (forall r, In r l -> r < p) -> all_some (map (fun rank => mpi_rank new input_fields output_fields sim m inputs table rnd n p rank reps) l) = Some (map frame l)).
    { induction l as [|r l IH]; intros Hl; [reflexivity|]. cbn [map all_some]. unfold mpi_rank at 1. rewrite (mpi_confs_eq m inputs table rnd p r reps conf).
      - rewrite IH by (intros x Hx; apply Hl; right; exact Hx). reflexivity.
      - intros i Hi. cbn [Nat.add]. apply HC. apply (local_spec n p r i HP); [apply Hl; left; reflexivity|exact Hi]. }
    apply G. intros r Hr. apply in_seq in Hr. lia. }
  rewrite AS.
  assert (LF : forall r, length (frame r) = local_conf_size n p r * reps).
  { intros r. unfold frame. rewrite (flat_map_len _ reps); [rewrite seq_length; reflexivity|]. intros i. rewrite map_length, seq_length. reflexivity. }
  assert (F0 : exists r0 f0 fs, map frame (seq 0 p) = (r0 :: f0) :: fs).
  { destruct p as [|p']; [contradiction|]. cbn [seq map]. pose proof (LF 0) as L0.
    assert (L1 : 0 < local_conf_size n (Datatypes.S p') 0) by (apply (local_spec n (Datatypes.S p') 0 0); lia). destruct (frame 0) as [|r0 f0]; [cbn [length] in L0; nia|]. eexists _, _, _. reflexivity. }
  destruct F0 as (r0 & f0 & fs & F0). rewrite F0. cbv zeta. rewrite <- F0. rewrite counts_ok by exact HP. unfold displacements.
  assert (CE : map (fun r => local_conf_size n p r * reps) (seq 0 p) = map (@length row) (map frame (seq 0 p))).
  { rewrite map_map. apply map_ext. intros r. symmetry. apply LF. }
  rewrite CE.
  assert (TOT : length (concat (map frame (seq 0 p))) = n * reps).
  { rewrite <- flat_map_concat_map. pose proof (Permutation_length (mine_partition n p HP)) as PL. rewrite seq_length in PL. rewrite <- PL.
    generalize (seq 0 p). induction l as [|r l IH]; [reflexivity|]. cbn [flat_map]. rewrite !app_length, IH, LF. unfold mine at 2. rewrite map_length, seq_length. lia. }
  rewrite gather_concat by (rewrite repeat_length; cbn [Nat.add]; lia). cbn [firstn app Nat.add]. rewrite TOT.
  rewrite skipn_all2 by (rewrite repeat_length; lia). rewrite app_nil_r, <- flat_map_concat_map. reflexivity.
Qed.
End Mpi.
