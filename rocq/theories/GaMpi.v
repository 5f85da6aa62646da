(** * Proofs about the distributed genetic search *)
From Coq Require Import List Bool Arith NArith Lia.
From Verif Require Import ExpModel ExpMpi GaModel GaSpec GaProofs.
Import ListNotations.

(** ** Splitting the population *)
Lemma split_length per : forall ranks rem, length (split_counts per rem ranks) = ranks.
Proof. induction ranks as [|k IH]; intros rem; [reflexivity|]. cbn [split_counts]. destruct (0 <? rem); cbn [length]; rewrite IH; reflexivity. Qed.
Lemma split_nth per : forall ranks rem i, i < ranks -> nth i (split_counts per rem ranks) 0 = per + (if i <? rem then 1 else 0).
Proof.
  induction ranks as [|k IH]; intros rem i H; [lia|]. cbn [split_counts]. destruct (Nat.ltb_spec 0 rem) as [R|R]; destruct i as [|i]; cbn [nth].
  - destruct (Nat.ltb_spec 0 rem); lia.
  - rewrite IH by lia. destruct (Nat.ltb_spec i (rem - 1)), (Nat.ltb_spec (S i) rem); lia.
  - destruct (Nat.ltb_spec 0 rem); lia.
  - rewrite IH by lia. destruct (Nat.ltb_spec i rem), (Nat.ltb_spec (S i) rem); lia.
Qed.
Lemma split_sum per : forall ranks rem, rem <= ranks -> list_sum (split_counts per rem ranks) = per * ranks + rem.
Proof.
  induction ranks as [|k IH]; intros rem H; [cbn; lia|]. cbn [split_counts]. destruct (Nat.ltb_spec 0 rem) as [R|R]; change (list_sum (?a :: ?l)) with (a + list_sum l); rewrite IH by lia; rewrite Nat.mul_succ_r; lia.
Qed.
Lemma pop_counts_sum size p : p <> 0 -> list_sum (pop_counts size p) = size.
Proof. intros HP. unfold pop_counts. rewrite split_sum by (pose proof (Nat.mod_upper_bound size p HP); lia). rewrite (Nat.div_mod size p HP) at 3. lia. Qed.
(** Empty parts come last. *)
Fixpoint tail_empty (cs : list nat) : Prop :=
  match cs with [] => True | c :: cs' => (c <> 0 /\ tail_empty cs') \/ list_sum cs = 0 end.
Lemma split_tail_empty per : forall ranks rem, tail_empty (split_counts per rem ranks).
Proof.
  induction ranks as [|k IH]; intros rem; [exact I|]. cbn [split_counts]. destruct (Nat.ltb_spec 0 rem) as [R|R]; cbn [tail_empty].
  - left. split; [lia|apply IH].
  - destruct per as [|per]; [|left; split; [discriminate|apply IH]]. right. change (0 + list_sum (split_counts 0 rem k) = 0). assert (rem = 0) by lia. subst rem. rewrite split_sum; lia.
Qed.
Lemma take_from_eq {I} (pop : list I) : forall n i, i + n <= length pop -> take_from pop i n = Some (firstn n (skipn i pop)).
Proof.
  induction n as [|n IH]; intros i H; [reflexivity|]. cbn [take_from]. destruct (nth_error pop i) as [x|] eqn:E; [|apply nth_error_None in E; lia].
  rewrite IH by lia. cbn [option_map]. f_equal. destruct (nth_error_split pop i E) as (l1 & l2 & -> & L). subst i.
  rewrite !skipn_app, !skipn_all, Nat.sub_diag. rewrite (skipn_all2 l1) by lia. replace (length l1 + 1 - length l1) with 1 by lia. reflexivity.
Qed.
Lemma firstn_add {X} (l : list X) : forall a b, firstn (a + b) l = firstn a l ++ firstn b (skipn a l).
Proof. induction l as [|x l IH]; intros a b; [rewrite skipn_nil, !firstn_nil; reflexivity|]. destruct a as [|a]; [reflexivity|]. cbn [Nat.add firstn skipn app]. rewrite IH. reflexivity. Qed.
Lemma skipn_add {X} : forall e c (l : list X), skipn c (skipn e l) = skipn (e + c) l.
Proof. induction e as [|e IHe]; intros c l; [reflexivity|]. destruct l; [rewrite !skipn_nil; reflexivity|]. cbn [skipn Nat.add]. apply IHe. Qed.
Lemma sub_populations_eq {I} (pop : list I) : forall counts i, i + list_sum counts <= length pop ->
  exists subs, sub_populations pop i counts = Some subs /\ concat subs = firstn (list_sum counts) (skipn i pop) /\ map (@length I) subs = counts.
Proof.
  induction counts as [|c counts IH]; intros i H; [exists []; repeat split; reflexivity|]. change (list_sum (c :: counts)) with (c + list_sum counts) in *. cbn [sub_populations].
  rewrite take_from_eq by lia. destruct (IH (i + c)) as (subs & E & C & L); [lia|]. rewrite E. eexists. split; [reflexivity|]. split.
  - cbn [concat]. rewrite C, firstn_add, skipn_add. reflexivity.
  - cbn [map]. rewrite L, firstn_length, skipn_length. f_equal. lia.
Qed.
Lemma sub_populations_all {I} (pop : list I) p : p <> 0 ->
  exists subs, sub_populations pop 0 (pop_counts (length pop) p) = Some subs /\ concat subs = pop /\ map (@length I) subs = pop_counts (length pop) p.
Proof.
  intros HP. destruct (sub_populations_eq pop (pop_counts (length pop) p) 0) as (subs & E & C & L); [rewrite pop_counts_sum by exact HP; cbn; lia|]. exists subs. split; [exact E|]. split; [|exact L].
  rewrite C, pop_counts_sum by exact HP. cbn [skipn]. apply firstn_all.
Qed.

Section Mpi.
Context {I F S : Type}.
Variable cmp : F -> F -> bool.
Variable desired : F.
Variable reps gnum : nat.
Variable run : nat -> nat -> nat -> I -> S.
Variable fitness : nat -> nat -> list S -> F.
Variable selection : nat -> list (I * F) -> list (I * F).
Variable crossover : nat -> list I -> list I.
Variable mutation : nat -> nat -> I -> I.
Variable dummy : F.
Variable is_dummy : F -> bool.
Variable init : list I.
Notation row := (ga_row I F).
Notation score := (score reps run fitness).
Notation rows_from := (rows_from reps run fitness).
Notation hit := (@hit I F cmp desired).
Notation mbest := (option (F * nat * I)).

Definition to_mpi (r : row) : mpi_row F := MpiRow (ga_gen r) (ga_index r) (ga_fit r).
Definition to_local (d : nat) (r : row) : mpi_row F := MpiRow (ga_gen r) (ga_index r - d) (ga_fit r).
Definition mb_step (d : nat) (mb : mbest) (r : row) : mbest :=
  match mb with
  | Some (f0, _, _) => if cmp (ga_fit r) f0 then Some (ga_fit r, ga_index r - d, ga_ind r) else mb
  | None => Some (ga_fit r, ga_index r - d, ga_ind r)
  end.
Lemma rank_gen_eq g d : forall pop i mb flag,
  rank_gen cmp desired reps run fitness g d i pop mb flag =
  (map (to_local d) (rows_from g (d + i) pop), fold_left (mb_step d) (rows_from g (d + i) pop) mb, existsb hit (rows_from g (d + i) pop) || flag).
Proof.
  induction pop as [|x pop IH]; intros i mb flag; [reflexivity|]. rewrite rows_from_cons. cbn [rank_gen]. change (eval reps run fitness g (d + i) x) with (score g (d + i) x). rewrite IH. rewrite <- Nat.add_assoc.
  set (r := GaRow (as_u32 g) (d + i) (score g (d + i) x) x). cbn [map fold_left existsb].
  assert (DI : ga_index r - d = i) by (cbn; lia).
  assert (TL : to_local d r = MpiRow (as_u32 g) i (score g (d + i) x)) by (unfold to_local; rewrite DI; reflexivity).
  assert (MS : mb_step d mb r = match mb with Some (f0, _, _) => if cmp (score g (d + i) x) f0 then Some (score g (d + i) x, i, x) else mb | None => Some (score g (d + i) x, i, x) end) by (unfold mb_step; rewrite DI; reflexivity).
  rewrite TL, MS. f_equal. change (hit r) with (cmp (score g (d + i) x) desired). destruct (cmp (score g (d + i) x) desired); [rewrite orb_true_r|]; reflexivity.
Qed.
(** The rows of the ranks, with global indices. *)
Fixpoint blocks (g d : nat) (subs : list (list I)) : list (list row) :=
  match subs with [] => [] | sub :: subs' => rows_from g d sub :: blocks g (d + length sub) subs' end.
Fixpoint local_blocks (g d : nat) (subs : list (list I)) : list (list (mpi_row F)) :=
  match subs with [] => [] | sub :: subs' => map (to_local d) (rows_from g d sub) :: local_blocks g (d + length sub) subs' end.
Fixpoint mbs_step (g d : nat) (subs : list (list I)) (mbs : list mbest) : list mbest :=
  match subs, mbs with
  | sub :: subs', mb :: mbs' => fold_left (mb_step d) (rows_from g d sub) mb :: mbs_step g (d + length sub) subs' mbs'
  | _, _ => []
  end.
Lemma rows_from_app g : forall l l' i, rows_from g i (l ++ l') = rows_from g i l ++ rows_from g (i + length l) l'.
Proof.
  induction l as [|x l IH]; intros l' i; [cbn [app length]; rewrite Nat.add_0_r; reflexivity|]. cbn [app]. rewrite !rows_from_cons, IH. cbn [app length]. do 3 f_equal. lia.
Qed.
Lemma rows_from_length g i pop : length (rows_from g i pop) = length pop.
Proof. unfold GaProofs.rows_from. rewrite map_length, combine_length, seq_length. apply Nat.min_id. Qed.
Lemma concat_blocks g : forall subs d, concat (blocks g d subs) = rows_from g d (concat subs).
Proof. induction subs as [|sub subs IH]; intros d; [reflexivity|]. cbn [blocks concat]. rewrite IH, rows_from_app. reflexivity. Qed.
Lemma ranks_gen_eq g : forall subs d mbs, length mbs = length subs ->
  ranks_gen cmp desired reps run fitness g d subs mbs = (local_blocks g d subs, mbs_step g d subs mbs, map (existsb hit) (blocks g d subs)).
Proof.
  induction subs as [|sub subs IH]; intros d mbs L; destruct mbs as [|mb mbs]; try discriminate; [reflexivity|]. cbn [ranks_gen local_blocks mbs_step blocks map]. rewrite rank_gen_eq, Nat.add_0_r, orb_false_r.
  rewrite IH by (cbn in L; lia). reflexivity.
Qed.
Lemma local_blocks_length g : forall subs d, map (@length _) (local_blocks g d subs) = map (@length I) subs.
Proof. induction subs as [|sub subs IH]; intros d; [reflexivity|]. cbn [local_blocks map]. rewrite map_length, rows_from_length, IH. reflexivity. Qed.
Lemma existsb_blocks (ll : list (list row)) : existsb (fun b : bool => b) (map (existsb hit) ll) = existsb hit (concat ll).
Proof. induction ll as [|l ll IH]; [reflexivity|]. cbn [map existsb concat]. rewrite existsb_app, IH. reflexivity. Qed.

(** ** The walk *)
Definition bg_step (bg : option F) (r : row) : option F :=
  match bg with Some f => if cmp (ga_fit r) f then Some (ga_fit r) else bg | None => Some (ga_fit r) end.
Definition bi_step (bi : mpi_row F) (r : row) : mpi_row F := if cmp (ga_fit r) (m_fit bi) then to_mpi r else bi.
Lemma walk_block counts displs i d c rest : nth_error displs i = Some d -> nth_error counts i = Some c ->
  forall (l : list row) j bg bi, (forall r, In r l -> d <= ga_index r) -> l <> [] -> j + length l = c ->
  walk cmp (map (to_local d) l ++ rest) counts displs i j bg bi =
  match walk cmp rest counts displs (i + 1) 0 (fold_left bg_step l bg) (fold_left bi_step l bi) with
  | Some (rs, a, b) => Some (map to_mpi l ++ rs, a, b)
  | None => None
  end.
Proof.
  intros ED EC. induction l as [|r l IH]; intros j bg bi HI HN HL; [contradiction|]. cbn [map app walk]. rewrite ED, EC. cbn [to_local m_gen m_index m_fit]. cbn [length] in HL.
  assert (RI : ga_index r - d + d = ga_index r) by (specialize (HI r (or_introl eq_refl)); lia). rewrite RI.
  cbn [fold_left]. fold (bg_step bg r). change (if cmp (ga_fit r) (m_fit bi) then MpiRow (ga_gen r) (ga_index r) (ga_fit r) else bi) with (bi_step bi r).
  change (MpiRow (ga_gen r) (ga_index r) (ga_fit r)) with (to_mpi r). destruct l as [|r2 l].
  - assert (E : j + 1 =? c = true) by (apply Nat.eqb_eq; cbn in HL; lia). rewrite E. cbn [map app fold_left]. destruct (walk cmp rest _ _ _ _ _ _) as [[[rs a] b]|]; reflexivity.
  - assert (E : j + 1 =? c = false) by (apply Nat.eqb_neq; cbn in HL; lia). rewrite E. rewrite IH; [|intros r' Hr'; apply HI; right; exact Hr'|discriminate|lia].
    destruct (walk cmp rest _ _ _ _ _ _) as [[[rs a] b]|]; reflexivity.
Qed.
Lemma rows_from_index g pop : forall i r, In r (rows_from g i pop) -> i <= ga_index r.
Proof. intros i r H. apply in_map_iff in H. destruct H as ((k & x) & <- & H). apply in_combine_l, in_seq in H. cbn [ga_index fst]. lia. Qed.
Lemma walk_blocks counts displs g : forall subs d i bg bi,
  tail_empty (map (@length I) subs) ->
  (forall k, nth_error counts (i + k) = nth_error (map (@length I) subs) k) ->
  (forall k, nth_error displs (i + k) = nth_error (scan_sum d (map (@length I) subs)) k) ->
  walk cmp (concat (local_blocks g d subs)) counts displs i 0 bg bi =
  Some (map to_mpi (concat (blocks g d subs)), fold_left bg_step (concat (blocks g d subs)) bg, fold_left bi_step (concat (blocks g d subs)) bi).
Proof.
  induction subs as [|sub subs IH]; intros d i bg bi T HC HD; [reflexivity|]. cbn [map tail_empty] in T.
  destruct T as [(NZ & T)|Z].
  - cbn [local_blocks blocks concat]. pose proof (HC 0) as C0. pose proof (HD 0) as D0. rewrite Nat.add_0_r in C0, D0. cbn [map nth_error scan_sum] in C0, D0.
    rewrite (walk_block counts displs i d (length sub) _ D0 C0).
    + rewrite IH; [rewrite map_app, !fold_left_app; reflexivity|exact T| |].
      * intros k. specialize (HC (Datatypes.S k)). rewrite <- Nat.add_assoc. exact HC.
      * intros k. specialize (HD (Datatypes.S k)). rewrite <- Nat.add_assoc. exact HD.
    + apply rows_from_index.
    + intros E. apply NZ. rewrite <- (rows_from_length g d sub), E. reflexivity.
    + rewrite rows_from_length. reflexivity.
  - assert (Q : concat (blocks g d (sub :: subs)) = []).
    { rewrite concat_blocks. apply length_zero_iff_nil. rewrite rows_from_length. rewrite <- Z. clear. change (length sub :: map (@length I) subs) with (map (@length I) (sub :: subs)). generalize (sub :: subs). induction l as [|x l IH]; [reflexivity|]. cbn [concat map]. rewrite app_length, IH. reflexivity. }
    assert (Q' : concat (local_blocks g d (sub :: subs)) = []).
    { apply length_zero_iff_nil. rewrite <- Z. change (length sub :: map (@length I) subs) with (map (@length I) (sub :: subs)). rewrite <- (local_blocks_length g (sub :: subs) d). generalize (local_blocks g d (sub :: subs)). induction l as [|x l IHl]; [reflexivity|]. cbn [concat map]. rewrite app_length, IHl. reflexivity. }
    rewrite Q, Q'. reflexivity.
Qed.

(** One generation: what the root has after the gather and the walk. *)
Lemma length_concat_sum {X} (ll : list (list X)) : length (concat ll) = list_sum (map (@length X) ll).
Proof. induction ll as [|l ll IH]; [reflexivity|]. cbn [concat map]. rewrite app_length, IH. reflexivity. Qed.
Lemma generation_rows g (pop : list I) p subs bg bi : p <> 0 ->
  sub_populations pop 0 (pop_counts (length pop) p) = Some subs -> 
  exists partial, gather (pop_counts (length pop) p) (displacements (pop_counts (length pop) p)) (local_blocks g 0 subs) (repeat (MpiRow (as_u32 g) 0 dummy) (length pop)) = Some partial /\
    walk cmp partial (pop_counts (length pop) p) (displacements (pop_counts (length pop) p)) 0 0 bg bi =
    Some (map to_mpi (rows_from g 0 pop), fold_left bg_step (rows_from g 0 pop) bg, fold_left bi_step (rows_from g 0 pop) bi).
Proof.
  intros HP ES. destruct (sub_populations_all pop p HP) as (subs' & E & C & L). rewrite ES in E. injection E as <-. exists (concat (local_blocks g 0 subs)).
  assert (LS : length (concat (local_blocks g 0 subs)) = length pop) by (rewrite length_concat_sum, local_blocks_length, L; apply pop_counts_sum; exact HP).
  split.
  - unfold displacements. rewrite <- L, <- (local_blocks_length g subs 0). rewrite gather_concat by (rewrite repeat_length; cbn [Nat.add]; lia). cbn [firstn app Nat.add]. rewrite LS.
    rewrite skipn_all2 by (rewrite repeat_length; lia). rewrite app_nil_r. reflexivity.
  - rewrite walk_blocks.
    + rewrite concat_blocks, C. reflexivity.
    + rewrite L. apply split_tail_empty.
    + intros k. rewrite L. reflexivity.
    + intros k. rewrite L. reflexivity.
Qed.
Lemma pair_fitness_eq (all : list (mpi_row F)) (params : list I) g size : forall n i (fs : list F),
  length fs = size -> length params = size -> i + n = size ->
  (forall k f, nth_error fs k = Some f -> exists r, nth_error all ((g - 1) * size + k) = Some r /\ m_fit r = f) ->
  pair_fitness all params g size i n = Some (combine (skipn i params) (skipn i fs)).
Proof.
  induction n as [|n IH]; intros i fs L1 L2 HS H; [rewrite !skipn_all2 by lia; reflexivity|]. cbn [pair_fitness].
  destruct (nth_error fs i) as [f|] eqn:E1; [|apply nth_error_None in E1; lia]. destruct (nth_error params i) as [x|] eqn:E2; [|apply nth_error_None in E2; lia].
  destruct (H i f E1) as (r & -> & M). rewrite (IH (i + 1) fs) by (assumption || lia). cbn [option_map]. f_equal. rewrite M.
  destruct (nth_error_split fs i E1) as (a1 & b1 & -> & A1). destruct (nth_error_split params i E2) as (a2 & b2 & -> & A2).
  rewrite !skipn_app. rewrite A1, A2, Nat.sub_diag. rewrite (skipn_all2 a1) by lia. rewrite (skipn_all2 a2) by lia. rewrite (skipn_all2 a1) by lia. rewrite (skipn_all2 a2) by lia. replace (i + 1 - i) with 1 by lia. reflexivity.
Qed.

(** ** The whole search, with populations of one size *)
Notation population := (population reps run fitness selection crossover mutation init).
Notation gen_rows := (gen_rows reps run fitness selection crossover mutation init).
Notation scored := (scored reps run fitness).
Notation selected := (selected reps run fitness selection).
Notation within := (within gnum).
Notation continues := (continues cmp desired reps gnum run fitness selection crossover mutation init).
Notation stops := (stops cmp desired reps gnum run fitness selection crossover mutation init).
Notation mpi_loop := (mpi_loop cmp desired reps gnum run fitness selection crossover mutation dummy is_dummy).
Definition mpi_gen (k : nat) : list (mpi_row F) := map to_mpi (gen_rows k).

Lemma mb_fold_some d (l : list row) : forall mb, mb <> None -> fold_left (mb_step d) l mb <> None.
Proof. induction l as [|r l IH]; intros mb H; [exact H|]. cbn [fold_left]. apply IH. unfold mb_step. destruct mb as [[[f i] x]|]; [destruct (cmp _ _)|]; discriminate. Qed.
Lemma mbs_some g : forall subs d mbs, length mbs = length subs -> (forall sub, In sub subs -> sub <> []) -> exists bests, all_some (mbs_step g d subs mbs) = Some bests /\ length bests = length subs.
Proof.
  induction subs as [|sub subs IH]; intros d mbs L N; destruct mbs as [|mb mbs]; try discriminate; [exists []; split; reflexivity|]. cbn [mbs_step all_some].
  destruct (fold_left (mb_step d) (rows_from g d sub) mb) as [b|] eqn:E.
  - destruct (IH (d + length sub) mbs) as (bests & A & B); [cbn in L; lia|intros s Hs; apply N; right; exact Hs|]. rewrite A. exists (b :: bests). split; [reflexivity|cbn; lia].
  - exfalso. destruct sub as [|x sub]; [apply (N []); [left; reflexivity|reflexivity]|]. rewrite rows_from_cons in E. cbn [fold_left] in E. revert E. apply mb_fold_some. unfold mb_step. destruct mb as [[[f i] y]|]; [destruct (cmp _ _)|]; discriminate.
Qed.
Lemma mbs_step_length g : forall subs d mbs, length mbs = length subs -> length (mbs_step g d subs mbs) = length subs.
Proof. induction subs as [|sub subs IH]; intros d mbs L; destruct mbs as [|mb mbs]; try discriminate; [reflexivity|]. cbn [mbs_step length]. rewrite IH by (cbn in L; lia). reflexivity. Qed.
Lemma bg_fold (l : list row) : forall f x, fold_left bg_step l (Some f) = option_map fst (best_of cmp l (Some (f, x))).
Proof. induction l as [|r l IH]; intros f x; [reflexivity|]. cbn [fold_left best_of update_best bg_step]. destruct (cmp (ga_fit r) f); apply IH. Qed.
Lemma bg_fold_none (l : list row) : fold_left bg_step l None = option_map fst (best_of cmp l None).
Proof. destruct l as [|r l]; [reflexivity|]. cbn [fold_left best_of update_best bg_step]. apply bg_fold. Qed.

Section Whole.
Variables p n : nat.
Hypothesis HP : p <> 0.
Hypothesis PN : p <= n.
Hypothesis SIZE : forall k, (forall j, j < k -> continues 2 j) -> length (population k) = n.
Hypothesis NODUMMY : forall k r, In r (gen_rows k) -> is_dummy (ga_fit r) = false.

Lemma flat_len k : (forall j, j < k -> continues 2 j) -> length (flat_map mpi_gen (seq 0 k)) = k * n.
Proof.
  intros C. assert (G : forall j, j <= k -> length (flat_map mpi_gen (seq 0 j)) = j * n).
  { induction j as [|j IH]; intros H; [reflexivity|]. rewrite seq_S, flat_map_app, app_length, IH by lia. cbn [flat_map Nat.add]. rewrite app_nil_r. unfold mpi_gen. rewrite map_length, gen_rows_from, rows_from_length. rewrite SIZE by (intros i Hi; apply C; lia). cbn [Nat.mul]. lia. }
  apply G. lia.
Qed.
Definition bests_of (mbs : list mbest) : option I := match all_some mbs with Some (b0 :: bl) => Some (snd (best_rank cmp bl b0)) | _ => None end.
(** The state of the loop when [k] generations are done and have gone on; [best] is what
    the other searches keep. *)
Definition proj (b : F * I * nat) : F * nat := (fst (fst b), snd b).
(** The sub-populations of a generation. *)
Definition subs_of (k : nat) : list (list I) := match sub_populations (population k) 0 (pop_counts (length (population k)) p) with Some s => s | None => [] end.
Definition mbs_after (k : nat) (mbs : list mbest) : list mbest := mbs_step (Datatypes.S k) 0 (subs_of k) mbs.
Lemma mpi_step fuel k mbs all best bi bs :
  (forall j, j < k -> continues 2 j) -> within k -> length mbs = p -> all = flat_map mpi_gen (seq 0 k) ->
  exists b bs', update_overall cmp best (best_of cmp (gen_rows k) None) (Datatypes.S k) = Some b /\ bests_of (mbs_after k mbs) = Some bs' /\ length (mbs_after k mbs) = p /\
  let all' := flat_map mpi_gen (seq 0 (Datatypes.S k)) in
  let bi' := fold_left bi_step (gen_rows k) bi in
  mpi_loop (Datatypes.S fuel) p k (population k) mbs all (option_map proj best) bi bs =
  if existsb hit (gen_rows k) then Done (all', MpiBest (proj b) bi' bs')
  else if length (selected k (population k)) <? 2 then
    (if (p =? 1) || (negb (gnum =? 0) && (Datatypes.S k =? gnum)) then Done (all', MpiBest (proj b) bi' bs') else RootOnly (all', MpiBest (proj b) bi' bs'))
  else mpi_loop fuel p (Datatypes.S k) (population (Datatypes.S k)) (mbs_after k mbs) all' (Some (proj b)) bi' (Some bs').
Proof.
  intros C W LM EA. pose proof (SIZE k C) as LK. apply not_limit in W. destruct W as (W & _).
  destruct (sub_populations_all (population k) p HP) as (subs & ES & CS & LS).
  assert (SO : subs_of k = subs) by (unfold subs_of; rewrite ES; reflexivity).
  assert (LSUB : length subs = p) by (rewrite <- (map_length (@length I)), LS; apply split_length).
  assert (NE : forall sub, In sub subs -> sub <> []).
  { intros sub Hs Es. subst sub. apply (in_map (@length I)) in Hs. rewrite LS in Hs. apply In_nth with (d := 0) in Hs. destruct Hs as (i & Hi & Ei). unfold pop_counts in Hi, Ei. rewrite split_length in Hi. rewrite split_nth in Ei by exact Hi. rewrite LK in Ei.
    assert (1 <= n / p) by (apply Nat.div_le_lower_bound; lia). cbn in Ei. lia. }
  destruct (mbs_some (Datatypes.S k) subs 0 mbs ltac:(lia) NE) as (bests & EB & LB).
  destruct (best_of_none cmp (gen_rows k)) as (f & x & BG). { rewrite gen_rows_from, rows_nil. intros E. rewrite E in LK. cbn in LK. lia. }
  assert (HB : exists b, update_overall cmp best (best_of cmp (gen_rows k) None) (Datatypes.S k) = Some b).
  { rewrite BG. unfold update_overall. destruct best as [[[f0 x0] g0]|]; [destruct (cmp f f0)|]; eexists; reflexivity. }
  destruct HB as (b & HB). destruct bests as [|b0 bl]; [cbn in LB; lia|]. exists b, (snd (best_rank cmp bl b0)). split; [exact HB|]. unfold mbs_after. rewrite SO. split; [unfold bests_of; rewrite EB; reflexivity|]. split; [rewrite mbs_step_length by lia; exact LSUB|].
  cbv zeta. cbn [GaModel.mpi_loop]. rewrite W, Nat.add_1_r, ES. rewrite ranks_gen_eq by lia. rewrite EB.
  destruct (generation_rows (Datatypes.S k) (population k) p subs None bi HP ES) as (partial & G1 & G2). rewrite G1, G2. rewrite <- gen_rows_from.
  assert (ND : existsb (fun r => is_dummy (m_fit r)) (map to_mpi (gen_rows k)) = false).
  { apply not_true_is_false. intros E. apply existsb_exists in E. destruct E as (r & Hr & D). apply in_map_iff in Hr. destruct Hr as (r' & <- & Hr). cbn [to_mpi m_fit] in D. rewrite (NODUMMY k r' Hr) in D. discriminate. }
  rewrite ND. fold (mpi_gen k). assert (EALL : all ++ mpi_gen k = flat_map mpi_gen (seq 0 (Datatypes.S k))) by (rewrite seq_S, flat_map_app, EA; cbn [flat_map Nat.add]; rewrite app_nil_r; reflexivity). rewrite EALL.
  rewrite bg_fold_none, BG. cbn [option_map fst].
  assert (BF : match option_map proj best with Some (f0, _) => if cmp f f0 then Some (f, Datatypes.S k) else option_map proj best | None => Some (f, Datatypes.S k) end = Some (proj b)).
  { rewrite BG in HB. unfold update_overall in HB. destruct best as [[[f0 x0] g0]|]; cbn [option_map proj fst snd] in *; [destruct (cmp f f0)|]; injection HB as <-; reflexivity. }
  rewrite BF. rewrite existsb_blocks, concat_blocks, CS, <- gen_rows_from. destruct (existsb hit (gen_rows k)); [reflexivity|].
  rewrite (pair_fitness_eq _ _ _ _ _ _ (map (@ga_fit I F) (gen_rows k))); [|rewrite map_length, gen_rows_from; apply rows_from_length|reflexivity|reflexivity|].
  2: { intros j y Hy. rewrite nth_error_map in Hy. destruct (nth_error (gen_rows k) j) as [r|] eqn:Er; [|discriminate]. injection Hy as <-. exists (to_mpi r). split; [|reflexivity].
       rewrite seq_S, flat_map_app. cbn [Nat.add]. rewrite nth_error_app2; rewrite flat_len by exact C; rewrite LK, Nat.sub_succ, Nat.sub_0_r; [|lia]. replace (k * n + j - k * n) with j by lia. cbn [flat_map]. rewrite app_nil_r. unfold mpi_gen. rewrite nth_error_map, Er. reflexivity. }
  cbn [skipn].
  assert (PF : combine (population k) (map (@ga_fit I F) (gen_rows k)) = scored (Datatypes.S k) (population k)).
  { unfold GaSpec.scored, numbered, GaSpec.gen_rows. rewrite map_map. cbn [ga_fit]. clear. unfold numbered. generalize (population k) 0. induction l as [|y l IH]; intros i; [reflexivity|]. cbn [length seq combine map fst snd]. rewrite IH. reflexivity. }
  rewrite PF. fold (selected k (population k)). rewrite <- population_S.
  destruct (length (selected k (population k)) <? 2) eqn:SM.
  - assert (SM' : length (selected k (population k)) <=? 1 = true) by (apply Nat.ltb_lt in SM; apply Nat.leb_le; lia). rewrite SM'. reflexivity.
  - assert (SM' : length (selected k (population k)) <=? 1 = false) by (apply Nat.ltb_ge in SM; apply Nat.leb_gt; lia). rewrite SM'. reflexivity.
Qed.

Lemma mpi_limit fuel k mbs all bf bi bs : gnum <> 0 -> k = gnum ->
  mpi_loop (Datatypes.S fuel) p k (population k) mbs all (Some bf) bi (Some bs) = Done (all, MpiBest bf bi bs).
Proof. intros G ->. cbn [GaModel.mpi_loop]. apply Nat.eqb_neq in G. rewrite G, Nat.eqb_refl. reflexivity. Qed.

(** What is kept about the reported best. *)
Definition unbeaten (rows : list row) (f : F) : Prop := forall r, In r rows -> cmp (ga_fit r) f = false.
Definition seen_ok (seen : list row) (mb : mbest) : Prop :=
  match mb with None => seen = [] | Some (f, _, x) => best_in seen f x /\ unbeaten seen f end.
Definition mbs_ok (rows : list row) (mbs : list mbest) : Prop :=
  exists seens, Forall2 seen_ok seens mbs /\ forall r, In r rows <-> In r (concat seens).
Definition bi_ok (rows : list row) (bi : mpi_row F) : Prop :=
  (bi = MpiRow 0 0 dummy \/ exists r, In r rows /\ bi = to_mpi r) /\ unbeaten rows (m_fit bi) /\ cmp dummy (m_fit bi) = false.
Definition bs_ok (rows : list row) (bs : I) : Prop := exists f, best_in rows f bs /\ unbeaten rows f.
Definition report_ok (rows : list row) (b : mpi_best I F) : Prop :=
  (exists r, In r rows /\ ga_fit r = fst (mb_fitness b) /\ ga_gen r = as_u32 (snd (mb_fitness b))) /\ unbeaten rows (fst (mb_fitness b)) /\
  bi_ok rows (mb_row b) /\ bs_ok rows (mb_string b).

Section Strict.
Variable P : F -> Prop.
Hypothesis SWO : strict_weak_order cmp P.
Hypothesis PG : forall k r, In r (gen_rows k) -> P (ga_fit r).
Lemma mb_fold_ok d : forall (l seen : list row) mb, seen_ok seen mb -> seen_ok (seen ++ l) (fold_left (mb_step d) l mb).
Proof.
  destruct SWO as (IR & TR & NT). induction l as [|r l IH]; intros seen mb H; [rewrite app_nil_r; exact H|]. cbn [fold_left]. replace (seen ++ r :: l) with ((seen ++ [r]) ++ l) by (rewrite <- app_assoc; reflexivity). apply IH.
  unfold mb_step. destruct mb as [[[f i] x]|]; cbn [seen_ok] in *.
  - destruct H as (HB & HN). destruct (cmp (ga_fit r) f) eqn:C; cbn [seen_ok].
    + split; [exists r; split; [apply in_elt|split; reflexivity]|]. intros r' Hr. apply in_app_or in Hr. destruct Hr as [Hr|[<-|[]]]; [|apply IR].
      destruct (cmp (ga_fit r') (ga_fit r)) eqn:C'; [|reflexivity]. rewrite <- (HN r' Hr). symmetry. exact (TR _ _ _ C' C).
    + split; [destruct HB as (r' & Hr & E); exists r'; split; [apply in_or_app; left; exact Hr|exact E]|]. intros r' Hr. apply in_app_or in Hr. destruct Hr as [Hr|[<-|[]]]; [apply HN; exact Hr|exact C].
  - subst seen. split; [exists r; split; [left; reflexivity|split; reflexivity]|]. intros r' [<-|[]]. apply IR.
Qed.
Lemma mbs_step_ok g : forall subs d mbs seens, length mbs = length subs -> Forall2 seen_ok seens mbs ->
  exists seens', Forall2 seen_ok seens' (mbs_step g d subs mbs) /\ forall r, In r (concat seens') <-> In r (concat seens) \/ In r (concat (blocks g d subs)).
Proof.
  induction subs as [|sub subs IH]; intros d mbs seens L H; destruct mbs as [|mb mbs]; try discriminate.
  - inversion H; subst. exists []. split; [constructor|]. intros r. cbn. tauto.
  - inversion H as [|seen ? seens0 ? H1 H2]; subst. destruct (IH (d + length sub) mbs seens0 ltac:(cbn in L; lia) H2) as (seens' & A & B).
    exists ((seen ++ rows_from g d sub) :: seens'). split; [constructor; [apply mb_fold_ok; exact H1|exact A]|]. intros r. cbn [concat blocks]. rewrite !in_app_iff, B. tauto.
Qed.
Lemma bi_fold_ok : forall (l seen : list row) bi, bi_ok seen bi -> bi_ok (seen ++ l) (fold_left bi_step l bi).
Proof.
  destruct SWO as (IR & TR & NT). induction l as [|r l IH]; intros seen bi H; [rewrite app_nil_r; exact H|]. cbn [fold_left]. replace (seen ++ r :: l) with ((seen ++ [r]) ++ l) by (rewrite <- app_assoc; reflexivity). apply IH.
  unfold bi_step. destruct H as (HB & HN & HD). destruct (cmp (ga_fit r) (m_fit bi)) eqn:C.
  - split; [right; exists r; split; [apply in_elt|reflexivity]|]. cbn [to_mpi m_fit]. split.
    + intros r' Hr. apply in_app_or in Hr. destruct Hr as [Hr|[<-|[]]]; [|apply IR]. destruct (cmp (ga_fit r') (ga_fit r)) eqn:C'; [|reflexivity]. rewrite <- (HN r' Hr). symmetry. exact (TR _ _ _ C' C).
    + destruct (cmp dummy (ga_fit r)) eqn:C'; [|reflexivity]. rewrite <- HD. symmetry. exact (TR _ _ _ C' C).
  - split; [destruct HB as [HB|(r' & Hr & E)]; [left; exact HB|right; exists r'; split; [apply in_or_app; left; exact Hr|exact E]]|]. split; [|exact HD]. intros r' Hr. apply in_app_or in Hr. destruct Hr as [Hr|[<-|[]]]; [apply HN; exact Hr|exact C].
Qed.
Lemma best_rank_in : forall l (m : F * nat * I), (forall b, In b (m :: l) -> P (fst (fst b))) -> In (best_rank cmp l m) (m :: l) /\ cmp (fst (fst m)) (fst (fst (best_rank cmp l m))) = false /\ forall b, In b l -> cmp (fst (fst b)) (fst (fst (best_rank cmp l m))) = false.
Proof.
  destruct SWO as (IR & TR & NT). induction l as [|b l IH]; intros m HP'; [split; [left; reflexivity|split; [apply IR|intros b []]]|]. cbn [best_rank]. destruct (cmp (fst (fst b)) (fst (fst m))) eqn:C.
  - destruct (IH b) as (A & B & D); [intros b' Hb; apply HP'; right; exact Hb|]. split; [right; exact A|]. split.
    + destruct (cmp (fst (fst m)) _) eqn:C'; [|reflexivity]. rewrite <- B. symmetry. exact (TR _ _ _ C C').
    + intros b' [<-|Hb]; [exact B|apply D; exact Hb].
  - destruct (IH m) as (A & B & D); [intros b' [<-|Hb]; apply HP'; [left; reflexivity|right; right; exact Hb]|]. split; [destruct A as [A|A]; [left; exact A|right; right; exact A]|]. split; [exact B|]. intros b' [<-|Hb]; [exact (NT _ _ _ (HP' m (or_introl eq_refl)) C B)|apply D; exact Hb].
Qed.
Lemma all_some_in {X} (l : list (option X)) l' : all_some l = Some l' -> l = map Some l'.
Proof. revert l'. induction l as [|o l IH]; intros l' H; [injection H as <-; reflexivity|]. cbn [all_some] in H. destruct o as [x|]; [|discriminate]. destruct (all_some l) as [l0|]; [|discriminate]. injection H as <-. cbn [map]. f_equal. apply IH. reflexivity. Qed.
Lemma Forall2_in_l {A B} (R : A -> B -> Prop) l l' x : Forall2 R l l' -> In x l -> exists y, In y l' /\ R x y.
Proof. induction 1 as [|a b l l' H1 H2 IH]; [intros []|]. intros [<-|Hx]; [exists b; split; [left; reflexivity|exact H1]|]. destruct (IH Hx) as (y & A1 & A2). exists y. split; [right; exact A1|exact A2]. Qed.
Lemma Forall2_in_r {A B} (R : A -> B -> Prop) l l' y : Forall2 R l l' -> In y l' -> exists x, In x l /\ R x y.
Proof. induction 1 as [|a b l l' H1 H2 IH]; [intros []|]. intros [<-|Hy]; [exists a; split; [left; reflexivity|exact H1]|]. destruct (IH Hy) as (x & A1 & A2). exists x. split; [right; exact A1|exact A2]. Qed.
Lemma bests_ok rows mbs bs : (forall r, In r rows -> P (ga_fit r)) -> mbs_ok rows mbs -> bests_of mbs = Some bs -> bs_ok rows bs.
Proof.
  intros HP' (seens & F2 & IN) H. unfold bests_of in H. destruct (all_some mbs) as [[|b0 bl]|] eqn:E; try discriminate. injection H as <-. apply all_some_in in E. subst mbs.
  assert (PB : forall b, In b (b0 :: bl) -> P (fst (fst b))).
  { intros [[f i] x] Hb. destruct (Forall2_in_r _ _ _ (Some (f, i, x)) F2) as (seen & S1 & S2); [apply in_map; exact Hb|]. destruct S2 as ((r & Hr & Er & _) & _). cbn [fst]. rewrite <- Er. apply HP'. apply IN. apply in_concat. exists seen. split; assumption. }
  destruct (best_rank_in bl b0 PB) as (A & B & D). set (bb := best_rank cmp bl b0) in *. exists (fst (fst bb)).
  assert (ALL : forall b, In b (b0 :: bl) -> cmp (fst (fst b)) (fst (fst bb)) = false) by (intros b [<-|Hb]; [exact B|apply D; exact Hb]).
  assert (M : In (Some bb) (map Some (b0 :: bl))) by (apply in_map; exact A). destruct (Forall2_in_r _ _ _ _ F2 M) as (seen & S1 & S2). cbn [seen_ok] in S2. destruct bb as [[f i] x] eqn:EB. cbn [fst snd] in *. destruct S2 as ((r & Hr & Er) & N).
  split; [exists r; split; [apply IN; apply in_concat; exists seen; split; assumption|exact Er]|].
  intros r' Hr'. apply IN in Hr'. apply in_concat in Hr'. destruct Hr' as (seen' & S1' & S2'). destruct (Forall2_in_l _ _ _ _ F2 S1') as (mb & M1 & M2). apply in_map_iff in M1. destruct M1 as ([[f' i'] x'] & <- & M1). cbn [seen_ok] in M2. destruct M2 as (_ & N').
  destruct SWO as (_ & _ & NT). apply (NT _ f'); [exact (PB _ M1)|apply N'; exact S2'|]. exact (ALL _ M1).
Qed.

Definition mpi_state_ok (k : nat) (mbs : list mbest) (best : option (F * I * nat)) (bi : mpi_row F) (bs : option I) : Prop :=
  let rows := flat_map gen_rows (seq 0 k) in
  match best with None => k = 0 | Some b => overall_ok cmp rows b end /\ mbs_ok rows mbs /\ bi_ok rows bi /\ match bs with None => k = 0 | Some bs => bs_ok rows bs end.
Definition mpi_result (k fuel : nat) (o : outcome (list (mpi_row F) * mpi_best I F)) : Prop :=
  match o with
  | Done (rows, b) => exists m last, k <= m < k + fuel /\ (forall j, k <= j < m -> continues 2 j) /\ stops true 2 m last /\
      rows = map to_mpi (flat_map gen_rows (seq 0 m) ++ last) /\ report_ok (flat_map gen_rows (seq 0 m) ++ last) b
  | RootOnly (rows, b) => exists m, k <= m < k + fuel /\ (forall j, k <= j < m -> continues 2 j) /\ stops true 2 m (gen_rows m) /\
      p <> 1 /\ Datatypes.S m <> gnum /\ (forall r, In r (gen_rows m) -> ~ reaches cmp desired r) /\ length (selected m (population m)) < 2 /\
      rows = map to_mpi (flat_map gen_rows (seq 0 m) ++ gen_rows m) /\ report_ok (flat_map gen_rows (seq 0 m) ++ gen_rows m) b
  | Panic => False
  | OutOfFuel => forall j, k <= j < k + fuel -> continues 2 j
  end.
Lemma flat_to_mpi l : flat_map mpi_gen l = map to_mpi (flat_map gen_rows l).
Proof. induction l as [|k l IH]; [reflexivity|]. cbn [flat_map]. rewrite map_app, IH. reflexivity. Qed.
Lemma flat_snoc k : flat_map gen_rows (seq 0 (Datatypes.S k)) = flat_map gen_rows (seq 0 k) ++ gen_rows k.
Proof. rewrite seq_S, flat_map_app. cbn [flat_map Nat.add]. rewrite app_nil_r. reflexivity. Qed.
Lemma mpi_loop_result : forall fuel k mbs best bi bs,
  (gnum = 0 \/ k <= gnum) -> (forall j, j < k -> continues 2 j) -> length mbs = p -> mpi_state_ok k mbs best bi bs ->
  mpi_result k fuel (mpi_loop fuel p k (population k) mbs (flat_map mpi_gen (seq 0 k)) (option_map proj best) bi bs).
Proof.
  induction fuel as [|fuel IH]; intros k mbs best bi bs HK HC LM HS; [cbn; lia|].
  destruct (negb (gnum =? 0) && (k =? gnum)) eqn:L.
  - apply andb_prop in L. destruct L as (L1 & L2). apply negb_true_iff, Nat.eqb_neq in L1. apply Nat.eqb_eq in L2. destruct HS as (S1 & S2 & S3 & S4).
    destruct best as [b|]; [|exfalso; lia]. destruct bs as [bs|]; [|exfalso; lia]. cbn [option_map]. rewrite mpi_limit by assumption. exists k, []. split; [lia|]. split; [lia|]. split; [apply stop_limit; assumption|].
    rewrite app_nil_r. split; [apply flat_to_mpi|]. destruct b as [[f x] g]. destruct S1 as ((r & R1 & R2 & R3) & S1). split; [exists r; split; [exact R1|split; [exact (proj1 R2)|exact R3]]|]. split; [exact S1|]. split; [exact S3|exact S4].
  - assert (W : within k) by (apply not_limit; split; assumption).
    destruct (mpi_step fuel k mbs _ best bi bs HC W LM eq_refl) as (b & bs' & HB & HBS & LM' & ->). destruct HS as (S1 & S2 & S3 & S4).
    assert (NEW : mpi_state_ok (Datatypes.S k) (mbs_after k mbs) (Some b) (fold_left bi_step (gen_rows k) bi) (Some bs')).
    { assert (MB : mbs_ok (flat_map gen_rows (seq 0 (Datatypes.S k))) (mbs_after k mbs)).
      { destruct S2 as (seens & A & B). destruct (sub_populations_all (population k) p HP) as (subs & ES & CS & LS). assert (LSUB : length subs = p) by (rewrite <- (map_length (@length I)), LS; apply split_length).
        unfold mbs_after, subs_of. rewrite ES. destruct (mbs_step_ok (Datatypes.S k) subs 0 mbs seens ltac:(lia) A) as (seens' & A' & B'). exists seens'. split; [exact A'|]. intros r. rewrite B', concat_blocks, CS, <- gen_rows_from, flat_snoc, in_app_iff, B. reflexivity. }
      unfold mpi_state_ok. split; [|split; [exact MB|split]].
      - rewrite flat_snoc. apply (overall_step cmp P SWO _ _ best _ (Datatypes.S k)); [|intros r Hr; apply gen_rows_gen in Hr; exact Hr|intros r Hr; exact (PG k r Hr)|exact HB]. destruct best; [exact S1|]. rewrite S1. reflexivity.
      - rewrite flat_snoc. apply bi_fold_ok. exact S3.
      - apply (bests_ok _ _ _ (fun r Hr => match proj1 (in_flat_map _ _ _) Hr with ex_intro _ j (conj _ Hj) => PG j r Hj end) MB HBS). }
    assert (REP : report_ok (flat_map gen_rows (seq 0 k) ++ gen_rows k) (MpiBest (proj b) (fold_left bi_step (gen_rows k) bi) bs')).
    { rewrite <- flat_snoc. destruct NEW as (N1 & N2 & N3 & N4). destruct b as [[f x] g]. destruct N1 as ((r & R1 & R2 & R3) & N1). split; [exists r; split; [exact R1|split; [exact (proj1 R2)|exact R3]]|]. split; [exact N1|]. split; [exact N3|exact N4]. }
    assert (ROWS : flat_map mpi_gen (seq 0 (Datatypes.S k)) = map to_mpi (flat_map gen_rows (seq 0 k) ++ gen_rows k)) by (rewrite <- flat_snoc; apply flat_to_mpi).
    assert (PNE : population k <> []) by (intros E; pose proof (SIZE k HC) as LK; rewrite E in LK; cbn in LK; lia).
    destruct (existsb hit (gen_rows k)) eqn:E.
    + destruct (upto_some _ _ _ E) as (l0 & r & rest & E1 & E2 & E3 & E4). exists k, (gen_rows k). split; [lia|]. split; [lia|]. split; [apply (stop_desired _ _ _ _ _ _ _ _ _ _ true 2 k l0 r rest); assumption|]. split; [exact ROWS|exact REP].
    + pose proof (proj1 (no_hit _ _ _) E) as N. destruct (Nat.ltb_spec (length (selected k (population k))) 2) as [SM|SM].
      * destruct ((p =? 1) || (negb (gnum =? 0) && (Datatypes.S k =? gnum))) eqn:Q.
        -- exists k, (gen_rows k). split; [lia|]. split; [lia|]. split; [apply stop_small; assumption|]. split; [exact ROWS|exact REP].
        -- apply orb_false_iff in Q. destruct Q as (Q1 & Q2). apply Nat.eqb_neq in Q1. exists k. split; [lia|]. split; [lia|]. split; [apply stop_small; assumption|]. split; [exact Q1|]. split.
           { intros Q. rewrite Q, Nat.eqb_refl, andb_true_r in Q2. apply negb_false_iff, Nat.eqb_eq in Q2. lia. }
           split; [exact N|]. split; [exact SM|]. split; [exact ROWS|exact REP].
      * assert (CK : continues 2 k) by (split; [exact W|split; [exact PNE|split; [exact N|exact SM]]]).
        assert (HC' : forall j, j < Datatypes.S k -> continues 2 j) by (intros j Hj; destruct (Nat.eq_dec j k) as [->|NJ]; [exact CK|apply HC; lia]).
        specialize (IH (Datatypes.S k) (mbs_after k mbs) (Some b) (fold_left bi_step (gen_rows k) bi) (Some bs')). assert (A1 : gnum = 0 \/ Datatypes.S k <= gnum) by (destruct W; lia). specialize (IH A1 HC' LM' NEW). cbn [option_map] in IH.
        destruct (mpi_loop fuel p (Datatypes.S k) _ _ _ _ _ _) as [[rows bb]|[rows bb]| |]; cbn [mpi_result] in IH |- *.
        -- destruct IH as (m & last & M1 & M2 & M3). exists m, last. split; [lia|]. split; [intros j Hj; destruct (Nat.eq_dec j k) as [->|NJ]; [exact CK|apply M2; lia]|exact M3].
        -- destruct IH as (m & M1 & M2 & M3). exists m. split; [lia|]. split; [intros j Hj; destruct (Nat.eq_dec j k) as [->|NJ]; [exact CK|apply M2; lia]|exact M3].
        -- exact IH.
        -- intros j Hj. destruct (Nat.eq_dec j k) as [->|NJ]; [exact CK|apply IH; lia].
Qed.
Lemma mpi_start_ok : mpi_state_ok 0 (repeat None p) None (MpiRow 0 0 dummy) None.
Proof.
  split; [reflexivity|]. split; [|split; [split; [left; reflexivity|split; [intros r []|exact (proj1 SWO dummy)]]|reflexivity]]. exists (repeat [] p). split.
  - clear. induction p as [|q IH]; [constructor|]. cbn [repeat]. constructor; [reflexivity|exact IH].
  - intros r. cbn. split; [intros []|]. intros H. apply in_concat in H. destruct H as (l & Hl & Hr). apply repeat_spec in Hl. subst l. exact Hr.
Qed.
End Strict.
End Whole.
End Mpi.
