(** * Property theorems: genetic searches (C46-C48, C70-C72) *)
From Coq Require Import List Bool Arith NArith ZArith Lia.
From Verif Require Import F32 FOrder ExpModel ExpMpi GaModel GaSpec GaProofs GaMpi.
Import ListNotations.

Lemma dies_not_stops {I F S : Type} cmp desired reps gnum (run : nat -> nat -> nat -> I -> S) (fitness : nat -> nat -> list S -> F) selection crossover mutation init whole least m m' last :
  (forall k, k < m -> continues cmp desired reps gnum run fitness selection crossover mutation init least k) ->
  stops cmp desired reps gnum run fitness selection crossover mutation init whole least m last ->
  dies cmp desired reps gnum run fitness selection crossover mutation init least m' -> False.
Proof.
  intros C St (C' & W & P). destruct (Nat.lt_trichotomy m m') as [L|[<-|L]].
  - exact (stops_not_continues cmp desired reps gnum run fitness selection crossover mutation init _ _ _ _ St (C' m L)).
  - destruct St as [G E|l r rest W' E N R|W' P' N SM]; [destruct W; lia| |contradiction]. unfold gen_rows in E. rewrite P in E. destruct l; discriminate.
  - destruct (C m' L) as (_ & P' & _). contradiction.
Qed.

(** ** C46: the sequential search *)
(** What it returns: every generation that went on, and the last one up to the first
    individual that reaches the desired fitness. *)
Theorem C46_rows :
  forall (I F S : Type) cmp desired reps gnum (run : nat -> nat -> nat -> I -> S) (fitness : nat -> nat -> list S -> F) selection crossover mutation fuel init rows,
    (exists b, ga_sequential cmp desired reps gnum run fitness selection crossover mutation fuel init = Done (rows, b)) <->
    (exists m, m < fuel /\ search_rows cmp desired reps gnum run fitness selection crossover mutation init false 2 m rows).
Proof.
  intros I F S cmp desired reps gnum run fitness selection crossover mutation fuel init rows.
  pose proof (seq_loop_result cmp desired reps gnum run fitness selection crossover mutation init fuel 0 [] None (or_intror (Nat.le_0_l _)) (fun H => False_ind _ (H eq_refl))) as R. unfold ga_sequential.
  change (GaModel.seq_loop cmp desired reps gnum run fitness selection crossover mutation fuel 0 init [] None) with (GaModel.seq_loop cmp desired reps gnum run fitness selection crossover mutation fuel 0 (population reps run fitness selection crossover mutation init 0) [] None).
  split.
  - intros (b & E). rewrite E in R. destruct R as (m & last & M1 & M2 & M3 & M4). exists m. split; [lia|]. split; [intros k Hk; apply M2; lia|]. exists last. split; [exact M3|]. rewrite Nat.sub_0_r in M4. exact M4.
  - intros (m & Hm & C & last & St & ->). destruct (GaModel.seq_loop _ _ _ _ _ _ _ _ _ _ _ _ _ _) as [[rows b]|?| |] eqn:E; cbn in R.
    + exists b. do 2 f_equal. destruct R as (m' & last' & M1 & M2 & M3 & M4).
      assert (EM : m' = m) by (eapply stop_unique; [intros k Hk; apply M2; lia|exact M3|exact C|exact St]). subst m'. rewrite M4, Nat.sub_0_r. cbn [app]. f_equal. eapply last_unique; eassumption.
    + contradiction.
    + exfalso. destruct R as (m' & M1 & M2 & M3). eapply dies_not_stops with (m' := m'); [exact C|exact St|]. split; [intros k Hk; apply M2; lia|exact M3].
    + exfalso. eapply stops_not_continues; [exact St|]. apply R. lia.
Qed.
Print Assumptions C46_rows.
(** It panics exactly when it comes to a generation without individuals. *)
Theorem C46_panics :
  forall (I F S : Type) cmp desired reps gnum (run : nat -> nat -> nat -> I -> S) (fitness : nat -> nat -> list S -> F) selection crossover mutation fuel init,
    ga_sequential cmp desired reps gnum run fitness selection crossover mutation fuel init = Panic <->
    exists m, m < fuel /\ dies cmp desired reps gnum run fitness selection crossover mutation init 2 m.
Proof.
  intros I F S cmp desired reps gnum run fitness selection crossover mutation fuel init.
  pose proof (seq_loop_result cmp desired reps gnum run fitness selection crossover mutation init fuel 0 [] None (or_intror (Nat.le_0_l _)) (fun H => False_ind _ (H eq_refl))) as R. unfold ga_sequential.
  change (GaModel.seq_loop cmp desired reps gnum run fitness selection crossover mutation fuel 0 init [] None) with (GaModel.seq_loop cmp desired reps gnum run fitness selection crossover mutation fuel 0 (population reps run fitness selection crossover mutation init 0) [] None).
  split.
  - intros E. rewrite E in R. destruct R as (m & M1 & M2 & M3). exists m. split; [lia|]. split; [intros k Hk; apply M2; lia|exact M3].
  - intros (m & Hm & D). destruct (GaModel.seq_loop _ _ _ _ _ _ _ _ _ _ _ _ _ _) as [[rows b]|?| |] eqn:E; cbn in R; [exfalso|contradiction|reflexivity|exfalso].
    + destruct R as (m' & last' & M1 & M2 & M3 & M4). eapply dies_not_stops; [|exact M3|exact D]. intros k Hk. apply M2. lia.
    + destruct (R m) as (_ & P & _); [lia|]. destruct D as (_ & _ & P'). contradiction.
Qed.
Print Assumptions C46_panics.
(** At most [generation_num] generations. *)
Theorem C46_ends :
  forall (I F S : Type) cmp desired reps gnum (run : nat -> nat -> nat -> I -> S) (fitness : nat -> nat -> list S -> F) selection crossover mutation fuel init,
    gnum <> 0 -> gnum < fuel -> ga_sequential cmp desired reps gnum run fitness selection crossover mutation fuel init <> OutOfFuel.
Proof.
  intros I F S cmp desired reps gnum run fitness selection crossover mutation fuel init G H E.
  pose proof (seq_loop_result cmp desired reps gnum run fitness selection crossover mutation init fuel 0 [] None (or_intror (Nat.le_0_l _)) (fun H => False_ind _ (H eq_refl))) as R. unfold ga_sequential in E.
  change init with (population reps run fitness selection crossover mutation init 0) in E at 1. rewrite E in R. destruct (R gnum) as ([W|W] & _); lia.
Qed.
Print Assumptions C46_ends.
(** The reported best: an evaluated individual, with its fitness and generation, that no
    evaluated individual beats. *)
Theorem C46_best :
  forall (I F S : Type) cmp desired reps gnum (run : nat -> nat -> nat -> I -> S) (fitness : nat -> nat -> list S -> F) selection crossover mutation fuel init (P : F -> Prop) rows f x g,
    strict_weak_order cmp P -> scores_in reps run fitness selection crossover mutation init P ->
    ga_sequential cmp desired reps gnum run fitness selection crossover mutation fuel init = Done (rows, (f, x, g)) ->
    (exists r, In r rows /\ ga_fit r = f /\ ga_ind r = x /\ ga_gen r = as_u32 g) /\ (forall r, In r rows -> cmp (ga_fit r) f = false).
Proof.
  intros I F S cmp desired reps gnum run fitness selection crossover mutation fuel init P rows f x g SWO PG E.
  assert (O : overall_ok cmp rows (f, x, g)).
  { apply (seq_keep cmp desired reps gnum run fitness selection crossover mutation init P (overall_ok cmp) PG (overall_step cmp P SWO) fuel 0 [] None rows (f, x, g)); [lia|reflexivity|exact E]. }
  destruct O as ((r & R1 & (R2 & R3) & R4) & N). split; [exists r; repeat split; assumption|exact N].
Qed.
Print Assumptions C46_best.
(** The same for a comparison "at least as good". *)
Theorem C46_best_preorder :
  forall (I F S : Type) cmp desired reps gnum (run : nat -> nat -> nat -> I -> S) (fitness : nat -> nat -> list S -> F) selection crossover mutation fuel init (P : F -> Prop) rows f x g,
    total_preorder cmp P -> scores_in reps run fitness selection crossover mutation init P ->
    ga_sequential cmp desired reps gnum run fitness selection crossover mutation fuel init = Done (rows, (f, x, g)) ->
    (exists r, In r rows /\ ga_fit r = f /\ ga_ind r = x /\ ga_gen r = as_u32 g) /\ (forall r, In r rows -> cmp f (ga_fit r) = true).
Proof.
  intros I F S cmp desired reps gnum run fitness selection crossover mutation fuel init P rows f x g TP PG E.
  assert (O : overall_ok_t cmp rows (f, x, g) /\ P f).
  { apply (seq_keep cmp desired reps gnum run fitness selection crossover mutation init P (fun rows b => overall_ok_t cmp rows b /\ P (fst (fst b))) PG) with (fuel := fuel) (k := 0) (res := []) (best := None) (b := (f, x, g)); [|lia|reflexivity|exact E].
    intros rows0 rows' best b g0 HB HG HP HU. assert (O : overall_ok_t cmp (rows0 ++ rows') b).
    { apply (overall_step_t cmp P TP rows0 rows' best b g0); [destruct best; [exact (proj1 HB)|exact HB]|exact HG|exact HP| |exact HU]. intros f0 x0 g1 ->. exact (proj2 HB). }
    split; [exact O|]. unfold update_overall in HU. destruct (best_of cmp rows' None) as [[f1 x1]|] eqn:B; [|discriminate]. destruct (best_of_gen_t cmp P TP _ _ _ HP B) as ((r & Hr & <- & _) & _).
    destruct best as [[[f0 x0] g1]|]; [destruct (cmp (ga_fit r) f0)|]; injection HU as <-; [apply HP; exact Hr|exact (proj2 HB)|apply HP; exact Hr]. }
  destruct O as (((r & R1 & (R2 & R3) & R4) & N) & _). split; [exists r; repeat split; assumption|exact N].
Qed.
Print Assumptions C46_best_preorder.
(** [>] and [>=] on f32 without NaN are such comparisons. *)
Theorem C46_f32_orders :
  strict_weak_order fgtb (fun f => f32_is_nan f = false) /\ total_preorder fgeb (fun f => f32_is_nan f = false).
Proof.
  split; [split; [|split]|split].
  - intros a. apply SFltb_irrefl.
  - intros a b c H1 H2. exact (SFltb_trans _ _ _ H2 H1).
  - intros a b c N H1 H2. exact (SFltb_negtrans _ _ _ N H2 H1).
  - intros a b NA NB. unfold fgeb. rewrite !SFleb_not by assumption. destruct (SFltb a b) eqn:E; [|left; reflexivity]. right. apply negb_true_iff. apply (SFltb_not b a NB NA). left. exact E.
  - intros a b c H1 H2. unfold fgeb in *. assert (N : f32_is_nan a = false /\ f32_is_nan b = false /\ f32_is_nan c = false).
    { destruct a, b, c; repeat split; try reflexivity; unfold SFleb in *; cbn in *; discriminate. }
    destruct N as (NA & NB & NC). rewrite SFleb_not in * by assumption. apply negb_true_iff in H1, H2. apply negb_true_iff. exact (SFltb_negtrans _ _ _ NB H1 H2).
Qed.
Print Assumptions C46_f32_orders.
(** With NaN the reported best may be NaN although numbers were found. *)
Theorem C46_nan_refuted :
  exists rows b, ga_sequential fgtb (f_of_Z 100) 1 1 (fun _ _ _ (x : f32) => x) (fun _ _ l => hd f0 l) (fun _ l => l) (fun _ l => l) (fun _ _ x => x) 5 [S754_nan; f1; f2] = Done (rows, b) /\
    map (fun r => ga_fit r) rows = [S754_nan; f1; f2] /\ b = (S754_nan, S754_nan, 1).
Proof. eexists _, _. split; [vm_compute; reflexivity|]. split; reflexivity. Qed.
Print Assumptions C46_nan_refuted.
(** A search over numbers: fitness is the number, the two best are selected, crossover
    duplicates them, mutation adds the index. *)
Definition ex_selection (_ : nat) (l : list (nat * nat)) : list (nat * nat) := skipn (length l - 2) l.
Definition ex_crossover (_ : nat) (l : list nat) : list nat := l ++ l.
Definition ex_mutation (_ i x : nat) : nat := x + i.
Example C46_concrete :
  strict_weak_order (fun a b => b <? a) (fun _ => True) /\
  ga_sequential (fun a b => b <? a) 7 1 5 (fun _ _ _ (x : nat) => x) (fun _ _ l => hd 0 l) ex_selection ex_crossover ex_mutation 9 [1; 2; 3; 4] =
  Done ([GaRow 1 0 1 1; GaRow 1 1 2 2; GaRow 1 2 3 3; GaRow 1 3 4 4; GaRow 2 0 3 3; GaRow 2 1 5 5; GaRow 2 2 5 5; GaRow 2 3 7 7; GaRow 3 0 5 5; GaRow 3 1 8 8], (8, 8, 3)).
Proof.
  split; [|vm_compute; reflexivity]. split; [intros a; apply Nat.ltb_irrefl|]. split.
  - intros a b c H1 H2. apply Nat.ltb_lt in H1, H2. apply Nat.ltb_lt. lia.
  - intros a b c _ H1 H2. apply Nat.ltb_ge in H1, H2. apply Nat.ltb_ge. lia.
Qed.

(** ** C47: the parallel search *)
Theorem C47_rows :
  forall (I F S : Type) cmp desired reps gnum (run : nat -> nat -> nat -> I -> S) (fitness : nat -> nat -> list S -> F) selection crossover mutation fuel init rows b,
    ga_parallel cmp desired reps gnum run fitness selection crossover mutation fuel init = Done (rows, b) ->
    exists m, m < fuel /\ search_rows cmp desired reps gnum run fitness selection crossover mutation init true 1 m (map fst rows).
Proof.
  intros I F S cmp desired reps gnum run fitness selection crossover mutation fuel init rows b E.
  pose proof (par_loop_result cmp desired reps gnum run fitness selection crossover mutation init fuel 0 [] None (or_intror (Nat.le_0_l _)) (fun H => False_ind _ (H eq_refl))) as R. unfold ga_parallel in E.
  change init with (population reps run fitness selection crossover mutation init 0) in E at 1. rewrite E in R. destruct R as (m & last & M1 & M2 & M3 & M4). exists m. split; [lia|]. split; [intros k Hk; apply M2; lia|]. exists last. split; [exact M3|].
  rewrite M4, Nat.sub_0_r. cbn [app]. rewrite map_app. f_equal.
  - clear. generalize (seq 0 m). induction l as [|k l IH]; [reflexivity|]. cbn [flat_map]. rewrite map_app, IH. f_equal. unfold shown_gen. rewrite map_map. cbn [shown fst]. apply map_id.
  - rewrite map_map. cbn [shown fst]. apply map_id.
Qed.
Print Assumptions C47_rows.
(** And it does return them. *)
Theorem C47_returns :
  forall (I F S : Type) cmp desired reps gnum (run : nat -> nat -> nat -> I -> S) (fitness : nat -> nat -> list S -> F) selection crossover mutation fuel init m rows,
    m < fuel -> search_rows cmp desired reps gnum run fitness selection crossover mutation init true 1 m rows ->
    exists rows' b, ga_parallel cmp desired reps gnum run fitness selection crossover mutation fuel init = Done (rows', b) /\ map fst rows' = rows.
Proof.
  intros I F S cmp desired reps gnum run fitness selection crossover mutation fuel init m rows Hm (C & last & St & ->).
  pose proof (par_loop_result cmp desired reps gnum run fitness selection crossover mutation init fuel 0 [] None (or_intror (Nat.le_0_l _)) (fun H => False_ind _ (H eq_refl))) as R.
  destruct (ga_parallel cmp desired reps gnum run fitness selection crossover mutation fuel init) as [[rows' b']|?| |] eqn:E'; unfold ga_parallel in E'; change init with (population reps run fitness selection crossover mutation init 0) in E' at 1; rewrite E' in R; cbn in R.
  - exists rows', b'. split; [reflexivity|]. destruct (C47_rows _ _ _ _ _ _ _ _ _ _ _ _ _ _ _ _ E') as (m' & _ & C' & last' & St' & ->).
    assert (EM : m' = m) by (eapply stop_unique; [exact C'|exact St'|exact C|exact St]). subst m'. f_equal. eapply last_unique; eassumption.
  - contradiction.
  - exfalso. destruct R as (m' & M1 & M2 & M3). eapply dies_not_stops with (m' := m'); [exact C|exact St|]. split; [intros k Hk; apply M2; lia|exact M3].
  - exfalso. eapply stops_not_continues; [exact St|]. apply R. lia.
Qed.
Print Assumptions C47_returns.
(** Its rows begin with the rows of the sequential search. *)
Theorem C47_extends :
  forall (I F S : Type) cmp desired reps gnum (run : nat -> nat -> nat -> I -> S) (fitness : nat -> nat -> list S -> F) selection crossover mutation fuel fuel' init rows b rows' b',
    ga_sequential cmp desired reps gnum run fitness selection crossover mutation fuel init = Done (rows, b) ->
    ga_parallel cmp desired reps gnum run fitness selection crossover mutation fuel' init = Done (rows', b') ->
    exists rest, map fst rows' = rows ++ rest.
Proof.
  intros I F S cmp desired reps gnum run fitness selection crossover mutation fuel fuel' init rows b rows' b' E E'.
  destruct (proj1 (C46_rows _ _ _ _ _ _ _ _ _ _ _ _ _ _ _) (ex_intro _ _ E)) as (m & _ & C & last & St & ->). destruct (C47_rows _ _ _ _ _ _ _ _ _ _ _ _ _ _ _ _ E') as (m' & _ & C' & last' & St' & ->).
  destruct (Nat.lt_trichotomy m m') as [L|[EM|L]].
  - assert (EL : last = gen_rows reps run fitness selection crossover mutation init m).
    { destruct (C' m L) as (W & P & N & _). destruct St as [G EG|l r rest W' EG N' R|W' P' N' SM]; [destruct W; lia| |reflexivity]. exfalso. apply (N r); [rewrite EG; apply in_elt|exact R]. }
    replace m' with (Datatypes.S m + (m' - Datatypes.S m)) by lia. rewrite seq_app, flat_map_app. exists (flat_map (gen_rows reps run fitness selection crossover mutation init) (seq (0 + Datatypes.S m) (m' - Datatypes.S m)) ++ last').
    rewrite seq_S, flat_map_app. cbn [flat_map Nat.add]. rewrite app_nil_r, EL, <- !app_assoc. reflexivity.
  - subst m'. assert (Q : exists rest, last' = last ++ rest).
    { destruct St as [G EG|l r rest W EG N R|W P N SM]; [exists last'; reflexivity| |].
      - destruct St' as [G' EG'|l' r' rest' W' EG' N' R'|W' P' N' SM']; [destruct W; lia|exists rest; rewrite EG, <- app_assoc; reflexivity|]. exists rest. rewrite EG, <- app_assoc. reflexivity.
      - destruct St' as [G' EG'|l' r' rest' W' EG' N' R'|W' P' N' SM']; [destruct W; lia|exists []; rewrite app_nil_r; reflexivity|exists []; rewrite app_nil_r; reflexivity]. }
    destruct Q as (rest & ->). exists rest. rewrite app_assoc. reflexivity.
  - exfalso. eapply stops_not_continues; [exact St'|]. eapply continues_le; [|apply C; exact L]. lia.
Qed.
Print Assumptions C47_extends.
(** If no selection leaves a single individual, it stops in the same generation, which it
    evaluates to the end. *)
Theorem C47_same_stop_partial :
  forall (I F S : Type) cmp desired reps gnum (run : nat -> nat -> nat -> I -> S) (fitness : nat -> nat -> list S -> F) selection crossover mutation fuel init rows b,
    (forall k, length (selected reps run fitness selection k (population reps run fitness selection crossover mutation init k)) <> 1) ->
    ga_sequential cmp desired reps gnum run fitness selection crossover mutation fuel init = Done (rows, b) ->
    exists m rows' b', ga_parallel cmp desired reps gnum run fitness selection crossover mutation fuel init = Done (rows', b') /\
      search_rows cmp desired reps gnum run fitness selection crossover mutation init false 2 m rows /\
      search_rows cmp desired reps gnum run fitness selection crossover mutation init true 2 m (map fst rows').
Proof.
  intros I F S cmp desired reps gnum run fitness selection crossover mutation fuel init rows b H1 E.
  destruct (proj1 (C46_rows _ _ _ _ _ _ _ _ _ _ _ _ _ _ _) (ex_intro _ _ E)) as (m & Hm & SR).
  assert (C12 : forall k, continues cmp desired reps gnum run fitness selection crossover mutation init 1 k -> continues cmp desired reps gnum run fitness selection crossover mutation init 2 k).
  { intros k (A & B & C & D). split; [exact A|split; [exact B|split; [exact C|]]]. specialize (H1 k). lia. }
  pose proof SR as SR'. destruct SR' as (C & last & St & _).
  pose proof (par_loop_result cmp desired reps gnum run fitness selection crossover mutation init fuel 0 [] None (or_intror (Nat.le_0_l _)) (fun H => False_ind _ (H eq_refl))) as R.
  destruct (ga_parallel cmp desired reps gnum run fitness selection crossover mutation fuel init) as [[rows' b']|?| |] eqn:E'; unfold ga_parallel in E'; change init with (population reps run fitness selection crossover mutation init 0) in E' at 1; rewrite E' in R; cbn in R.
  - exists m, rows', b'. split; [reflexivity|]. split; [exact SR|]. destruct (C47_rows _ _ _ _ _ _ _ _ _ _ _ _ _ _ _ _ E') as (m' & _ & C' & last' & St' & ER).
    assert (St2 : stops cmp desired reps gnum run fitness selection crossover mutation init true 2 m' last').
    { destruct St' as [G EG|l r rest W EG N RR|W P N SM]; [apply stop_limit; assumption|apply (stop_desired _ _ _ _ _ _ _ _ _ _ true 2 m' l r rest); assumption|apply stop_small; try assumption; lia]. }
    assert (C2 : forall k, k < m' -> continues cmp desired reps gnum run fitness selection crossover mutation init 2 k) by (intros k Hk; apply C12, C', Hk).
    assert (EM : m' = m) by (eapply stop_unique; [exact C2|exact St2|exact C|exact St]). subst m'. split; [exact C2|]. exists last'. split; [exact St2|exact ER].
  - contradiction.
  - exfalso. destruct R as (m' & M1 & M2 & M3). eapply dies_not_stops with (m' := m'); [exact C|exact St|]. split; [intros k Hk; apply C12, M2; lia|exact M3].
  - exfalso. eapply stops_not_continues; [exact St|]. apply C12, R. lia.
Qed.
Print Assumptions C47_same_stop_partial.
(** When a selection leaves one individual the sequential search stops and the parallel
    one goes on. *)
Theorem C47_refuted :
  exists rows b rows' b',
    ga_sequential (fun a b => b <? a) 100 1 3 (fun _ _ _ (x : nat) => x) (fun _ _ l => hd 0 l) (fun _ l => firstn 1 l) (fun _ l => l) (fun _ _ x => x + 1) 5 [1; 2] = Done (rows, b) /\
    ga_parallel (fun a b => b <? a) 100 1 3 (fun _ _ _ (x : nat) => x) (fun _ _ l => hd 0 l) (fun _ l => firstn 1 l) (fun _ l => l) (fun _ _ x => x + 1) 5 [1; 2] = Done (rows', b') /\
    map (fun r => ga_gen r) rows = [1; 1]%N /\ map (fun r => ga_gen (fst r)) rows' = [1; 1; 2; 3]%N /\ b = (2, 2, 1) /\ b' = (3, 3, 3).
Proof. eexists _, _, _, _. split; [vm_compute; reflexivity|]. split; [vm_compute; reflexivity|]. repeat split. Qed.
Print Assumptions C47_refuted.
(** Its best is right, too. *)
Theorem C47_best :
  forall (I F S : Type) cmp desired reps gnum (run : nat -> nat -> nat -> I -> S) (fitness : nat -> nat -> list S -> F) selection crossover mutation fuel init (P : F -> Prop) rows f x g,
    strict_weak_order cmp P -> scores_in reps run fitness selection crossover mutation init P ->
    ga_parallel cmp desired reps gnum run fitness selection crossover mutation fuel init = Done (rows, (f, x, g)) ->
    (exists r, In r (map fst rows) /\ ga_fit r = f /\ ga_ind r = x /\ ga_gen r = as_u32 g) /\ (forall r, In r (map fst rows) -> cmp (ga_fit r) f = false).
Proof.
  intros I F S cmp desired reps gnum run fitness selection crossover mutation fuel init P rows f x g SWO PG E.
  assert (O : overall_ok cmp (map fst rows) (f, x, g)).
  { apply (par_keep cmp desired reps gnum run fitness selection crossover mutation init P (overall_ok cmp) PG (overall_step cmp P SWO) fuel 0 [] None rows (f, x, g)); [lia|reflexivity|exact E]. }
  destruct O as ((r & R1 & (R2 & R3) & R4) & N). split; [exists r; repeat split; assumption|exact N].
Qed.
Print Assumptions C47_best.
(** Every row shows the state of the last repetition of its individual. *)
Theorem C47_states :
  forall (I F S : Type) cmp desired reps gnum (run : nat -> nat -> nat -> I -> S) (fitness : nat -> nat -> list S -> F) selection crossover mutation fuel init rows b r s,
    ga_parallel cmp desired (Datatypes.S reps) gnum run fitness selection crossover mutation fuel init = Done (rows, b) -> In (r, s) rows ->
    exists g, ga_gen r = as_u32 g /\ s = Some (run g (ga_index r) reps (ga_ind r)).
Proof.
  intros I F S cmp desired reps gnum run fitness selection crossover mutation fuel init rows b r s E Hr.
  pose proof (par_loop_result cmp desired (Datatypes.S reps) gnum run fitness selection crossover mutation init fuel 0 [] None (or_intror (Nat.le_0_l _)) (fun H => False_ind _ (H eq_refl))) as R. unfold ga_parallel in E.
  change init with (population (Datatypes.S reps) run fitness selection crossover mutation init 0) in E at 1. rewrite E in R. destruct R as (m & last & M1 & M2 & M3 & ->).
  assert (LO : forall X (l : list X) x, last_of (l ++ [x]) = Some x) by (intros X l x; induction l as [|y l IH]; [reflexivity|]; cbn [app last_of]; rewrite IH; destruct (l ++ [x]) eqn:Q; [destruct l; discriminate|reflexivity]).
  assert (SH : forall k r, last_of (computed (Datatypes.S reps) run (Datatypes.S k) (ga_index (r : ga_row I F)) (ga_ind r)) = Some (run (Datatypes.S k) (ga_index r) reps (ga_ind r))).
  { intros k r'. unfold computed. rewrite seq_S, map_app. cbn [map Nat.add]. apply LO. }
  assert (G : exists k, In (r, s) (map (shown (Datatypes.S reps) run (Datatypes.S k)) (gen_rows (Datatypes.S reps) run fitness selection crossover mutation init k))).
  { apply in_app_or in Hr. destruct Hr as [[]|Hr]. apply in_app_or in Hr. destruct Hr as [Hr|Hr].
    - apply in_flat_map in Hr. destruct Hr as (k & _ & Hr). exists k. exact Hr.
    - exists m. destruct M3 as [G EG|l r0 rest W EG N RR|W P N SM]; [destruct Hr|exact Hr|exact Hr]. }
  destruct G as (k & Hk). apply in_map_iff in Hk. destruct Hk as (r' & Er & Hr'). unfold shown in Er. injection Er as <- <-. exists (Datatypes.S k). split; [apply gen_rows_gen in Hr'; exact Hr'|apply SH].
Qed.
Print Assumptions C47_states.
Example C47_concrete :
  exists rows b, ga_parallel (fun a b => b <? a) 7 2 5 (fun g i r (x : nat) => (g, i, r, x)) (fun _ _ l => match l with (_, _, _, x) :: _ => x | [] => 0 end) ex_selection ex_crossover ex_mutation 9 [1; 2; 3; 4] = Done (rows, b) /\
    length rows = 12 /\ b = (10, 10, 3) /\ nth_error rows 5 = Some (GaRow 2 1 5 5, Some (2, 1, 1, 5)).
Proof. eexists _, _. split; [vm_compute; reflexivity|]. repeat split. Qed.

(** ** C48: the distributed search splits the population *)
Theorem C48_split :
  forall (I : Type) (pop : list I) p, p <> 0 ->
    exists subs, sub_populations pop 0 (pop_counts (length pop) p) = Some subs /\
      concat subs = pop /\ map (@length I) subs = pop_counts (length pop) p /\ length subs = p /\
      (forall a b, In a subs -> In b subs -> length a <= length b + 1).
Proof.
  intros I pop p HP. destruct (sub_populations_all pop p HP) as (subs & E & C & L). exists subs. split; [exact E|]. split; [exact C|]. split; [exact L|].
  assert (LP : length subs = p) by (rewrite <- (map_length (@length I)), L; apply split_length). split; [exact LP|].
  assert (G : forall a, In a subs -> length pop / p <= length a <= length pop / p + 1).
  { intros a Ha. apply (in_map (@length I)) in Ha. rewrite L in Ha. apply In_nth with (d := 0) in Ha. destruct Ha as (i & Hi & Ei). unfold pop_counts in Hi, Ei. rewrite split_length in Hi. rewrite split_nth in Ei by exact Hi. destruct (i <? _); lia. }
  intros a b Ha Hb. specialize (G a Ha) as Ga. specialize (G b Hb) as Gb. lia.
Qed.
Print Assumptions C48_split.
(** After the gather, row [i] has index [i] and the score of individual [i], whatever the
    ranks found before. *)
Theorem C48_indices :
  forall (I F S : Type) cmp desired reps (run : nat -> nat -> nat -> I -> S) (fitness : nat -> nat -> list S -> F) (dummy : F) g (pop : list I) p subs mbs bg bi,
    p <> 0 -> length mbs = p -> sub_populations pop 0 (pop_counts (length pop) p) = Some subs ->
    let '(rowss, _, _) := ranks_gen cmp desired reps run fitness g 0 subs mbs in
    exists partial rows bg' bi',
      gather (pop_counts (length pop) p) (displacements (pop_counts (length pop) p)) rowss (repeat (MpiRow (as_u32 g) 0 dummy) (length pop)) = Some partial /\
      walk cmp partial (pop_counts (length pop) p) (displacements (pop_counts (length pop) p)) 0 0 bg bi = Some (rows, bg', bi') /\
      length rows = length pop /\
      forall i x, nth_error pop i = Some x -> nth_error rows i = Some (MpiRow (as_u32 g) i (score reps run fitness g i x)).
Proof.
  intros I F S cmp desired reps run fitness dummy g pop p subs mbs bg bi HP LM ES. destruct (sub_populations_all pop p HP) as (subs' & E & C & L). rewrite ES in E. injection E as <-.
  assert (LP : length subs = p) by (rewrite <- (map_length (@length I)), L; apply split_length).
  rewrite ranks_gen_eq by lia. destruct (generation_rows cmp reps run fitness dummy g pop p subs bg bi HP ES) as (partial & G1 & G2). eexists partial, _, _, _. split; [exact G1|]. split; [exact G2|]. split; [rewrite map_length; apply rows_from_length|].
  intros i x Hx. unfold rows_from. rewrite !nth_error_map.
  assert (G : forall l j k, nth_error l k = Some x -> nth_error (combine (seq j (length l)) l) k = Some (j + k, x)).
  { induction l as [|y l IH]; intros j k Hk; [destruct k; discriminate|]. destruct k as [|k]; cbn in *; [injection Hk as ->; rewrite Nat.add_0_r; reflexivity|]. rewrite (IH (Datatypes.S j) k Hk). do 2 f_equal. lia. }
  rewrite (G pop 0 i Hx). reflexivity.
Qed.
Print Assumptions C48_indices.
Example C48_concrete :
  pop_counts 7 3 = [3; 2; 2] /\ sub_populations [10; 11; 12; 13; 14; 15; 16] 0 (pop_counts 7 3) = Some [[10; 11; 12]; [13; 14]; [15; 16]] /\
  (let '(rowss, _, _) := ranks_gen (fun a b => b <? a) 100 1 (fun _ _ _ (x : nat) => x) (fun _ _ l => hd 0 l) 1 0 [[10; 11; 12]; [13; 14]; [15; 16]] [None; None; None] in
   map (map (fun r => m_index r)) rowss) = [[0; 1; 2]; [0; 1]; [0; 1]].
Proof. vm_compute. repeat split. Qed.

(** ** C70: the distributed search evaluates the generations of the specification *)
(** As long as all populations have one size, at least the number of processes, and no
    fitness is 1000. *)
Theorem C70_mpi_partial :
  forall (I F S : Type) cmp desired reps gnum (run : nat -> nat -> nat -> I -> S) (fitness : nat -> nat -> list S -> F) selection crossover mutation dummy is_dummy init (P : F -> Prop) p n fuel,
    p <> 0 -> p <= n ->
    (forall k, (forall j, j < k -> continues cmp desired reps gnum run fitness selection crossover mutation init 2 j) -> length (population reps run fitness selection crossover mutation init k) = n) ->
    (forall k r, In r (gen_rows reps run fitness selection crossover mutation init k) -> is_dummy (ga_fit r) = false) ->
    strict_weak_order cmp P -> scores_in reps run fitness selection crossover mutation init P ->
    match ga_mpi cmp desired reps gnum run fitness selection crossover mutation dummy is_dummy fuel p init with
    | Done (rows, _) | RootOnly (rows, _) => exists m rows', search_rows cmp desired reps gnum run fitness selection crossover mutation init true 2 m rows' /\
        rows = map (fun r => MpiRow (ga_gen r) (ga_index r) (ga_fit r)) rows'
    | Panic => False
    | OutOfFuel => forall j, j < fuel -> continues cmp desired reps gnum run fitness selection crossover mutation init 2 j
    end.
Proof.
  intros I F S cmp desired reps gnum run fitness selection crossover mutation dummy is_dummy init P p n fuel HP PN SIZE ND SWO PG.
  pose proof (mpi_loop_result cmp desired reps gnum run fitness selection crossover mutation dummy is_dummy init p n HP PN SIZE ND P SWO PG fuel 0 (repeat None p) None (MpiRow 0 0 dummy) None (or_intror (Nat.le_0_l _)) ltac:(lia) (repeat_length _ _) (mpi_start_ok cmp reps run fitness selection crossover mutation dummy init p P SWO)) as R.
  unfold ga_mpi. cbn [seq flat_map option_map population] in R. destruct (mpi_loop _ _ _ _ _ _ _ _ _ _ _ _ _ _ _ _ _ _ _ _) as [[rows b]|[rows b]| |]; cbn [mpi_result] in R.
  - destruct R as (m & last & M1 & M2 & M3 & M4 & M5). exists m, (flat_map (gen_rows reps run fitness selection crossover mutation init) (seq 0 m) ++ last). split; [|exact M4]. split; [intros k Hk; apply M2; lia|exists last; split; [exact M3|reflexivity]].
  - destruct R as (m & M1 & M2 & M3 & _ & _ & _ & _ & M4 & M5). exists m, (flat_map (gen_rows reps run fitness selection crossover mutation init) (seq 0 m) ++ gen_rows reps run fitness selection crossover mutation init m). split; [|exact M4]. split; [intros k Hk; apply M2; lia|eexists; split; [exact M3|reflexivity]].
  - exact R.
  - intros j Hj. apply R. lia.
Qed.
Print Assumptions C70_mpi_partial.
Definition max_nat (a b : nat) : bool := b <? a.
(** When the size shrinks, the second generation is selected by the fitness values of
    the first: the selection after generation 1 leaves 30 and 40, and the one after
    generation 2 records in its result the individuals and the fitness values it is
    given: those of generation 1. *)
Definition max_N (a b : N) : bool := (b <? a)%N.
Definition rec_selection (g : nat) (l : list (N * N)) : list (N * N) :=
  if g =? 1 then [(30, 0); (40, 0)]%N else map (fun xf => (1000 * fst xf + snd xf, 0)%N) l.
Theorem C70_size_refuted :
  exists rows b rows' b',
    ga_mpi max_N 1000000%N 1 3 (fun _ _ _ (x : N) => x) (fun _ _ l => hd 0%N l) rec_selection (fun _ l => l) (fun _ _ x => x) 1000%N (fun f => (f =? 1000)%N) 5 2 [5; 6; 7; 8]%N = Done (rows, b) /\
    ga_parallel max_N 1000000%N 1 3 (fun _ _ _ (x : N) => x) (fun _ _ l => hd 0%N l) rec_selection (fun _ l => l) (fun _ _ x => x) 5 [5; 6; 7; 8]%N = Done (rows', b') /\
    map (fun r => m_fit r) rows = [5; 6; 7; 8; 30; 40; 30007; 40008]%N /\ map (fun r => ga_fit (fst r)) rows' = [5; 6; 7; 8; 30; 40; 30030; 40040]%N.
Proof. eexists _, _, _, _. split; [vm_compute; reflexivity|]. split; [vm_compute; reflexivity|]. split; reflexivity. Qed.
Print Assumptions C70_size_refuted.
(** When it grows, the root panics. *)
Theorem C70_grow_refuted :
  ga_mpi max_N 1000000%N 1 3 (fun _ _ _ (x : N) => x) (fun _ _ l => hd 0%N l) (fun _ l => l) (fun _ l => l ++ l) (fun _ _ x => x) 1000%N (fun f => (f =? 1000)%N) 5 2 [5; 6; 7; 8]%N = Panic.
Proof. vm_compute. reflexivity. Qed.
Print Assumptions C70_grow_refuted.
(** A fitness of 1000 panics, in any search on any number of processes. *)
Theorem C70_thousand_refuted :
  forall (I F S : Type) cmp desired reps gnum (run : nat -> nat -> nat -> I -> S) (fitness : nat -> nat -> list S -> F) selection crossover mutation dummy is_dummy init p fuel i x,
    p <> 0 -> nth_error init i = Some x -> is_dummy (score reps run fitness 1 i x) = true -> fuel <> 0 ->
    ga_mpi cmp desired reps gnum run fitness selection crossover mutation dummy is_dummy fuel p init = Panic.
Proof.
  intros I F S cmp desired reps gnum run fitness selection crossover mutation dummy is_dummy init p fuel i x HP Hx D HF. destruct fuel as [|fuel]; [contradiction|]. unfold ga_mpi. cbn [mpi_loop].
  assert (G0 : negb (gnum =? 0) && (0 =? gnum) = false) by (destruct gnum; reflexivity). rewrite G0. cbn [Nat.add].
  destruct (sub_populations_all init p HP) as (subs & ES & CS & LS). rewrite ES. pose proof (C48_indices I F S cmp desired reps run fitness dummy 1 init p subs (repeat None p) None (MpiRow 0 0 dummy) HP (repeat_length _ _) ES) as C.
  destruct (ranks_gen cmp desired reps run fitness 1 0 subs (repeat None p)) as [[rowss mbs] flags]. destruct C as (partial & rows & bg & bi & G & W & LR & N). destruct (all_some mbs) as [[|b0 bl]|]; [reflexivity| |reflexivity]. rewrite G, W.
  assert (EX : existsb (fun r => is_dummy (m_fit r)) rows = true). { apply existsb_exists. exists (MpiRow (as_u32 1) i (score reps run fitness 1 i x)). split; [apply (nth_error_In _ i); apply N; exact Hx|exact D]. }
  rewrite EX. reflexivity.
Qed.
Print Assumptions C70_thousand_refuted.
(** Fewer individuals than processes panic (in a rank without individuals). *)
Theorem C70_few_refuted :
  forall (I F S : Type) cmp desired reps gnum (run : nat -> nat -> nat -> I -> S) (fitness : nat -> nat -> list S -> F) selection crossover mutation dummy is_dummy init p fuel,
    length init < p -> fuel <> 0 -> ga_mpi cmp desired reps gnum run fitness selection crossover mutation dummy is_dummy fuel p init = Panic.
Proof.
  intros I F S cmp desired reps gnum run fitness selection crossover mutation dummy is_dummy init p fuel HL HF. destruct fuel as [|fuel]; [contradiction|]. unfold ga_mpi. cbn [mpi_loop].
  assert (G0 : negb (gnum =? 0) && (0 =? gnum) = false) by (destruct gnum; reflexivity). rewrite G0. cbn [Nat.add]. assert (HP : p <> 0) by lia.
  destruct (sub_populations_all init p HP) as (subs & ES & CS & LS). rewrite ES. assert (LP : length subs = p) by (rewrite <- (map_length (@length I)), LS; apply split_length).
  rewrite ranks_gen_eq by (rewrite repeat_length; lia).
  assert (Q : In [] subs).
  { destruct (in_dec Nat.eq_dec 0 (map (@length I) subs)) as [J|J]; [apply in_map_iff in J; destruct J as (l & L0 & Hl); apply length_zero_iff_nil in L0; subst l; exact Hl|]. exfalso.
    assert (length (concat subs) >= length subs). { clear -J. induction subs as [|s subs IH]; [cbn; lia|]. cbn [concat map length] in *. rewrite app_length. assert (length s <> 0) by (intros E; apply J; left; exact E). assert (length (concat subs) >= length subs) by (apply IH; intros E; apply J; right; exact E). lia. }
    rewrite CS in H. lia. }
  assert (NN : forall subs d p, In [] subs -> length subs = p -> all_some (mbs_step cmp reps run fitness 1 d subs (repeat None p)) = None).
  { clear. induction subs as [|s subs IH]; intros d p Q LP; [destruct Q|]. destruct p as [|p]; [discriminate|]. cbn [repeat mbs_step]. destruct Q as [->|Q]; [reflexivity|]. cbn [all_some]. destruct (fold_left _ _ None); [|reflexivity]. rewrite IH; [reflexivity|exact Q|cbn in LP; lia]. }
  rewrite NN by assumption. reflexivity.
Qed.
Print Assumptions C70_few_refuted.
Lemma ex_selected g pop : 2 <= length pop -> length (ex_selection g (scored 1 (fun _ _ _ (x : nat) => x) (fun _ _ l => hd 0 l) g pop)) = 2.
Proof. intros L. unfold ex_selection, scored, numbered. rewrite skipn_length, map_length, combine_length, seq_length. lia. Qed.
Lemma ex_population k : length (population 1 (fun _ _ _ (x : nat) => x) (fun _ _ l => hd 0 l) ex_selection ex_crossover ex_mutation [1; 2; 3; 4] k) = 4.
Proof.
  induction k as [|k IH]; [reflexivity|]. cbn [population]. unfold numbered at 1. rewrite map_length, combine_length, seq_length, Nat.min_id. unfold ex_crossover at 1. rewrite app_length, map_length. unfold selected.
  rewrite ex_selected by lia. reflexivity.
Qed.
(** The hypotheses of [C70_mpi_partial] hold of the search above on three processes (with
    a dummy that no number is). *)
Example C70_concrete :
  (forall k, length (population 1 (fun _ _ _ (x : nat) => x) (fun _ _ l => hd 0 l) ex_selection ex_crossover ex_mutation [1; 2; 3; 4] k) = 4) /\ 3 <= 4 /\ 3 <> 0 /\
  strict_weak_order max_nat (fun _ => True) /\
  (exists rows b, ga_mpi max_nat 7 1 5 (fun _ _ _ (x : nat) => x) (fun _ _ l => hd 0 l) ex_selection ex_crossover ex_mutation 1000 (fun _ => false) 9 3 [1; 2; 3; 4] = Done (rows, b) /\
    map (fun r => m_fit r) rows = [1; 2; 3; 4; 3; 5; 5; 7; 5; 8; 7; 10] /\ map (fun r => m_index r) rows = [0; 1; 2; 3; 0; 1; 2; 3; 0; 1; 2; 3]).
Proof.
  split; [exact ex_population|]. split; [lia|]. split; [lia|]. split; [exact (proj1 C46_concrete)|]. eexists _, _. split; [vm_compute; reflexivity|]. split; reflexivity.
Qed.

(** ** C71: what the distributed search reports as best *)
(** Under the same hypotheses the reported fitness and generation, and the individual
    shown, are those of individuals no evaluated individual beats; the reported row is
    such a row or still the dummy with fitness 1000, and not worse than the dummy. *)
Theorem C71_report_partial :
  forall (I F S : Type) cmp desired reps gnum (run : nat -> nat -> nat -> I -> S) (fitness : nat -> nat -> list S -> F) selection crossover mutation dummy is_dummy init (P : F -> Prop) p n fuel rows f g row x,
    p <> 0 -> p <= n ->
    (forall k, (forall j, j < k -> continues cmp desired reps gnum run fitness selection crossover mutation init 2 j) -> length (population reps run fitness selection crossover mutation init k) = n) ->
    (forall k r, In r (gen_rows reps run fitness selection crossover mutation init k) -> is_dummy (ga_fit r) = false) ->
    strict_weak_order cmp P -> scores_in reps run fitness selection crossover mutation init P ->
    ga_mpi cmp desired reps gnum run fitness selection crossover mutation dummy is_dummy fuel p init = Done (rows, MpiBest (f, g) row x) ->
    exists m rows', search_rows cmp desired reps gnum run fitness selection crossover mutation init true 2 m rows' /\
      (exists r, In r rows' /\ ga_fit r = f /\ ga_gen r = as_u32 g) /\ (forall r, In r rows' -> cmp (ga_fit r) f = false) /\
      (exists r, In r rows' /\ ga_ind r = x /\ forall r', In r' rows' -> cmp (ga_fit r') (ga_fit r) = false) /\
      (row = MpiRow 0 0 dummy \/ exists r, In r rows' /\ row = MpiRow (ga_gen r) (ga_index r) (ga_fit r)) /\
      (forall r, In r rows' -> cmp (ga_fit r) (m_fit row) = false) /\ cmp dummy (m_fit row) = false.
Proof.
  intros I F S cmp desired reps gnum run fitness selection crossover mutation dummy is_dummy init P p n fuel rows f g row x HP PN SIZE ND SWO PG E.
  pose proof (mpi_loop_result cmp desired reps gnum run fitness selection crossover mutation dummy is_dummy init p n HP PN SIZE ND P SWO PG fuel 0 (repeat None p) None (MpiRow 0 0 dummy) None (or_intror (Nat.le_0_l _)) ltac:(lia) (repeat_length _ _) (mpi_start_ok cmp reps run fitness selection crossover mutation dummy init p P SWO)) as R.
  unfold ga_mpi in E. cbn [seq flat_map option_map population] in R. rewrite E in R. destruct R as (m & last & M1 & M2 & M3 & M4 & (B1 & B2 & B3 & B4)). cbn [mb_fitness mb_row mb_string fst snd] in *.
  exists m, (flat_map (gen_rows reps run fitness selection crossover mutation init) (seq 0 m) ++ last). split; [split; [intros k Hk; apply M2; lia|exists last; split; [exact M3|reflexivity]]|].
  split; [exact B1|]. split; [exact B2|]. split.
  - destruct B4 as (f' & (r & R1 & (R2 & R3)) & U). exists r. split; [exact R1|]. split; [exact R3|]. rewrite R2. exact U.
  - exact B3.
Qed.
Print Assumptions C71_report_partial.
(** So a maximising search with fitness values below 1000 always reports the dummy row as
    its best individual, whatever it evaluates. *)
Theorem C71_dummy_refuted :
  forall (I F S : Type) cmp desired reps gnum (run : nat -> nat -> nat -> I -> S) (fitness : nat -> nat -> list S -> F) selection crossover mutation dummy is_dummy init (P : F -> Prop) p n fuel rows b,
    p <> 0 -> p <= n ->
    (forall k, (forall j, j < k -> continues cmp desired reps gnum run fitness selection crossover mutation init 2 j) -> length (population reps run fitness selection crossover mutation init k) = n) ->
    (forall k r, In r (gen_rows reps run fitness selection crossover mutation init k) -> is_dummy (ga_fit r) = false) ->
    strict_weak_order cmp P -> scores_in reps run fitness selection crossover mutation init P ->
    (forall k r, In r (gen_rows reps run fitness selection crossover mutation init k) -> cmp dummy (ga_fit r) = true) ->
    ga_mpi cmp desired reps gnum run fitness selection crossover mutation dummy is_dummy fuel p init = Done (rows, b) ->
    mb_row b = MpiRow 0 0 dummy.
Proof.
  intros I F S cmp desired reps gnum run fitness selection crossover mutation dummy is_dummy init P p n fuel rows b HP PN SIZE ND SWO PG LOW E.
  destruct b as [[f g] row x]. destruct (C71_report_partial _ _ _ _ _ _ _ _ _ _ _ _ _ _ _ _ _ _ _ _ _ _ _ _ HP PN SIZE ND SWO PG E) as (m & rows' & (_ & last & St & ER) & _ & _ & _ & [D|(r & Hr & D)] & _ & U); cbn [mb_row]; [exact D|].
  exfalso. subst row. cbn [m_fit] in U.
  assert (IN : exists k, In r (gen_rows reps run fitness selection crossover mutation init k)).
  { rewrite ER in Hr. apply in_app_or in Hr. destruct Hr as [Hr|Hr]; [apply in_flat_map in Hr; destruct Hr as (k & _ & Hk); exists k; exact Hk|]. exists m. destruct St as [G EG|l r1 rest W EG N RR|W PP N SM]; [destruct Hr|exact Hr|exact Hr]. }
  destruct IN as (k & Hk). rewrite (LOW k r Hk) in U. discriminate.
Qed.
Print Assumptions C71_dummy_refuted.
Example C71_concrete :
  exists rows, ga_mpi max_nat 7 1 5 (fun _ _ _ (x : nat) => x) (fun _ _ l => hd 0 l) ex_selection ex_crossover ex_mutation 100 (fun f => f =? 100) 9 3 [1; 2; 3; 4] = Done (rows, MpiBest (10, 3) (MpiRow 0 0 100) 10) /\
   exists rows', ga_mpi max_nat 7 1 5 (fun _ _ _ (x : nat) => x) (fun _ _ l => hd 0 l) ex_selection ex_crossover ex_mutation 0 (fun f => f =? 0) 9 3 [1; 2; 3; 4] = Done (rows', MpiBest (10, 3) (MpiRow 3 3 10) 10).
Proof. eexists. split; [vm_compute; reflexivity|]. eexists. vm_compute. reflexivity. Qed.

(** ** C72: all processes of the distributed search return *)
(** They do when every selection leaves at least two individuals and the number of
    generations is limited. *)
Theorem C72_all_return_partial :
  forall (I F S : Type) cmp desired reps gnum (run : nat -> nat -> nat -> I -> S) (fitness : nat -> nat -> list S -> F) selection crossover mutation dummy is_dummy init (P : F -> Prop) p n fuel,
    p <> 0 -> p <= n ->
    (forall k, (forall j, j < k -> continues cmp desired reps gnum run fitness selection crossover mutation init 2 j) -> length (population reps run fitness selection crossover mutation init k) = n) ->
    (forall k r, In r (gen_rows reps run fitness selection crossover mutation init k) -> is_dummy (ga_fit r) = false) ->
    strict_weak_order cmp P -> scores_in reps run fitness selection crossover mutation init P ->
    (forall k, 2 <= length (selected reps run fitness selection k (population reps run fitness selection crossover mutation init k))) ->
    gnum <> 0 -> gnum < fuel ->
    exists a, ga_mpi cmp desired reps gnum run fitness selection crossover mutation dummy is_dummy fuel p init = Done a.
Proof.
  intros I F S cmp desired reps gnum run fitness selection crossover mutation dummy is_dummy init P p n fuel HP PN SIZE ND SWO PG SEL G HF.
  pose proof (mpi_loop_result cmp desired reps gnum run fitness selection crossover mutation dummy is_dummy init p n HP PN SIZE ND P SWO PG fuel 0 (repeat None p) None (MpiRow 0 0 dummy) None (or_intror (Nat.le_0_l _)) ltac:(lia) (repeat_length _ _) (mpi_start_ok cmp reps run fitness selection crossover mutation dummy init p P SWO)) as R.
  unfold ga_mpi. cbn [seq flat_map option_map population] in R. destruct (mpi_loop _ _ _ _ _ _ _ _ _ _ _ _ _ _ _ _ _ _ _ _) as [a|[rows b]| |]; cbn [mpi_result] in R.
  - exists a. reflexivity.
  - exfalso. destruct R as (m & _ & _ & _ & _ & _ & _ & L & _). specialize (SEL m). lia.
  - destruct R.
  - exfalso. destruct (R gnum) as ([W|W] & _); lia.
Qed.
Print Assumptions C72_all_return_partial.
(** A selection that leaves one individual before the last generation makes the root leave
    the loop alone: the other processes wait for it forever. *)
Theorem C72_refuted :
  exists a, ga_mpi max_nat 100 1 3 (fun _ _ _ (x : nat) => x) (fun _ _ l => hd 0 l) (fun _ l => firstn 1 l) (fun _ l => l) (fun _ _ x => x) 101 (fun f => f =? 101) 5 2 [1; 2; 3] = RootOnly a.
Proof. eexists. vm_compute. reflexivity. Qed.
Print Assumptions C72_refuted.
Example C72_concrete :
  forall k, 2 <= length (selected 1 (fun _ _ _ (x : nat) => x) (fun _ _ l => hd 0 l) ex_selection k (population 1 (fun _ _ _ (x : nat) => x) (fun _ _ l => hd 0 l) ex_selection ex_crossover ex_mutation [1; 2; 3; 4] k)).
Proof. intros k. unfold selected. rewrite ex_selected; [lia|]. rewrite ex_population. lia. Qed.
