(** * Proofs about Field2D that hold for every arithmetic *)
From Coq Require Import List Bool ZArith NArith Arith Lia Permutation.
From Verif Require Import F32 Grid ObjModel FieldModel FieldSpec.
Import ListNotations.
Open Scope Z_scope.

Lemma mapM_all {X Y} (f : X -> option Y) l : (forall x, In x l -> exists y, f x = Some y) ->
  exists ys, mapM f l = Some ys /\ Forall2 (fun x y => f x = Some y) l ys.
Proof.
  induction l as [|x l IH]; intros H; cbn [mapM]; [exists []; split; [reflexivity|constructor]|].
  destruct (H x (or_introl eq_refl)) as [y E]. rewrite E. destruct IH as (ys & -> & F); [intros z Hz; apply H; right; exact Hz|].
  exists (y :: ys). split; [reflexivity|]. constructor; assumption.
Qed.
Lemma mapM_F2 {X Y} (f : X -> option Y) l ys : mapM f l = Some ys -> Forall2 (fun x y => f x = Some y) l ys.
Proof.
  revert ys; induction l as [|x l IH]; intros ys; cbn [mapM]; [intros H; injection H as <-; constructor|].
  destruct (f x) as [y|] eqn:E; [|discriminate]. destruct (mapM f l) as [zs|]; [|discriminate]. cbn. intros H. injection H as <-.
  constructor; auto.
Qed.
Lemma mapM_None {X Y Y'} (f : X -> option Y) (g : X -> option Y') l : (forall x, f x = None <-> g x = None) ->
  (mapM f l = None <-> mapM g l = None).
Proof.
  intros H. induction l as [|x l IH]; cbn [mapM]; [split; discriminate|].
  specialize (H x). destruct (f x), (g x); try (destruct H as [H1 H2]; try (specialize (H1 eq_refl)); try (specialize (H2 eq_refl)); discriminate); [|tauto].
  destruct (mapM f l), (mapM g l); cbn; split; intros E; try discriminate E; try reflexivity; exfalso; [apply proj2 in IH|apply proj1 in IH]; specialize (IH eq_refl); discriminate.
Qed.

(** *** Subsequences *)
Lemma subseq_filter {X} f (l : list X) : subseq (filter f l) l.
Proof. induction l as [|x l IH]; cbn; [constructor|]. destruct (f x); constructor; exact IH. Qed.
Lemma subseq_app {X} (a a' b b' : list X) : subseq a a' -> subseq b b' -> subseq (a ++ b) (a' ++ b').
Proof.
  intros H Hb. induction H as [l'|x l l' H IH|x l l' H IH]; cbn.
  - induction l' as [|x l' IH]; [exact Hb|]. cbn. constructor. exact IH.
  - constructor. exact IH.
  - constructor. exact IH.
Qed.
Lemma subseq_count {X} (dec : forall a b : X, {a = b} + {a <> b}) a b : subseq a b -> forall x, (count_occ dec a x <= count_occ dec b x)%nat.
Proof. induction 1 as [l|y l l' H IH|y l l' H IH]; intros x; cbn; [lia| |]; specialize (IH x); destruct (dec y x); lia. Qed.
Lemma subseq_In {X} (a b : list X) x : subseq a b -> In x a -> In x b.
Proof. induction 1 as [l|y l l' H IH|y l l' H IH]; cbn; tauto. Qed.

(** *** t_transform *)
Lemma t_transform_ok n size : 1 <= size < 2 ^ 31 - 1 ->
  exists r, t_transform n size = Some r /\ 0 <= r <= size /\ (r - n) mod size = 0.
Proof.
  intros Hs. unfold t_transform. destruct (Z.eqb_spec size 0); [lia|]. destruct (Z.eqb_spec size (-1)); [lia|]. cbn [orb andb].
  destruct (Z.leb_spec 0 n) as [H|H].
  - eexists. split; [reflexivity|]. rewrite Z.rem_mod_nonneg by lia. pose proof (Z.mod_pos_bound n size ltac:(lia)). split; [lia|].
    rewrite (Z.div_mod n size) at 2 by lia. replace (n mod size - (size * (n / size) + n mod size)) with ((- (n / size)) * size) by ring.
    apply Z.mod_mul. lia.
  - eexists. split; [reflexivity|]. assert (B : - size < Z.rem n size <= 0).
    { pose proof (Z.rem_bound_pos_neg n size ltac:(lia) ltac:(lia)). lia. }
    rewrite wrap32_id by (unfold in_i32; lia). split; [lia|].
    pose proof (Z.quot_rem n size ltac:(lia)) as E. replace (Z.rem n size + size - n) with ((1 - n ÷ size) * size) by lia. apply Z.mod_mul. lia.
Qed.
Lemma t_transform_id n size : 0 <= n < size -> t_transform n size = Some n.
Proof.
  intros H. unfold t_transform. destruct (Z.eqb_spec size 0); [lia|]. destruct (Z.eqb_spec size (-1)); [lia|]. cbn [orb andb].
  destruct (Z.leb_spec 0 n); [|lia]. rewrite Z.rem_small by lia. reflexivity.
Qed.

Lemma zfrom_In lo hi z : In z (zfrom lo hi) <-> lo <= z < hi.
Proof.
  unfold zfrom. rewrite in_map_iff. split.
  - intros (k & <- & Hk). apply in_seq in Hk. lia.
  - intros H. exists (Z.to_nat (z - lo)). split; [lia|]. apply in_seq. lia.
Qed.
Lemma zfrom_NoDup lo hi : NoDup (zfrom lo hi).
Proof. unfold zfrom. apply FinFun.Injective_map_NoDup; [intros a b; lia|apply seq_NoDup]. Qed.

Section Gen.
Variable A : arith.
Notation T := (num A).
Notation pt := (num A * num A)%type.
Context {O : Type}.
Variable eqo : O -> O -> bool.
Variable location : O -> num A * num A.
Notation fop := (fop A (O := O)).
Notation field2d := (field2d A (O := O)).
Variables w h d : T.
Variable t : bool.
Notation nw := (cols A w d).
Notation nh := (cols A h d).
Hypothesis GS : good_size A w h d.

Definition at_cell (c : loc) (ps : list (O * pt)) : list O :=
  map fst (filter (fun p => loc_eqb (discretize A d (snd p)) c) ps).

Definition total (bags : list (list O)) : nat := list_sum (map (@length O) bags).

Definition fwf (f : field2d) : Prop :=
  f_width f = w /\ f_height f = h /\ f_disc f = d /\ f_toroidal f = t /\ f_dh f = nh /\ f_dw f = nw /\
  Z.of_nat (length (f_read f)) = nw * nh /\ Z.of_nat (length (f_write f)) = nw * nh /\
  (f_checked f = false -> f_nagents f = N.of_nat (total (f_write f))).

Notation rbag f c := (vget (f_read f) (cell_index nh c)).
Notation wbag f c := (vget (f_write f) (cell_index nh c)).

Lemma idx c : in_range nw nh c -> 0 <= cell_index nh c < nw * nh.
Proof. destruct GS as (_ & _ & H & _). intros Hc. destruct (cell_index_range nw nh c Hc H) as [-> B]. exact B. Qed.
Lemma idx_inj a b : in_range nw nh a -> in_range nw nh b -> cell_index nh a = cell_index nh b -> a = b.
Proof. destruct GS as (_ & _ & H & _). intros Ha Hb. exact (cell_index_inj nw nh a b Ha Hb H). Qed.

Lemma rbag_total f c : fwf f -> in_range nw nh c -> exists b, rbag f c = Some b.
Proof. intros (_ & _ & _ & _ & _ & _ & L & _) Hc. apply vget_in. rewrite L. apply idx; exact Hc. Qed.
Lemma wbag_total f c : fwf f -> in_range nw nh c -> exists b, wbag f c = Some b.
Proof. intros (_ & _ & _ & _ & _ & _ & _ & L & _) Hc. apply vget_in. rewrite L. apply idx; exact Hc. Qed.

Lemma new_ok : fwf (f_new A w h d t) /\ forall c, in_range nw nh c ->
  rbag (f_new A (O := O) w h d t) c = Some [] /\ wbag (f_new A (O := O) w h d t) c = Some [].
Proof.
  destruct GS as (H1 & H2 & H3 & H4). unfold f_new. cbv zeta.
  assert (L : Z.of_nat (N.to_nat (bag_count A w h d)) = nw * nh) by lia.
  assert (B1 : nw < 2 ^ 31) by nia. assert (B2 : nh < 2 ^ 31) by nia. split.
  - split; [reflexivity|]. split; [reflexivity|]. split; [reflexivity|]. split; [reflexivity|].
    unfold cols in *. cbn [f_dh f_dw f_read f_write f_checked f_nagents].
    split; [apply wrap32_id; unfold in_i32; lia|]. split; [apply wrap32_id; unfold in_i32; lia|].
    rewrite repeat_length. split; [exact L|]. split; [exact L|]. intros _. generalize (N.to_nat (bag_count A w h d)). clear.
    unfold total. intros n. induction n; [reflexivity|]. cbn. exact IHn.
  - intros c Hc. cbn [f_read f_write]. pose proof (idx c Hc). split; apply vget_repeat; lia.
Qed.

(** *** Writing one bag *)
Lemma total_lset i b b' (v : list (list O)) : nth_error v i = Some b ->
  (total (lset i b' v) + length b = total v + length b')%nat.
Proof.
  unfold total, list_sum. revert i; induction v as [|x v IH]; intros [|i] H; cbn in *; try discriminate.
  - injection H as ->. lia.
  - specialize (IH i H). lia.
Qed.
Lemma write_ok f c b b' : fwf f -> in_range nw nh c -> wbag f c = Some b ->
  exists ws, vset (f_write f) (cell_index nh c) b' = Some ws /\ Z.of_nat (length ws) = nw * nh /\
    (total ws + length b = total (f_write f) + length b')%nat /\
    forall c', in_range nw nh c' -> vget ws (cell_index nh c') = if loc_eqb c' c then Some b' else wbag f c'.
Proof.
  intros (_ & _ & _ & _ & _ & _ & _ & L & _) Hc Hb. pose proof (idx c Hc) as I. rewrite <- L in I.
  destruct (vset_in (f_write f) (cell_index nh c) b' I) as (ws & E & EL & E1 & E2). exists ws. split; [exact E|].
  split; [lia|]. split.
  - unfold vset, vget, as_index in *. destruct (cell_index nh c <? 0) eqn:S; [discriminate|].
    destruct (_ <? _)%nat; [|discriminate]. injection E as <-. exact (total_lset _ _ _ _ Hb).
  - intros c' Hc'. destruct (loc_eqb c' c) eqn:EC.
    + apply loc_eqb_eq in EC. subst. exact E1.
    + apply E2; [apply idx; exact Hc'|]. intros EI. apply loc_eqb_neq in EC. apply EC. apply idx_inj; auto.
Qed.

Lemma total_in z (v : list (list O)) b : vget v z = Some b -> (length b <= total v)%nat.
Proof.
  unfold vget. destruct (as_index z) as [i|]; [|discriminate]. unfold total, list_sum. revert i; induction v as [|x v IH]; intros [|i] H; cbn in *; try discriminate.
  - injection H as ->. lia.
  - specialize (IH i H). lia.
Qed.

Lemma index_eq f l : fwf f -> f_index A f l = cell_index nh (discretize A d l).
Proof. intros (_ & _ & E1 & _ & E2 & _). unfold f_index. rewrite E1, E2. reflexivity. Qed.

Lemma set_ok f o l : fwf f -> in_field A w h d l ->
  exists f', f_set A f o l = Some f' /\ fwf f' /\ forall c, in_range nw nh c ->
    rbag f' c = rbag f c /\
    wbag f' c = if loc_eqb (discretize A d l) c then option_map (fun b => b ++ [o]) (wbag f c) else wbag f c.
Proof.
  intros W Hl. unfold f_set. rewrite (index_eq f l W). destruct (wbag_total f _ W Hl) as [b Hb]. rewrite Hb.
  destruct (write_ok f _ b (b ++ [o]) W Hl Hb) as (ws & E & EL & ET & H). rewrite E. cbn [option_map].
  eexists. split; [reflexivity|]. split.
  - destruct W as (W1 & W2 & W3 & W4 & W5 & W6 & W7 & W8 & W9). unfold fwf. cbn [f_width f_height f_disc f_toroidal f_dh f_dw f_read f_write f_checked f_nagents].
    repeat (split; [assumption|]). intros Hc. rewrite Hc. specialize (W9 Hc). rewrite app_length in ET. cbn in ET. lia.
  - intros c Hc. cbn [f_read f_write]. split; [reflexivity|]. rewrite H by exact Hc.
    destruct (loc_eqb c (discretize A d l)) eqn:EC.
    + apply loc_eqb_eq in EC. subst c. rewrite loc_eqb_refl, Hb. reflexivity.
    + replace (loc_eqb (discretize A d l) c) with false; [reflexivity|]. symmetry. apply loc_eqb_neq. apply loc_eqb_neq in EC. congruence.
Qed.

Lemma without_length o (b : list O) : (length (without eqo o b) <= length b)%nat.
Proof. unfold without. induction b as [|x b IH]; cbn; [lia|]. destruct (negb _); cbn; lia. Qed.

Lemma remove_ok f o l : fwf f -> in_field A w h d l ->
  exists f', f_remove A eqo f o l = Some f' /\ fwf f' /\ forall c, in_range nw nh c ->
    rbag f' c = rbag f c /\
    wbag f' c = if loc_eqb (discretize A d l) c then option_map (without eqo o) (wbag f c) else wbag f c.
Proof.
  intros W Hl. unfold f_remove. rewrite (index_eq f l W). destruct (wbag_total f _ W Hl) as [b Hb]. rewrite Hb.
  destruct (write_ok f _ b (without eqo o b) W Hl Hb) as (ws & E & EL & ET & H).
  assert (NE : forall c, loc_eqb c (discretize A d l) = false -> loc_eqb (discretize A d l) c = false).
  { intros c EC. apply loc_eqb_neq. apply loc_eqb_neq in EC. congruence. }
  destruct b as [|x b0] eqn:Eb.
  - exists f. split; [reflexivity|]. split; [exact W|]. intros c Hc. split; [reflexivity|].
    destruct (loc_eqb (discretize A d l) c) eqn:EC; [|reflexivity]. apply loc_eqb_eq in EC. rewrite <- EC, Hb. reflexivity.
  - rewrite <- Eb in *. cbv zeta.
    assert (EG : negb (f_checked f) && (f_nagents f <? N.of_nat (length b - length (without eqo o b)))%N = false).
    { destruct (f_checked f) eqn:C; [reflexivity|]. cbn [negb andb]. apply N.ltb_ge.
      destruct W as (_ & _ & _ & _ & _ & _ & _ & _ & W9). rewrite (W9 C). pose proof (total_in _ _ _ Hb). lia. }
    rewrite EG, E. cbn [option_map]. eexists. split; [reflexivity|]. split.
    + destruct W as (W1 & W2 & W3 & W4 & W5 & W6 & W7 & W8 & W9). unfold fwf. cbn [f_width f_height f_disc f_toroidal f_dh f_dw f_read f_write f_checked f_nagents].
      repeat (split; [assumption|]). intros Hc. rewrite Hc. specialize (W9 Hc). pose proof (without_length o b). pose proof (total_in _ _ _ Hb). lia.
    + intros c Hc. cbn [f_read f_write]. split; [reflexivity|]. rewrite H by exact Hc.
      destruct (loc_eqb c (discretize A d l)) eqn:EC.
      * apply loc_eqb_eq in EC. subst c. rewrite loc_eqb_refl, Hb. reflexivity.
      * rewrite (NE c EC). reflexivity.
Qed.

Lemma lazy_ok f : fwf f ->
  exists f', f_lazy_update A f = Some f' /\ fwf f' /\ f_checked f' = true /\ forall c, in_range nw nh c ->
    rbag f' c = wbag f c /\ wbag f' c = Some [].
Proof.
  intros (W1 & W2 & W3 & W4 & W5 & W6 & W7 & W8 & W9). destruct GS as (G1 & G2 & G3 & G4). unfold f_lazy_update. destruct (f_checked f) eqn:C.
  - eexists. split; [reflexivity|]. split; [|split; [reflexivity|]].
    + unfold fwf. cbn [f_width f_height f_disc f_toroidal f_dh f_dw f_read f_write f_checked f_nagents].
      repeat (split; [assumption|]). rewrite map_length. split; [assumption|discriminate].
    + intros c Hc. cbn [f_read f_write]. split; [reflexivity|]. rewrite vget_map.
      destruct (vget_in (f_read f) (cell_index nh c)) as [b ->]; [|reflexivity]. rewrite W7. apply idx. exact Hc.
  - rewrite W5, W6, wrap32_id by (unfold in_i32; nia). unfold as_index. destruct (Z.ltb_spec (nw * nh) 0); [nia|].
    destruct (Z.to_nat (nw * nh)) as [|n] eqn:En; [nia|]. eexists. split; [reflexivity|]. split; [|split; [reflexivity|]].
    + unfold fwf. cbn [f_width f_height f_disc f_toroidal f_dh f_dw f_read f_write f_checked f_nagents].
      repeat (split; [try assumption; reflexivity|]). rewrite repeat_length. split; [lia|discriminate].
    + intros c Hc. cbn [f_read f_write]. split; [reflexivity|]. apply vget_repeat. pose proof (idx c Hc). lia.
Qed.

(** *** The window of a neighbour query *)
Lemma window_ok f l dist : fwf f ->
  exists ids, window A f l dist = Some ids /\ Forall (in_range nw nh) ids.
Proof.
  intros (W1 & W2 & W3 & W4 & _). destruct GS as (G1 & G2 & G3 & _). unfold window. cbv zeta.
  rewrite W1, W2, W3. set (L := list_prod _ _). clearbody L.
  assert (SX : 1 <= ceil_i32 A (div A w d) < 2 ^ 31 - 1) by (unfold cols in *; nia).
  assert (SY : 1 <= ceil_i32 A (div A h d) < 2 ^ 31 - 1) by (unfold cols in *; nia).
  destruct (mapM_all (fun p : Z * Z => match t_transform (fst p) (ceil_i32 A (div A w d)), t_transform (snd p) (ceil_i32 A (div A h d)) with
     | Some x, Some y => Some (x, y) | _, _ => None end) L) as (ids & E & F).
  { intros p _. destruct (t_transform_ok (fst p) _ SX) as (x & -> & _). destruct (t_transform_ok (snd p) _ SY) as (y & -> & _). eauto. }
  exists ids. split; [exact E|]. clear E. induction F as [|p c L0 ids Hp F IH]; constructor; [|exact IH].
  destruct (t_transform_ok (fst p) _ SX) as (x & Ex & Bx & _). destruct (t_transform_ok (snd p) _ SY) as (y & Ey & By & _).
  rewrite Ex, Ey in Hp. injection Hp as <-. unfold in_range, cols. cbn. lia.
Qed.

Lemma neighbors_total f l dist : fwf f -> exists r, f_neighbors A location f l dist = Some r.
Proof.
  intros W. unfold f_neighbors. destruct (le A dist (of_int A 0)); [eauto|]. destruct (window_ok f l dist W) as (ids & -> & F).
  match goal with |- context [mapM ?g ids] => destruct (mapM_all g ids) as (ys & -> & _) end; [|cbn; eauto].
  intros c Hc. rewrite Forall_forall in F. destruct W as (W1 & W2 & W3 & W4 & W5 & W6 & W7 & _). rewrite W5.
  destruct (vget_in (f_read f) (cell_index nh c)) as [b ->]; [rewrite W7; apply idx; auto|]. cbn. eauto.
Qed.
Lemma relax_total f l dist : fwf f -> exists r, f_relax A f l dist = Some r.
Proof.
  intros W. unfold f_relax. destruct (le A dist (of_int A 0)); [eauto|]. destruct (window_ok f l dist W) as (ids & -> & F).
  match goal with |- context [mapM ?g ids] => destruct (mapM_all g ids) as (ys & -> & _) end; [|cbn; eauto].
  intros c Hc. rewrite Forall_forall in F. destruct W as (W1 & W2 & W3 & W4 & W5 & W6 & W7 & _). rewrite W5.
  apply vget_in. rewrite W7. apply idx; auto.
Qed.
Lemma iter_total f (bags : list (list O)) : f_dh f = nh -> f_dw f = nw -> Z.of_nat (length bags) = nw * nh ->
  exists r, f_iter_bags A f bags = Some r.
Proof.
  intros E1 E2 E3. unfold f_iter_bags. rewrite E1, E2.
  match goal with |- context [mapM ?g ?l] => destruct (mapM_all g l) as (ys & -> & _) end; [|cbn; eauto].
  intros c Hc. apply cells_In in Hc. destruct (vget_in bags (cell_index nh c)) as [b ->]; [rewrite E3; apply idx; auto|]. cbn. eauto.
Qed.
Lemma empty_total f : fwf f -> exists r, f_empty_bags A f = Some r.
Proof.
  intros (W1 & W2 & W3 & W4 & W5 & W6 & W7 & _). unfold f_empty_bags. rewrite W5, W6.
  match goal with |- context [mapM ?g ?l] => destruct (mapM_all g l) as (ys & -> & _) end; [|cbn; eauto].
  intros c Hc. apply cells_In in Hc. destruct (vget_in (f_read f) (cell_index nh c)) as [b ->]; [rewrite W7; apply idx; auto|]. cbn. eauto.
Qed.

(** *** Histories *)
Lemma live_snoc e (c : fop) : live A eqo d (e ++ [c]) =
  filter (fun p => negb (takes_back A eqo d (fst p) (snd p) c)) (live A eqo d e) ++ live A eqo d [c].
Proof.
  induction e as [|c0 e IH]; [reflexivity|]. cbn [app].
  destruct c0; try exact IH. change (live A eqo d (FSet o l :: e ++ [c])) with (if existsb (takes_back A eqo d o l) (e ++ [c]) then live A eqo d (e ++ [c]) else (o, l) :: live A eqo d (e ++ [c])).
  change (live A eqo d (FSet o l :: e)) with (if existsb (takes_back A eqo d o l) e then live A eqo d e else (o, l) :: live A eqo d e).
  rewrite existsb_app. cbn [existsb]. rewrite orb_false_r, IH. destruct (existsb (takes_back A eqo d o l) e); cbn [orb]; [reflexivity|].
  cbn [filter fst snd]. destruct (takes_back A eqo d o l c); reflexivity.
Qed.
Lemma filter_true {X} (f : X -> bool) l : (forall x, In x l -> f x = true) -> filter f l = l.
Proof. induction l as [|x l IH]; intros H; cbn; [reflexivity|]. rewrite H by (left; reflexivity). f_equal. apply IH. intros y Hy. apply H. right. exact Hy. Qed.
Lemma at_cell_app c a b : at_cell c (a ++ b) = at_cell c a ++ at_cell c b.
Proof. unfold at_cell. rewrite filter_app, map_app. reflexivity. Qed.
Lemma at_cell_live_set c e o l : at_cell c (live A eqo d (e ++ [FSet o l])) =
  if loc_eqb (discretize A d l) c then at_cell c (live A eqo d e) ++ [o] else at_cell c (live A eqo d e).
Proof.
  rewrite live_snoc, at_cell_app. cbn [live existsb takes_back negb]. rewrite filter_true by reflexivity.
  unfold at_cell at 2. cbn [filter snd]. destruct (loc_eqb (discretize A d l) c); cbn [map fst]; [reflexivity|apply app_nil_r].
Qed.
Lemma at_cell_live_remove c e o l : at_cell c (live A eqo d (e ++ [FRemove o l])) =
  if loc_eqb (discretize A d l) c then without eqo o (at_cell c (live A eqo d e)) else at_cell c (live A eqo d e).
Proof.
  rewrite live_snoc, at_cell_app. cbn [live takes_back]. change (at_cell c []) with (@nil O). rewrite app_nil_r.
  unfold at_cell, without. induction (live A eqo d e) as [|[x lx] ps IH]; [destruct (loc_eqb (discretize A d l) c); reflexivity|].
  cbn [filter fst snd].
  destruct (loc_eqb (discretize A d lx) c) eqn:E1.
  - apply loc_eqb_eq in E1. rewrite E1 in *. destruct (loc_eqb (discretize A d l) c) eqn:E2; cbn [andb negb].
    + cbn [map fst filter]. destruct (eqo x o) eqn:EO; cbn [negb].
      * exact IH.
      * cbn [filter snd]. rewrite E1, loc_eqb_refl. cbn [map fst]. f_equal. exact IH.
    + cbn [filter snd]. rewrite E1, loc_eqb_refl. cbn [map fst]. f_equal. exact IH.
  - destruct (negb _); [|exact IH]. cbn [filter snd]. rewrite E1. exact IH.
Qed.
Lemma at_cell_live_other c e op : match op with FSet _ _ | FRemove _ _ => False | _ => True end ->
  at_cell c (live A eqo d (e ++ [op])) = at_cell c (live A eqo d e).
Proof.
  intros H. rewrite live_snoc. destruct op; try destruct H; cbn [live takes_back negb]; rewrite app_nil_r, filter_true; reflexivity.
Qed.

Notation step := (f_step A eqo location).
Notation run := (f_run A eqo location).

Lemma run_app f cs ds : run f (cs ++ ds) =
  match run f cs with
  | None => None
  | Some (f', rs) => option_map (fun p => (fst p, rs ++ snd p)) (run f' ds)
  end.
Proof.
  revert f; induction cs as [|c cs IH]; intros f; cbn [app f_run].
  - destruct (run f ds) as [[? ?]|]; reflexivity.
  - destruct (step f c) as [[f1 r]|]; [|reflexivity]. rewrite IH. destruct (run f1 cs) as [[f2 rs]|]; [|reflexivity].
    cbn [option_map fst snd]. destruct (run f2 ds) as [[? ?]|]; reflexivity.
Qed.

Definition state_after (cs : list fop) (f : field2d) : Prop :=
  forall c, in_range nw nh c ->
    rbag f c = Some (at_cell c (readable A eqo d cs)) /\ wbag f c = Some (at_cell c (pending A eqo d cs)).

Lemma history cs : Forall (f_in A w h d) cs ->
  exists f rs, run (f_new A w h d t) cs = Some (f, rs) /\ length rs = length cs /\ fwf f /\ state_after cs f.
Proof.
  induction cs as [|c cs IH] using rev_ind; intros Hin.
  - destruct new_ok as [W H]. exists (f_new A w h d t), []. split; [reflexivity|]. split; [reflexivity|]. split; [exact W|]. exact H.
  - apply Forall_app in Hin. destruct Hin as [Hin Hc]. inversion_clear Hc as [|? ? Hc' _].
    destruct (IH Hin) as (f & rs & E & HL & W & H). clear IH.
    assert (S : exists f' r, step f c = Some (f', r) /\ fwf f' /\ state_after (cs ++ [c]) f').
    { assert (Q : forall r, match c with FSet _ _ | FRemove _ _ | FLazyUpdate => False | _ => True end ->
        step f c = Some (f, r) -> exists f' r, step f c = Some (f', r) /\ fwf f' /\ state_after (cs ++ [c]) f').
      { intros r Hq Hr. exists f, r. split; [exact Hr|]. split; [exact W|]. intros x Hx. destruct (H x Hx) as [-> ->].
        unfold readable, pending. rewrite rev_app_distr. cbn [rev app].
        destruct c; try destruct Hq; cbn [previous_epoch current_epoch]; rewrite at_cell_live_other; auto. }
      pose proof W as (W1 & W2 & W3 & W4 & W5 & W6 & W7 & W8 & W9).
      destruct c; cbn [f_in] in Hc'.
      - cbn [f_step]. destruct (set_ok f o l W Hc') as (f1 & -> & Wf & H1). cbn. do 2 eexists. split; [reflexivity|]. split; [exact Wf|].
        intros x Hx. destruct (H1 x Hx) as [-> ->]. destruct (H x Hx) as [-> ->]. unfold readable, pending. rewrite rev_app_distr.
        cbn [rev app previous_epoch current_epoch]. split; [reflexivity|]. rewrite at_cell_live_set. destruct (loc_eqb _ x); reflexivity.
      - cbn [f_step]. destruct (remove_ok f o l W Hc') as (f1 & -> & Wf & H1). cbn. do 2 eexists. split; [reflexivity|]. split; [exact Wf|].
        intros x Hx. destruct (H1 x Hx) as [-> ->]. destruct (H x Hx) as [-> ->]. unfold readable, pending. rewrite rev_app_distr.
        cbn [rev app previous_epoch current_epoch]. split; [reflexivity|]. rewrite at_cell_live_remove. destruct (loc_eqb _ x); reflexivity.
      - cbn [f_step]. destruct (lazy_ok f W) as (f1 & -> & Wf & _ & H1). cbn. do 2 eexists. split; [reflexivity|]. split; [exact Wf|].
        intros x Hx. destruct (H1 x Hx) as [-> ->]. destruct (H x Hx) as [_ ->]. unfold readable, pending. rewrite rev_app_distr.
        cbn [rev app previous_epoch current_epoch]. split; reflexivity.
      - apply (Q FUnit I). reflexivity.
      - destruct (rbag_total f _ W Hc') as [b Hb]. apply (Q (FObjects b) I). cbn [f_step]. unfold f_get. rewrite (index_eq f l W), Hb. reflexivity.
      - destruct (wbag_total f _ W Hc') as [b Hb]. apply (Q (FObjects b) I). cbn [f_step]. unfold f_get_unbuffered. rewrite (index_eq f l W), Hb. reflexivity.
      - destruct (rbag_total f _ W Hc') as [b Hb]. apply (Q (FNumber (length b)) I). cbn [f_step]. unfold f_count. rewrite (index_eq f l W), Hb. reflexivity.
      - destruct (neighbors_total f l dist W) as [r Hr]. apply (Q (FObjects r) I). cbn [f_step]. rewrite Hr. reflexivity.
      - destruct (relax_total f l dist W) as [r Hr]. apply (Q (FObjects r) I). cbn [f_step]. rewrite Hr. reflexivity.
      - destruct (iter_total f (f_read f) W5 W6 W7) as [r Hr]. apply (Q (FCalls r) I). cbn [f_step]. unfold f_iter. rewrite Hr. reflexivity.
      - destruct (iter_total f (f_write f) W5 W6 W8) as [r Hr]. apply (Q (FCalls r) I). cbn [f_step]. unfold f_iter_unbuffered. rewrite Hr. reflexivity.
      - destruct (empty_total f W) as [r Hr]. apply (Q (FPlaces r) I). cbn [f_step]. rewrite Hr. reflexivity.
      - destruct (empty_total f W) as [r Hr]. destruct (f_random_empty_bag A f k) as [x|] eqn:E'.
        + apply (Q (FPlace x) I). cbn [f_step]. rewrite E'. reflexivity.
        + unfold f_random_empty_bag in E'. rewrite Hr in E'. destruct r; discriminate. }
    destruct S as (f' & r & S1 & S2 & S3). exists f', (rs ++ [r]). rewrite run_app, E. cbn [f_run]. rewrite S1. cbn.
    split; [reflexivity|]. split; [rewrite !app_length, HL; reflexivity|]. split; assumption.
Qed.

(** *** Neighbour queries, bag by bag *)
Lemma concat_F2 {X} (f : X -> list O) ids ys : Forall2 (fun c y => Some (f c) = Some y) ids ys -> concat ys = flat_map f ids.
Proof. induction 1 as [|c y ids ys E F IH]; [reflexivity|]. cbn. injection E as <-. rewrite IH. reflexivity. Qed.

Definition keeps (l : pt) (dist : T) (c : loc) (o : O) : bool :=
  let check := check_circle A c d w h l dist t in
  ((check =? 0) && le A (distance A l (location o) w h t) dist) || (check =? 1).

Lemma neighbors_eq f l dist (bag : loc -> list O) : fwf f -> (forall c, in_range nw nh c -> rbag f c = Some (bag c)) ->
  le A dist (of_int A 0) = false ->
  exists ids, window A f l dist = Some ids /\ Forall (in_range nw nh) ids /\
    f_neighbors A location f l dist = Some (flat_map (fun c => filter (keeps l dist c) (bag c)) ids) /\
    f_relax A f l dist = Some (flat_map bag ids).
Proof.
  intros W Hb Hd. destruct (window_ok f l dist W) as (ids & E & F). exists ids. split; [exact E|]. split; [exact F|].
  unfold f_neighbors, f_relax. rewrite Hd, E. destruct W as (W1 & W2 & W3 & W4 & W5 & W6 & W7 & _). rewrite W1, W2, W3, W4, W5.
  clear E. induction F as [|c ids Hc F [IH1 IH2]]; [split; reflexivity|]. cbn [mapM flat_map]. rewrite Hb by exact Hc. cbn [option_map].
  revert IH1 IH2. destruct (mapM _ ids) as [ys|]; [|discriminate]. destruct (mapM _ ids) as [zs|]; [|discriminate].
  intros IH1 IH2. cbn [option_map concat] in *. injection IH1 as IH1. injection IH2 as IH2. rewrite IH1, IH2. split; reflexivity.
Qed.

(** *** Queries on a field whose bags hold the placements [ps] *)
Section Holding.
Variable f : field2d.
Variable ps : list (O * pt).
Hypothesis FW : fwf f.
Hypothesis Hps : forall c, in_range nw nh c -> rbag f c = Some (at_cell c ps).

(** What is returned was placed, and passed the distance test or is in a bag all of whose
    corners passed it. *)
Lemma sound_at l dist r o : f_neighbors A location f l dist = Some r -> In o r ->
  le A dist (of_int A 0) = false /\ exists l', In (o, l') ps /\
    (le A (distance A l (location o) w h t) dist = true \/
     forall c, In c (corners A (discretize A d l') d w h) -> le A (distance A c l w h t) dist = true).
Proof.
  intros En Ho. destruct (le A dist (of_int A 0)) eqn:Hd.
  { unfold f_neighbors in En. rewrite Hd in En. injection En as <-. destruct Ho. }
  split; [reflexivity|].
  destruct (neighbors_eq f l dist (fun c => at_cell c ps) FW Hps Hd) as (ids & _ & _ & E2 & _).
  rewrite E2 in En. injection En as <-. apply in_flat_map in Ho. destruct Ho as (c & _ & Ho). apply filter_In in Ho. destruct Ho as [Ho K].
  unfold at_cell in Ho. apply in_map_iff in Ho. destruct Ho as ([o' l'] & EO & Ho). cbn in EO. subst o'. apply filter_In in Ho.
  destruct Ho as [Ho Ec]. apply loc_eqb_eq in Ec. cbn in Ec. subst c. exists l'. split; [exact Ho|].
  unfold keeps in K. cbv zeta in K. apply orb_prop in K. destruct K as [K|K].
  - apply andb_prop in K. left. apply K.
  - right. intros c Hc. revert K. unfold check_circle. cbv zeta. destruct (forallb _ _) eqn:EF; intros K.
    + rewrite forallb_forall in EF. exact (EF c Hc).
    + revert K. case (forallb _ _); intros K; discriminate K.
Qed.

(** A placement in a visited bag with a corner that is not too far, and itself not too far,
    is returned. *)
Lemma complete_at l dist ids o l' :
  le A dist (of_int A 0) = false -> window A f l dist = Some ids -> In (discretize A d l') ids ->
  In (o, l') ps -> le A (distance A l (location o) w h t) dist = true ->
  (exists c, In c (corners A (discretize A d l') d w h) /\ lt A dist (distance A c l w h t) = false) ->
  exists r, f_neighbors A location f l dist = Some r /\ In o r.
Proof.
  intros Hd Ew Hi Ho Hk (c & Hc1 & Hc2).
  destruct (neighbors_eq f l dist (fun c => at_cell c ps) FW Hps Hd) as (ids' & Ew' & _ & E2 & _).
  rewrite Ew in Ew'. injection Ew' as <-. eexists. split; [exact E2|]. apply in_flat_map. exists (discretize A d l'). split; [exact Hi|].
  apply filter_In. split.
  - unfold at_cell. apply in_map_iff. exists (o, l'). split; [reflexivity|]. apply filter_In. split; [exact Ho|]. apply loc_eqb_refl.
  - unfold keeps. cbv zeta. rewrite Hk, andb_true_r. unfold check_circle. cbv zeta. destruct (forallb _ _); [reflexivity|].
    destruct (forallb (fun c0 => lt A dist (distance A c0 l w h t)) _) eqn:EF; [|reflexivity].
    rewrite forallb_forall in EF. rewrite (EF c Hc1) in Hc2. discriminate.
Qed.
End Holding.

Lemma neighbors_sound cs f rs l dist r o : Forall (f_in A w h d) cs -> run (f_new A w h d t) cs = Some (f, rs) ->
  f_neighbors A location f l dist = Some r -> In o r ->
  le A dist (of_int A 0) = false /\
  exists l', In (o, l') (readable A eqo d cs) /\
    (le A (distance A l (location o) w h t) dist = true \/
     forall c, In c (corners A (discretize A d l') d w h) -> le A (distance A c l w h t) dist = true).
Proof.
  intros Hin E. destruct (history cs Hin) as (f' & rs' & E' & _ & W & S). rewrite E in E'. injection E' as <- <-.
  apply (sound_at f (readable A eqo d cs) W (fun c Hc => proj1 (S c Hc))).
Qed.
Lemma neighbors_complete cs f rs l dist ids o l' : Forall (f_in A w h d) cs -> run (f_new A w h d t) cs = Some (f, rs) ->
  le A dist (of_int A 0) = false -> window A f l dist = Some ids -> In (discretize A d l') ids ->
  In (o, l') (readable A eqo d cs) -> le A (distance A l (location o) w h t) dist = true ->
  (exists c, In c (corners A (discretize A d l') d w h) /\ lt A dist (distance A c l w h t) = false) ->
  exists r, f_neighbors A location f l dist = Some r /\ In o r.
Proof.
  intros Hin E. destruct (history cs Hin) as (f' & rs' & E' & _ & W & S). rewrite E in E'. injection E' as <- <-.
  apply (complete_at f (readable A eqo d cs) W (fun c Hc => proj1 (S c Hc))).
Qed.

(** Each placement at most once, if no bag is visited twice. *)
Lemma perm_filter_split {X} (f g : X -> bool) (l : list X) : (forall x, In x l -> f x && g x = false) ->
  Permutation (filter f l ++ filter g l) (filter (fun x => f x || g x) l).
Proof.
  induction l as [|x l IH]; intros H; cbn; [constructor|]. pose proof (H x (or_introl eq_refl)) as Hx.
  specialize (IH (fun y Hy => H y (or_intror Hy))). destruct (f x), (g x); cbn in *; try discriminate.
  - constructor. exact IH.
  - etransitivity; [symmetry; apply Permutation_middle|]. constructor. exact IH.
  - exact IH.
Qed.
Lemma bags_perm (g : loc -> O -> bool) (ps : list (O * pt)) ids : NoDup ids ->
  Permutation (flat_map (fun c => filter (g c) (at_cell c ps)) ids)
    (map fst (filter (fun p => existsb (loc_eqb (discretize A d (snd p))) ids && g (discretize A d (snd p)) (fst p)) ps)).
Proof.
  induction 1 as [|c ids Hc N IH]; cbn [flat_map existsb].
  - induction ps as [|p ps IH']; cbn; [constructor|exact IH'].
  - assert (E1 : filter (g c) (at_cell c ps) = map fst (filter (fun p => loc_eqb (discretize A d (snd p)) c && g (discretize A d (snd p)) (fst p)) ps)).
    { unfold at_cell. clear -ps. induction ps as [|p ps IH]; [reflexivity|]. cbn [filter]. destruct (loc_eqb (discretize A d (snd p)) c) eqn:E; cbn [andb].
      - apply loc_eqb_eq in E. rewrite E. cbn [map filter]. destruct (g c (fst p)); cbn [map]; rewrite IH; reflexivity.
      - exact IH. }
    rewrite E1, IH, <- map_app. apply Permutation_map.
    etransitivity; [apply perm_filter_split|].
    + intros p _. destruct (loc_eqb (discretize A d (snd p)) c) eqn:E; [|reflexivity]. apply loc_eqb_eq in E.
      replace (existsb (loc_eqb (discretize A d (snd p))) ids) with false; [cbn; apply andb_false_r|]. symmetry. apply not_true_is_false.
      intros X. apply existsb_exists in X. destruct X as (c' & H1 & H2). apply loc_eqb_eq in H2. congruence.
    + erewrite filter_ext; [reflexivity|]. intros p. cbv beta. generalize (existsb (loc_eqb (discretize A d (snd p))) ids) (g (discretize A d (snd p)) (fst p)) (loc_eqb (discretize A d (snd p)) c). intros [] [] []; reflexivity.
Qed.

(** The bags visited when nothing wraps: a rectangle of cells around that of [l]. *)
Lemma mapM_id_on {X} (f : X -> option X) l : (forall x, In x l -> f x = Some x) -> mapM f l = Some l.
Proof. induction l as [|x l IH]; intros H; cbn; [reflexivity|]. rewrite H by (left; reflexivity). rewrite IH by (intros y Hy; apply H; right; exact Hy). reflexivity. Qed.
Lemma mapM_In {X Y} (f : X -> option Y) l ys x y : mapM f l = Some ys -> In x l -> f x = Some y -> In y ys.
Proof.
  intros E Hx Ey. apply mapM_F2 in E. induction E as [|x' y' l ys E' F IH]; [destruct Hx|]. destruct Hx as [->|Hx]; [left; congruence|right; auto].
Qed.
Lemma prod_NoDup {X Y} (a : list X) (b : list Y) : NoDup a -> NoDup b -> NoDup (list_prod a b).
Proof.
  intros Ha Hb. induction Ha as [|x a Hx Ha IH]; cbn [list_prod]; [constructor|].
  assert (D : NoDup (map (fun y => (x, y)) b)) by (apply FinFun.Injective_map_NoDup; [intros u v E; congruence|exact Hb]).
  assert (G : forall l, NoDup l -> (forall p, In p l -> fst p = x) -> NoDup (l ++ list_prod a b)).
  { intros l Hl. induction Hl as [|p l Hp Hl IHl]; intros Hf; cbn; [exact IH|]. constructor; [|apply IHl; intros q Hq; apply Hf; right; exact Hq].
    intros Hin. apply in_app_or in Hin. destruct Hin as [Hin|Hin]; [exact (Hp Hin)|]. destruct p as [u v]. apply in_prod_iff in Hin.
    specialize (Hf (u, v) (or_introl eq_refl)). cbn in Hf. subst u. tauto. }
  apply G; [exact D|]. intros p Hp. apply in_map_iff in Hp. destruct Hp as (v & <- & _). reflexivity.
Qed.
Lemma window_torus f l dist : fwf f -> t = true ->
  exists ids, window A f l dist = Some ids /\ NoDup ids.
Proof.
  intros (W1 & W2 & W3 & W4 & _) Ht. destruct GS as (G1 & G2 & G3 & _). unfold window. cbv zeta. rewrite W1, W2, W3, W4, Ht.
  assert (BX : 0 <= ceil_i32 A (div A w d) - 1 < 2 ^ 31 - 1) by (unfold cols in *; nia).
  assert (BY : 0 <= ceil_i32 A (div A h d) - 1 < 2 ^ 31 - 1) by (unfold cols in *; nia).
  set (mx := ceil_i32 A (div A w d)) in *. set (my := ceil_i32 A (div A h d)) in *.
  rewrite (wrap32_id (mx - 1)), (wrap32_id (my - 1)) by (unfold in_i32; lia).
  assert (M : forall z m, 0 <= m - 1 < 2 ^ 31 - 1 -> wrap32 (Z.min (wrap32 z) (m - 1) + 1) = Z.min (wrap32 z) (m - 1) + 1).
  { intros z m Hm. apply wrap32_id. unfold in_i32. assert (- 2 ^ 31 <= wrap32 z < 2 ^ 31) by (unfold wrap32; pose proof (Z.mod_pos_bound (z + 2 ^ 31) (2 ^ 32) ltac:(lia)); lia). lia. }
  rewrite !M by assumption. eexists. split.
  - apply mapM_id_on. intros [x y] Hp. apply in_prod_iff in Hp. rewrite !zfrom_In in Hp. cbn [fst snd].
    rewrite !t_transform_id by lia. reflexivity.
  - apply prod_NoDup; apply zfrom_NoDup.
Qed.

Lemma window_inside f l dist : fwf f ->
  let k := floor_i32 A (div A dist d) in 0 <= k ->
  0 <= fst (discretize A d l) - k -> fst (discretize A d l) + k < nw - 1 ->
  0 <= snd (discretize A d l) - k -> snd (discretize A d l) + k < nh - 1 ->
  exists ids, window A f l dist = Some ids /\ NoDup ids /\
    forall c, In c ids <-> Z.abs (fst c - fst (discretize A d l)) <= k /\ Z.abs (snd c - snd (discretize A d l)) <= k.
Proof.
  intros (W1 & W2 & W3 & W4 & _) k Hk H1 H2 H3 H4. destruct GS as (G1 & G2 & G3 & _). unfold window. cbv zeta. rewrite W1, W2, W3, W4. fold k.
  set (x := fst (discretize A d l)) in *. set (y := snd (discretize A d l)) in *.
  assert (BX : nw < 2 ^ 31) by nia. assert (BY : nh < 2 ^ 31) by nia.
  unfold cols in *. rewrite (wrap32_id (x - k)), (wrap32_id (x + k)), (wrap32_id (y - k)), (wrap32_id (y + k)), (wrap32_id (ceil_i32 A (div A w d) - 1)), (wrap32_id (ceil_i32 A (div A h d) - 1)) by (unfold in_i32; lia).
    replace (if t then Z.max 0 (x - k) else x - k) with (x - k) by (destruct t; lia).
    replace (if t then Z.max 0 (y - k) else y - k) with (y - k) by (destruct t; lia).
    replace (if t then Z.min (x + k) (ceil_i32 A (div A w d) - 1) else x + k) with (x + k) by (destruct t; lia).
    replace (if t then Z.min (y + k) (ceil_i32 A (div A h d) - 1) else y + k) with (y + k) by (destruct t; lia).
    rewrite (wrap32_id (x + k + 1)), (wrap32_id (y + k + 1)) by (unfold in_i32; lia). eexists. split; [|split].
    + apply mapM_id_on. intros [a b] Hp. apply in_prod_iff in Hp. rewrite !zfrom_In in Hp. cbn [fst snd].
      rewrite !t_transform_id by lia. reflexivity.
    + apply prod_NoDup; apply zfrom_NoDup.
    + intros [a b]. rewrite in_prod_iff, !zfrom_In. cbn [fst snd]. lia.
Qed.

(** What a query returns, when no bag is visited twice: the placements in visited bags
    that pass the test. *)
Lemma perm_at f ps l dist ids : fwf f -> (forall c, in_range nw nh c -> rbag f c = Some (at_cell c ps)) ->
  le A dist (of_int A 0) = false -> window A f l dist = Some ids -> NoDup ids ->
  exists r, f_neighbors A location f l dist = Some r /\ Permutation r (map fst (filter (fun p => existsb (loc_eqb (discretize A d (snd p))) ids && keeps l dist (discretize A d (snd p)) (fst p)) ps)).
Proof.
  intros W Hps Hd Ew N. destruct (neighbors_eq f l dist (fun c => at_cell c ps) W Hps Hd) as (ids' & Ew' & _ & E2 & _).
  rewrite Ew in Ew'. injection Ew' as <-. eexists. split; [exact E2|]. apply bags_perm. exact N.
Qed.
Lemma neighbors_perm cs f rs l dist ids : Forall (f_in A w h d) cs -> run (f_new A w h d t) cs = Some (f, rs) ->
  le A dist (of_int A 0) = false -> window A f l dist = Some ids -> NoDup ids ->
  exists r, f_neighbors A location f l dist = Some r /\ Permutation r (map fst (filter (fun p => existsb (loc_eqb (discretize A d (snd p))) ids && keeps l dist (discretize A d (snd p)) (fst p)) (readable A eqo d cs))).
Proof.
  intros Hin E. destruct (history cs Hin) as (f' & rs' & E' & _ & W & S). rewrite E in E'. injection E' as <- <-.
  apply (perm_at f (readable A eqo d cs)); [exact W|]. intros c Hc. apply (S c Hc).
Qed.

(** *** Iteration and empty bags *)
Lemma live_In e p : In p (live A eqo d e) -> In (FSet (fst p) (snd p)) e.
Proof.
  induction e as [|c e IH]; [intros []|]. destruct c; cbn [live]; try (intros H; right; apply IH; exact H).
  destruct (existsb (takes_back A eqo d o l) e); [intros H; right; apply IH; exact H|]. intros [<-|H]; [left; reflexivity|right; apply IH; exact H].
Qed.
Lemma current_In (cs : list fop) c : In c (current_epoch A cs) -> In c cs.
Proof.
  induction cs as [|c0 cs IH]; [intros []|]. destruct c0; cbn [current_epoch]; try (intros H; apply in_app_or in H; destruct H as [H|[<-|[]]]; [right; apply IH; exact H|left; reflexivity]). intros [].
Qed.
Lemma previous_In (cs : list fop) c : In c (previous_epoch A cs) -> In c cs.
Proof.
  induction cs as [|c0 cs IH]; [intros []|]. destruct c0; cbn [previous_epoch]; try (intros H; right; apply IH; exact H). intros H. right. apply current_In. exact H.
Qed.
Lemma readable_In cs p : In p (readable A eqo d cs) -> In (FSet (fst p) (snd p)) cs.
Proof. intros H. apply live_In, previous_In, in_rev in H. exact H. Qed.
Lemma pending_In cs p : In p (pending A eqo d cs) -> In (FSet (fst p) (snd p)) cs.
Proof. intros H. apply live_In, current_In, in_rev in H. exact H. Qed.

Lemma iter_eq f (bags : list (list O)) bag : fwf f -> (forall c, in_range nw nh c -> vget bags (cell_index nh c) = Some (bag c)) ->
  f_iter_bags A f bags = Some (flat_map (fun c => map (fun o => (not_discretize A d c, o)) (bag c)) (cells nw nh)).
Proof.
  intros (W1 & W2 & W3 & W4 & W5 & W6 & _) H. unfold f_iter_bags. rewrite W3, W5, W6.
  assert (F : Forall (in_range nw nh) (cells nw nh)) by (apply Forall_forall; intros c; apply cells_In).
  induction F as [|c l Hc F IH]; [reflexivity|]. cbn [mapM flat_map]. rewrite (H c Hc). cbn [option_map].
  destruct (mapM _ l); [|discriminate]. cbn [option_map concat] in *. injection IH as IH. rewrite IH. reflexivity.
Qed.
Lemma iter_perm (ps : list (O * pt)) ids : NoDup ids ->
  Permutation (flat_map (fun c => map (fun o => (not_discretize A d c, o)) (at_cell c ps)) ids)
    (map (fun p => (not_discretize A d (discretize A d (snd p)), fst p)) (filter (fun p => existsb (loc_eqb (discretize A d (snd p))) ids) ps)).
Proof.
  induction 1 as [|c ids Hc N IH]; cbn [flat_map existsb].
  - induction ps as [|p ps IH']; cbn; [constructor|exact IH'].
  - assert (E1 : map (fun o => (not_discretize A d c, o)) (at_cell c ps) = map (fun p => (not_discretize A d (discretize A d (snd p)), fst p)) (filter (fun p => loc_eqb (discretize A d (snd p)) c) ps)).
    { unfold at_cell. clear -ps. induction ps as [|p ps IH]; [reflexivity|]. cbn [filter]. destruct (loc_eqb (discretize A d (snd p)) c) eqn:E.
      - cbn [map]. rewrite IH. apply loc_eqb_eq in E. rewrite E. reflexivity.
      - exact IH. }
    rewrite E1, IH, <- map_app. apply Permutation_map.
    etransitivity; [apply perm_filter_split|reflexivity].
    intros p _. destruct (loc_eqb (discretize A d (snd p)) c) eqn:E; [|reflexivity]. apply loc_eqb_eq in E.
    apply not_true_is_false. intros X. apply existsb_exists in X. destruct X as (c' & H1 & H2). apply loc_eqb_eq in H2. congruence.
Qed.
Lemma iter_placements (ps : list (O * pt)) : (forall p, In p ps -> in_field A w h d (snd p)) ->
  Permutation (flat_map (fun c => map (fun o => (not_discretize A d c, o)) (at_cell c ps)) (cells nw nh))
    (map (fun p => (not_discretize A d (discretize A d (snd p)), fst p)) ps).
Proof.
  intros H. rewrite iter_perm by apply cells_NoDup. rewrite filter_true; [reflexivity|]. intros p Hp. apply existsb_exists.
  exists (discretize A d (snd p)). split; [apply cells_In, H, Hp|apply loc_eqb_eq; reflexivity].
Qed.
Lemma empty_eq f bag : fwf f -> (forall c, in_range nw nh c -> rbag f c = Some (bag c)) ->
  f_empty_bags A f = Some (map (not_discretize A d) (filter (fun c => match bag c with [] => true | _ => false end) (cells nw nh))).
Proof.
  intros (W1 & W2 & W3 & W4 & W5 & W6 & _) H. unfold f_empty_bags. rewrite W3, W5, W6.
  assert (F : Forall (in_range nw nh) (cells nw nh)) by (apply Forall_forall; intros c; apply cells_In).
  induction F as [|c l Hc F IH]; [reflexivity|]. cbn [mapM filter]. rewrite (H c Hc). cbn [option_map].
  destruct (mapM _ l); [|discriminate]. cbn [option_map concat] in *. injection IH as IH. rewrite IH. destruct (bag c); reflexivity.
Qed.
Lemma at_cell_nil c ps : match at_cell c ps with [] => true | _ => false end = negb (existsb (fun p => loc_eqb (discretize A d (snd p)) c) ps).
Proof.
  induction ps as [|p ps IH]; [reflexivity|]. unfold at_cell in *. cbn [filter existsb]. destruct (loc_eqb (discretize A d (snd p)) c); [reflexivity|exact IH].
Qed.

End Gen.

(** *** The relaxed query *)
Lemma relax_rel A {O} (location : O -> num A * num A) (f : field2d A (O := O)) l dist :
  match f_neighbors A location f l dist, f_relax A f l dist with
  | Some r, Some r' => subseq r r'
  | None, None => True
  | _, _ => False
  end.
Proof.
  unfold f_neighbors, f_relax. destruct (le A dist (of_int A 0)); [constructor|]. destruct (window A f l dist) as [ids|]; [|exact I].
  induction ids as [|c ids IH]; [constructor|]. cbn [mapM]. destruct (vget (f_read f) _) as [b|]; [|exact I]. cbn [option_map].
  revert IH. destruct (mapM _ ids) as [ys|]; destruct (mapM _ ids) as [zs|]; intros IH; cbn [option_map concat] in *; try exact IH; try exact I.
  apply subseq_app; [apply subseq_filter|exact IH].
Qed.
