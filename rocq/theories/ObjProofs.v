(** * Proofs about the object grids *)
From Coq Require Import List Bool ZArith NArith Arith Lia Permutation FinFun.
From Verif Require Import Grid DashModel DashSpec DashProofs NumModel NumSpec NumProofs ObjModel ObjSpec.
Import ListNotations.
Open Scope Z_scope.

(** ** Histories *)
Section Hist.
Context {O : Type}.

Lemma placed_snoc (cancels : O -> loc -> oop O -> bool) l e c :
  placed cancels l (e ++ [c]) =
  filter (fun o => negb (cancels o l c)) (placed cancels l e) ++ placed cancels l [c].
Proof.
  induction e as [|d e IH]; [reflexivity|].
  assert (H : forall o, existsb (cancels o l) (e ++ [c]) = existsb (cancels o l) e || cancels o l c).
  { intros o. rewrite existsb_app. cbn. rewrite orb_false_r. reflexivity. }
  destruct d; cbn [app placed]; try exact IH. rewrite H, IH.
  destruct (loc_eqb l0 l); [|reflexivity]. cbn [andb].
  destruct (existsb (cancels o l) e); cbn [orb negb]; [reflexivity|].
  cbn [filter]. destruct (cancels o l c); reflexivity.
Qed.

Lemma filter_true {X} (f : X -> bool) l : (forall x, f x = true) -> filter f l = l.
Proof. intros H. induction l as [|x l IH]; cbn; [reflexivity|]. rewrite H, IH. reflexivity. Qed.
End Hist.

(** ** Cell indices in loop order *)
Lemma list_prod_snoc {X Y} (a : list X) x (b : list Y) :
  list_prod (a ++ [x]) b = list_prod a b ++ map (pair x) b.
Proof.
  induction a as [|y a IH]; cbn [app list_prod]; [apply app_nil_r|]. rewrite IH, app_assoc. reflexivity.
Qed.
Lemma cells_index w h : 0 <= w -> 0 <= h -> w * h < 2 ^ 31 ->
  map (cell_index h) (cells w h) = map Z.of_nat (seq 0 (Z.to_nat (w * h))).
Proof.
  intros Hw Hh Hs.
  assert (E : map (cell_index h) (cells w h) = map (fun l => fst l * h + snd l) (cells w h)).
  { apply map_ext_in. intros l Hl. apply cells_In in Hl. destruct (cell_index_range w h l Hl Hs) as [-> _]. reflexivity. }
  rewrite E. clear E Hs. unfold cells, zrange.
  set (nh := Z.to_nat h). assert (Eh : h = Z.of_nat nh) by (subst nh; lia).
  replace (Z.to_nat (w * h)) with (Z.to_nat w * nh)%nat by (subst nh; rewrite Z2Nat.inj_mul by lia; reflexivity).
  clearbody nh. subst h. clear Hh. generalize (Z.to_nat w) as nw. clear w Hw. intros nw.
  induction nw as [|nw IH]; [reflexivity|].
  rewrite seq_S, map_app. cbn [map].
  rewrite list_prod_snoc, map_app, IH. replace (S nw * nh)%nat with (nw * nh + nh)%nat by lia.
  rewrite seq_app, map_app. f_equal. rewrite !map_map. cbn [plus fst snd].
  assert (H : forall m k, map (fun x => Z.of_nat nw * Z.of_nat nh + Z.of_nat x) (seq k m)
                          = map Z.of_nat (seq (nw * nh + k) m)).
  { induction m as [|m IHm]; intros k; cbn [seq map]; [reflexivity|]. f_equal; [lia|].
    rewrite <- Nat.add_succ_r. apply IHm. }
  rewrite H, Nat.add_0_r. reflexivity.
Qed.

Lemma vget_app_l {X} (a b : list X) z : 0 <= z < Z.of_nat (length a) -> vget (a ++ b) z = vget a z.
Proof.
  intros H. unfold vget, as_index. destruct (Z.ltb_spec z 0); [reflexivity|]. apply nth_error_app1. lia.
Qed.
Lemma vget_firstn {X} (v : list X) n z : 0 <= z < Z.of_nat n -> vget (firstn n v) z = vget v z.
Proof.
  intros H. unfold vget, as_index. destruct (Z.ltb_spec z 0); [reflexivity|]. revert v z H H0.
  induction n as [|n IH]; intros v z H H0; [lia|]. destruct v as [|x v]; [reflexivity|]. cbn [firstn].
  destruct (Z.to_nat z) as [|k] eqn:E; [reflexivity|]. cbn [nth_error].
  specialize (IH v (z - 1)). replace (Z.to_nat (z - 1)) with k in IH by lia. apply IH; lia.
Qed.

(** ** Dense grid *)
Section Dense.
Context {O : Type}.
Variable eqo : O -> O -> bool.
Implicit Types g : odense O.

Definition owf (w h : Z) g : Prop :=
  od_w g = w /\ od_h g = h /\
  w * h <= Z.of_nat (length (od_read g)) /\ w * h <= Z.of_nat (length (od_write g)).

Definition rbag g l : option (list O) := vget (od_read g) (cell_index (od_h g) l).
Definition wbag g l : option (list O) := vget (od_write g) (cell_index (od_h g) l).

Lemma rbag_total w h g l : owf w h g -> size_ok w h -> in_range w h l -> exists b, rbag g l = Some b.
Proof.
  intros (Ew & Eh & Lr & Lw) (_ & _ & _ & _ & Hs) Hl. unfold rbag. rewrite Eh.
  destruct (cell_index_range w h l Hl Hs) as [-> B]. apply vget_in. lia.
Qed.
Lemma wbag_total w h g l : owf w h g -> size_ok w h -> in_range w h l -> exists b, wbag g l = Some b.
Proof.
  intros (Ew & Eh & Lr & Lw) (_ & _ & _ & _ & Hs) Hl. unfold wbag. rewrite Eh.
  destruct (cell_index_range w h l Hl Hs) as [-> B]. apply vget_in. lia.
Qed.

Lemma od_new_ok w h : size_ok w h ->
  exists g, od_new w h = Some g /\ owf w h g /\ length (od_read g) = Z.to_nat (w * h) /\
    length (od_write g) = Z.to_nat (w * h) /\
    forall l, in_range w h l -> rbag g l = Some [] /\ wbag g l = Some [].
Proof.
  intros (Hw & Hh & Hw2 & Hh2 & Hs). assert (0 <= w * h) by nia. unfold od_new.
  rewrite (wrap32_id (w * h)) by (unfold in_i32; lia). unfold as_index.
  destruct (Z.ltb_spec (w * h) 0); [lia|]. eexists. split; [reflexivity|].
  rewrite !Z.abs_eq, !wrap32_id by (unfold in_i32; lia).
  split; [unfold owf; cbn; rewrite repeat_length; lia|]. cbn [od_read od_write]. rewrite repeat_length.
  do 2 (split; [reflexivity|]).
  intros l Hl. unfold rbag, wbag. cbn. destruct (cell_index_range w h l Hl Hs) as [-> B].
  rewrite vget_repeat by lia. auto.
Qed.

Lemma od_edit_ok w h g l f : owf w h g -> size_ok w h -> in_range w h l ->
  exists g' b, od_edit g l f = Some g' /\ owf w h g' /\ od_read g' = od_read g /\
    length (od_write g') = length (od_write g) /\ wbag g l = Some b /\
    forall l', in_range w h l' -> rbag g' l' = rbag g l' /\
      wbag g' l' = if loc_eqb l' l then Some (f b) else wbag g l'.
Proof.
  intros Hwf Hs Hl. destruct (wbag_total w h g l Hwf Hs Hl) as [b Hb].
  destruct Hwf as (Ew & Eh & Lr & Lw). destruct Hs as (_ & _ & _ & _ & Hs).
  unfold od_edit. pose proof Hb as Hb'. unfold wbag in Hb. rewrite Hb. rewrite Eh in *.
  destruct (cell_index_range w h l Hl Hs) as [EI B].
  destruct (vset_in (od_write g) (cell_index h l) (f b)) as (ws & -> & HL & Hv1 & Hv2); [lia|].
  eexists. exists b. split; [reflexivity|]. cbn [option_map od_read od_write].
  split; [unfold owf; cbn; lia|]. split; [reflexivity|]. split; [exact HL|]. split; [exact Hb'|].
  intros l' Hl'. unfold rbag, wbag. cbn [od_read od_write od_h]. rewrite ?Eh. split; [reflexivity|].
  destruct (loc_eqb l' l) eqn:E.
  - apply loc_eqb_eq in E. subst l'. exact Hv1.
  - apply loc_eqb_neq in E. apply Hv2; [destruct (cell_index_range w h l' Hl' Hs); lia|].
    intros HI. apply E. apply (cell_index_inj w h); auto.
Qed.

Lemma od_lazy_ok w h g : owf w h g -> size_ok w h ->
  owf w h (od_lazy_update g) /\
  forall l, in_range w h l -> rbag (od_lazy_update g) l = wbag g l /\ wbag (od_lazy_update g) l = Some [].
Proof.
  intros Hwf Hs. split.
  - destruct Hwf as (Ew & Eh & Lr & Lw). unfold owf. cbn. rewrite map_length. auto.
  - intros l Hl. destruct (rbag_total w h g l Hwf Hs Hl) as [b Hb]. unfold rbag, wbag, od_lazy_update in *. cbn.
    rewrite vget_map, Hb. auto.
Qed.

Lemma foldM_map {X Y W} (f : Y -> X -> option Y) (m : W -> X) l : forall y,
  foldM (fun y x => f y (m x)) l y = foldM f (map m l) y.
Proof. induction l as [|x l IH]; intros y; cbn; [reflexivity|]. destruct (f y (m x)); auto. Qed.

Lemma update_fold (ws rs : list (list O)) n : (n <= length ws)%nat ->
  foldM (fun acc z => match vget ws z with None => None | Some b => vinsert acc z b end)
        (map Z.of_nat (seq 0 n)) rs = Some (firstn n ws ++ rs).
Proof.
  intros Hn. assert (H : forall m k, (k + m <= length ws)%nat ->
    foldM (fun acc z => match vget ws z with None => None | Some b => vinsert acc z b end)
          (map Z.of_nat (seq k m)) (firstn k ws ++ rs) = Some (firstn (k + m) ws ++ rs)).
  { induction m as [|m IH]; intros k Hk; cbn [seq map foldM]; [rewrite Nat.add_0_r; reflexivity|].
    unfold vget at 1, vinsert at 1, as_index. destruct (Z.ltb_spec (Z.of_nat k) 0); [lia|]. rewrite Nat2Z.id.
    destruct (nth_error ws k) as [b|] eqn:E; [|apply nth_error_None in E; lia].
    assert (Lf : length (firstn k ws) = k) by (rewrite firstn_length; lia).
    destruct (Nat.leb_spec k (length (firstn k ws ++ rs))); [|rewrite app_length in *; lia].
    rewrite firstn_app, skipn_app, Lf, Nat.sub_diag, firstn_all2, skipn_all2 by lia. cbn [firstn skipn app].
    rewrite app_nil_r. replace (firstn k ws ++ b :: rs) with (firstn (S k) ws ++ rs).
    - rewrite IH by lia. replace (S k + m)%nat with (k + S m)%nat by lia. reflexivity.
    - clear -E. revert k E. induction ws as [|c ws IHw]; intros [|k] E; try discriminate; cbn in *.
      + injection E as ->. reflexivity.
      + f_equal. rewrite <- IHw by exact E. destruct ws; reflexivity. }
  exact (H n 0%nat Hn).
Qed.

Lemma od_update_ok w h g : owf w h g -> size_ok w h ->
  exists g', od_update g = Some g' /\ owf w h g' /\ od_write g' = od_write g /\
    length (od_read g') = (Z.to_nat (w * h) + length (od_read g))%nat /\
    forall l, in_range w h l -> rbag g' l = wbag g l /\ wbag g' l = wbag g l.
Proof.
  intros (Ew & Eh & Lr & Lw) (Hw & Hh & _ & _ & Hs). unfold od_update. rewrite Ew, Eh.
  rewrite (foldM_map (fun rs z => match vget (od_write g) z with None => None | Some b => vinsert rs z b end) (cell_index h)).
  rewrite cells_index, update_fold by lia. eexists. split; [reflexivity|]. cbn [option_map].
  split; [unfold owf; cbn; rewrite app_length; lia|]. split; [reflexivity|].
  split; [cbn; rewrite app_length, firstn_length; lia|].
  intros l Hl. unfold rbag, wbag. cbn. rewrite Eh. split; [|reflexivity].
  destruct (cell_index_range w h l Hl Hs) as [-> B].
  rewrite vget_app_l by (rewrite firstn_length; lia). apply vget_firstn. lia.
Qed.

(** *** apply_to_all_values *)
Lemma indexes_bag_ok w h z : size_ok w h -> 0 <= z < w * h ->
  indexes_bag z w h = Some (z mod w, z / w).
Proof.
  intros (Hw & Hh & _ & _ & Hs) Hz. assert (0 < w) by nia. assert (0 < h) by nia.
  assert (Hq : 0 <= z / w < h) by (split; [apply Z.div_pos; lia|apply Z.div_lt_upper_bound; lia]).
  pose proof (Z.div_mod z w ltac:(lia)) as HD. pose proof (Z.mod_pos_bound z w ltac:(lia)) as HM.
  unfold indexes_bag.
  assert (HB : forall i, 0 <= i < h -> wrap32 (w * i) = w * i /\ wrap32 (wrap32 (w * i) + w) = w * i + w).
  { intros i Hi. assert (E : wrap32 (w * i) = w * i) by (apply wrap32_id; unfold in_i32; nia).
    rewrite E. split; [reflexivity|]. apply wrap32_id. unfold in_i32. nia. }
  destruct (find _ (zrange h)) as [i|] eqn:E.
  - apply find_some in E. destruct E as [Hi E]. apply zrange_In in Hi. destruct (HB i Hi) as [E1 E2].
    rewrite E2, E1 in E. apply andb_true_iff in E. destruct E as [A B].
    apply Z.ltb_lt in A. apply Z.leb_le in B. cbn [option_map]. rewrite E1.
    assert (i = z / w) by (apply Z.div_unique with (z - w * i); lia). subst i.
    rewrite wrap32_id by (unfold in_i32; lia). do 2 f_equal. lia.
  - exfalso. apply find_none with (x := z / w) in E; [|apply zrange_In; exact Hq].
    destruct (HB _ Hq) as [E1 E2]. rewrite E2, E1 in E. apply andb_false_iff in E.
    destruct E as [E|E]; [apply Z.ltb_ge in E|apply Z.leb_gt in E]; lia.
Qed.

Lemma indexes_bag_none w h z : size_ok w h -> w * h <= z -> indexes_bag z w h = None.
Proof.
  intros (Hw & Hh & _ & _ & Hs) Hz. unfold indexes_bag.
  destruct (find _ (zrange h)) as [i|] eqn:E; [|reflexivity]. exfalso.
  apply find_some in E. destruct E as [Hi E]. apply zrange_In in Hi.
  assert (E1 : wrap32 (w * i) = w * i) by (apply wrap32_id; unfold in_i32; nia).
  assert (E2 : wrap32 (w * i + w) = w * i + w) by (apply wrap32_id; unfold in_i32; nia).
  rewrite E1, E2 in E. apply andb_true_iff in E. destruct E as [A B]. apply Z.ltb_lt in A. nia.
Qed.

Section Apply.
Variable f : loc -> O -> option O.
Variables w h : Z.

Lemma apply_read_nth : forall rs i rs', od_apply_read f w h i rs = Some rs' ->
  length rs' = length rs /\
  forall j b, nth_error rs j = Some b ->
    exists id, indexes_bag (wrap32 (Z.of_nat (i + j))) w h = Some id /\
      nth_error rs' j = Some (filter_map (f id) b).
Proof.
  induction rs as [|b rs IH]; intros i rs' H; cbn in H.
  - injection H as <-. split; [reflexivity|]. intros [|j] b Hb; discriminate.
  - destruct (indexes_bag (wrap32 (Z.of_nat i)) w h) as [id|] eqn:E; [|discriminate].
    destruct (od_apply_read f w h (S i) rs) as [rs1|] eqn:E1; [|discriminate]. injection H as <-.
    destruct (IH _ _ E1) as [HL HN]. split; [cbn; lia|]. intros [|j] c Hc; cbn in Hc.
    + injection Hc as <-. rewrite Nat.add_0_r. exists id. auto.
    + rewrite <- Nat.add_succ_comm. apply HN. exact Hc.
Qed.

Lemma apply_read_total : size_ok w h -> forall rs i, Z.of_nat (i + length rs) <= w * h ->
  exists rs', od_apply_read f w h i rs = Some rs'.
Proof.
  intros Hs. pose proof Hs as (_ & _ & _ & _ & Hs'). induction rs as [|b rs IH]; intros i Hi; cbn; [eauto|].
  cbn [length] in Hi. rewrite wrap32_id by (unfold in_i32; lia). rewrite indexes_bag_ok by (auto; lia).
  destruct (IH (S i)) as [rs' ->]; [lia|]. cbn. eauto.
Qed.

Lemma apply_read_panic : size_ok w h -> forall rs i, w * h < Z.of_nat (i + length rs) ->
  Z.of_nat (i + length rs) < 2 ^ 31 -> (0 < length rs)%nat -> od_apply_read f w h i rs = None.
Proof.
  intros Hs. induction rs as [|b rs IH]; intros i Hi Hj Hlen; cbn [length] in *; [lia|]. cbn.
  rewrite wrap32_id by (unfold in_i32; lia). destruct (Z_lt_le_dec (Z.of_nat i) (w * h)).
  - rewrite indexes_bag_ok by (auto; lia). rewrite IH; [reflexivity|lia|lia|lia].
  - rewrite indexes_bag_none by (auto; lia). reflexivity.
Qed.

Lemma apply_write_nth : forall rs i ws ws', od_apply_write f w h i rs ws = Some ws' ->
  length ws' = length ws /\
  forall j c, nth_error ws j = Some c ->
    match nth_error rs j with
    | Some b => exists id, indexes_bag (wrap32 (Z.of_nat (i + j))) w h = Some id /\
                  nth_error ws' j = Some (c ++ filter_map (f id) b)
    | None => nth_error ws' j = Some c
    end.
Proof.
  induction rs as [|b rs IH]; intros i ws ws' H; cbn in H.
  - injection H as <-. split; [reflexivity|]. intros [|j] c Hc; cbn; exact Hc.
  - destruct (indexes_bag (wrap32 (Z.of_nat i)) w h) as [id|] eqn:E; [|discriminate].
    destruct ws as [|c ws].
    + destruct (filter_map (f id) b); [|discriminate]. apply IH in H. destruct H as [HL _].
      split; [exact HL|]. intros [|j] c Hc; discriminate.
    + destruct (od_apply_write f w h (S i) rs ws) as [ws1|] eqn:E1; [|discriminate]. injection H as <-.
      destruct (IH _ _ _ E1) as [HL HN]. split; [cbn; lia|]. intros [|j] d Hd; cbn in Hd |- *.
      * injection Hd as <-. rewrite Nat.add_0_r. exists id. auto.
      * rewrite <- Nat.add_succ_comm. apply HN. exact Hd.
Qed.

Lemma apply_write_total : size_ok w h -> forall rs i ws, Z.of_nat (i + length rs) <= w * h ->
  (length rs <= length ws)%nat -> exists ws', od_apply_write f w h i rs ws = Some ws'.
Proof.
  intros Hs. pose proof Hs as (_ & _ & _ & _ & Hs'). induction rs as [|b rs IH]; intros i ws Hi Hl; cbn; [eauto|].
  cbn [length] in *. rewrite wrap32_id by (unfold in_i32; lia). rewrite indexes_bag_ok by (auto; lia).
  destruct ws as [|c ws]; [cbn in Hl; lia|]. destruct (IH (S i) ws) as [ws' ->]; [lia|cbn in Hl; lia|]. cbn. eauto.
Qed.

Definition rw_bag (id : loc) (b c : list O) : list O :=
  match c with
  | [] => fold_left (push_new eqo) (filter_map (f id) b) []
  | _ => map (fun e => match f id e with Some x => x | None => e end) c
  end.

Lemma apply_rw_nth : forall rs i ws ws', od_apply_rw eqo f w h i rs ws = Some ws' ->
  length ws' = length ws /\ (length rs <= length ws)%nat /\
  forall j c, nth_error ws j = Some c ->
    match nth_error rs j with
    | Some b => exists id, indexes_bag (wrap32 (Z.of_nat (i + j))) w h = Some id /\
                  nth_error ws' j = Some (rw_bag id b c)
    | None => nth_error ws' j = Some c
    end.
Proof.
  induction rs as [|b rs IH]; intros i ws ws' H; cbn in H.
  - injection H as <-. split; [reflexivity|]. split; [cbn; lia|]. intros [|j] c Hc; cbn; exact Hc.
  - destruct (indexes_bag (wrap32 (Z.of_nat i)) w h) as [id|] eqn:E; [|discriminate].
    destruct ws as [|c ws]; [discriminate|].
    destruct (od_apply_rw eqo f w h (S i) rs ws) as [ws1|] eqn:E1; [|discriminate].
    injection H as <-. destruct (IH _ _ _ E1) as (HL & HL2 & HN). split; [cbn; lia|]. split; [cbn; lia|].
    intros [|j] d Hd; cbn in Hd |- *.
    + injection Hd as <-. rewrite Nat.add_0_r. exists id. auto.
    + rewrite <- Nat.add_succ_comm. apply HN. exact Hd.
Qed.

Lemma apply_rw_total : size_ok w h -> forall rs i ws, Z.of_nat (i + length rs) <= w * h ->
  (length rs <= length ws)%nat -> exists ws', od_apply_rw eqo f w h i rs ws = Some ws'.
Proof.
  intros Hs. pose proof Hs as (_ & _ & _ & _ & Hs'). induction rs as [|b rs IH]; intros i ws Hi Hl; cbn; [eauto|].
  cbn [length] in *. rewrite wrap32_id by (unfold in_i32; lia). rewrite indexes_bag_ok by (auto; lia).
  destruct ws as [|c ws]; [cbn in Hl; lia|]. destruct (IH (S i) ws) as [ws' ->]; [lia|cbn in Hl; lia|]. cbn. eauto.
Qed.
End Apply.

(** The location the closure is called with for the objects of cell [l]. *)
Definition told (w h : Z) (l : loc) : loc :=
  ((fst l * h + snd l) mod w, (fst l * h + snd l) / w).

Lemma told_index w h l : size_ok w h -> in_range w h l ->
  indexes_bag (wrap32 (Z.of_nat (0 + Z.to_nat (cell_index h l)))) w h = Some (told w h l).
Proof.
  intros Hs Hl. pose proof Hs as (_ & _ & _ & _ & Hs'). destruct (cell_index_range w h l Hl Hs') as [E B].
  rewrite E. cbn [plus]. rewrite Z2Nat.id by lia. rewrite wrap32_id by (unfold in_i32; lia).
  rewrite indexes_bag_ok by (auto; lia). reflexivity.
Qed.

Lemma vget_nth {X} (v : list X) z : 0 <= z -> vget v z = nth_error v (Z.to_nat z).
Proof. intros H. unfold vget, as_index. destruct (Z.ltb_spec z 0); [lia|reflexivity]. Qed.

Lemma od_apply_ok w h g op f g' : owf w h g -> size_ok w h -> od_apply eqo g op f = Some g' ->
  owf w h g' /\ length (od_read g') = length (od_read g) /\ length (od_write g') = length (od_write g) /\
  forall l b c, in_range w h l -> rbag g l = Some b -> wbag g l = Some c ->
    match op with
    | READ => rbag g' l = Some (filter_map (f (told w h l)) b) /\ wbag g' l = Some c
    | WRITE => rbag g' l = Some b /\ wbag g' l = Some (c ++ filter_map (f (told w h l)) b)
    | READWRITE => rbag g' l = Some b /\ wbag g' l = Some (rw_bag f (told w h l) b c)
    end.
Proof.
  intros (Ew & Eh & Lr & Lw) Hs H. unfold od_apply in H. rewrite Ew, Eh in H.
  assert (Hpos : forall l, in_range w h l -> 0 <= cell_index h l).
  { intros l Hl. destruct Hs as (_ & _ & _ & _ & Hs). destruct (cell_index_range w h l Hl Hs). lia. }
  destruct op.
  - destruct (od_apply_read f w h 0 (od_read g)) as [rs|] eqn:E; [|discriminate]. injection H as <-.
    apply apply_read_nth in E. destruct E as [HL HN]. split; [unfold owf; cbn; rewrite HL; auto|].
    do 2 (split; [cbn; auto|]). intros l b c Hl Hb Hc. unfold rbag, wbag in *. cbn. rewrite Eh in *.
    split; [|exact Hc]. rewrite vget_nth in * by auto. destruct (HN _ _ Hb) as (id & E & ->).
    rewrite told_index in E by assumption. injection E as <-. reflexivity.
  - destruct (od_apply_write f w h 0 (od_read g) (od_write g)) as [ws|] eqn:E; [|discriminate]. injection H as <-.
    apply apply_write_nth in E. destruct E as [HL HN]. split; [unfold owf; cbn; rewrite HL; auto|].
    do 2 (split; [cbn; auto|]). intros l b c Hl Hb Hc. unfold rbag, wbag in *. cbn. rewrite Eh in *.
    split; [exact Hb|]. rewrite vget_nth in * by auto. specialize (HN _ _ Hc). rewrite Hb in HN.
    destruct HN as (id & E & ->). rewrite told_index in E by assumption. injection E as <-. reflexivity.
  - destruct (od_apply_rw eqo f w h 0 (od_read g) (od_write g)) as [ws|] eqn:E; [|discriminate]. injection H as <-.
    apply apply_rw_nth in E. destruct E as (HL & _ & HN). split; [unfold owf; cbn; rewrite HL; auto|].
    do 2 (split; [cbn; auto|]). intros l b c Hl Hb Hc. unfold rbag, wbag in *. cbn. rewrite Eh in *.
    split; [exact Hb|]. rewrite vget_nth in * by auto. specialize (HN _ _ Hc). rewrite Hb in HN.
    destruct HN as (id & E & ->). rewrite told_index in E by assumption. injection E as <-. reflexivity.
Qed.

(** *** Runs *)
Lemma od_call_wf w h g c g' r : owf w h g -> size_ok w h -> o_in w h c ->
  od_call eqo g c = Some (g', r) -> owf w h g'.
Proof.
  intros Hwf Hs Hc H.
  assert (Q : forall X (o : option X) (k : X -> ores O), option_map (fun x => (g, k x)) o = Some (g', r) -> owf w h g').
  { intros X o k Hk. destruct o; [|discriminate]. injection Hk as <- <-. exact Hwf. }
  destruct c; cbn in Hc, H; try (eapply Q; exact H).
  - unfold od_set in H. destruct (od_edit_ok w h g l (fun b => without eqo o b ++ [o]) Hwf Hs Hc) as (g1 & b & E & W & _).
    rewrite E in H. injection H as <- <-. exact W.
  - unfold od_remove in H. destruct (od_edit_ok w h g l (without eqo o) Hwf Hs Hc) as (g1 & b & E & W & _).
    rewrite E in H. injection H as <- <-. exact W.
  - injection H as <- <-. apply od_lazy_ok; assumption.
  - destruct (od_update_ok w h g Hwf Hs) as (g1 & E & W & _). rewrite E in H. injection H as <- <-. exact W.
  - destruct (od_apply eqo g op f) as [g1|] eqn:E; [|discriminate]. injection H as <- <-.
    apply (od_apply_ok w h) in E; tauto.
Qed.

Lemma od_run_wf w h : size_ok w h -> forall cs g g' rs, owf w h g -> Forall (o_in w h) cs ->
  od_run eqo g cs = Some (g', rs) -> owf w h g'.
Proof.
  intros Hs. induction cs as [|c cs IH]; intros g g' rs Hwf Hcs H; cbn in H; [injection H as <- <-; exact Hwf|].
  inversion Hcs as [|? ? Hc Hcs']; subst. destruct (od_call eqo g c) as [[g1 r]|] eqn:E; [|discriminate].
  destruct (od_run eqo g1 cs) as [[g2 rs2]|] eqn:E2; [|discriminate]. cbn in H. injection H as <- <-.
  apply (IH g1 _ rs2); auto. exact (od_call_wf w h g c g1 r Hwf Hs Hc E).
Qed.

Lemma od_reachable_wf w h g : size_ok w h -> od_reachable eqo w h g -> owf w h g.
Proof.
  intros Hs (g0 & cs & rs & E & Hc & H). destruct (od_new_ok w h Hs) as (g1 & E1 & W & _).
  rewrite E in E1. injection E1 as ->. exact (od_run_wf w h Hs cs _ _ rs W Hc H).
Qed.

Lemma od_run_app g cs cs' : od_run eqo g (cs ++ cs') =
  match od_run eqo g cs with
  | None => None
  | Some (g1, rs) => option_map (fun p => (fst p, rs ++ snd p)) (od_run eqo g1 cs')
  end.
Proof.
  revert g. induction cs as [|c cs IH]; intros g; cbn; [destruct (od_run eqo g cs') as [[? ?]|]; reflexivity|].
  destruct (od_call eqo g c) as [[g1 r]|]; [|reflexivity]. rewrite IH.
  destruct (od_run eqo g1 cs) as [[g2 rs]|]; [|reflexivity]. cbn.
  destruct (od_run eqo g2 cs') as [[? ?]|]; reflexivity.
Qed.

(** *** Queries *)
Lemma od_search_ok h (buf : list (list O)) o cs : (forall c, In c cs -> exists b, vget buf (cell_index h c) = Some b) ->
  ForallOrdPairs lex cs ->
  exists r, od_search eqo buf h o cs = Some r /\
    match r with
    | Some l => In l cs /\ (exists b, vget buf (cell_index h l) = Some b /\ has eqo o b = true) /\
        forall l' b, In l' cs -> lex l' l -> vget buf (cell_index h l') = Some b -> has eqo o b = false
    | None => forall l' b, In l' cs -> vget buf (cell_index h l') = Some b -> has eqo o b = false
    end.
Proof.
  induction cs as [|c cs IH]; intros Hv Hl; cbn.
  - eexists. split; [reflexivity|]. intros l' b [].
  - destruct (Hv c (or_introl eq_refl)) as [b Hb]. rewrite Hb. inversion Hl as [|? ? Hlc Hl']; subst.
    destruct (has eqo o b) eqn:E.
    + eexists. split; [reflexivity|]. split; [auto|]. split; [eauto|].
      intros l' b' [->|Hin] Hlt Hb'; [exfalso; exact (lex_irrefl _ Hlt)|].
      rewrite Forall_forall in Hlc. specialize (Hlc _ Hin). exfalso. unfold lex in *. lia.
    + destruct IH as (r & Er & Hr); [intros c' Hc'; apply Hv; right; exact Hc'|exact Hl'|].
      exists r. split; [exact Er|]. destruct r as [l|].
      * destruct Hr as (H1 & H2 & H3). split; [auto|]. split; [exact H2|].
        intros l' b' [<-|Hin] Hlt Hb'; [congruence|eauto].
      * intros l' b' [<-|Hin] Hb'; [congruence|eauto].
Qed.

Lemma od_location_ok w h g o : owf w h g -> size_ok w h ->
  exists r, od_location eqo g o = Some r /\
    match r with
    | Some l => in_range w h l /\ (exists b, rbag g l = Some b /\ has eqo o b = true) /\
        forall l' b, in_range w h l' -> lex l' l -> rbag g l' = Some b -> has eqo o b = false
    | None => forall l' b, in_range w h l' -> rbag g l' = Some b -> has eqo o b = false
    end.
Proof.
  intros Hwf Hs. pose proof Hwf as (Ew & Eh & _). unfold od_location, rbag in *. rewrite Ew, Eh.
  destruct (od_search_ok h (od_read g) o (cells w h)) as (r & Er & Hr).
  { intros c Hc. apply cells_In in Hc. destruct (rbag_total w h g c Hwf Hs Hc) as [b Hb]. unfold rbag in Hb. rewrite Eh in Hb. eauto. }
  { apply cells_sorted. }
  exists r. split; [exact Er|]. destruct r as [l|].
  - destruct Hr as (H1 & H2 & H3). rewrite cells_In in H1. split; [exact H1|]. split; [exact H2|].
    intros l' b Hl'. apply H3. apply cells_In. exact Hl'.
  - intros l' b Hl'. apply Hr. apply cells_In. exact Hl'.
Qed.

Lemma od_collect_ok {X} (buf : list (list O)) h (f : loc -> list O -> list X) cs :
  (forall c, In c cs -> exists b, vget buf (cell_index h c) = Some b) ->
  od_collect buf h f cs =
  Some (flat_map (fun c => match vget buf (cell_index h c) with Some b => f c b | None => [] end) cs).
Proof.
  induction cs as [|c cs IH]; intros Hv; cbn; [reflexivity|].
  destruct (Hv c (or_introl eq_refl)) as [b Hb]. rewrite Hb, IH; [reflexivity|]. intros c' Hc'. apply Hv. right. exact Hc'.
Qed.

Lemma flat_map_filter {X} (p : X -> bool) l : flat_map (fun x => if p x then [x] else []) l = filter p l.
Proof. induction l as [|x l IH]; cbn; [reflexivity|]. destruct (p x); cbn; rewrite IH; reflexivity. Qed.

Lemma od_empty_ok w h g : owf w h g -> size_ok w h ->
  exists ls, od_empty_bags g = Some ls /\ ForallOrdPairs lex ls /\
    forall l, In l ls <-> in_range w h l /\ rbag g l = Some [].
Proof.
  intros Hwf Hs. pose proof Hwf as (Ew & Eh & _). unfold od_empty_bags. rewrite Ew, Eh, od_collect_ok.
  2:{ intros c Hc. apply cells_In in Hc. destruct (rbag_total w h g c Hwf Hs Hc) as [b Hb].
      unfold rbag in Hb. rewrite Eh in Hb. eauto. }
  eexists. split; [reflexivity|].
  erewrite flat_map_ext with (g := fun c => if match vget (od_read g) (cell_index h c) with Some [] => true | _ => false end then [c] else []).
  2:{ intros c. destruct (vget (od_read g) (cell_index h c)) as [[|? ?]|]; reflexivity. }
  rewrite flat_map_filter. split; [apply FOP_filter, cells_sorted|].
  intros l. rewrite filter_In, cells_In. unfold rbag. rewrite Eh.
  destruct (vget (od_read g) (cell_index h l)) as [[|? ?]|]; intuition congruence.
Qed.

Lemma od_iter_ok w h g : owf w h g -> size_ok w h ->
  exists es, od_iter g = Some es /\
    es = flat_map (fun c => match rbag g c with Some b => map (pair c) b | None => [] end) (cells w h).
Proof.
  intros Hwf Hs. pose proof Hwf as (Ew & Eh & _). unfold od_iter. rewrite Ew, Eh, od_collect_ok.
  2:{ intros c Hc. apply cells_In in Hc. destruct (rbag_total w h g c Hwf Hs Hc) as [b Hb].
      unfold rbag in Hb. rewrite Eh in Hb. eauto. }
  eexists. split; [reflexivity|]. unfold rbag. rewrite Eh. reflexivity.
Qed.

(** *** History *)
Notation cd := (cancels_dense eqo).
Lemma placed_dense_set l e o l' : placed cd l (e ++ [OSet o l']) =
  if loc_eqb l' l then without eqo o (placed cd l e) ++ [o] else placed cd l e.
Proof.
  rewrite placed_snoc. cbn [placed cancels_dense existsb negb]. unfold without.
  destruct (loc_eqb l' l); cbn [andb negb]; [reflexivity|]. rewrite filter_true, app_nil_r by reflexivity. reflexivity.
Qed.
Lemma placed_dense_remove l e o l' : placed cd l (e ++ [ORemove o l']) =
  if loc_eqb l' l then without eqo o (placed cd l e) else placed cd l e.
Proof.
  rewrite placed_snoc. cbn [placed cancels_dense]. rewrite app_nil_r. unfold without.
  destruct (loc_eqb l' l); cbn [andb negb]; [reflexivity|]. rewrite filter_true by reflexivity. reflexivity.
Qed.
Lemma placed_dense_other l e c : (match c with OSet _ _ | ORemove _ _ => False | _ => True end) ->
  placed cd l (e ++ [c]) = placed cd l e.
Proof.
  intros H. rewrite placed_snoc. destruct c; try destruct H; cbn [placed cancels_dense negb];
    rewrite app_nil_r, filter_true; reflexivity.
Qed.

Lemma od_history_mixed w h cs : size_ok w h -> Forall (o_in w h) cs -> Forall o_no_apply cs ->
  exists g0 g rs, od_new w h = Some g0 /\ od_run eqo g0 cs = Some (g, rs) /\ length rs = length cs /\ owf w h g /\
    forall l, in_range w h l ->
      rbag g l = Some (placed cd l (published_lazy (rev cs))) /\
      wbag g l = Some (placed cd l (since_lazy (rev cs))).
Proof.
  intros Hs Hin Hna. destruct (od_new_ok w h Hs) as (g0 & E0 & W0 & _ & _ & H0). exists g0.
  revert Hin Hna. induction cs as [|c cs IH] using rev_ind; intros Hin Hna.
  - exists g0, []. split; [exact E0|]. split; [reflexivity|]. split; [reflexivity|]. split; [exact W0|]. exact H0.
  - apply Forall_app in Hin, Hna. destruct Hin as [Hin Hc], Hna as [Hna Hca].
    inversion_clear Hc as [|? ? Hc' _]. inversion_clear Hca as [|? ? Hca' _].
    destruct (IH Hin Hna) as (g & rs & _ & E & HL & W & H). clear IH.
    assert (S : exists g' r, od_call eqo g c = Some (g', r) /\ owf w h g' /\
      forall l, in_range w h l ->
      rbag g' l = Some (placed cd l (published_lazy (c :: rev cs))) /\
      wbag g' l = Some (placed cd l (since_lazy (c :: rev cs)))).
    { assert (Q : forall r, match c with OSet _ _ | ORemove _ _ | OLazyUpdate | OUpdate => False | _ => True end ->
        od_call eqo g c = Some (g, r) -> exists g' r, od_call eqo g c = Some (g', r) /\ owf w h g' /\
          forall l, in_range w h l ->
          rbag g' l = Some (placed cd l (published_lazy (c :: rev cs))) /\
          wbag g' l = Some (placed cd l (since_lazy (c :: rev cs)))).
      { intros r Hq Hr. exists g, r. split; [exact Hr|]. split; [exact W|]. intros l Hl. destruct (H l Hl) as [-> ->].
        destruct c; try destruct Hq; cbn [published_lazy since_lazy]; rewrite placed_dense_other; auto. }
      destruct c; cbn in Hc', Hca'; try (now destruct Hc'); try (now destruct Hca').
      - cbn [od_call]. unfold od_set.
        destruct (od_edit_ok w h g l (fun b => without eqo o b ++ [o]) W Hs Hc') as (g1 & b & -> & W1 & _ & _ & Hb & H1).
        cbn. do 2 eexists. split; [reflexivity|]. split; [exact W1|]. intros l' Hl'. destruct (H1 l' Hl') as [-> ->].
        destruct (H l' Hl') as [-> ->]. split; [reflexivity|]. rewrite placed_dense_set.
        destruct (H l Hc') as [_ Hb']. rewrite Hb in Hb'. injection Hb' as ->.
        destruct (loc_eqb l' l) eqn:EL.
        + apply loc_eqb_eq in EL. subst l'. rewrite loc_eqb_refl. reflexivity.
        + replace (loc_eqb l l') with false; [reflexivity|]. symmetry. apply loc_eqb_neq. apply loc_eqb_neq in EL. congruence.
      - cbn [od_call]. unfold od_remove.
        destruct (od_edit_ok w h g l (without eqo o) W Hs Hc') as (g1 & b & -> & W1 & _ & _ & Hb & H1).
        cbn. do 2 eexists. split; [reflexivity|]. split; [exact W1|]. intros l' Hl'. destruct (H1 l' Hl') as [-> ->].
        destruct (H l' Hl') as [-> ->]. split; [reflexivity|]. rewrite placed_dense_remove.
        destruct (H l Hc') as [_ Hb']. rewrite Hb in Hb'. injection Hb' as ->.
        destruct (loc_eqb l' l) eqn:EL.
        + apply loc_eqb_eq in EL. subst l'. rewrite loc_eqb_refl. reflexivity.
        + replace (loc_eqb l l') with false; [reflexivity|]. symmetry. apply loc_eqb_neq. apply loc_eqb_neq in EL. congruence.
      - cbn [od_call]. destruct (od_lazy_ok w h g W Hs) as [W1 H1]. do 2 eexists. split; [reflexivity|].
        split; [exact W1|]. intros l Hl. destruct (H1 l Hl) as [-> ->]. destruct (H l Hl) as [_ ->]. split; reflexivity.
      - cbn [od_call]. destruct (od_update_ok w h g W Hs) as (g1 & -> & W1 & _ & _ & H1). cbn [option_map].
        do 2 eexists. split; [reflexivity|]. split; [exact W1|]. intros l Hl. destruct (H1 l Hl) as [-> ->].
        destruct (H l Hl) as [_ ->]. cbn [published_lazy since_lazy]. rewrite placed_dense_other by exact I. split; reflexivity.
      - destruct (rbag_total w h g l W Hs Hc') as [b Hb]. apply (Q (OBag (nonempty b))); [exact I|]. cbn.
        unfold od_get. unfold rbag in Hb. rewrite Hb. reflexivity.
      - destruct (wbag_total w h g l W Hs Hc') as [b Hb]. apply (Q (OBag (nonempty b))); [exact I|]. cbn.
        unfold od_get_unbuffered. unfold wbag in Hb. rewrite Hb. reflexivity.
      - destruct (od_location_ok w h g o W Hs) as (r & Er & _). apply (Q (OLoc r)); [exact I|]. cbn. rewrite Er. reflexivity.
      - destruct (od_location_ok w h (ODense (od_write g) (od_write g) (od_w g) (od_h g)) o) as (r & Er & _);
          [destruct W as (A & B & C & D); repeat split; assumption|exact Hs|].
        apply (Q (OLoc r)); [exact I|]. cbn. change (od_location_unbuffered eqo g o) with
          (od_location eqo (ODense (od_write g) (od_write g) (od_w g) (od_h g)) o). rewrite Er. reflexivity.
      - destruct (od_empty_ok w h g W Hs) as (r & Er & _). apply (Q (OLocs r)); [exact I|]. cbn. rewrite Er. reflexivity.
      - destruct (od_iter_ok w h g W Hs) as (r & Er & _). apply (Q (OCalls r)); [exact I|]. cbn. rewrite Er. reflexivity.
      - destruct (od_iter_ok w h (ODense (od_write g) (od_write g) (od_w g) (od_h g))) as (r & Er & _);
          [destruct W as (A & B & C & D); repeat split; assumption|exact Hs|].
        apply (Q (OCalls r)); [exact I|]. cbn. change (od_iter_unbuffered g) with
          (od_iter (ODense (od_write g) (od_write g) (od_w g) (od_h g))). rewrite Er. reflexivity. }
    destruct S as (g' & r & Ec & W' & H'). exists g', (rs ++ [r]). split; [exact E0|].
    split; [rewrite od_run_app, E; cbn [od_run]; rewrite Ec; reflexivity|].
    split; [rewrite !app_length; cbn; lia|]. split; [exact W'|]. rewrite rev_app_distr. exact H'.
Qed.

Lemma epochs_eq (cs : list (oop O)) : Forall o_no_update cs ->
  since_lazy cs = since_publication cs /\ published_lazy cs = published_epoch cs.
Proof.
  induction 1 as [|c cs Hc H [I1 I2]]; [split; reflexivity|].
  destruct c; try destruct Hc; cbn [since_lazy published_lazy since_publication published_epoch]; rewrite ?I1, ?I2; split; reflexivity.
Qed.

Lemma od_history w h cs : size_ok w h -> Forall (o_in w h) cs -> Forall o_no_apply cs ->
  Forall o_no_update cs ->
  exists g0 g rs, od_new w h = Some g0 /\ od_run eqo g0 cs = Some (g, rs) /\ length rs = length cs /\ owf w h g /\
    forall l, in_range w h l ->
      rbag g l = Some (placed cd l (published_epoch (rev cs))) /\
      wbag g l = Some (placed cd l (since_publication (rev cs))).
Proof.
  intros Hs Hin Hna Hnu. destruct (od_history_mixed w h cs Hs Hin Hna) as (g0 & g & rs & E0 & E & HL & W & H).
  destruct (epochs_eq (rev cs)) as [<- <-]; [apply Forall_rev; exact Hnu|].
  exists g0, g, rs. split; [exact E0|]. split; [exact E|]. split; [exact HL|]. split; [exact W|exact H].
Qed.

(** *** Facts about [placed] *)
Lemma placed_in (cancels : O -> loc -> oop O -> bool) l e o : In o (placed cancels l e) -> In (OSet o l) e.
Proof.
  induction e as [|c e IH]; [intros []|]. destruct c; cbn [placed]; intros H; try (right; apply IH; exact H).
  destruct (loc_eqb l0 l && negb (existsb (cancels o0 l) e)) eqn:E; [|right; auto].
  destruct H as [->|H]; [|right; auto]. apply andb_prop in E. destruct E as [E _]. apply loc_eqb_eq in E. left. congruence.
Qed.
Lemma placed_has (cancels : O -> loc -> oop O -> bool) l e1 o e2 : existsb (cancels o l) e2 = false ->
  In o (placed cancels l (e1 ++ OSet o l :: e2)).
Proof.
  intros H. induction e1 as [|c e1 IH]; cbn [app placed].
  - rewrite loc_eqb_refl, H. left. reflexivity.
  - destruct c; auto. destruct (_ && _); [right|]; exact IH.
Qed.
Lemma placed_dense_once l e : ForallOrdPairs (fun a b => eqo a b = false) (placed cd l e).
Proof.
  induction e as [|c e IH]; [constructor|]. destruct c; cbn [placed]; auto.
  destruct (loc_eqb l0 l && negb (existsb (cd o l) e)) eqn:E; [|exact IH]. constructor; [|exact IH].
  apply andb_prop in E. destruct E as [_ E]. apply negb_true_iff in E. apply Forall_forall. intros x Hx.
  apply placed_in in Hx. destruct (eqo o x) eqn:Ex; [|reflexivity].
  assert (Hc : existsb (cd o l) e = true); [|congruence]. apply existsb_exists. exists (OSet x l). split; [exact Hx|].
  cbn. rewrite loc_eqb_refl, Ex. reflexivity.
Qed.

Lemma od_get_bag g l b : od_get g l = Some (Some b) <-> rbag g l = Some b /\ b <> [].
Proof.
  unfold od_get, rbag. destruct (vget (od_read g) (cell_index (od_h g) l)) as [[|x c]|]; cbn; split;
    try (intros H; discriminate); try (intros [H H']; congruence).
  intros H. injection H as <-. split; congruence.
Qed.
Lemma od_getu_bag g l b : od_get_unbuffered g l = Some (Some b) <-> wbag g l = Some b /\ b <> [].
Proof.
  unfold od_get_unbuffered, wbag. destruct (vget (od_write g) (cell_index (od_h g) l)) as [[|x c]|]; cbn; split;
    try (intros H; discriminate); try (intros [H H']; congruence).
  intros H. injection H as <-. split; congruence.
Qed.

Lemma od_location_u_ok w h g o : owf w h g -> size_ok w h ->
  exists r, od_location_unbuffered eqo g o = Some r /\
    match r with
    | Some l => in_range w h l /\ (exists b, wbag g l = Some b /\ has eqo o b = true) /\
        forall l' b, in_range w h l' -> lex l' l -> wbag g l' = Some b -> has eqo o b = false
    | None => forall l' b, in_range w h l' -> wbag g l' = Some b -> has eqo o b = false
    end.
Proof.
  intros W Hs. apply (od_location_ok w h (ODense (od_write g) (od_write g) (od_w g) (od_h g)) o); [|exact Hs].
  destruct W as (A & B & C & D); repeat split; assumption.
Qed.

(** The calls [iter_objects] makes for one location. *)
Lemma flat_cells (f : loc -> list O) cs l : NoDup cs ->
  filter (fun p => loc_eqb (fst p) l) (flat_map (fun c => map (pair c) (f c)) cs) =
  if existsb (loc_eqb l) cs then map (pair l) (f l) else [].
Proof.
  intros Hn. induction Hn as [|c cs Hc Hn IH]; [reflexivity|]. cbn [flat_map existsb]. rewrite filter_app, IH.
  destruct (loc_eqb l c) eqn:E.
  - apply loc_eqb_eq in E. subst c. cbn [orb].
    replace (existsb (loc_eqb l) cs) with false.
    2:{ symmetry. apply not_true_is_false. intros He. apply existsb_exists in He. destruct He as (x & Hx & Ex).
        apply loc_eqb_eq in Ex. subst x. exact (Hc Hx). }
    rewrite app_nil_r. generalize (f l). intros b. induction b as [|x b IHb]; cbn [map filter fst]; [reflexivity|].
    rewrite loc_eqb_refl, IHb. reflexivity.
  - cbn [orb]. replace (filter _ (map (pair c) (f c))) with (@nil (loc * O)); [reflexivity|].
    assert (E' : loc_eqb c l = false) by (apply loc_eqb_neq; apply loc_eqb_neq in E; congruence).
    generalize (f c). intros b. induction b as [|x b IHb]; cbn [map filter fst]; [reflexivity|]. rewrite E'. exact IHb.
Qed.

Lemma od_iter_at w h g : owf w h g -> size_ok w h ->
  exists es, od_iter g = Some es /\ (forall l o, In (l, o) es -> in_range w h l) /\
    forall l, in_range w h l -> exists b, rbag g l = Some b /\ filter (fun p => loc_eqb (fst p) l) es = map (pair l) b.
Proof.
  intros W Hs. destruct (od_iter_ok w h g W Hs) as (es & E & ->). eexists. split; [exact E|].
  assert (E2 : flat_map (fun c => match rbag g c with Some b => map (pair c) b | None => [] end) (cells w h) =
               flat_map (fun c => map (pair c) (match rbag g c with Some b => b | None => [] end)) (cells w h)).
  { apply flat_map_ext. intros c. destruct (rbag g c); reflexivity. }
  rewrite E2. split.
  - intros l o Hin. apply in_flat_map in Hin. destruct Hin as (c & Hc & Hin). apply in_map_iff in Hin.
    destruct Hin as (x & Ex & _). injection Ex as -> _. apply cells_In. exact Hc.
  - intros l Hl. destruct (rbag_total w h g l W Hs Hl) as [b Hb]. exists b. split; [exact Hb|].
    rewrite flat_cells by apply cells_NoDup. rewrite Hb.
    replace (existsb (loc_eqb l) (cells w h)) with true; [reflexivity|]. symmetry. apply existsb_exists.
    exists l. split; [apply cells_In; exact Hl|apply loc_eqb_refl].
Qed.
End Dense.
