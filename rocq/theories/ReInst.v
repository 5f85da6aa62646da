(** * The model of closures agrees with the models of the grids

    With a closure that does not use the grid, [apply_to_all_values] as modelled in ReModel
    is the one of NumModel and ObjModel; the iterations visit what [od_iter] and the like
    list; a call that does not ask to change a buffer leaves it alone. *)
From Coq Require Import List Bool ZArith NArith Arith Lia Permutation.
From Verif Require Import Grid DashModel NumModel ObjModel FieldModel ReModel ReSpec ReProofs.
Import ListNotations.
Local Open Scope nat_scope.

(** ** Lists *)
Lemma deal_concat {X Y} (bs : list (list X)) (cs : list (list Y)) :
  map (@length X) bs = map (@length Y) cs -> deal bs (concat cs) = cs.
Proof.
  revert cs. induction bs as [|b bs IH]; intros [|c cs] E; cbn in E; try discriminate; [reflexivity|].
  injection E as E1 E2. cbn. rewrite E1, firstn_app, Nat.sub_diag, firstn_all, skipn_app, Nat.sub_diag, skipn_all.
  cbn. rewrite app_nil_r, IH by exact E2. reflexivity.
Qed.
Lemma somes_map {X Y} (f : X -> option Y) l : somes (map f l) = filter_map f l.
Proof. unfold somes, filter_map. induction l as [|x l IH]; cbn; [reflexivity|]. rewrite IH. reflexivity. Qed.
Local Arguments somes {X} l : simpl never.
Local Arguments filter_map {X Y} f l : simpl never.
Lemma deal_bags {L X Y} (fn : L -> X -> Y) (bags : list (L * list X)) :
  deal (map snd bags) (map (fun x => fn (fst x) (snd x)) (flat_map (fun p => map (pair (fst p)) (snd p)) bags)) =
  map (fun p => map (fn (fst p)) (snd p)) bags.
Proof.
  rewrite <- (deal_concat (map snd bags) (map (fun p => map (fn (fst p)) (snd p)) bags)).
  - f_equal. induction bags as [|[l b] bags IH]; cbn; [reflexivity|].
    rewrite map_app, IH, map_map. reflexivity.
  - rewrite !map_map. apply map_ext. intros p. rewrite map_length. reflexivity.
Qed.
Lemma for_all_pure {S' X Y} (body : X -> S' -> option (S' * Y)) (fn : X -> Y) l s :
  (forall x, In x l -> body x s = Some (s, fn x)) -> for_all body l s = Some (s, map fn l).
Proof.
  induction l as [|x l IH]; intros E; cbn; [reflexivity|].
  rewrite (E x (or_introl eq_refl)), IH by (intros y Hy; apply E; right; exact Hy). reflexivity.
Qed.
Lemma mapM_map {X Y W} (f : Y -> option W) (g : X -> Y) l : mapM f (map g l) = mapM (fun x => f (g x)) l.
Proof. induction l as [|x l IH]; cbn; [reflexivity|]. rewrite IH. reflexivity. Qed.
Lemma mapM_ext {X Y} (f g : X -> option Y) l : (forall x, f x = g x) -> mapM f l = mapM g l.
Proof. intros E. induction l as [|x l IH]; cbn; [reflexivity|]. rewrite E, IH. reflexivity. Qed.

(** ** DenseGrid2D *)
Section OD.
Context {O : Type}.
Variable eqo : O -> O -> bool.
Definition od_same (b : cell) (g g' : odense O) : Prop :=
  od_buf b g' = od_buf b g /\ od_w g' = od_w g /\ od_h g' = od_h g.
Lemma od_same_refl b g : od_same b g g.
Proof. repeat split. Qed.
Lemma od_same_trans b g g' g'' : od_same b g g' -> od_same b g' g'' -> od_same b g g''.
Proof. unfold od_same. intuition congruence. Qed.
Lemma od_edit_same g l f g' : od_edit g l f = Some g' -> od_same Pub g g'.
Proof.
  unfold od_edit. destruct (vget _ _); [|discriminate]. destruct (vset _ _ _); [|discriminate].
  cbn. intros [= <-]. repeat split.
Qed.
Lemma od_act_same b c g g' r : odr_act eqo c g = Some (g', r) -> ~ In (b, Change) (odr_needs c g) -> od_same b g g'.
Proof.
  intros E N. destruct c; cbn in E, N;
    try (match type of E with option_map _ ?x = _ => destruct x; [|discriminate] end; injection E as <- _; apply od_same_refl).
  - unfold od_set in E. destruct (od_edit g l _) as [g1|] eqn:F; [|discriminate]. injection E as <- _.
    destruct b; [apply (od_edit_same _ _ _ _ F)|exfalso; apply N; left; reflexivity].
  - unfold od_remove in E. destruct (od_edit g l _) as [g1|] eqn:F; [|discriminate]. injection E as <- _.
    destruct b; [apply (od_edit_same _ _ _ _ F)|exfalso; apply N; left; reflexivity].
Qed.
Lemma od_fin_same b r o outs (g g' : odense O) : odr_ap_finish eqo r o outs g = Some g' ->
  ~ In (b, Change) (odr_ap_needs o) -> od_same b g g'.
Proof.
  unfold odr_ap_finish. destruct (odr_ap_bags o g) as [bags|]; [|discriminate]. destruct o, b; cbn; intros E N;
    try (exfalso; apply N; left; reflexivity).
  - injection E as <-. repeat split.
  - destruct (odr_push _ _); [|discriminate]. injection E as <-. repeat split.
  - destruct (odr_replace _ _ _); [|discriminate]. injection E as <-. repeat split.
Qed.
Lemma od_same_groups b (g g' : odense O) : od_same b g g' -> odr_groups b g' = odr_groups b g.
Proof. intros (_ & E1 & E2). unfold odr_groups. rewrite E1, E2. reflexivity. Qed.
Lemma od_same_items b (g g' : odense O) r c : od_same b g g' -> odr_items r b c g' = odr_items r b c g.
Proof. intros (E & _ & E2). unfold odr_items. rewrite E, E2. reflexivity. Qed.
Lemma od_contents b (g : odense O) : contents odr_groups odr_items tt b g =
  match b with Pub => od_iter g | Wrt => od_iter_unbuffered g end.
Proof.
  assert (H : forall buf cs, option_map (@concat _) (mapM (fun c => option_map (map (pair c)) (vget buf (cell_index (od_h g) c))) cs)
     = od_collect buf (od_h g) (fun c (b : list O) => map (pair c) b) cs).
  { intros buf cs. induction cs as [|c cs IH]; cbn; [reflexivity|].
    destruct (vget buf _); cbn; [|reflexivity]. rewrite <- IH. destruct (mapM _ cs); reflexivity. }
  destruct b; apply H.
Qed.

Lemma od_read_agrees fn w h i (rs : list (list O)) :
  option_map (fun bags => map somes (map (fun p => map (fn (fst p)) (snd p)) bags)) (odr_bags w h i rs None) =
  od_apply_read fn w h i rs.
Proof.
  revert i. induction rs as [|b rs IH]; intros i; cbn; [reflexivity|].
  destruct (indexes_bag _ w h) as [id|]; [|reflexivity]. rewrite <- IH.
  destruct (odr_bags w h (S i) rs None) as [bags|]; cbn; [|reflexivity]. rewrite somes_map. reflexivity.
Qed.
Lemma od_write_agrees fn w h i (rs ws : list (list O)) :
  match odr_bags w h i rs None with
  | None => None
  | Some bags => odr_push (map (fun p => map (fn (fst p)) (snd p)) bags) ws
  end = od_apply_write fn w h i rs ws.
Proof.
  revert i ws. induction rs as [|b rs IH]; intros i ws; cbn; [reflexivity|].
  destruct (indexes_bag _ w h) as [id|]; [|reflexivity].
  destruct ws as [|c ws].
  - rewrite <- IH. destruct (odr_bags w h (S i) rs None) as [bags|]; cbn; rewrite ?somes_map;
      destruct (filter_map (fn id) b); reflexivity.
  - rewrite <- IH. destruct (odr_bags w h (S i) rs None) as [bags|]; cbn; rewrite ?somes_map; reflexivity.
Qed.
Lemma map2_self {X Y W} (f : X -> Y -> W) (g : X -> Y) l : map2 f l (map g l) = map (fun x => f x (g x)) l.
Proof. induction l as [|x l IH]; cbn; [reflexivity|]. rewrite IH. reflexivity. Qed.
Lemma od_rw_agrees fn w h i (rs ws : list (list O)) :
  match odr_bags w h i rs (Some ws) with
  | None => None
  | Some bags => odr_replace eqo (map (fun p => map (fn (fst p)) (snd p)) bags) ws
  end = od_apply_rw eqo fn w h i rs ws.
Proof.
  revert i ws. induction rs as [|b rs IH]; intros i ws; cbn; [reflexivity|].
  destruct (indexes_bag _ w h) as [id|]; [|reflexivity].
  destruct ws as [|c ws]; [reflexivity|].
  rewrite <- IH. destruct (odr_bags w h (S i) rs (Some ws)) as [bags|]; cbn; [|reflexivity].
  destruct c as [|e c]; rewrite ?somes_map; [reflexivity|]. rewrite map2_self. reflexivity.
Qed.
Lemma od_finish_agrees fn o (g : odense O) :
  match odr_ap_items tt o g with
  | None => None
  | Some xs => odr_ap_finish eqo tt o (map (fun x => fn (fst x) (snd x)) xs) g
  end = od_apply eqo g o fn.
Proof.
  unfold odr_ap_items, odr_ap_finish.
  pose proof (od_read_agrees fn (od_w g) (od_h g) 0 (od_read g)) as HR.
  pose proof (od_write_agrees fn (od_w g) (od_h g) 0 (od_read g) (od_write g)) as HW.
  pose proof (od_rw_agrees fn (od_w g) (od_h g) 0 (od_read g) (od_write g)) as HX.
  destruct o; cbn [od_apply]; unfold odr_ap_bags in *.
  - rewrite <- HR. destruct (odr_bags _ _ _ _ _) as [bags|]; cbn [option_map]; [|reflexivity]. rewrite deal_bags. reflexivity.
  - rewrite <- HW. destruct (odr_bags _ _ _ _ _) as [bags|]; cbn [option_map]; [|reflexivity]. rewrite deal_bags. reflexivity.
  - rewrite <- HX. destruct (odr_bags _ _ _ _ (Some _)) as [bags|]; cbn [option_map]; [|reflexivity]. rewrite deal_bags. reflexivity.
Qed.
End OD.

(** ** Maps with distinct keys *)
Section Maps.
Context {V : Type}.
Local Notation mp := (list (loc * V)).
Definition over (m : mp) (p : loc * V) : mp := hm_modify loc_eqb (fst p) (fun _ => snd p) m.
Lemma over_map k v (m : mp) : NoDup (map fst m) ->
  over m (k, v) = map (fun p => if loc_eqb k (fst p) then (fst p, v) else p) m.
Proof.
  unfold over. cbn [fst snd]. induction m as [|p m IH]; cbn; intros D; [reflexivity|]. inversion D as [|? ? N D']; subst.
  destruct (loc_eqb k (fst p)) eqn:E.
  - apply loc_eqb_eq in E. subst k. f_equal.
    rewrite <- (map_id m) at 1. apply map_ext_in. intros q Hq.
    destruct (loc_eqb (fst p) (fst q)) eqn:E2; [|reflexivity].
    apply loc_eqb_eq in E2. exfalso. apply N. rewrite E2. apply in_map. exact Hq.
  - rewrite IH by exact D'. reflexivity.
Qed.
Lemma over_keys (m : mp) p : map fst (over m p) = map fst m.
Proof.
  unfold over. induction m as [|q m IH]; cbn; [reflexivity|].
  destruct (loc_eqb (fst p) (fst q)); cbn; [reflexivity|]. rewrite IH. reflexivity.
Qed.
Definition upd (new m : mp) : mp :=
  map (fun p => match find (fun q => loc_eqb (fst q) (fst p)) new with Some q => (fst p, snd q) | None => p end) m.
Lemma fold_over (new m : mp) : NoDup (map fst new) -> NoDup (map fst m) -> fold_left over new m = upd new m.
Proof.
  revert m. induction new as [|[k v] new IH]; intros m Dn Dm; cbn.
  - symmetry. unfold upd. cbn. apply map_id.
  - inversion Dn as [|? ? N D]; subst. rewrite IH; [|exact D|rewrite over_keys; exact Dm].
    rewrite over_map by exact Dm. unfold upd. rewrite map_map. apply map_ext. intros p. cbn.
    destruct (loc_eqb k (fst p)) eqn:E; cbn [fst]; [|reflexivity].
    destruct (find _ new) as [q|] eqn:F; [|reflexivity]. exfalso. apply find_some in F. destruct F as [I F].
    apply loc_eqb_eq in E, F. apply N. cbn. subst k. rewrite <- F. apply in_map. exact I.
Qed.
Lemma fold_over_perm {W} (u : loc * W -> V) (w : W -> V) (l m : list (loc * W)) :
  Permutation l m -> NoDup (map fst m) ->
  fold_left over (map (fun p => (fst p, u p)) l) (map (fun p => (fst p, w (snd p))) m) = map (fun p => (fst p, u p)) m.
Proof.
  intros P D. assert (Dl : NoDup (map fst l)).
  { apply (Permutation_NoDup (Permutation_map fst (Permutation_sym P))). exact D. }
  assert (K : forall (A B : Type) (h : loc * A -> B) (z : list (loc * A)), map fst (map (fun p => (fst p, h p)) z) = map fst z).
  { intros A B h z. rewrite map_map. reflexivity. }
  rewrite fold_over; [|rewrite K; exact Dl|rewrite map_map; exact D].
  unfold upd. rewrite map_map. apply map_ext_in. intros p Hp. cbn.
  destruct (find _ (map _ l)) as [q|] eqn:F.
  - apply find_some in F. destruct F as [I F]. apply in_map_iff in I. destruct I as (p' & <- & I). cbn in F |- *.
    apply loc_eqb_eq in F. apply (Permutation_in _ P) in I.
    assert (p' = p) as ->; [|reflexivity].
    clear - D I Hp F. induction m as [|a m IH]; [destruct I|]. cbn in D. inversion D as [|? ? N D']; subst.
    destruct I as [->|I], Hp as [->|Hp]; [reflexivity|..].
    + exfalso. apply N. rewrite F. apply in_map. exact Hp.
    + exfalso. apply N. rewrite <- F. apply in_map. exact I.
    + apply IH; assumption.
  - exfalso. assert (I : In (fst p, u p) (map (fun p => (fst p, u p)) l)).
    { apply (in_map (fun p => (fst p, u p))). apply (Permutation_in _ (Permutation_sym P)). exact Hp. }
    apply (find_none _ _ F) in I. cbn in I. rewrite loc_eqb_refl in I. discriminate.
Qed.
Lemma find_modify_other k k' f (m : mp) : k <> k' -> hm_find loc_eqb k (hm_modify loc_eqb k' f m) = hm_find loc_eqb k m.
Proof.
  intros N. unfold hm_find. induction m as [|p m IH]; cbn; [reflexivity|].
  destruct (loc_eqb k' (fst p)) eqn:E; cbn.
  - apply loc_eqb_eq in E. subst k'. apply loc_eqb_neq in N. rewrite N. reflexivity.
  - rewrite IH. reflexivity.
Qed.
Lemma find_insert_other k k' v (m : mp) : k <> k' -> hm_find loc_eqb k (fst (hm_insert loc_eqb k' v m)) = hm_find loc_eqb k m.
Proof.
  intros N. unfold hm_find. induction m as [|p m IH]; cbn.
  - apply loc_eqb_neq in N. rewrite N. reflexivity.
  - destruct (loc_eqb k' (fst p)) eqn:E; cbn.
    + apply loc_eqb_eq in E. subst k'. apply loc_eqb_neq in N. rewrite N. reflexivity.
    + destruct (hm_insert loc_eqb k' v m) as [m' r] eqn:F. cbn in IH |- *. rewrite IH. reflexivity.
Qed.
End Maps.
Lemma mapM_some {X Y} (F : X -> option Y) (u : X -> Y) l : (forall x, In x l -> F x = Some (u x)) -> mapM F l = Some (map u l).
Proof.
  induction l as [|x l IH]; intros H; cbn; [reflexivity|].
  rewrite (H x (or_introl eq_refl)), IH by (intros y Hy; apply H; right; exact Hy). reflexivity.
Qed.
Lemma mapM_none {X Y} (F : X -> option Y) l : mapM F l = None <-> exists x, In x l /\ F x = None.
Proof.
  induction l as [|x l IH]; cbn; [split; [discriminate|intros (x & [] & _)]|].
  destruct (F x) eqn:E.
  - destruct (mapM F l); cbn.
    + split; [discriminate|]. intros (z & [->|I] & H); [congruence|]. destruct IH as [_ IH]. discriminate IH. eauto.
    + split; [|reflexivity]. intros _. destruct IH as [IH _]. destruct (IH eq_refl) as (z & I & H). eauto.
  - split; [|reflexivity]. intros _. exists x. auto.
Qed.
Lemma mapM_inv {X Y} (F : X -> option Y) d l res : mapM F l = Some res ->
  res = map (fun x => match F x with Some y => y | None => d end) l /\ forall x, In x l -> F x <> None.
Proof.
  revert res. induction l as [|x l IH]; intros res E; cbn in E.
  - injection E as <-. split; [reflexivity|]. intros x [].
  - destruct (F x) as [y|] eqn:Fx; [|discriminate]. destruct (mapM F l) as [ys|]; [|discriminate].
    injection E as <-. destruct (IH ys eq_refl) as [-> H]. cbn. rewrite Fx. split; [reflexivity|].
    intros z [->|I]; [congruence|apply H, I].
Qed.

(** ** SparseGrid2D *)
Section OS.
Context {O : Type}.
Variable eqo : O -> O -> bool.
Local Notation bags := (list (loc * list O)).
Definition os_same (b : cell) (g g' : osparse O) : Prop := os_buf b g' = os_buf b g.
Lemma os_act_same b c (g g' : osparse O) r : osr_act eqo c g = Some (g', r) -> ~ In (b, Change) (osr_needs c g) -> os_same b g g'.
Proof.
  destruct c as [c it]. unfold osr_act, osr_needs. cbn [fst snd].
  intros E N. destruct c; cbn in E, N; try (injection E as <- _; try reflexivity).
  - destruct b; [reflexivity|exfalso; apply N; left; reflexivity].
  - destruct b; [reflexivity|exfalso; apply N; left; reflexivity].
  - destruct (os_random_empty g draws) as [[r'|]|]; [|discriminate|discriminate]. injection E as <- _. reflexivity.
Qed.
Lemma os_fin_same b r o outs (g g' : osparse O) : osr_ap_finish r o outs g = Some g' ->
  ~ In (b, Change) (osr_ap_needs o) -> os_same b g g'.
Proof.
  unfold osr_ap_finish. destruct (mapM _ _) as [res|]; [|discriminate]. intros [= <-] N.
  destruct o, b; cbn; try reflexivity; exfalso; apply N; cbn; auto.
Qed.
Lemma os_contents it b (g : osparse O) : contents osr_groups osr_items it b g =
  Some (match b with Pub => os_iter it g | Wrt => os_iter_unbuffered it g end).
Proof. unfold contents, osr_groups, osr_items. cbn. rewrite app_nil_r. destruct b; reflexivity. Qed.

Lemma os_fold_agrees fn (l m : bags) : Permutation l m -> NoDup (map fst m) ->
  option_map (fun res => fold_left osr_overwrite (combine (map fst l) res) m)
    (mapM (fun p => mapM (fn (fst p)) (snd p)) l) =
  mapM (apply_bag fn) m.
Proof.
  intros P D. destruct (mapM _ l) as [res|] eqn:E; cbn.
  - destruct (mapM_inv _ [] _ _ E) as [-> H]. set (u := fun p => match mapM (fn (fst p)) (snd p) with Some y => y | None => [] end).
    assert (C : combine (map fst l) (map u l) = map (fun p => (fst p, u p)) l).
    { clear. induction l as [|p l IH]; cbn; [reflexivity|]. rewrite IH. reflexivity. }
    fold u. rewrite C.
    pose proof (fold_over_perm u (fun b : list O => b) l m P D) as F.
    rewrite (map_ext (fun p : loc * list O => (fst p, snd p)) (fun p => p)) in F by (intros []; reflexivity). rewrite map_id in F.
    unfold over in F. unfold osr_overwrite. rewrite F. symmetry. apply mapM_some.
    intros p Hp. unfold apply_bag, u. specialize (H p (Permutation_in _ (Permutation_sym P) Hp)).
    destruct (mapM (fn (fst p)) (snd p)); [reflexivity|congruence].
  - symmetry. apply mapM_none. apply mapM_none in E. destruct E as (p & I & E). exists p.
    split; [apply (Permutation_in _ P), I|]. unfold apply_bag. rewrite E. reflexivity.
Qed.
Lemma os_insert_agrees (f : O -> option O) k b (ws : bags) :
  foldM (fun ws o => option_map (fun x => fst (hm_insert loc_eqb k [x] ws)) (f o)) b ws =
  option_map (fun r => fold_left (fun ws x => fst (hm_insert loc_eqb k [x] ws)) r ws) (mapM f b).
Proof.
  revert ws. induction b as [|o b IH]; intros ws; cbn; [reflexivity|].
  destruct (f o) as [x|]; cbn; [|reflexivity]. rewrite IH. destruct (mapM f b); reflexivity.
Qed.
Definition pick (ws : bags) (p : loc * list O) : loc * list O :=
  (fst p, match hm_find loc_eqb (fst p) ws with Some (_, c) => c | None => snd p end).
Lemma os_rw_agrees fn (ws0 : bags) l ws : NoDup (map fst l) ->
  (forall p, In p l -> hm_find loc_eqb (fst p) ws = hm_find loc_eqb (fst p) ws0) ->
  option_map (fun res => fold_left osr_rw (combine (map fst l) res) ws)
    (mapM (fun p => mapM (fn (fst p)) (snd (pick ws0 p))) l) =
  foldM (os_apply_rw fn) l ws.
Proof.
  revert ws. induction l as [|p l IH]; intros ws D S; cbn; [reflexivity|].
  inversion D as [|? ? N D']; subst. unfold os_apply_rw at 1.
  rewrite <- (S p (or_introl eq_refl)).
  assert (NE : forall q, In q l -> fst q <> fst p).
  { intros q Hq E. apply N. rewrite <- E. apply in_map, Hq. }
  destruct (hm_find loc_eqb (fst p) ws) as [[k c]|] eqn:F; cbn.
  - destruct (mapM (fn (fst p)) c) as [c'|]; cbn; [|reflexivity].
    rewrite <- (IH (hm_modify loc_eqb (fst p) (fun _ => c') ws) D').
    + destruct (mapM _ l) as [res|]; cbn; [|reflexivity]. unfold osr_rw at 2. cbn. rewrite F. reflexivity.
    + intros q Hq. rewrite find_modify_other by apply NE, Hq. apply S. right. exact Hq.
  - rewrite os_insert_agrees. destruct (mapM (fn (fst p)) (snd p)) as [r|]; cbn; [|reflexivity].
    rewrite <- (IH (fold_left (fun ws x => fst (hm_insert loc_eqb (fst p) [x] ws)) r ws) D').
    + destruct (mapM _ l) as [res|]; cbn; [|reflexivity]. unfold osr_rw at 2. cbn. rewrite F. reflexivity.
    + intros q Hq. transitivity (hm_find loc_eqb (fst q) ws); [|apply S; right; exact Hq].
      specialize (NE q Hq). clear - NE. revert ws. induction r as [|x r IH]; intros ws; cbn [fold_left]; [reflexivity|].
      rewrite IH, find_insert_other by exact NE. reflexivity.
Qed.
Lemma os_finish_agrees fn it o (g : osparse O) :
  (forall m, Permutation (it m) m) -> NoDup (map fst (os_read g)) -> NoDup (map fst (os_write g)) ->
  match osr_ap_items it o g with
  | None => None
  | Some xs => osr_ap_finish it o (map (fun x => fn (fst x) (snd x)) xs) g
  end = os_apply it g o fn.
Proof.
  intros P Dr Dw. unfold osr_ap_items, osr_ap_finish, calls. rewrite deal_bags, mapM_map.
  rewrite (mapM_ext _ (fun p => mapM (fn (fst p)) (snd p))) by (intros p; unfold expect_all; rewrite mapM_map; reflexivity).
  destruct o; cbn [osr_ap_bags os_apply].
  - rewrite <- (os_fold_agrees fn (it (os_read g)) (os_read g) (P _) Dr). destruct (mapM _ _); reflexivity.
  - rewrite <- (os_fold_agrees fn (it (os_write g)) (os_write g) (P _) Dw). destruct (mapM _ _); reflexivity.
  - assert (Di : NoDup (map fst (it (os_read g)))).
    { apply (Permutation_NoDup (Permutation_map fst (Permutation_sym (P _)))). exact Dr. }
    rewrite <- (os_rw_agrees fn (os_write g) (it (os_read g)) (os_write g) Di) by reflexivity.
    rewrite mapM_map. rewrite map_map. unfold pick. cbn [fst snd].
    destruct (mapM _ _) as [res|]; reflexivity.
Qed.
End OS.

(** ** DenseNumberGrid2D *)
Section DG.
Context {T : Type}.
Variable eqv : T -> T -> bool.
Definition dg_same (b : cell) (g g' : dgrid T) : Prop :=
  dg_buf b g' = dg_buf b g /\ dg_w g' = dg_w g /\ dg_h g' = dg_h g.
Lemma dg_same_refl b g : dg_same b g g.
Proof. repeat split. Qed.
Lemma dg_same_trans b g g' g'' : dg_same b g g' -> dg_same b g' g'' -> dg_same b g g''.
Proof. unfold dg_same. intuition congruence. Qed.
Lemma dg_act_same b c g g' r : dgr_act eqv c g = Some (g', r) -> ~ In (b, Change) (dgr_needs c g) -> dg_same b g g'.
Proof.
  intros E N. destruct c; cbn in E, N;
    try (match type of E with option_map _ ?x = _ => destruct x; [|discriminate] end; injection E as <- _; apply dg_same_refl).
  - unfold dg_set, dg_put in E. destruct (vset _ _ _); [|discriminate]. injection E as <- _.
    destruct b; [repeat split|exfalso; apply N; left; reflexivity].
  - unfold dg_remove, dg_put in E. destruct (vset _ _ _); [|discriminate]. injection E as <- _.
    destruct b; [repeat split|exfalso; apply N; left; reflexivity].
Qed.
Lemma dg_fin_same b r o outs (g g' : dgrid T) : dgr_ap_finish r o outs g = Some g' ->
  ~ In (b, Change) (dgr_ap_needs o) -> dg_same b g g'.
Proof.
  unfold dgr_ap_finish. destruct (dgr_ap_values o g) as [vs|]; [|discriminate]. destruct o, b; cbn; intros E N;
    try (exfalso; apply N; cbn; auto; fail); destruct (dgr_put _ _); try discriminate; injection E as <-; repeat split.
Qed.
Lemma dg_same_items b (g g' : dgrid T) r c : dg_same b g g' -> dgr_items r b c g' = dgr_items r b c g.
Proof. intros (E & _ & E2). unfold dgr_items. rewrite E, E2. reflexivity. Qed.
Lemma dg_contents b (g : dgrid T) : contents dgr_groups dgr_items tt b g =
  match b with Pub => dg_iter g | Wrt => dg_iter_unbuffered g end.
Proof.
  assert (H : forall buf cs, option_map (@concat _) (mapM (fun c => option_map (fun e : option T => match e with None => [] | Some v => [(c, v)] end) (vget buf (cell_index (dg_h g) c))) cs)
     = dg_collect buf (dg_h g) (fun c (e : option T) => match e with None => [] | Some v => [(c, v)] end) cs).
  { intros buf cs. induction cs as [|c cs IH]; cbn; [reflexivity|].
    destruct (vget buf _); cbn; [|reflexivity]. rewrite <- IH. destruct (mapM _ cs); reflexivity. }
  destruct b; apply H.
Qed.
Lemma deal_opts (fn : T -> T) (vs : list (option T)) :
  deal (map opt_list vs) (map fn (flat_map opt_list vs)) = map (fun v => opt_list (option_map fn v)) vs.
Proof.
  induction vs as [|v vs IH]; cbn; [reflexivity|]. destruct v as [x|]; cbn; rewrite IH; reflexivity.
Qed.
Lemma dg_values_none (rs : list (option T)) : dgr_values rs None = Some rs.
Proof. induction rs as [|r rs IH]; cbn; [reflexivity|]. rewrite IH. reflexivity. Qed.
Lemma dg_finish_agrees fn o (g : dgrid T) : length (dg_read g) = length (dg_write g) ->
  match dgr_ap_items tt o g with
  | None => None
  | Some xs => dgr_ap_finish tt o (map fn xs) g
  end = dg_apply g o fn.
Proof.
  destruct g as [rs ws w h]. cbn [dg_read dg_write]. intros L.
  unfold dgr_ap_items, dgr_ap_finish, dgr_ap_values. cbn [dg_read dg_write].
  assert (HR : dgr_put (map (fun v => opt_list (option_map fn v)) rs) rs = Some (map (option_map fn) rs)).
  { clear. induction rs as [|[x|] rs IH]; cbn; [reflexivity| |]; rewrite IH; reflexivity. }
  assert (HW : dgr_put (map (fun v => opt_list (option_map fn v)) rs) ws =
    Some (map2 (fun r w => match r with None => w | Some v => Some (fn v) end) rs ws)).
  { clear HR. revert ws L. induction rs as [|r rs IH]; intros [|w0 ws] L; try discriminate; [reflexivity|].
    injection L as L. destruct r as [x|]; cbn; rewrite IH by exact L; reflexivity. }
  assert (HX : match dgr_values rs (Some ws) with None => None
    | Some vs => dgr_put (map (fun v => opt_list (option_map fn v)) vs) ws end =
    Some (map2 (fun r w => match w with Some v => Some (fn v)
       | None => match r with Some v => Some (fn v) | None => None end end) rs ws)).
  { clear HR HW. revert ws L. induction rs as [|r rs IH]; intros [|w0 ws] L; try discriminate; [reflexivity|].
    injection L as L. specialize (IH ws L). cbn. destruct (dgr_values rs (Some ws)) as [vs|]; cbn in IH |- *; [|discriminate].
    destruct w0 as [y|]; cbn; [rewrite IH; reflexivity|]. destruct r as [x|]; cbn; rewrite IH; reflexivity. }
  destruct o; unfold dg_apply; cbn [dg_read dg_write dg_w dg_h].
  - rewrite dg_values_none. cbn [option_map]. rewrite deal_opts, HR. reflexivity.
  - rewrite dg_values_none. cbn [option_map]. rewrite deal_opts, HW, L, Nat.leb_refl, skipn_all, app_nil_r. reflexivity.
  - rewrite L, Nat.leb_refl, skipn_all, app_nil_r. destruct (dgr_values rs (Some ws)) as [vs|]; cbn [option_map]; [|discriminate].
    rewrite deal_opts, HX. reflexivity.
Qed.
End DG.

(** ** SparseNumberGrid2D *)
Section SG.
Context {T : Type}.
Variable eqv : T -> T -> bool.
Local Notation nmap := (list (loc * T)).
Definition sg_same (b : cell) (g g' : sgrid T) : Prop := sg_buf b g' = sg_buf b g.
Lemma sg_act_same b c (g g' : sgrid T) r : sgr_act eqv c g = Some (g', r) -> ~ In (b, Change) (sgr_needs c g) -> sg_same b g g'.
Proof.
  destruct c as [c it]. unfold sgr_act, sgr_needs. cbn [fst snd].
  intros E N. destruct c; cbn in E, N; try (injection E as <- _; try reflexivity).
  - destruct b; [reflexivity|exfalso; apply N; left; reflexivity].
  - destruct b; [reflexivity|exfalso; apply N; left; reflexivity].
  - destruct (sg_random_empty g _) as [[r'|]|]; [|discriminate|discriminate]. injection E as <- _. reflexivity.
Qed.
Lemma sg_fin_same b r o outs (g g' : sgrid T) : sgr_ap_finish r o outs g = Some g' ->
  ~ In (b, Change) (sgr_ap_needs o) -> sg_same b g g'.
Proof.
  unfold sgr_ap_finish. intros [= <-] N.
  destruct o, b; cbn; try reflexivity; exfalso; apply N; cbn; auto.
Qed.
Lemma sg_contents it b (g : sgrid T) : contents sgr_groups sgr_items it b g =
  Some (match b with Pub => sg_iter it g | Wrt => sg_iter_unbuffered it g end).
Proof. unfold contents, sgr_groups, sgr_items. cbn. rewrite app_nil_r. destruct b; reflexivity. Qed.

Lemma sg_rw_agrees fn (ws0 : nmap) l ws : NoDup (map fst l) ->
  (forall p, In p l -> hm_find loc_eqb (fst p) ws = hm_find loc_eqb (fst p) ws0) ->
  fold_left sgr_rw (combine (map fst l) (map (fun p => fn match hm_find loc_eqb (fst p) ws0 with Some (_, v) => v | None => snd p end) l)) ws =
  fold_left (rw_shard loc_eqb fn) l ws.
Proof.
  revert ws. induction l as [|p l IH]; intros ws D S; cbn; [reflexivity|].
  inversion D as [|? ? N D']; subst.
  assert (NE : forall q, In q l -> fst q <> fst p).
  { intros q Hq E. apply N. rewrite <- E. apply in_map, Hq. }
  rewrite <- (S p (or_introl eq_refl)).
  assert (E1 : sgr_rw ws (fst p, fn match hm_find loc_eqb (fst p) ws with Some (_, v) => v | None => snd p end) = rw_shard loc_eqb fn ws p).
  { unfold sgr_rw, rw_shard. cbn [fst snd]. destruct (hm_find loc_eqb (fst p) ws) as [[k v]|] eqn:F; [|reflexivity].
    clear - F. unfold hm_find in F. induction ws as [|q ws IH]; cbn in F |- *; [discriminate|].
    destruct (loc_eqb (fst p) (fst q)); [injection F as ->; reflexivity|]. rewrite IH by exact F. reflexivity. }
  rewrite E1. apply IH; [exact D'|]. intros q Hq. rewrite <- (S q (or_intror Hq)).
  unfold rw_shard. destruct (hm_find loc_eqb (fst p) ws).
  - apply find_modify_other, NE, Hq.
  - apply find_insert_other, NE, Hq.
Qed.
Lemma sg_finish_agrees fn it o (g : sgrid T) :
  (forall m, Permutation (it m) m) -> NoDup (map fst (sg_read g)) -> NoDup (map fst (sg_write g)) ->
  match sgr_ap_items it o g with
  | None => None
  | Some xs => sgr_ap_finish it o (map fn xs) g
  end = Some (sg_apply it g o fn).
Proof.
  intros P Dr Dw. unfold sgr_ap_items, sgr_ap_finish. f_equal. rewrite !map_map.
  assert (C : forall (h : loc * T -> T) l, combine (map fst l) (map h l) = map (fun p => (fst p, h p)) l).
  { intros h l. induction l as [|p l IH]; cbn; [reflexivity|]. rewrite IH. reflexivity. }
  assert (F : forall m, NoDup (map fst m) -> fold_left sgr_overwrite (map (fun p => (fst p, fn (snd p))) (it m)) m = map (fun p => (fst p, fn (snd p))) m).
  { intros m D. pose proof (fold_over_perm (fun p => fn (snd p)) (fun v : T => v) (it m) m (P m) D) as F.
    rewrite (map_ext (fun p : loc * T => (fst p, snd p)) (fun p => p)) in F by (intros []; reflexivity). rewrite map_id in F.
    exact F. }
  destruct o; cbn [sgr_ap_entries sg_apply].
  - rewrite C, F by exact Dr. reflexivity.
  - rewrite C, F by exact Dw. reflexivity.
  - assert (Di : NoDup (map fst (it (sg_read g)))).
    { apply (Permutation_NoDup (Permutation_map fst (Permutation_sym (P _)))). exact Dr. }
    rewrite <- (sg_rw_agrees fn (sg_write g) (it (sg_read g)) (sg_write g) Di) by reflexivity.
    rewrite !map_map. reflexivity.
Qed.
End SG.

(** ** Field2D *)
Section FD.
Variable A : arith.
Context {O : Type}.
Variable eqo : O -> O -> bool.
Variable location : O -> num A * num A.
Definition fd_same (b : cell) (f f' : @field2d A O) : Prop :=
  f_buf A b f' = f_buf A b f /\ f_dw f' = f_dw f /\ f_dh f' = f_dh f /\ f_disc f' = f_disc f.
Lemma fd_same_refl b f : fd_same b f f.
Proof. repeat split. Qed.
Lemma fd_same_trans b f f' f'' : fd_same b f f' -> fd_same b f' f'' -> fd_same b f f''.
Proof. unfold fd_same. intuition congruence. Qed.
Lemma fd_act_same b c (f f' : @field2d A O) r : fr_act A eqo location c f = Some (f', r) -> ~ In (b, Change) (fr_needs A c f) -> fd_same b f f'.
Proof.
  intros E N. destruct c; cbn in E, N;
    try (unfold query in E; match type of E with option_map _ ?x = _ => destruct x; [|discriminate] end; injection E as <- _; apply fd_same_refl).
  - unfold f_set in E. destruct (vget _ _); [|discriminate]. destruct (vset _ _ _); [|discriminate]. injection E as <- _.
    destruct b; [repeat split|exfalso; apply N; left; reflexivity].
  - destruct b; [|exfalso; apply N; left; reflexivity].
    unfold f_remove in E. destruct (vget _ _) as [[|x l0]|]; [..|discriminate].
    + injection E as <- _. apply fd_same_refl.
    + cbv zeta in E. match type of E with context [if ?c then None else _] => destruct c; [discriminate|] end.
      destruct (vset _ _ _); [|discriminate]. cbn in E. injection E as <- _. repeat split.
Qed.
Lemma fd_same_items b (f f' : @field2d A O) r c : fd_same b f f' -> fr_items A r b c f' = fr_items A r b c f.
Proof. intros (E & _ & E2 & E3). unfold fr_items. rewrite E, E2, E3. reflexivity. Qed.
Lemma fd_contents b (f : @field2d A O) : contents (fr_groups A) (fr_items A) tt b f =
  match b with Pub => f_iter A f | Wrt => f_iter_unbuffered A f end.
Proof. destruct b; reflexivity. Qed.
End FD.
