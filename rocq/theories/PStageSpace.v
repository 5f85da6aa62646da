(** * The parallel grids and the parallel field as spaces for agents *)
From Coq Require Import List Bool ZArith NArith Arith Lia Permutation.
From Verif Require Import F32 Grid DashModel DashSpec DashProofs DashRun DashView NumModel NumSpec NumProofs NumPar
  ObjModel ObjSpec ObjProofs ObjPar ObjParQ FieldModel FieldSpec FieldProofs PFieldModel PFieldSpec PFieldProofs PFieldConc PFieldProps
  SchedModel OrderSpec ObjSparse FlockSpec StageModel StageSpec StageGrid PStageModel PStageSpec.
Import ListNotations.
Local Open Scope Z_scope.

Section Spaces.
Context {O K : Type}.
Variable eqo : O -> O -> bool.
Variable hash_o : O -> N.
Variable hash_l : loc -> N.
Variable key : O -> K.
Hypothesis L : lawful eqo hash_o.
Hypothesis Eq : forall a b, eqo a b = true <-> key a = key b.

Lemma stranger (p : list O) o x : NoDup (map key (p ++ [o])) -> In x p -> eqo x o = false.
Proof.
  intros N Hx. destruct (eqo x o) eqn:E; [|reflexivity]. apply Eq in E. rewrite map_app in N. cbn in N.
  apply NoDup_remove_2 in N. rewrite app_nil_r in N. exfalso. apply N. rewrite <- E. apply in_map. exact Hx.
Qed.
Lemma own o : eqo o o = true.
Proof. apply Eq. reflexivity. Qed.

(** ** The grids of bags *)
Section Grids.
Variable location : O -> loc.
Variable look : O -> list loc.
Variable n : nat.
Notation wf := (opwf eqo hash_o hash_l n).
Notation at_loc := (at_loc location).

Definition gwrites (g : opar O) (p : list O) : Prop := NoDup (map key p) ->
  (forall l, orempty (wl hash_l g l) = at_loc l p) /\
  (forall o, In o p -> wo eqo hash_o g o = Some (location o) /\ wk eqo hash_o g o = Some o).
Definition greads (g : opar O) (p : list O) : Prop := NoDup (map key p) ->
  (forall l, orempty (rl hash_l g l) = at_loc l p) /\
  (forall o, In o p -> ro eqo hash_o g o = Some (location o) /\ rk eqo hash_o g o = Some o).
Definition gsame (g g' : opar O) : Prop := forall l, rl hash_l g l = rl hash_l g' l.

Lemma gplace g p o : wf g -> gwrites g p ->
  exists g', op_set eqo hash_o hash_l g o (location o) = Some g' /\ wf g' /\ gwrites g' (p ++ [o]) /\ gsame g' g.
Proof.
  intros W H. destruct (op_set_ok eqo hash_o hash_l L n g o (location o) W) as (g' & E & W' & R & _ & Bl & Bo).
  destruct (op_set_keys eqo hash_o hash_l L n g o (location o) g' W E) as [_ Bk].
  exists g'. split; [exact E|]. split; [exact W'|]. split; [|exact R]. intros N.
  destruct (H (NoDup_firsts key p o N)) as [H1 H2]. split.
  - intros l. rewrite Bl, (at_app location). change (at_loc l [o]) with (filter (fun x => loc_eqb (location x) l) [o]). cbn [filter].
    destruct (loc_eqb l (location o)) eqn:El.
    + apply loc_eqb_eq in El. subst l. rewrite loc_eqb_refl. unfold placing. pose proof (H1 (location o)) as H0. unfold orempty in *. rewrite H0.
      rewrite (without_stranger eqo location key Eq o p _ N). reflexivity.
    + replace (loc_eqb (location o) l) with false; [rewrite app_nil_r; apply H1|].
      symmetry. apply loc_eqb_neq. apply loc_eqb_neq in El. congruence.
  - intros x Hx. rewrite Bo, Bk. apply in_app_or in Hx. destruct Hx as [Hx|[<-|[]]].
    + rewrite (stranger p o x N Hx). apply H2. exact Hx.
    + rewrite own. auto.
Qed.

Lemma gpublish g p : wf g -> gwrites g p ->
  exists g', op_lazy_update n g = Some g' /\ wf g' /\ greads g' p /\ gwrites g' [].
Proof.
  intros W H. destruct (op_lazy_ok eqo hash_o hash_l n g W) as (g' & E & W' & Rl & Ro & Zl & Zo).
  destruct (op_lazy_keys eqo hash_o hash_l n g g' W E) as [Rk _].
  exists g'. split; [exact E|]. split; [exact W'|]. split.
  - intros N. destruct (H N) as [H1 H2]. split; [intros l; rewrite Rl; apply H1|]. intros o Ho. rewrite Ro, Rk. apply H2. exact Ho.
  - intros _. split; [intros l; rewrite Zl; reflexivity|intros ? []].
Qed.

Lemma gsee (g : opar O) o : wf g -> exists v, mapM (op_get hash_l g) (look o) = Some v.
Proof.
  intros W. destruct (mapM_total (op_get hash_l g) (look o)) as [v E]; [|exists v; exact E].
  intros l _. rewrite (op_get_eq eqo hash_o hash_l n g l W). eauto.
Qed.
Lemma gsee_same (g g' : opar O) o : wf g -> wf g' -> gsame g' g ->
  mapM (op_get hash_l g') (look o) = mapM (op_get hash_l g) (look o).
Proof.
  intros W W' S. induction (look o) as [|l ls IH]; [reflexivity|]. cbn [mapM]. rewrite IH.
  rewrite (op_get_eq eqo hash_o hash_l n g l W), (op_get_eq eqo hash_o hash_l n g' l W'), S. reflexivity.
Qed.

Lemma gshows g p : wf g -> greads g p -> NoDup (map key p) -> pgrid_shows eqo hash_o hash_l location g p.
Proof.
  intros W R N. destruct (R N) as [H1 H2]. split; [|split].
  - intros l. exists (at_loc l p). split; [|reflexivity]. rewrite (op_get_eq eqo hash_o hash_l n g l W), <- H1.
    destruct (rl hash_l g l); reflexivity.
  - intros o Ho. destruct (H2 o Ho) as [E1 E2]. rewrite (op_location_eq eqo hash_o hash_l n g o W), (ObjParQ.get_object_eq eqo hash_o hash_l n g o W), E1, E2. auto.
  - intros w h F. eexists. split; [exact (ObjParQ.iter_eq eqo hash_o hash_l n g w h W)|]. apply (calls_perm). intros l.
    rewrite (at_calls location), flat_cells by apply cells_NoDup. rewrite Forall_forall in F.
    destruct (existsb (loc_eqb l) (cells w h)) eqn:Ex; [unfold orempty in H1; rewrite H1; reflexivity|].
    replace (at_loc l p) with (@nil O); [constructor|]. destruct (at_loc l p) as [|x q] eqn:Ea; [reflexivity|].
    assert (Hx : In x (at_loc l p)) by (rewrite Ea; left; reflexivity). apply (at_In location) in Hx. destruct Hx as [Hx <-].
    exfalso. rewrite <- not_true_iff_false in Ex. apply Ex. apply existsb_exists. exists (location x).
    split; [apply cells_In, F, Hx|apply loc_eqb_refl].
Qed.

Lemma gnew cpus : cpus_ok cpus -> n = N.to_nat (shard_amount cpus) -> wf (op_new cpus) /\ gwrites (op_new cpus) [].
Proof.
  intros [H1 H2] ->. destruct (op_new_ok eqo hash_o hash_l cpus H1 H2) as (W & El & Eo). split; [exact W|].
  intros _. split; [intros l; destruct (El l) as [_ ->]; reflexivity|intros ? []].
Qed.
End Grids.

(** ** The field *)
Section Field.
Variable A : arith.
Variable location : O -> num A * num A.
Variable radius : O -> num A.
Variable osize : N.
Variables w h d : num A.
Variable t : bool.
Variable n : nat.
Hypothesis GS : good_size A w h d.
Notation wf := (pfwf A eqo hash_o hash_l w h d t n).
Notation rL f o := (rv eqo hash_o (pf_loc f) o).
Notation wL f o := (wv eqo hash_o (pf_loc f) o).
Notation rI f o := (rv eqo hash_o (pf_index f) o).
Notation wI f o := (wv eqo hash_o (pf_index f) o).
Notation rB f c := (option_map snd (rv loc_eqb hash_l (pf_bag f) c)).
Notation wB f c := (option_map snd (wv loc_eqb hash_l (pf_bag f) c)).
Notation cell o := (discretize A d (location o)).
Notation here c p := (filter (fun o => loc_eqb (cell o) c) p).

Definition indexed (m : O -> option (O * loc)) (p : list O) : Prop :=
  forall o, m o <> None <-> exists x, In x p /\ eqo o x = true.
Definition fwrites (f : @pfield A O) (p : list O) : Prop :=
  (forall c, orempty (wB f c) = here c p) /\ indexed (fun o => wI f o) p /\
  (NoDup (map key p) -> forall o, In o p -> wL f o = Some (o, location o)).
Definition freads (f : @pfield A O) (p : list O) : Prop :=
  (forall c, orempty (rB f c) = here c p) /\ indexed (fun o => rI f o) p /\
  (NoDup (map key p) -> forall o, In o p -> rL f o = Some (o, location o)).
Definition fsame (f f' : @pfield A O) : Prop := (forall c, rB f c = rB f' c) /\ (forall o, rI f o = rI f' o).

Lemma fplace f p o : wf f -> fwrites f p ->
  exists f', pf_set A eqo hash_o hash_l f o (location o) = Some f' /\ wf f' /\ fwrites f' (p ++ [o]) /\ fsame f' f.
Proof.
  intros W (H1 & H2 & H3). destruct (set_ok A eqo hash_o hash_l L w h d t n f o (location o) W) as (f' & E & W' & _ & BL & RI & BI & RB & BB).
  exists f'. split; [exact E|]. split; [exact W'|]. split; [|split; [exact RB|exact RI]]. split; [|split].
  - intros c. rewrite BB, filter_app. cbn [filter].
    destruct (loc_eqb c (cell o)) eqn:Ec.
    + apply loc_eqb_eq in Ec. subst c. rewrite loc_eqb_refl. rewrite <- H1. destruct (wB f (cell o)); reflexivity.
    + replace (loc_eqb (cell o) c) with false; [rewrite app_nil_r; apply H1|].
      symmetry. apply loc_eqb_neq. apply loc_eqb_neq in Ec. congruence.
  - intros x. rewrite BI. destruct (eqo x o) eqn:Ex.
    + split; [intros _; exists o; split; [apply in_or_app; right; left; reflexivity|exact Ex]|discriminate].
    + rewrite (H2 x). split; intros (y & Hy & Ey); exists y; (split; [|exact Ey]).
      * apply in_or_app. left. exact Hy.
      * apply in_app_or in Hy. destruct Hy as [Hy|[<-|[]]]; [exact Hy|congruence].
  - intros N x Hx. rewrite BL. apply in_app_or in Hx. destruct Hx as [Hx|[<-|[]]].
    + rewrite (stranger p o x N Hx). apply (H3 (NoDup_firsts key p o N)). exact Hx.
    + rewrite own. reflexivity.
Qed.

Lemma fpublish f p : wf f -> fwrites f p ->
  exists f', pf_lazy_update A n f = Some f' /\ wf f' /\ freads f' p /\ fwrites f' [].
Proof.
  intros W (H1 & H2 & H3). destruct (lazy_ok A eqo hash_o hash_l w h d t n f W) as (f' & E & W' & RL & ZL & RI & ZI & RB & ZB).
  exists f'. split; [exact E|]. split; [exact W'|]. split; split; [|split| |split].
  - intros c. rewrite RB. apply H1.
  - intros o. rewrite RI. apply H2.
  - intros N o Ho. rewrite RL. apply H3; assumption.
  - intros c. rewrite ZB. reflexivity.
  - intros o. rewrite ZI. split; [congruence|intros (x & [] & _)].
  - intros _ o [].
Qed.

(** The number of published objects. *)
Lemma fnum_lists f p : wf f -> freads f p -> exists es, lists eqo es (fun o => rI f o) /\ pf_num A f = length es.
Proof. intros (_ & _ & W & _) _. exact (v_rlen eqo hash_o L n (pf_index f) W). Qed.

Lemma cover_le (P Q : list O) : ForallOrdPairs (fun a b => eqo a b = false) P ->
  (forall a, In a P -> exists b, In b Q /\ eqo a b = true) -> (length P <= length Q)%nat.
Proof.
  intros D. revert Q. induction D as [|x P Hx D IH]; intros Q C; cbn [length]; [lia|].
  destruct (C x (or_introl eq_refl)) as (y & Hy & Exy). apply in_split in Hy. destruct Hy as (q1 & q2 & ->).
  rewrite app_length. cbn [length]. enough (length P <= length (q1 ++ q2))%nat by (rewrite app_length in *; lia).
  apply IH. intros a Ha. destruct (C a (or_intror Ha)) as (b & Hb & Eab). exists b. split; [|exact Eab].
  apply in_app_or in Hb. apply in_or_app. destruct Hb as [Hb|[<-|Hb]]; [tauto| |tauto]. exfalso.
  rewrite Forall_forall in Hx. specialize (Hx a Ha).
  rewrite (eqk_trans _ _ L x y a Exy (eqk_sym _ _ L a y Eab)) in Hx. discriminate.
Qed.

Lemma fnum_range f p : wf f -> freads f p ->
  (pf_num A f <= length p)%nat /\ (p <> [] -> 1 <= pf_num A f)%nat /\ (NoDup (map key p) -> pf_num A f = length p).
Proof.
  intros W R. destruct (fnum_lists f p W R) as (es & [H1 H2] & ->). destruct R as (_ & I & _).
  assert (D : ForallOrdPairs (fun a b => eqo a b = false) (map fst es)).
  { clear -H2. induction H2; cbn [map]; constructor; [|assumption]. rewrite Forall_forall in *. intros x Hx. apply in_map_iff in Hx.
    destruct Hx as (e & <- & He). apply H. exact He. }
  assert (C1 : forall a, In a (map fst es) -> exists b, In b p /\ eqo a b = true).
  { intros a Ha. apply in_map_iff in Ha. destruct Ha as (e & <- & He). apply I.
    assert (X : rI f (fst e) = Some e) by (apply H1; split; [exact He|apply own]). cbv beta. rewrite X. discriminate. }
  assert (C2 : forall b, In b p -> exists a, In a (map fst es) /\ eqo b a = true).
  { intros b Hb. assert (X : rI f b <> None) by (apply I; exists b; split; [exact Hb|apply own]).
    destruct (rI f b) as [e|] eqn:Ee; [|congruence]. apply H1 in Ee. destruct Ee as [Ee1 Ee2].
    exists (fst e). split; [apply in_map; exact Ee1|exact Ee2]. }
  pose proof (cover_le _ _ D C1) as Le. rewrite map_length in Le. split; [exact Le|]. split.
  - intros Np. destruct p as [|b p]; [congruence|]. destruct (C2 b (or_introl eq_refl)) as (a & Ha & _).
    destruct es; [destruct Ha|cbn; lia].
  - intros N. enough (length p <= length (map fst es))%nat by (rewrite map_length in *; lia). apply cover_le; [|exact C2].
    clear -N Eq. induction p as [|x p IH]; [constructor|]. cbn in N. apply NoDup_cons_iff in N. destruct N as [Nx N]. constructor; [|auto].
    apply Forall_forall. intros y Hy. destruct (eqo x y) eqn:E; [|reflexivity]. apply Eq in E. exfalso. apply Nx. rewrite E. apply in_map. exact Hy.
Qed.

Lemma fsee f p o (m : nat) : wf f -> freads f p -> p <> [] -> (length p <= m)%nat ->
  (forall k, (1 <= k <= m)%nat -> room_ok A osize w h (radius o) k = true) ->
  exists v, pf_neighbors A hash_l location osize f (location o) (radius o) = Some v.
Proof.
  intros W R Np Le Rm. destruct (fnum_range f p W R) as (B1 & B2 & _). specialize (B2 Np).
  pose proof (room_capacity A O eqo hash_o hash_l osize w h d t n f (radius o) W) as C. rewrite Rm in C by lia.
  destruct C as (c & Ec & Cc). unfold pf_neighbors. rewrite Ec, Cc. cbn [negb]. destruct (le A (radius o) (of_int A 0)); [eauto|].
  destruct (new_ok A w h d t GS (O := O)) as (Wn & _). destruct (window_ok A w h d t GS (f_new A w h d t) (location o) (radius o) Wn) as (ids & Ei & _).
  assert (Ew : pf_window A f (location o) (radius o) = Some ids).
  { rewrite <- Ei. unfold pf_window, window. destruct W as (_ & _ & _ & -> & -> & -> & ->).
    destruct Wn as (-> & -> & -> & -> & _). reflexivity. }
  rewrite Ew.
  match goal with |- context [mapM ?g ids] => destruct (FieldProofs.mapM_all g ids) as (ys & -> & _) end; [|cbn; eauto].
  intros x _. rewrite (read_bag_eq A eqo hash_o hash_l w h d t n f x W). cbn. eauto.
Qed.

Lemma fsee_same f f' o : wf f -> wf f' -> fsame f' f ->
  pf_neighbors A hash_l location osize f' (location o) (radius o) = pf_neighbors A hash_l location osize f (location o) (radius o).
Proof.
  intros W W' [SB SI].
  assert (Nm : pf_num A f' = pf_num A f).
  { destruct W as (_ & _ & W & _). destruct W' as (_ & _ & W' & _).
    destruct (v_rlen eqo hash_o L n (pf_index f) W) as (es & [H1 H2] & E). destruct (v_rlen eqo hash_o L n (pf_index f') W') as (es' & [H1' H2'] & E').
    unfold pf_num. rewrite E, E'.
    assert (D : forall X (l : list (O * X)), ForallOrdPairs (fun p q => eqo (fst p) (fst q) = false) l -> ForallOrdPairs (fun a b => eqo a b = false) (map fst l)).
    { intros X l H. induction H; cbn [map]; constructor; [|assumption]. rewrite Forall_forall in *. intros x Hx. apply in_map_iff in Hx.
      destruct Hx as (e & <- & He). apply H. exact He. }
    assert (C : forall e, In e es <-> In e es').
    { intros e. split; intros He.
      - assert (X : rI f (fst e) = Some e) by (apply H1; split; [exact He|apply own]). rewrite <- SI in X. apply H1' in X. apply X.
      - assert (X : rI f' (fst e) = Some e) by (apply H1'; split; [exact He|apply own]). rewrite SI in X. apply H1 in X. apply X. }
    enough (length es' <= length es /\ length es <= length es')%nat by lia.
    split; rewrite <- (map_length fst es), <- (map_length fst es'); apply cover_le; try (apply D; assumption);
      intros a Ha; exists a; (split; [|apply own]); apply in_map_iff in Ha; destruct Ha as (e & <- & He); apply in_map; apply C; exact He. }
  assert (Cp : pf_capacity A f' (radius o) = pf_capacity A f (radius o)).
  { rewrite (capacity_eq A eqo hash_o hash_l w h d t n f' (radius o) W'), (capacity_eq A eqo hash_o hash_l w h d t n f (radius o) W), Nm. reflexivity. }
  assert (Rb : forall c, pf_read_bag A hash_l f' c = pf_read_bag A hash_l f c).
  { intros c. rewrite (read_bag_eq A eqo hash_o hash_l w h d t n f' c W'), (read_bag_eq A eqo hash_o hash_l w h d t n f c W), SB. reflexivity. }
  unfold pf_neighbors, pf_window. rewrite Cp.
  destruct W as (_ & _ & _ & E1 & E2 & E3 & E4). destruct W' as (_ & _ & _ & E1' & E2' & E3' & E4').
  rewrite E1, E2, E3, E4, E1', E2', E3', E4'.
  destruct (pf_capacity A f (radius o)) as [m|]; [|reflexivity]. destruct (negb _); [reflexivity|]. destruct (le A _ _); [reflexivity|].
  destruct (window A _ _ _) as [ids|]; [|reflexivity]. f_equal. induction ids as [|c ids IH]; [reflexivity|]. cbn [mapM]. rewrite IH, Rb. reflexivity.
Qed.

Lemma fshows f p : wf f -> freads f p -> NoDup (map key p) -> pfield_shows eqo hash_o hash_l A location d f p.
Proof.
  intros W R N. destruct (fnum_range f p W R) as (_ & _ & Nm). destruct R as (H1 & _ & H3). split; [|split; [|exact (Nm N)]].
  - intros l. exists (here (discretize A d l) p). split; [|reflexivity].
    rewrite (objects_eq A eqo hash_o hash_l w h d t n f l W). f_equal. rewrite <- H1. reflexivity.
  - intros o Ho. rewrite (location_eq A eqo hash_o hash_l w h d t n f o W), (get_eq A eqo hash_o hash_l w h d t n f o W), (H3 N o Ho). auto.
Qed.

Lemma fnew cpus : cpus_ok cpus -> n = N.to_nat (shard_amount cpus) -> wf (pf_new A cpus w h d t) /\ fwrites (pf_new A cpus w h d t) [].
Proof.
  intros [H1 H2] ->. destruct (pf_new_ok A eqo hash_o hash_l w h d t cpus H1 H2) as (W & Eo & Ec). split; [exact W|]. split; [|split].
  - intros c. destruct (Ec c) as [_ ->]. reflexivity.
  - intros o. destruct (Eo o) as (_ & _ & _ & ->). split; [congruence|intros (x & [] & _)].
  - intros _ o [].
Qed.
End Field.
End Spaces.
