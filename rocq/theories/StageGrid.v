(** * The object grids as spaces for agents *)
From Coq Require Import List Bool ZArith NArith Arith Lia Permutation.
From Verif Require Import F32 SchedModel SimModel Grid DashModel DashSpec DashProofs NumModel NumSpec NumProofs ObjModel ObjSpec ObjProofs ObjSparse
  OrderSpec FlockSpec StageModel StageSpec StageProofs.
Import ListNotations.
Local Open Scope Z_scope.

Section Grids.
Context {O K : Type}.
Variable eqo : O -> O -> bool.
Variable location : O -> loc.
Variable look : O -> list loc.
Variable key : O -> K.
Hypothesis Eq : forall a b, eqo a b = true <-> key a = key b.

Notation at_loc := (at_loc location).
Notation here := (fun (l : loc) (p : loc * O) => loc_eqb (fst p) l).

Lemma in_range_dec w h l : {in_range w h l} + {~ in_range w h l}.
Proof. unfold in_range. destruct (Z_le_dec 0 (fst l)), (Z_lt_dec (fst l) w), (Z_le_dec 0 (snd l)), (Z_lt_dec (snd l) h); (left; lia) || (right; lia). Qed.

(** Two lists of calls with the same calls for every location. *)
Lemma calls_perm : forall ds es : list (loc * O),
  (forall l, Permutation (filter (here l) es) (filter (here l) ds)) -> Permutation es ds.
Proof.
  induction ds as [|[l o] ds IH]; intros es H.
  - destruct es as [|[l o] es]; [constructor|]. specialize (H l). cbn [filter fst] in H. rewrite loc_eqb_refl in H.
    symmetry in H. apply Permutation_nil in H. discriminate.
  - assert (Hin : In (l, o) es).
    { assert (X : In (l, o) (filter (here l) es)).
      { eapply Permutation_in; [symmetry; apply H|]. cbn [filter fst]. rewrite loc_eqb_refl. left. reflexivity. }
      apply filter_In in X. apply X. }
    destruct (in_split _ _ Hin) as (e1 & e2 & ->). symmetry. apply Permutation_cons_app. symmetry. apply IH.
    intros l'. specialize (H l'). rewrite filter_app in *. cbn [filter fst] in H.
    destruct (loc_eqb l l'); [|exact H]. symmetry in H. symmetry. apply Permutation_cons_app_inv in H. exact H.
Qed.

Lemma at_app l p q : at_loc l (p ++ q) = at_loc l p ++ at_loc l q.
Proof. apply filter_app. Qed.
Lemma at_In l p o : In o (at_loc l p) <-> In o p /\ location o = l.
Proof. unfold at_loc. rewrite filter_In, loc_eqb_eq. reflexivity. Qed.
Lemma at_calls l (p : list O) : filter (here l) (map (fun o => (location o, o)) p) = map (pair l) (at_loc l p).
Proof.
  induction p as [|o p IH]; [reflexivity|]. cbn [map filter fst StageSpec.at_loc]. rewrite IH. unfold StageSpec.at_loc. cbn [filter].
  destruct (loc_eqb (location o) l) eqn:E; [|reflexivity]. apply loc_eqb_eq in E. subst l. reflexivity.
Qed.

Lemma without_stranger o p l : NoDup (map key (p ++ [o])) -> without eqo o (at_loc l p) = at_loc l p.
Proof.
  intros N. apply FieldProofs.filter_true. intros x Hx. apply at_In in Hx. destruct Hx as [Hx _].
  destruct (eqo x o) eqn:E; [|reflexivity]. apply Eq in E. rewrite map_app in N. cbn in N.
  apply NoDup_remove_2 in N. rewrite app_nil_r in N. exfalso. apply N. rewrite <- E. apply in_map. exact Hx.
Qed.
Lemma NoDup_firsts (p : list O) o : NoDup (map key (p ++ [o])) -> NoDup (map key p).
Proof. rewrite map_app. intros N. apply NoDup_remove_1 in N. rewrite app_nil_r in N. exact N. Qed.
Lemma key_inj (p : list O) a b : NoDup (map key p) -> In a p -> In b p -> key a = key b -> a = b.
Proof.
  induction p as [|x p IH]; cbn; [intros _ []|]. intros N Ha Hb E. apply NoDup_cons_iff in N. destruct N as [Nx N].
  destruct Ha as [->|Ha], Hb as [->|Hb]; [reflexivity| | |auto].
  - exfalso. apply Nx. rewrite E. apply in_map. exact Hb.
  - exfalso. apply Nx. rewrite <- E. apply in_map. exact Ha.
Qed.
Lemma has_In o (b : list O) : has eqo o b = true <-> exists x, In x b /\ key x = key o.
Proof.
  unfold has. rewrite existsb_exists. split; intros (x & Hx & E); exists x; (split; [exact Hx|]); apply Eq; exact E.
Qed.

(** ** Dense *)
Section Dense.
Variables w h : Z.
Hypothesis Size : size_ok w h.

Definition dwrites (g : odense O) (p : list O) : Prop :=
  forall l, in_range w h l -> exists b, wbag g l = Some b /\ (NoDup (map key p) -> b = at_loc l p).
Definition dreads (g : odense O) (p : list O) : Prop :=
  forall l, in_range w h l -> exists b, rbag g l = Some b /\ (NoDup (map key p) -> b = at_loc l p).
Definition dsame (g g' : odense O) : Prop := od_read g = od_read g'.
Definition dgood (o : O) : Prop := in_range w h (location o) /\ Forall (in_range w h) (look o).

Lemma dplace g p o : owf w h g -> dwrites g p -> dgood o ->
  exists g', od_set eqo g o (location o) = Some g' /\ owf w h g' /\ dwrites g' (p ++ [o]) /\ dsame g' g.
Proof.
  intros W H [Hl _]. destruct (od_edit_ok w h g (location o) (fun b => without eqo o b ++ [o]) W Size Hl)
    as (g' & b & E & W' & R & _ & Hb & Hg). exists g'. split; [exact E|]. split; [exact W'|]. split; [|exact R].
  intros l Hl'. destruct (Hg l Hl') as [_ ->]. destruct (H l Hl') as (c & Hc & Ec).
  destruct (loc_eqb l (location o)) eqn:El.
  - apply loc_eqb_eq in El. rewrite El in *. rewrite Hb in Hc. injection Hc as <-. eexists. split; [reflexivity|].
    intros N. rewrite (Ec (NoDup_firsts _ _ N)), without_stranger by exact N. rewrite at_app. f_equal.
    unfold at_loc. cbn [filter]. rewrite loc_eqb_refl. reflexivity.
  - exists c. split; [exact Hc|]. intros N. rewrite (Ec (NoDup_firsts _ _ N)), at_app. unfold at_loc at 3. cbn [filter].
    replace (loc_eqb (location o) l) with false; [rewrite app_nil_r; reflexivity|].
    symmetry. apply loc_eqb_neq. apply loc_eqb_neq in El. congruence.
Qed.

Lemma dpublish g p : owf w h g -> dwrites g p ->
  owf w h (od_lazy_update g) /\ dreads (od_lazy_update g) p /\ dwrites (od_lazy_update g) [].
Proof.
  intros W H. destruct (od_lazy_ok w h g W Size) as [W' L]. split; [exact W'|]. split.
  - intros l Hl. destruct (L l Hl) as [-> _]. apply H. exact Hl.
  - intros l Hl. destruct (L l Hl) as [_ ->]. eexists. split; [reflexivity|]. reflexivity.
Qed.

Lemma dsee (g : odense O) o : owf w h g -> dgood o -> exists v, mapM (od_get g) (look o) = Some v.
Proof.
  intros W [_ F]. destruct (mapM_total (od_get g) (look o)) as [v E].
  - intros l Hl. rewrite Forall_forall in F. destruct (rbag_total w h g l W Size (F l Hl)) as [b Hb].
    unfold od_get. unfold rbag in Hb. rewrite Hb. cbn. eauto.
  - exists v. exact E.
Qed.

Lemma dsee_same (g g' : odense O) o : owf w h g -> owf w h g' -> dsame g' g ->
  mapM (od_get g') (look o) = mapM (od_get g) (look o).
Proof.
  intros (Ew & Eh & _) (Ew' & Eh' & _) S. induction (look o) as [|l ls IH]; [reflexivity|]. cbn [mapM]. rewrite IH.
  unfold od_get. rewrite Eh, Eh', S. reflexivity.
Qed.

Lemma dshows g p : owf w h g -> dreads g p -> Forall dgood p -> NoDup (map key p) ->
  dense_shows eqo location w h g p.
Proof.
  intros W H F N. assert (H' : forall l, in_range w h l -> rbag g l = Some (at_loc l p)).
  { intros l Hl. destruct (H l Hl) as (b & Hb & E). rewrite <- (E N). exact Hb. }
  rewrite Forall_forall in F. split; [|split].
  - intros l Hl. exists (at_loc l p). specialize (H' l Hl). unfold rbag in H'. unfold od_get. rewrite H'.
    split; reflexivity.
  - intros o Ho. destruct (F o Ho) as [Fo _]. destruct (od_location_ok eqo w h g o W Size) as (r & Er & Hr). rewrite Er. f_equal.
    destruct r as [l|].
    + destruct Hr as (Hl & (b & Hb & Hh) & _). rewrite (H' l Hl) in Hb. injection Hb as <-.
      apply has_In in Hh. destruct Hh as (x & Hx & Ex). apply at_In in Hx. destruct Hx as [Hx <-].
      rewrite (key_inj p x o N Hx Ho Ex). reflexivity.
    + exfalso. specialize (Hr _ _ Fo (H' _ Fo)). assert (T : has eqo o (at_loc (location o) p) = true); [|congruence].
      apply has_In. exists o. split; [apply at_In; auto|reflexivity].
  - destruct (od_iter_at w h g W Size) as (es & E & Hr & Hf). exists es. split; [exact E|]. apply calls_perm. intros l.
    rewrite at_calls. destruct (in_range_dec w h l) as [Hl|Hl].
    + destruct (Hf l Hl) as (b & Hb & ->). rewrite (H' l Hl) in Hb. injection Hb as <-. reflexivity.
    + replace (filter (here l) es) with (@nil (loc * O)).
      * replace (at_loc l p) with (@nil O); [constructor|]. destruct (at_loc l p) as [|x q] eqn:Ea; [reflexivity|].
        assert (Hx : In x (at_loc l p)) by (rewrite Ea; left; reflexivity). apply at_In in Hx. destruct Hx as [Hx <-].
        exfalso. apply Hl. apply F. exact Hx.
      * destruct (filter (here l) es) as [|[l' x] q] eqn:Ea; [reflexivity|].
        assert (Hx : In (l', x) (filter (here l) es)) by (rewrite Ea; left; reflexivity). apply filter_In in Hx.
        destruct Hx as [Hx El]. cbn in El. apply loc_eqb_eq in El. subst l'. exfalso. apply Hl. eapply Hr. exact Hx.
Qed.
End Dense.

(** ** Sparse *)
Definition swrites (g : osparse O) (p : list O) : Prop := forall l, bag (os_write g) l = nonempty (at_loc l p).
Definition sreads (g : osparse O) (p : list O) : Prop := forall l, bag (os_read g) l = nonempty (at_loc l p).
Definition ssame (g g' : osparse O) : Prop := os_read g = os_read g'.

Lemma splace g p o : oswf g -> swrites g p ->
  exists g', Some (os_set g o (location o)) = Some g' /\ oswf g' /\ swrites g' (p ++ [o]) /\ ssame g' g.
Proof.
  intros W H. destruct (os_set_ok g o (location o) W) as (W' & R & B). eexists. split; [reflexivity|].
  split; [exact W'|]. split; [|exact R]. intros l. rewrite B, at_app. specialize (H l). change (at_loc l [o]) with (filter (fun x => loc_eqb (location x) l) [o]). cbn [filter].
  destruct (loc_eqb l (location o)) eqn:E.
  - apply loc_eqb_eq in E. subst l. rewrite loc_eqb_refl, H. destruct (at_loc (location o) p); reflexivity.
  - replace (loc_eqb (location o) l) with false; [rewrite app_nil_r; exact H|].
    symmetry. apply loc_eqb_neq. apply loc_eqb_neq in E. congruence.
Qed.

Lemma spublish g p : oswf g -> swrites g p ->
  oswf (os_lazy_update g) /\ sreads (os_lazy_update g) p /\ swrites (os_lazy_update g) [].
Proof.
  intros [Wr Ww] H. split; [split; [exact Ww|apply mwf_nil]|]. split; [exact H|]. intros l. reflexivity.
Qed.

Lemma sshows g p : oswf g -> sreads g p -> NoDup (map key p) -> sparse_shows eqo location g p.
Proof.
  intros [[U _] _] H N. split; [|split].
  - intros l. exists (at_loc l p). split; [|reflexivity]. rewrite <- H. unfold os_get, bag.
    specialize (H l). unfold bag in H. destruct (hm_find loc_eqb l (os_read g)) as [[l' b]|]; [|reflexivity].
    cbn in *. destruct (at_loc l p); [discriminate|]. injection H as ->. reflexivity.
  - intros it o Hit Ho. pose proof (os_search_ok eqo it (os_read g) o U Hit) as S. unfold os_location.
    destruct (os_search eqo it (os_read g) o) as [l|].
    + destruct S as (b & Hb & Hh). rewrite H in Hb. apply has_In in Hh. destruct Hh as (x & Hx & Ex).
      assert (Hx' : In x (at_loc l p)) by (destruct (at_loc l p); [discriminate|]; injection Hb as <-; exact Hx).
      apply at_In in Hx'. destruct Hx' as [Hp <-]. rewrite (key_inj p x o N Hp Ho Ex). reflexivity.
    + exfalso. assert (Ho' : In o (at_loc (location o) p)) by (apply at_In; auto).
      destruct (at_loc (location o) p) as [|x q] eqn:Ea; [exact Ho'|]. specialize (H (location o)). rewrite Ea in H. cbn in H.
      specialize (S _ _ H). assert (T : has eqo o (x :: q) = true); [|congruence]. apply has_In. eauto.
  - intros it Hit. unfold os_iter. transitivity (calls (os_read g)).
    + unfold calls. apply Permutation_flat_map. apply Hit.
    + apply calls_perm. intros l. rewrite at_calls, calls_at by exact U. rewrite H.
      destruct (at_loc l p); reflexivity.
Qed.
End Grids.
