(** * Property theorems: object grids (C22-C27, C59-C62, C64) *)
From Coq Require Import List Bool ZArith NArith Arith Lia Permutation.
From Verif Require Import Grid DashModel DashSpec DashProofs NumModel NumSpec NumProofs NumPar NumProps
  ObjModel ObjSpec ObjProofs ObjSparse ObjPar ObjParQ.
Import ListNotations.
Open Scope Z_scope.

(** Objects of the examples: numbers; [ids] compares only the tens, like agents with an
    id and further fields. *)
Definition ids (a b : Z) : bool := a / 10 =? b / 10.
Definition ex_calls : list (oop Z) :=
  [OSet 10 (1, 1); OSet 20 (1, 1); OSet 11 (1, 1); OSet 30 (2, 0); ORemove 30 (2, 0); OSet 40 (2, 1);
   OLazyUpdate; OSet 12 (0, 0); OGet (1, 1); OLocation 10].
Lemma ex_calls_in : Forall (o_in 3 2) ex_calls.
Proof. repeat constructor; cbn; lia. Qed.
Definition ex_dense : odense Z :=
  match @od_new Z 3 2 with
  | Some g0 => match od_run ids g0 ex_calls with Some (g, _) => g | None => g0 end
  | None => ODense [] [] 0 0
  end.
Lemma ex_dense_reach : od_reachable ids 3 2 ex_dense.
Proof.
  destruct (@od_new Z 3 2) as [g0|] eqn:E; [|discriminate]. exists g0, ex_calls.
  destruct (od_run ids g0 ex_calls) as [[g rs]|] eqn:R.
  - exists rs. split; [exact E|]. split; [exact ex_calls_in|]. unfold ex_dense. rewrite E, R. reflexivity.
  - vm_compute in E. injection E as <-. vm_compute in R. discriminate.
Qed.
Definition with_id {T} (cs : list (oop T)) : list (oop T * (list (loc * list T) -> list (loc * list T))) :=
  map (fun c => (c, fun m => m)) cs.
Lemma with_id_ok {T} (cs : list (oop T)) : Forall (fun p => iteration (snd p)) (with_id cs).
Proof. apply Forall_forall. intros p H. apply in_map_iff in H. destruct H as (c & <- & _). exact id_iteration. Qed.
Definition ex_sparse : osparse Z :=
  match os_run ids (os_new 3 2) (with_id ex_calls) with Some (g, _) => g | None => os_new 0 0 end.
Lemma ex_sparse_reach : os_reachable ids 3 2 ex_sparse.
Proof.
  exists (with_id ex_calls). unfold ex_sparse. destruct (os_run ids (os_new 3 2) (with_id ex_calls)) as [[g rs]|] eqn:R.
  - exists rs. split; [apply with_id_ok|reflexivity].
  - vm_compute in R. discriminate.
Qed.

(** ** C22 *)
Theorem C22_history :
  forall O (eqo : O -> O -> bool) w h cs,
  size_ok w h -> Forall (o_in w h) cs -> Forall o_no_apply cs -> Forall o_no_update cs ->
  exists g0 g rs, od_new w h = Some g0 /\ od_run eqo g0 cs = Some (g, rs) /\ length rs = length cs /\
    forall l, in_range w h l ->
      od_get g l = Some (nonempty (placed (cancels_dense eqo) l (published_epoch (rev cs)))) /\
      od_get_unbuffered g l = Some (nonempty (placed (cancels_dense eqo) l (since_publication (rev cs)))).
Proof.
  intros O eqo w h cs Hs H1 H2 H3. destruct (od_history eqo w h cs Hs H1 H2 H3) as (g0 & g & rs & E0 & E & HL & _ & H).
  exists g0, g, rs. repeat (split; [assumption|]). intros l Hl. destruct (H l Hl) as [Hr Hw].
  unfold rbag, wbag in Hr, Hw. unfold od_get, od_get_unbuffered. rewrite Hr, Hw. split; reflexivity.
Qed.
Print Assumptions C22_history.

(** No two equal objects in a bag. *)
Theorem C22_each_once :
  forall O (eqo : O -> O -> bool) w h cs g0 g rs l b,
  size_ok w h -> Forall (o_in w h) cs -> Forall o_no_apply cs -> Forall o_no_update cs ->
  od_new w h = Some g0 -> od_run eqo g0 cs = Some (g, rs) -> in_range w h l ->
  od_get g l = Some (Some b) -> ForallOrdPairs (fun x y => eqo x y = false) b.
Proof.
  intros O eqo w h cs g0 g rs l b Hs H1 H2 H3 E0 E Hl Hb.
  destruct (od_history eqo w h cs Hs H1 H2 H3) as (g0' & g' & rs' & E0' & E' & _ & _ & H).
  rewrite E0 in E0'. injection E0' as <-. rewrite E in E'. injection E' as <- <-.
  apply od_get_bag in Hb. destruct Hb as [Hb _]. destruct (H l Hl) as [Hr _]. rewrite Hb in Hr. injection Hr as ->.
  apply placed_dense_once.
Qed.
Print Assumptions C22_each_once.

Example C22_concrete :
  size_ok 3 2 /\ Forall (o_in 3 2) ex_calls /\ Forall o_no_apply ex_calls /\ Forall o_no_update ex_calls /\
  map (od_get ex_dense) [(1, 1); (2, 0); (2, 1); (0, 0)] = [Some (Some [20; 11]); Some None; Some (Some [40]); Some None] /\
  map (od_get_unbuffered ex_dense) [(1, 1); (0, 0)] = [Some None; Some (Some [12])].
Proof.
  split; [exact ex_size|]. split; [exact ex_calls_in|]. split; [repeat constructor|]. split; [repeat constructor|].
  split; vm_compute; reflexivity.
Qed.

(** ** C23 *)
(** Both publications make the reads equal to what the unbuffered reads were. *)
Theorem C23_reads_equal_partial :
  forall O (eqo : O -> O -> bool) w h g,
  size_ok w h -> od_reachable eqo w h g ->
  (exists g', od_update g = Some g' /\
     forall l, in_range w h l -> od_get g' l = od_get_unbuffered g l /\ exists b, od_get g' l = Some b) /\
  (forall l, in_range w h l -> od_get (od_lazy_update g) l = od_get_unbuffered g l).
Proof.
  intros O eqo w h g Hs Hr. pose proof (od_reachable_wf eqo w h g Hs Hr) as W. split.
  - destruct (od_update_ok w h g W Hs) as (g' & E & W' & _ & _ & H). exists g'. split; [exact E|].
    intros l Hl. destruct (H l Hl) as [H1 _]. unfold rbag, wbag in H1. unfold od_get, od_get_unbuffered. rewrite H1.
    split; [reflexivity|]. destruct (wbag_total w h g l W Hs Hl) as [b Hb]. unfold wbag in Hb. rewrite Hb. cbn. eauto.
  - intros l Hl. destruct (od_lazy_ok w h g W Hs) as [_ H]. destruct (H l Hl) as [H1 _].
    unfold rbag, wbag in H1. unfold od_get, od_get_unbuffered. rewrite H1. reflexivity.
Qed.
Print Assumptions C23_reads_equal_partial.

(** Every history mixing the two: [update] publishes but does not start a new epoch. *)
Theorem C23_history_partial :
  forall O (eqo : O -> O -> bool) w h cs,
  size_ok w h -> Forall (o_in w h) cs -> Forall o_no_apply cs ->
  exists g0 g rs, od_new w h = Some g0 /\ od_run eqo g0 cs = Some (g, rs) /\ length rs = length cs /\
    forall l, in_range w h l ->
      od_get g l = Some (nonempty (placed (cancels_dense eqo) l (published_lazy (rev cs)))) /\
      od_get_unbuffered g l = Some (nonempty (placed (cancels_dense eqo) l (since_lazy (rev cs)))).
Proof.
  intros O eqo w h cs Hs H1 H2. destruct (od_history_mixed eqo w h cs Hs H1 H2) as (g0 & g & rs & E0 & E & HL & _ & H).
  exists g0, g, rs. repeat (split; [assumption|]). intros l Hl. destruct (H l Hl) as [Hr Hw].
  unfold rbag, wbag in Hr, Hw. unfold od_get, od_get_unbuffered. rewrite Hr, Hw. split; reflexivity.
Qed.
Print Assumptions C23_history_partial.

Example C23_concrete :
  let cs : list (oop Z) := [OSet 10 (0, 0); OUpdate; OSet 20 (1, 1); OUpdate; OSet 30 (2, 1); OLazyUpdate] in
  Forall (o_in 3 2) cs /\ Forall o_no_apply cs /\
  placed (cancels_dense ids) (0, 0) (published_lazy (rev cs)) = [10] /\
  placed (cancels_dense ids) (2, 1) (published_lazy (rev cs)) = [30].
Proof. cbv zeta. split; [repeat constructor; cbn; lia|]. split; [repeat constructor|]. split; reflexivity. Qed.

(** ... unlike [lazy_update]: an object that moved is read at its old place too, *)
Theorem C23_stale_objects_refuted :
  exists cs cs' : list (oop Z), Forall (o_in 3 2) cs /\
  cs' = map (fun c => match c with OUpdate => OLazyUpdate | c => c end) cs /\
  exists g0 g g' rs rs' l, od_new 3 2 = Some g0 /\ od_run Z.eqb g0 cs = Some (g, rs) /\
    od_run Z.eqb g0 cs' = Some (g', rs') /\ in_range 3 2 l /\
    od_get g' l = Some None /\ od_get g l = Some (Some [7]).
Proof.
  exists [OSet 7 (0, 0); OUpdate; OSet 7 (1, 1); OUpdate], [OSet 7 (0, 0); OLazyUpdate; OSet 7 (1, 1); OLazyUpdate].
  split; [repeat constructor; cbn; lia|]. split; [reflexivity|]. do 5 eexists. exists (0, 0).
  repeat (split; [vm_compute; reflexivity|]). split; [vm_compute; repeat split; congruence|]. split; vm_compute; reflexivity.
Qed.
Print Assumptions C23_stale_objects_refuted.

(** ... and afterwards [apply_to_all_values] with [READ] panics, whatever the closure. *)
Theorem C23_apply_panics_refuted :
  forall O (eqo : O -> O -> bool) w h g f,
  size_ok w h -> 0 < w * h -> od_reachable eqo w h g -> Z.of_nat (length (od_read g)) + w * h < 2 ^ 31 ->
  exists g', od_update g = Some g' /\ od_apply eqo g' READ f = None.
Proof.
  intros O eqo w h g f Hs Hp Hr Hb. pose proof (od_reachable_wf eqo w h g Hs Hr) as W.
  destruct (od_update_ok w h g W Hs) as (g' & E & W' & _ & HL & _). exists g'. split; [exact E|].
  unfold od_apply. destruct W as (_ & _ & Hl1 & _). pose proof W' as (Ew & Eh & Hl & _). rewrite Ew, Eh.
  rewrite (apply_read_panic f w h Hs); [reflexivity| | |]; rewrite ?HL; lia.
Qed.
Print Assumptions C23_apply_panics_refuted.

(** ** C24 *)
Theorem C24_history :
  forall O (eqo : O -> O -> bool) w h cs,
  Forall (fun p => iteration (snd p)) cs -> Forall (fun p => o_no_apply (fst p)) cs ->
  Forall (fun p => match fst p with ORandomEmpty _ _ => False | _ => True end) cs ->
  exists g rs, os_run eqo (os_new w h) cs = Some (g, rs) /\ length rs = length cs /\
    forall l,
      os_get g l = nonempty (placed (cancels_sparse eqo) l (published_epoch (rev (map fst cs)))) /\
      os_get_unbuffered g l = nonempty (placed (cancels_sparse eqo) l (since_publication (rev (map fst cs)))).
Proof.
  intros O eqo w h cs Hi Ha Hr.
  assert (T : forall g, exists g' rs, os_run eqo g cs = Some (g', rs) /\ length rs = length cs).
  { clear Hi. induction cs as [|[c it] cs IH]; intros g; cbn [os_run]; [eauto|].
    inversion_clear Ha. inversion_clear Hr. cbn [fst] in *.
    assert (S : exists g1 r, os_call eqo it g c = Some (g1, r)).
    { destruct c; cbn [os_call]; eauto; now exfalso. }
    destruct S as (g1 & r & ->). destruct (IH H0 H2 g1) as (g2 & rs & -> & HL). cbn. eexists _, _. split; [reflexivity|].
    cbn. congruence. }
  destruct (T (os_new w h)) as (g & rs & E & HL). exists g, rs. split; [exact E|]. split; [exact HL|].
  exact (os_history eqo w h cs g rs Hi Ha E).
Qed.
Print Assumptions C24_history.

Example C24_concrete :
  Forall (fun p => iteration (snd p)) (with_id ex_calls) /\
  Forall (fun p => o_no_apply (fst p)) (with_id ex_calls) /\
  map (os_get ex_sparse) [(1, 1); (2, 0); (2, 1)] = [Some [10; 20; 11]; None; Some [40]] /\
  os_get_unbuffered ex_sparse (0, 0) = Some [12].
Proof.
  split; [apply with_id_ok|]. split; [repeat constructor|]. split; vm_compute; reflexivity.
Qed.

(** ** C25 *)
Theorem C25_refuted :
  exists cs : list (oop Z), cs = [OSet 7 (0, 0); OSet 7 (1, 1); OLazyUpdate] /\
  (exists g0 g rs, od_new 3 2 = Some g0 /\ od_run Z.eqb g0 cs = Some (g, rs) /\
     od_get g (0, 0) = Some (Some [7]) /\ od_get g (1, 1) = Some (Some [7])) /\
  (exists g rs, os_run Z.eqb (os_new 3 2) (with_id cs) = Some (g, rs) /\
     os_get g (0, 0) = Some [7] /\ os_get g (1, 1) = Some [7]).
Proof.
  eexists. split; [reflexivity|]. split.
  - do 3 eexists. repeat (split; [vm_compute; reflexivity|]). vm_compute. reflexivity.
  - do 2 eexists. repeat (split; [vm_compute; reflexivity|]). vm_compute. reflexivity.
Qed.
Print Assumptions C25_refuted.

(** The grid types also differ when an object is placed twice at the same location. *)
Theorem C25_alike_refuted :
  exists cs : list (oop Z), cs = [OSet 7 (0, 0); OSet 7 (0, 0); OLazyUpdate] /\
  (exists g0 g rs, od_new 3 2 = Some g0 /\ od_run Z.eqb g0 cs = Some (g, rs) /\ od_get g (0, 0) = Some (Some [7])) /\
  (exists g rs, os_run Z.eqb (os_new 3 2) (with_id cs) = Some (g, rs) /\ os_get g (0, 0) = Some [7; 7]).
Proof.
  eexists. split; [reflexivity|]. split.
  - do 3 eexists. repeat (split; [vm_compute; reflexivity|]). vm_compute. reflexivity.
  - do 2 eexists. repeat (split; [vm_compute; reflexivity|]). vm_compute. reflexivity.
Qed.
Print Assumptions C25_alike_refuted.

(** If all placements of (objects equal to) [o] in the published epoch are at [l], then
    [o] is read at no other location; it is read at [l] if no removal follows. *)
Theorem C25_one_place_partial :
  forall O (eqo : O -> O -> bool) w h cs o l,
  size_ok w h -> Forall (o_in w h) cs -> Forall o_no_apply cs -> Forall o_no_update cs ->
  (forall o' l', In (OSet o' l') (published_epoch (rev cs)) -> eqo o' o = true -> l' = l) ->
  (exists g0 g rs, od_new w h = Some g0 /\ od_run eqo g0 cs = Some (g, rs) /\
     (forall l' b, in_range w h l' -> od_get g l' = Some (Some b) -> has eqo o b = true -> l' = l) /\
     (forall e1 e2, in_range w h l -> published_epoch (rev cs) = e1 ++ OSet o l :: e2 ->
        existsb (cancels_dense eqo o l) e2 = false -> exists b, od_get g l = Some (Some b) /\ In o b)) /\
  (forall its g rs, map fst its = cs -> Forall (fun p => iteration (snd p)) its ->
     os_run eqo (os_new w h) its = Some (g, rs) ->
     (forall l' b, os_get g l' = Some b -> has eqo o b = true -> l' = l) /\
     (forall e1 e2, published_epoch (rev cs) = e1 ++ OSet o l :: e2 ->
        existsb (cancels_sparse eqo o l) e2 = false -> exists b, os_get g l = Some b /\ In o b)).
Proof.
  intros O eqo w h cs o l Hs H1 H2 H3 Hone.
  assert (NE : forall X (b : list X) x, In x b -> nonempty b = Some b) by (intros X [|y b] x []; reflexivity).
  assert (SB : forall cancels l' b, nonempty (placed cancels l' (published_epoch (rev cs))) = Some b ->
            has eqo o b = true -> l' = l).
  { intros cancels l' b Hb Ho. unfold has in Ho. apply existsb_exists in Ho. destruct Ho as (x & Hx & Ex).
    destruct (placed cancels l' (published_epoch (rev cs))) as [|y ys] eqn:E; [discriminate|]. injection Hb as <-.
    rewrite <- E in Hx. apply placed_in in Hx. symmetry. symmetry. exact (Hone x l' Hx Ex). }
  split.
  - destruct (C22_history O eqo w h cs Hs H1 H2 H3) as (g0 & g & rs & E0 & E & _ & H). exists g0, g, rs.
    split; [exact E0|]. split; [exact E|]. split.
    + intros l' b Hl Hb. destruct (H l' Hl) as [Hg _]. rewrite Hb in Hg. injection Hg as Hg. symmetry in Hg. exact (SB _ _ _ Hg).
    + intros e1 e2 Hl He Hx. destruct (H l Hl) as [Hg _]. pose proof (placed_has (cancels_dense eqo) l e1 o e2 Hx) as Hin.
      rewrite <- He in Hin. rewrite (NE _ _ _ Hin) in Hg. eauto.
  - intros its g rs <- Hi E.
    assert (Ha : Forall (fun p => o_no_apply (fst p)) its).
    { rewrite Forall_forall in *. intros p Hp. apply H2. apply in_map. exact Hp. }
    pose proof (os_history eqo w h its g rs Hi Ha E) as H. split.
    + intros l' b Hb. destruct (H l') as [Hg _]. rewrite Hb in Hg. symmetry in Hg. exact (SB _ _ _ Hg).
    + intros e1 e2 He Hx. destruct (H l) as [Hg _]. pose proof (placed_has (cancels_sparse eqo) l e1 o e2 Hx) as Hin.
      rewrite <- He in Hin. rewrite (NE _ _ _ Hin) in Hg. eauto.
Qed.
Print Assumptions C25_one_place_partial.

Example C25_concrete :
  (forall o' l', In (OSet o' l') (published_epoch (rev ex_calls)) -> ids o' 40 = true -> l' = (2, 1)) /\
  published_epoch (rev ex_calls) =
    [OSet 10 (1, 1); OSet 20 (1, 1); OSet 11 (1, 1); OSet 30 (2, 0); ORemove 30 (2, 0)] ++ OSet 40 (2, 1) :: [].
Proof.
  split; [|reflexivity]. intros o' l' H Ho. cbn in H.
  repeat (destruct H as [H|H]; [first [discriminate H|injection H as <- <-; first [reflexivity|discriminate Ho]]|]).
  destruct H.
Qed.

(** ** C26 *)
(** Dense, READ: objects are replaced, or removed on [None]; the location passed to the
    closure is that of the cell with the same index in row-major order. *)
Theorem C26_dense_read_partial :
  forall O (eqo : O -> O -> bool) w h g f g',
  size_ok w h -> od_reachable eqo w h g -> od_apply eqo g READ f = Some g' ->
  forall l, in_range w h l -> exists b b',
    od_get g l = Some (nonempty b) /\ od_get g' l = Some (nonempty b') /\
    b' = filter_map (f ((fst l * h + snd l) mod w, (fst l * h + snd l) / w)) b /\
    od_get_unbuffered g' l = od_get_unbuffered g l.
Proof.
  intros O eqo w h g f g' Hs Hr E l Hl. pose proof (od_reachable_wf eqo w h g Hs Hr) as W.
  destruct (od_apply_ok eqo w h g READ f g' W Hs E) as (_ & _ & _ & H).
  destruct (rbag_total w h g l W Hs Hl) as [b Hb]. destruct (wbag_total w h g l W Hs Hl) as [c Hc].
  destruct (H l b c Hl Hb Hc) as [H1 H2]. exists b. eexists. unfold rbag, wbag in *.
  unfold od_get, od_get_unbuffered. rewrite Hb, H1, Hc, H2. repeat (split; [reflexivity|]). reflexivity.
Qed.
Print Assumptions C26_dense_read_partial.

(** The call itself does not panic as long as [update] was not used. *)
Theorem C26_dense_total_partial :
  forall O (eqo : O -> O -> bool) w h g op f,
  size_ok w h -> od_reachable_lazy eqo w h g -> exists g', od_apply eqo g op f = Some g'.
Proof.
  intros O eqo w h g op f Hs (g0 & cs & rs & E0 & Hin & Hnu & E).
  assert (S : length (od_read g) = Z.to_nat (w * h) /\ length (od_write g) = Z.to_nat (w * h) /\ owf w h g).
  { destruct (@od_new_ok O w h Hs) as (g1 & E1 & W1 & L1 & L2 & _). rewrite E0 in E1. injection E1 as <-.
    clear E0. revert g0 rs W1 L1 L2 E. induction cs as [|c cs IH]; intros g0 rs W L1 L2 E; cbn in E.
    { injection E as <- <-. auto. }
    inversion_clear Hin. inversion_clear Hnu. destruct (od_call eqo g0 c) as [[g1 r]|] eqn:Ec; [|discriminate].
    destruct (od_run eqo g1 cs) as [[g2 rs2]|] eqn:Er; [|discriminate]. cbn in E. injection E as <- <-.
    apply (IH H0 H2 g1 rs2); [exact (od_call_wf eqo w h g0 c g1 r W Hs H Ec)| | |exact Er];
    (destruct c; cbn in H, H1; try (now exfalso); cbn [od_call] in Ec;
     [ destruct (od_set eqo g0 o l) as [g3|] eqn:E3; [|discriminate]; injection Ec as <- _;
       destruct (od_edit_ok w h g0 l (fun b => without eqo o b ++ [o]) W Hs H) as (g4 & b & E4 & _ & Q1 & Q2 & _);
       unfold od_set in E3; rewrite E4 in E3; injection E3 as <-; congruence
     | destruct (od_remove eqo g0 o l) as [g3|] eqn:E3; [|discriminate]; injection Ec as <- _;
       destruct (od_edit_ok w h g0 l (without eqo o) W Hs H) as (g4 & b & E4 & _ & Q1 & Q2 & _);
       unfold od_remove in E3; rewrite E4 in E3; injection E3 as <-; congruence
     | injection Ec as <- _; cbn; rewrite ?map_length; assumption
     | destruct (od_apply eqo g0 op0 f0) as [g3|] eqn:E3; [|discriminate]; injection Ec as <- _;
       destruct (od_apply_ok eqo w h g0 op0 f0 g3 W Hs E3) as (_ & Q1 & Q2 & _); congruence
     | .. ];
     match type of Ec with option_map _ ?t = _ => destruct t; [|discriminate]; injection Ec as <- _; assumption end). }
  destruct S as (L1 & L2 & W). pose proof W as (Ew & Eh & _). unfold size_ok in Hs.
  unfold od_apply. rewrite Ew, Eh. destruct op.
  - destruct (apply_read_total f w h Hs (od_read g) 0%nat) as [rs' ->]; [rewrite L1; cbn; lia|]. cbn. eauto.
  - destruct (apply_write_total f w h Hs (od_read g) 0%nat (od_write g)) as [rs' ->]; [rewrite L1; cbn; lia|lia|]. cbn. eauto.
  - destruct (apply_rw_total eqo f w h Hs (od_read g) 0%nat (od_write g)) as [rs' ->]; [rewrite L1; cbn; lia|lia|]. cbn. eauto.
Qed.
Print Assumptions C26_dense_total_partial.

(** The location is wrong: the closure sees a square grid transposed, *)
Theorem C26_dense_location_refuted :
  forall O (eqo : O -> O -> bool) n g f g',
  size_ok n n -> od_reachable eqo n n g -> od_apply eqo g READ f = Some g' ->
  forall x y, in_range n n (x, y) -> exists b,
    od_get g (x, y) = Some (nonempty b) /\ od_get g' (x, y) = Some (nonempty (filter_map (f (y, x)) b)).
Proof.
  intros O eqo n g f g' Hs Hr E x y Hl.
  destruct (C26_dense_read_partial O eqo n n g f g' Hs Hr E (x, y) Hl) as (b & b' & E1 & E2 & -> & _).
  exists b. split; [exact E1|]. rewrite E2. unfold in_range in Hl. cbn [fst snd] in *.
  assert (Em : (x * n + y) mod n = y) by (rewrite Z.add_comm, Z_mod_plus_full; apply Z.mod_small; lia).
  assert (Ed : (x * n + y) / n = x) by (rewrite Z.add_comm, Z.div_add by lia; rewrite Z.div_small by lia; lia).
  rewrite Em, Ed. reflexivity.
Qed.
Print Assumptions C26_dense_location_refuted.

(** ... and with [READWRITE] an object for which the closure returns [None] stays; with
    [WRITE] the published objects are added to the written ones. *)
Theorem C26_dense_write_refuted :
  let none := fun (_ : loc) (_ : Z) => @None Z in
  let same := fun (_ : loc) (o : Z) => Some o in
  exists g0 g, od_new 1 1 = Some g0 /\
    od_run Z.eqb g0 [OSet 5 (0, 0); OLazyUpdate; OSet 6 (0, 0)] = Some (g, [OUnit; OUnit; OUnit]) /\
    (exists g', od_apply Z.eqb g READWRITE none = Some g' /\ od_get_unbuffered g' (0, 0) = Some (Some [6])) /\
    (exists g', od_apply Z.eqb g WRITE none = Some g' /\ od_get_unbuffered g' (0, 0) = Some (Some [6])) /\
    (exists g', od_apply Z.eqb g WRITE same = Some g' /\ od_get_unbuffered g' (0, 0) = Some (Some [6; 5])).
Proof.
  cbv zeta. do 2 eexists. split; [vm_compute; reflexivity|]. split; [vm_compute; reflexivity|].
  repeat split; eexists; (split; [vm_compute; reflexivity|vm_compute; reflexivity]).
Qed.
Print Assumptions C26_dense_write_refuted.

(** Sparse, READ and WRITE with a closure that always returns an object: every object is
    replaced, with its own location. *)
Theorem C26_sparse_partial :
  forall O (eqo : O -> O -> bool) w h g it f,
  os_reachable eqo w h g -> iteration it ->
  (exists g', os_apply it g READ (fun l o => Some (f l o)) = Some g' /\ forall l,
     os_get g' l = option_map (map (f l)) (os_get g l) /\ os_get_unbuffered g' l = os_get_unbuffered g l) /\
  (exists g', os_apply it g WRITE (fun l o => Some (f l o)) = Some g' /\ forall l,
     os_get_unbuffered g' l = option_map (map (f l)) (os_get_unbuffered g l) /\ os_get g' l = os_get g l).
Proof.
  intros O eqo w h g it f Hr Hit. destruct (os_reachable_wf eqo w h g Hr) as (W & _ & _).
  assert (T : forall m : list (loc * list O), exists m', mapM (apply_bag (fun l o => Some (f l o))) m = Some m').
  { intros m. apply mapM_total. intros p _. unfold apply_bag. rewrite mapM_map. cbn. eauto. }
  split.
  - destruct (T (os_read g)) as [m Em].
    assert (E : os_apply it g READ (fun l o => Some (f l o)) = Some (OSparse m (os_write g) (os_w g) (os_h g)))
      by (unfold os_apply; rewrite Em; reflexivity).
    eexists. split; [exact E|]. destruct (os_apply_ok it g READ _ _ W Hit E) as (_ & _ & H). intros l. specialize (H l).
    change (os_get g l) with (bag (os_read g) l). split; [|reflexivity].
    destruct (bag (os_read g) l) as [b|]; [|exact H]. destruct H as (b' & H1 & H2). rewrite mapM_map in H1. injection H1 as <-. exact H2.
  - destruct (T (os_write g)) as [m Em].
    assert (E : os_apply it g WRITE (fun l o => Some (f l o)) = Some (OSparse (os_read g) m (os_w g) (os_h g)))
      by (unfold os_apply; rewrite Em; reflexivity).
    eexists. split; [exact E|]. destruct (os_apply_ok it g WRITE _ _ W Hit E) as (_ & _ & H). intros l. specialize (H l).
    change (os_get_unbuffered g l) with (bag (os_write g) l). split; [|reflexivity].
    destruct (bag (os_write g) l) as [b|]; [|exact H]. destruct H as (b' & H1 & H2). rewrite mapM_map in H1. injection H1 as <-. exact H2.
Qed.
Print Assumptions C26_sparse_partial.

(** Sparse: the call panics if the closure returns [None] for some published object. *)
Theorem C26_sparse_none_refuted :
  forall O (eqo : O -> O -> bool) w h g it f l b o,
  os_reachable eqo w h g -> os_get g l = Some b -> In o b -> f l o = None ->
  os_apply it g READ f = None.
Proof.
  intros O eqo w h g it f l b o Hr Hb Ho Hf. destruct (os_reachable_wf eqo w h g Hr) as ([[U _] _] & _ & _).
  change (bag (os_read g) l = Some b) in Hb. apply bag_iff in Hb; [|exact U].
  unfold os_apply. rewrite (mapM_none (apply_bag f) (os_read g) (l, b) Hb); [reflexivity|].
  unfold apply_bag. cbn [fst snd]. rewrite (mapM_none (f l) b o Ho Hf). reflexivity.
Qed.
Print Assumptions C26_sparse_none_refuted.

(** Sparse, READWRITE, where nothing was written since: only the last object of every
    location survives. *)
Theorem C26_sparse_readwrite_refuted :
  exists g rs g', os_run Z.eqb (os_new 2 2) (with_id [OSet 5 (0, 0); OSet 6 (0, 0); OLazyUpdate]) = Some (g, rs) /\
    os_get g (0, 0) = Some [5; 6] /\
    os_apply (fun m => m) g READWRITE (fun _ o => Some o) = Some g' /\ os_get_unbuffered g' (0, 0) = Some [6].
Proof. do 3 eexists. repeat (split; [vm_compute; reflexivity|]). vm_compute. reflexivity. Qed.
Print Assumptions C26_sparse_readwrite_refuted.

(** What it does, exactly. *)
Theorem C26_sparse_readwrite_partial :
  forall O (eqo : O -> O -> bool) w h g it f,
  os_reachable eqo w h g -> iteration it ->
  forall g', os_apply it g READWRITE (fun l o => Some (f l o)) = Some g' -> forall l,
    os_get g' l = os_get g l /\
    os_get_unbuffered g' l =
      match os_get g l, os_get_unbuffered g l with
      | Some _, Some c => Some (map (f l) c)
      | Some b, None => option_map (fun o => [f l o]) (hd_error (rev b))
      | None, c => c
      end.
Proof.
  intros O eqo w h g it f Hr Hit g' E l. destruct (os_reachable_wf eqo w h g Hr) as (W & _ & _).
  destruct (os_apply_ok it g READWRITE _ _ W Hit E) as (_ & H1 & H2). specialize (H2 l).
  unfold os_get at 1. rewrite H1. split; [reflexivity|].
  change (os_get_unbuffered g' l) with (bag (os_write g') l). rewrite H2.
  change (os_get g l) with (bag (os_read g) l). change (os_get_unbuffered g l) with (bag (os_write g) l).
  destruct (bag (os_read g) l) as [b|]; [|reflexivity]. unfold rw_sparse.
  destruct (bag (os_write g) l) as [c|]; [apply mapM_map|]. destruct (rev b); reflexivity.
Qed.
Print Assumptions C26_sparse_readwrite_partial.

Example C26_concrete :
  od_reachable ids 3 2 ex_dense /\ os_reachable ids 3 2 ex_sparse /\ size_ok 3 2 /\
  (exists g', od_apply ids ex_dense READ (fun l o => if o =? 20 then None else Some (o + 100 * fst l + 10 * snd l)) = Some g' /\
     od_get g' (1, 1) = Some (Some [21])) /\
  (exists g', os_apply (fun m => m) ex_sparse READ (fun l o => Some (o + 100 * fst l + 10 * snd l)) = Some g' /\
     os_get g' (2, 1) = Some [250]).
Proof.
  split; [exact ex_dense_reach|]. split; [exact ex_sparse_reach|]. split; [exact ex_size|].
  split; eexists; (split; [vm_compute; reflexivity|vm_compute; reflexivity]).
Qed.

(** ** C27 *)
Theorem C27_dense_location :
  forall O (eqo : O -> O -> bool) w h g o,
  size_ok w h -> od_reachable eqo w h g ->
  exists r, od_location eqo g o = Some r /\
    match r with
    | Some l => in_range w h l /\ (exists b, od_get g l = Some (Some b) /\ has eqo o b = true) /\
        forall l' b, in_range w h l' -> lex l' l -> od_get g l' = Some (Some b) -> has eqo o b = false
    | None => forall l' b, in_range w h l' -> od_get g l' = Some (Some b) -> has eqo o b = false
    end.
Proof.
  intros O eqo w h g o Hs Hr. pose proof (od_reachable_wf eqo w h g Hs Hr) as W.
  destruct (od_location_ok eqo w h g o W Hs) as (r & E & H). exists r. split; [exact E|]. destruct r as [l|].
  - destruct H as (H1 & (b & Hb & Ho) & H3). split; [exact H1|]. split.
    + exists b. split; [|exact Ho]. apply od_get_bag. split; [exact Hb|]. intros ->. discriminate.
    + intros l' b' Hl' Hlt Hb'. apply od_get_bag in Hb'. apply (H3 l' b' Hl' Hlt). tauto.
  - intros l' b' Hl' Hb'. apply od_get_bag in Hb'. apply (H l' b' Hl'). tauto.
Qed.
Print Assumptions C27_dense_location.

Theorem C27_dense_location_unbuffered :
  forall O (eqo : O -> O -> bool) w h g o,
  size_ok w h -> od_reachable eqo w h g ->
  exists r, od_location_unbuffered eqo g o = Some r /\
    match r with
    | Some l => in_range w h l /\ (exists b, od_get_unbuffered g l = Some (Some b) /\ has eqo o b = true) /\
        forall l' b, in_range w h l' -> lex l' l -> od_get_unbuffered g l' = Some (Some b) -> has eqo o b = false
    | None => forall l' b, in_range w h l' -> od_get_unbuffered g l' = Some (Some b) -> has eqo o b = false
    end.
Proof.
  intros O eqo w h g o Hs Hr. pose proof (od_reachable_wf eqo w h g Hs Hr) as W.
  destruct (od_location_u_ok eqo w h g o W Hs) as (r & E & H). exists r. split; [exact E|]. destruct r as [l|].
  - destruct H as (H1 & (b & Hb & Ho) & H3). split; [exact H1|]. split.
    + exists b. split; [|exact Ho]. apply od_getu_bag. split; [exact Hb|]. intros ->. discriminate.
    + intros l' b' Hl' Hlt Hb'. apply od_getu_bag in Hb'. apply (H3 l' b' Hl' Hlt). tauto.
  - intros l' b' Hl' Hb'. apply od_getu_bag in Hb'. apply (H l' b' Hl'). tauto.
Qed.
Print Assumptions C27_dense_location_unbuffered.

Theorem C27_dense_empty :
  forall O (eqo : O -> O -> bool) w h g,
  size_ok w h -> od_reachable eqo w h g ->
  exists ls, od_empty_bags g = Some ls /\ NoDup ls /\
    (forall l, In l ls <-> in_range w h l /\ od_get g l = Some None) /\
    (ls = [] -> forall r, od_random_empty g r = Some None) /\
    (forall r, (r < length ls)%nat -> exists l, od_random_empty g r = Some (Some l) /\ In l ls) /\
    (forall l, In l ls -> exists r, (r < length ls)%nat /\ od_random_empty g r = Some (Some l)).
Proof.
  intros O eqo w h g Hs Hr. pose proof (od_reachable_wf eqo w h g Hs Hr) as W.
  destruct (od_empty_ok eqo w h g W Hs) as (ls & E & Hsort & H). exists ls. split; [exact E|].
  split; [apply FOP_NoDup with lex; [exact lex_irrefl|exact Hsort]|]. split; [|split; [|split]].
  - intros l. rewrite H. split.
    + intros [H1 H2]. split; [exact H1|]. unfold od_get. unfold rbag in H2. rewrite H2. reflexivity.
    + intros [H1 H2]. split; [exact H1|]. destruct (rbag_total w h g l W Hs H1) as [b Hb]. unfold od_get in H2.
      unfold rbag in *. rewrite Hb in *. destruct b; [reflexivity|discriminate].
  - intros -> r. unfold od_random_empty. rewrite E. reflexivity.
  - intros r Hlt. unfold od_random_empty. rewrite E. destruct ls as [|x ls]; [cbn in Hlt; lia|].
    destruct (nth_error (x :: ls) r) as [l|] eqn:En; [|apply nth_error_None in En; lia].
    exists l. split; [reflexivity|]. eapply nth_error_In. exact En.
  - intros l Hl. apply In_nth_error in Hl. destruct Hl as [r Hn]. exists r. split; [apply nth_error_Some; congruence|].
    unfold od_random_empty. rewrite E. destruct ls as [|x ls]; [destruct r; discriminate|]. rewrite Hn. reflexivity.
Qed.
Print Assumptions C27_dense_empty.

Theorem C27_sparse_location :
  forall O (eqo : O -> O -> bool) w h g it o,
  os_reachable eqo w h g -> iteration it ->
  match os_location eqo it g o with
  | Some l => exists b, os_get g l = Some b /\ has eqo o b = true
  | None => forall l b, os_get g l = Some b -> has eqo o b = false
  end /\
  match os_location_unbuffered eqo it g o with
  | Some l => exists b, os_get_unbuffered g l = Some b /\ has eqo o b = true
  | None => forall l b, os_get_unbuffered g l = Some b -> has eqo o b = false
  end.
Proof.
  intros O eqo w h g it o Hr Hit. destruct (os_reachable_wf eqo w h g Hr) as ([[Ur _] [Uw _]] & _ & _).
  split; apply (os_search_ok eqo it); assumption.
Qed.
Print Assumptions C27_sparse_location.

Theorem C27_sparse_empty :
  forall O (eqo : O -> O -> bool) w h g,
  os_reachable eqo w h g -> NoDup (os_empty_bags g) /\
  forall l, In l (os_empty_bags g) <-> in_range w h l /\ os_get g l = None.
Proof.
  intros O eqo w h g Hr. destruct (os_reachable_wf eqo w h g Hr) as (W & <- & <-). apply (os_empty_ok eqo). exact W.
Qed.
Print Assumptions C27_sparse_empty.

(** [get_random_empty_bag] returns as soon as an empty cell is drawn, and returns it. *)
Theorem C27_sparse_random :
  forall O (eqo : O -> O -> bool) w h g draws,
  os_reachable eqo w h g -> 0 < w -> 0 < h -> Forall (in_range w h) draws ->
  exists r, os_random_empty g draws = Some r /\
    (forall x, r = Some x -> exists l, x = Some l /\ In l (os_empty_bags g)) /\
    (r = None <-> forall l, In l draws -> ~ In l (os_empty_bags g)).
Proof.
  intros O eqo w h g draws Hr Hw Hh Hd. destruct (os_reachable_wf eqo w h g Hr) as (W & <- & <-).
  apply (os_random_ok eqo); assumption.
Qed.
Print Assumptions C27_sparse_random.

Example C27_concrete :
  od_location ids ex_dense 10 = Some (Some (1, 1)) /\ od_location ids ex_dense 30 = Some None /\
  od_location_unbuffered ids ex_dense 10 = Some (Some (0, 0)) /\
  od_empty_bags ex_dense = Some [(0, 0); (0, 1); (1, 0); (2, 0)] /\
  od_random_empty ex_dense 3 = Some (Some (2, 0)) /\
  os_location ids (fun m => m) ex_sparse 40 = Some (2, 1) /\
  os_empty_bags ex_sparse = [(0, 0); (0, 1); (1, 0); (2, 0)] /\
  os_random_empty ex_sparse [(1, 1); (2, 1); (1, 0)] = Some (Some (Some (1, 0))).
Proof. vm_compute. repeat split; reflexivity. Qed.

(** ** C62 *)
Theorem C62_dense_iter :
  forall O (eqo : O -> O -> bool) w h g,
  size_ok w h -> od_reachable eqo w h g ->
  exists es, od_iter g = Some es /\ (forall l o, In (l, o) es -> in_range w h l) /\
    forall l, in_range w h l -> exists b, od_get g l = Some (nonempty b) /\
      filter (fun p => loc_eqb (fst p) l) es = map (pair l) b.
Proof.
  intros O eqo w h g Hs Hr. pose proof (od_reachable_wf eqo w h g Hs Hr) as W.
  destruct (od_iter_at w h g W Hs) as (es & E & H1 & H2). exists es. split; [exact E|]. split; [exact H1|].
  intros l Hl. destruct (H2 l Hl) as (b & Hb & Hf). exists b. split; [|exact Hf]. unfold od_get. unfold rbag in Hb.
  rewrite Hb. reflexivity.
Qed.
Print Assumptions C62_dense_iter.

Theorem C62_sparse_iter :
  forall O (eqo : O -> O -> bool) w h g it,
  os_reachable eqo w h g -> iteration it ->
  (forall l, filter (fun p => loc_eqb (fst p) l) (os_iter it g) =
     match os_get g l with Some b => map (pair l) b | None => [] end) /\
  (forall l, filter (fun p => loc_eqb (fst p) l) (os_iter_unbuffered it g) =
     match os_get_unbuffered g l with Some b => map (pair l) b | None => [] end).
Proof.
  intros O eqo w h g it Hr Hit. destruct (os_reachable_wf eqo w h g Hr) as ([[Ur _] [Uw _]] & _ & _).
  assert (P : forall m : list (loc * list O), ForallOrdPairs (fun p q => loc_eqb (fst p) (fst q) = false) m ->
     forall l, filter (fun p => loc_eqb (fst p) l) (calls (it m)) =
       match bag m l with Some b => map (pair l) b | None => [] end).
  { intros m U l.
    assert (Ui : ForallOrdPairs (fun p q : loc * list O => loc_eqb (fst p) (fst q) = false) (it m))
      by (apply (uniq_perm loc_eqb _ loc_lawful) with m; [symmetry; apply Hit|exact U]).
    rewrite calls_at by exact Ui. rewrite (bag_perm (it m) m) by (auto; apply Hit). reflexivity. }
  split; intros l; [exact (P _ Ur l)|exact (P _ Uw l)].
Qed.
Print Assumptions C62_sparse_iter.

Example C62_concrete :
  od_iter ex_dense = Some [((1, 1), 20); ((1, 1), 11); ((2, 1), 40)] /\
  os_iter (@rev _) ex_sparse = [((2, 1), 40); ((1, 1), 10); ((1, 1), 20); ((1, 1), 11)].
Proof. vm_compute. split; reflexivity. Qed.

(** ** C59 *)
Definition hz (x : Z) : N := (Z.to_N x * 2 ^ 50)%N.
Definition hl (l : loc) : N := (Z.to_N (fst l + 7 * snd l) * 2 ^ 49)%N.
Lemma hz_lawful : lawful Z.eqb hz.
Proof.
  split; intros.
  - apply Z.eqb_refl.
  - rewrite Z.eqb_sym. assumption.
  - apply Z.eqb_eq in H, H0. apply Z.eqb_eq. congruence.
  - apply Z.eqb_eq in H. congruence.
Qed.

(** Two threads place different objects at the same, so far empty, location; both calls
    return; only one object is there. *)
Theorem C59_refuted :
  exists inter,
  let c := pexec Z.eqb hz hl inter (pstart (op_new 1) [[(7, (0, 0))]; [(8, (0, 0))]]) in
  pfinished c = true /\ op_get_unbuffered hl (fst c) (0, 0) = Some (Some [8]) /\
  op_location_unbuffered Z.eqb hz (fst c) 7 = Some (Some (0, 0)).
Proof. exists [0; 1; 0; 1; 0; 1]%nat. vm_compute. repeat split; reflexivity. Qed.
Print Assumptions C59_refuted.

(** If a bag exists at the location when the threads start, nothing is lost there. *)
Theorem C59_existing_bag_partial :
  forall O (eqo : O -> O -> bool) hash_o hash_l, lawful eqo hash_o ->
  forall cpus cs g rs, (1 <= cpus)%N -> (cpus * 4 <= 2 ^ 63)%N -> Forall p_plain cs ->
  op_run eqo hash_o hash_l (N.to_nat (shard_amount cpus)) (op_new cpus) cs = Some (g, rs) ->
  forall l b progs inter, op_get_unbuffered hash_l g l = Some (Some b) ->
  let c := pexec eqo hash_o hash_l inter (pstart g progs) in
  pfinished c = true ->
  exists b', op_get_unbuffered hash_l (fst c) l = Some (Some b') /\
    (forall o, has eqo o b = true -> has eqo o b' = true) /\
    (forall prog o, In prog progs -> In (o, l) prog -> has eqo o b' = true).
Proof.
  intros O eqo hash_o hash_l L cpus cs g rs H1 H2 Hp E l b progs inter Hb c Hf.
  destruct (op_new_ok eqo hash_o hash_l cpus H1 H2) as [W0 E0].
  destruct (op_history eqo hash_o hash_l L _ _ cs W0 E0 Hp) as (g' & rs' & E' & W & _).
  rewrite E in E'. injection E' as <- <-. rewrite (op_get_unbuffered_eq eqo hash_o hash_l _ g l W) in Hb.
  destruct (wl hash_l g l) as [b0|] eqn:Ew; [|discriminate]. injection Hb as Hb.
  assert (Eb : b0 = b /\ b0 <> []) by (destruct b0; [discriminate|injection Hb as <-; split; congruence]).
  destruct Eb as [-> Hne].
  destruct (existing_bag eqo hash_o hash_l L _ l inter g (map (PThread PcNext) progs) W (ex_intro _ b Ew)) as (W' & b' & Eb' & K1 & K2).
  { intros t th o Ht Hx. apply nth_error_In in Ht. apply in_map_iff in Ht. destruct Ht as (x & <- & _). discriminate. }
  fold (pstart g progs) in *. fold c in W', Eb', K2.
  assert (Ne : b' <> []).
  { destruct b as [|x b]; [congruence|]. assert (Hx : has eqo x (x :: b) = true) by (cbn; rewrite (eqk_refl _ _ L); reflexivity).
    specialize (K1 _ x Ew Hx). intros ->. discriminate. }
  exists b'. split; [|split].
  - rewrite (op_get_unbuffered_eq eqo hash_o hash_l _ (fst c) l W'). rewrite Eb'. destruct b'; [congruence|reflexivity].
  - intros o. apply (K1 _ o Ew).
  - intros prog o Hin Ho. apply In_nth_error in Hin. destruct Hin as [t Ht].
    destruct (K2 t (PThread PcNext prog) o) as [Hx|(th' & Ht' & Hin')]; [rewrite nth_error_map, Ht; reflexivity|exact Ho|exact Hx|].
    unfold pfinished in Hf. rewrite forallb_forall in Hf. apply nth_error_In in Ht'. specialize (Hf _ Ht').
    destruct (pt_pc th'); try discriminate. destruct (pt_rest th'); [destruct Hin'|discriminate].
Qed.
Print Assumptions C59_existing_bag_partial.

Example C59_concrete :
  exists g rs, op_run Z.eqb hz hl (N.to_nat (shard_amount 1)) (op_new 1) [PSet 5 (0, 0)] = Some (g, rs) /\
    op_get_unbuffered hl g (0, 0) = Some (Some [5]) /\
    let c := pexec Z.eqb hz hl [0; 1; 1; 0]%nat (pstart g [[(7, (0, 0))]; [(8, (0, 0))]]) in
    pfinished c = true /\ op_get_unbuffered hl (fst c) (0, 0) = Some (Some [5; 7; 8]).
Proof. do 2 eexists. split; [vm_compute; reflexivity|]. vm_compute. repeat split; reflexivity. Qed.

(** ** C60 *)
(** Removing an object right after its placement was published panics. *)
Theorem C60_panic_refuted :
  forall O (eqo : O -> O -> bool) hash_o hash_l, lawful eqo hash_o ->
  forall cpus, (1 <= cpus)%N -> (cpus * 4 <= 2 ^ 63)%N -> forall o l,
  op_run eqo hash_o hash_l (N.to_nat (shard_amount cpus)) (op_new cpus) [PSet o l; PLazyUpdate; PRemove o] = None.
Proof.
  intros O eqo hash_o hash_l L cpus H1 H2 o l. destruct (op_new_ok eqo hash_o hash_l cpus H1 H2) as [W0 E0].
  cbn [op_run op_call].
  destruct (op_set_ok eqo hash_o hash_l L _ _ o l W0) as (g1 & -> & W1 & _ & _ & F1 & F2). cbn [option_map].
  destruct (op_lazy_ok eqo hash_o hash_l _ _ W1) as (g2 & -> & W2 & R1 & R2 & F3 & F4). cbn [option_map].
  pose proof (op_remove_spec eqo hash_o hash_l L _ _ o W2) as Hr.
  rewrite R2, F2, (eqk_refl _ _ L), F3 in Hr. rewrite Hr. reflexivity.
Qed.
Print Assumptions C60_panic_refuted.

(** Removing an object placed (and not yet published) leaves it in its bag. *)
Theorem C60_not_removed_refuted :
  exists g rs, op_run Z.eqb hz hl (N.to_nat (shard_amount 1)) (op_new 1) [PSet 7 (0, 0); PRemove 7; PLazyUpdate] = Some (g, rs) /\
    op_get hl g (0, 0) = Some (Some [7]) /\ op_location Z.eqb hz g 7 = Some None.
Proof. do 2 eexists. split; [vm_compute; reflexivity|]. vm_compute. split; reflexivity. Qed.
Print Assumptions C60_not_removed_refuted.

(** When the object's published location is also its location now, the object is removed. *)
Theorem C60_same_location_partial :
  forall O (eqo : O -> O -> bool) hash_o hash_l, lawful eqo hash_o ->
  forall cpus cs g rs, (1 <= cpus)%N -> (cpus * 4 <= 2 ^ 63)%N -> Forall p_plain cs ->
  op_run eqo hash_o hash_l (N.to_nat (shard_amount cpus)) (op_new cpus) cs = Some (g, rs) ->
  forall o l b, op_location eqo hash_o g o = Some (Some l) -> op_get_unbuffered hash_l g l = Some (Some b) ->
  exists g', op_remove eqo hash_o hash_l g o = Some g' /\
    op_get_unbuffered hash_l g' l = Some (nonempty (without eqo o b)) /\
    op_location_unbuffered eqo hash_o g' o = Some None /\
    (forall l', l' <> l -> op_get_unbuffered hash_l g' l' = op_get_unbuffered hash_l g l') /\
    (forall o', eqo o' o = false -> op_location_unbuffered eqo hash_o g' o' = op_location_unbuffered eqo hash_o g o').
Proof.
  intros O eqo hash_o hash_l L cpus cs g rs H1 H2 Hp E o l b Ho Hb.
  destruct (op_new_ok eqo hash_o hash_l cpus H1 H2) as [W0 E0].
  destruct (op_history eqo hash_o hash_l L _ _ cs W0 E0 Hp) as (g0 & rs0 & E' & W & _).
  rewrite E in E'. injection E' as <- <-. rewrite (op_location_eq eqo hash_o hash_l _ g o W) in Ho. injection Ho as Ho.
  rewrite (op_get_unbuffered_eq eqo hash_o hash_l _ g l W) in Hb.
  pose proof (op_remove_spec eqo hash_o hash_l L _ g o W) as Hr. rewrite Ho in Hr.
  destruct (wl hash_l g l) as [b0|] eqn:Ew; [|discriminate]. injection Hb as Hb.
  assert (Eb : b0 = b) by (destruct b0; [discriminate|injection Hb as <-; reflexivity]). subst b0.
  destruct Hr as (g' & Eg & W' & _ & _ & F1 & F2). exists g'. split; [exact Eg|].
  split; [|split; [|split]].
  - rewrite (op_get_unbuffered_eq eqo hash_o hash_l _ g' l W'), F1, loc_eqb_refl, Ew. reflexivity.
  - rewrite (op_location_unbuffered_eq eqo hash_o hash_l L _ g' o W'), F2, (eqk_refl _ _ L). reflexivity.
  - intros l' Hl'. rewrite (op_get_unbuffered_eq eqo hash_o hash_l _ g' l' W'), F1, (op_get_unbuffered_eq eqo hash_o hash_l _ g l' W).
    replace (loc_eqb l' l) with false; [reflexivity|]. symmetry. apply loc_eqb_neq. exact Hl'.
  - intros o' Hne. rewrite (op_location_unbuffered_eq eqo hash_o hash_l L _ g' o' W'), F2, Hne,
      (op_location_unbuffered_eq eqo hash_o hash_l L _ g o' W). reflexivity.
Qed.
Print Assumptions C60_same_location_partial.

Example C60_concrete :
  exists g rs g', op_run Z.eqb hz hl (N.to_nat (shard_amount 1)) (op_new 1)
      [PSet 7 (0, 0); PLazyUpdate; PSet 8 (0, 0); PSet 7 (0, 0)] = Some (g, rs) /\
    op_location Z.eqb hz g 7 = Some (Some (0, 0)) /\ op_get_unbuffered hl g (0, 0) = Some (Some [8; 7]) /\
    op_remove Z.eqb hz hl g 7 = Some g' /\ op_get_unbuffered hl g' (0, 0) = Some (Some [8]).
Proof. do 3 eexists. repeat (split; [vm_compute; reflexivity|]). vm_compute. reflexivity. Qed.

(** ** C61 *)
Theorem C61_history :
  forall O (eqo : O -> O -> bool) hash_o hash_l, lawful eqo hash_o ->
  forall cpus cs, (1 <= cpus)%N -> (cpus * 4 <= 2 ^ 63)%N -> Forall p_plain cs ->
  exists g rs, op_run eqo hash_o hash_l (N.to_nat (shard_amount cpus)) (op_new cpus) cs = Some (g, rs) /\
    let hist := rev (map as_oop cs) in
    (forall l,
      op_get hash_l g l = Some (nonempty (placed (cancels_dense eqo) l (published_epoch hist))) /\
      op_get_unbuffered hash_l g l = Some (nonempty (placed (cancels_dense eqo) l (since_publication hist)))) /\
    (forall o,
      op_location eqo hash_o g o = Some (last_location eqo o (published_epoch hist)) /\
      op_location_unbuffered eqo hash_o g o = Some (last_location eqo o (since_publication hist))).
Proof.
  intros O eqo hash_o hash_l L cpus cs H1 H2 Hp. destruct (op_new_ok eqo hash_o hash_l cpus H1 H2) as [W0 E0].
  destruct (op_history eqo hash_o hash_l L _ _ cs W0 E0 Hp) as (g & rs & E & W & Ha & Hb). exists g, rs. split; [exact E|].
  cbv zeta in *. split.
  - intros l. destruct (Ha l) as [A B]. unfold bag_is in A, B.
    rewrite (op_get_eq eqo hash_o hash_l _ g l W), (op_get_unbuffered_eq eqo hash_o hash_l _ g l W), <- A, <- B.
    split; [destruct (rl hash_l g l); reflexivity|destruct (wl hash_l g l); reflexivity].
  - intros o. destruct (Hb o) as [C D].
    rewrite (op_location_eq eqo hash_o hash_l _ g o W), (op_location_unbuffered_eq eqo hash_o hash_l L _ g o W), C, D.
    split; reflexivity.
Qed.
Print Assumptions C61_history.

(** The sequential dense grid answers [get_objects] alike. *)
Theorem C61_same_as_sequential :
  forall O (eqo : O -> O -> bool) hash_o hash_l, lawful eqo hash_o ->
  forall w h cpus cs, size_ok w h -> (1 <= cpus)%N -> (cpus * 4 <= 2 ^ 63)%N -> Forall p_plain cs ->
  Forall (o_in w h) (map as_oop cs) ->
  exists gp rp g0 gs rs,
    op_run eqo hash_o hash_l (N.to_nat (shard_amount cpus)) (op_new cpus) cs = Some (gp, rp) /\
    od_new w h = Some g0 /\ od_run eqo g0 (map as_oop cs) = Some (gs, rs) /\
    forall l, in_range w h l -> op_get hash_l gp l = od_get gs l /\
      op_get_unbuffered hash_l gp l = od_get_unbuffered gs l.
Proof.
  intros O eqo hash_o hash_l L w h cpus cs Hs H1 H2 Hp Hin.
  destruct (C61_history O eqo hash_o hash_l L cpus cs H1 H2 Hp) as (gp & rp & Ep & Hpar & _).
  assert (N1 : Forall o_no_apply (map as_oop cs) /\ Forall o_no_update (map as_oop cs)).
  { clear -Hp. induction Hp as [|c cs Hc Hp [I1 I2]]; [split; constructor|].
    split; (constructor; [destruct c; try destruct Hc; exact I|assumption]). }
  destruct (C22_history O eqo w h (map as_oop cs) Hs Hin (proj1 N1) (proj2 N1)) as (g0 & gs & rs & E0 & E & _ & H).
  exists gp, rp, g0, gs, rs. repeat (split; [assumption|]). intros l Hl. destruct (H l Hl) as [-> ->]. exact (Hpar l).
Qed.
Print Assumptions C61_same_as_sequential.

(** The two maps of the parallel grid drift apart: an object placed twice is read at
    both locations although [get_location] reports one, *)
Theorem C61_two_places_refuted :
  exists g rs, op_run Z.eqb hz hl (N.to_nat (shard_amount 1)) (op_new 1) [PSet 7 (0, 0); PSet 7 (1, 1); PLazyUpdate] = Some (g, rs) /\
    op_get hl g (0, 0) = Some (Some [7]) /\ op_get hl g (1, 1) = Some (Some [7]) /\
    op_location Z.eqb hz g 7 = Some (Some (1, 1)).
Proof. do 2 eexists. split; [vm_compute; reflexivity|]. vm_compute. repeat split; reflexivity. Qed.
Print Assumptions C61_two_places_refuted.

(** ... an object removed from its location still has that location, and the emptied bag
    is not reported as empty, *)
Theorem C61_removed_refuted :
  exists g rs, op_run Z.eqb hz hl (N.to_nat (shard_amount 1)) (op_new 1) [PSet 7 (0, 0); PRemoveAt 7 (0, 0); PLazyUpdate] = Some (g, rs) /\
    op_get hl g (0, 0) = Some None /\ op_location Z.eqb hz g 7 = Some (Some (0, 0)) /\
    op_empty_bags hl g 1 1 = Some [].
Proof. do 2 eexists. split; [vm_compute; reflexivity|]. vm_compute. repeat split; reflexivity. Qed.
Print Assumptions C61_removed_refuted.

(** ... and [apply_to_all_values] changes neither what [get_objects] returns before nor
    after the next publication. *)
Theorem C61_apply_refuted :
  exists g rs, op_run Z.eqb hz hl (N.to_nat (shard_amount 1)) (op_new 1)
      [PSet 7 (0, 0); PLazyUpdate; PApply (fun m => m) (fun _ o => Some (o + 1)); PLazyUpdate] = Some (g, rs) /\
    op_get hl g (0, 0) = Some None /\ op_location Z.eqb hz g 8 = Some (Some (0, 0)).
Proof. do 2 eexists. split; [vm_compute; reflexivity|]. vm_compute. repeat split; reflexivity. Qed.
Print Assumptions C61_apply_refuted.

Example C61_concrete :
  let cs := [PSet 7 (1, 0); PSet 8 (1, 0); PSet 7 (1, 0); PLazyUpdate; PSet 9 (2, 1); PGet (1, 0)] in
  lawful Z.eqb hz /\ Forall p_plain cs /\ Forall (o_in 3 2) (map as_oop cs) /\
  placed (cancels_dense Z.eqb) (1, 0) (published_epoch (rev (map as_oop cs))) = [8; 7] /\
  last_location Z.eqb 7 (published_epoch (rev (map as_oop cs))) = Some (1, 0).
Proof.
  cbv zeta. split; [exact hz_lawful|]. split; [repeat constructor|]. split; [cbn [map as_oop]; repeat constructor; cbn; lia|].
  split; reflexivity.
Qed.

(** A grid with an empty side: [get_random_empty_bag] panics. *)
Theorem C27_sparse_random_empty_side :
  forall O (eqo : O -> O -> bool) w h g draws,
  os_reachable eqo w h g -> w <= 0 \/ h <= 0 -> os_random_empty g draws = None.
Proof.
  intros O eqo w h g draws Hr H. destruct (os_reachable_wf eqo w h g Hr) as (_ & <- & <-). unfold os_random_empty.
  destruct (Z.leb_spec (os_w g) 0), (Z.leb_spec (os_h g) 0); try reflexivity; lia.
Qed.
Print Assumptions C27_sparse_random_empty_side.

(** ** C64: the other queries of the parallel grids *)
(** [get] and [get_unbuffered] return the stored object, as it was last placed. *)
Theorem C64_get :
  forall O (eqo : O -> O -> bool) hash_o hash_l, lawful eqo hash_o ->
  forall cpus cs g rs, (1 <= cpus)%N -> (cpus * 4 <= 2 ^ 63)%N -> Forall p_plain cs ->
  op_run eqo hash_o hash_l (N.to_nat (shard_amount cpus)) (op_new cpus) cs = Some (g, rs) ->
  let hist := rev (map as_oop cs) in
  forall o,
  op_get_object eqo hash_o g o = Some (last_object eqo o (published_epoch hist)) /\
  op_get_object_unbuffered eqo hash_o hash_l g o =
    Some (match last_location eqo o (since_publication hist) with
          | None => None
          | Some l => find (fun x => eqo x o) (placed (cancels_dense eqo) l (since_publication hist))
          end).
Proof.
  intros O eqo hash_o hash_l L cpus cs g rs H1 H2 Hp E hist o.
  destruct (op_new_ok eqo hash_o hash_l cpus H1 H2) as [W0 E0].
  destruct (op_history eqo hash_o hash_l L _ _ cs W0 E0 Hp) as (g' & rs' & E' & W & Ha & Hb).
  rewrite E in E'. injection E' as <- <-.
  destruct (op_history_q eqo hash_o hash_l L _ _ cs W0 E0 Hp g rs E) as [Hc Hd]. fold hist in Ha, Hb, Hc, Hd.
  split; [rewrite (get_object_eq eqo hash_o hash_l _ g o W); f_equal; apply Hd|].
  rewrite (get_object_unbuffered_eq eqo hash_o hash_l L _ g o W). destruct (Hb o) as [_ ->].
  destruct (last_location eqo o (since_publication hist)) as [l|] eqn:El; [|reflexivity].
  destruct (Ha l) as [_ B]. destruct (Hc l) as [_ C]. unfold bag_is in B. destruct (wl hash_l g l) as [b|]; [subst b; reflexivity|].
  exfalso. cbn in C. revert C El. clear. generalize (since_publication hist) as e. intros e C.
  induction e as [|c e IH] using rev_ind; [discriminate|]. rewrite touched_snoc in C. unfold last_location. rewrite fold_left_app. cbn [fold_left].
  destruct c; try (apply IH; exact (eq_trans C eq_refl)).
  symmetry in C. apply orb_false_iff in C. destruct C as [C1 C2]. destruct (eqo o o0); [|apply IH; congruence].
  intros X. injection X as ->. rewrite loc_eqb_refl in C2. discriminate.
Qed.
Print Assumptions C64_get.

(** [iter_objects] visits exactly what [get_objects] returns; [get_empty_bags] lists the
    cells at which nothing was placed in the published epoch (a cell emptied by
    [remove_object_location] is not listed, see [C61_removed_refuted]). *)
Theorem C64_iter_empty :
  forall O (eqo : O -> O -> bool) hash_o hash_l, lawful eqo hash_o ->
  forall cpus cs g rs w h, (1 <= cpus)%N -> (cpus * 4 <= 2 ^ 63)%N -> Forall p_plain cs ->
  op_run eqo hash_o hash_l (N.to_nat (shard_amount cpus)) (op_new cpus) cs = Some (g, rs) ->
  (exists es, op_iter hash_l g w h = Some es /\ (forall l o, In (l, o) es -> in_range w h l) /\
     forall l, in_range w h l -> exists b, op_get hash_l g l = Some (nonempty b) /\
       filter (fun p => loc_eqb (fst p) l) es = map (pair l) b) /\
  (exists ls, op_empty_bags hash_l g w h = Some ls /\ NoDup ls /\
     forall l, In l ls <-> in_range w h l /\
       touched l (published_epoch (rev (map as_oop cs))) = false).
Proof.
  intros O eqo hash_o hash_l L cpus cs g rs w h H1 H2 Hp E.
  destruct (op_new_ok eqo hash_o hash_l cpus H1 H2) as [W0 E0].
  destruct (op_history eqo hash_o hash_l L _ _ cs W0 E0 Hp) as (g' & rs' & E' & W & _).
  rewrite E in E'. injection E' as <- <-.
  destruct (op_history_q eqo hash_o hash_l L _ _ cs W0 E0 Hp g rs E) as [Hc _]. split.
  - eexists. split; [exact (iter_eq eqo hash_o hash_l _ g w h W)|]. split.
    + intros l o Hin. apply in_flat_map in Hin. destruct Hin as (c & Hc' & Hin). apply in_map_iff in Hin.
      destruct Hin as (x & Ex & _). injection Ex as -> _. apply cells_In. exact Hc'.
    + intros l Hl. exists (match rl hash_l g l with Some b => b | None => [] end). split.
      * rewrite (op_get_eq eqo hash_o hash_l _ g l W). destruct (rl hash_l g l); reflexivity.
      * rewrite flat_cells by apply cells_NoDup. replace (existsb (loc_eqb l) (cells w h)) with true; [reflexivity|].
        symmetry. apply existsb_exists. exists l. split; [apply cells_In; exact Hl|apply loc_eqb_refl].
  - eexists. split; [exact (empty_eq eqo hash_o hash_l _ g w h W)|]. split; [apply NoDup_filter, cells_NoDup|].
    intros l. rewrite filter_In, cells_In. destruct (Hc l) as [<- _]. destruct (some (rl hash_l g l)); cbn; intuition congruence.
Qed.
Print Assumptions C64_iter_empty.

Lemma ids_lawful : lawful ids (fun z => Z.to_N (z / 10)).
Proof.
  unfold ids. split; intros *; rewrite ?Z.eqb_eq; congruence.
Qed.
Example C64_concrete :
  exists g rs, op_run ids (fun z => Z.to_N (z / 10)) hl (N.to_nat (shard_amount 1)) (op_new 1)
      [PSet 10 (0, 0); PSet 11 (0, 1); PSet 20 (0, 1); PLazyUpdate; PSet 12 (1, 0)] = Some (g, rs) /\
    lawful ids (fun z => Z.to_N (z / 10)) /\
    op_get_object ids (fun z => Z.to_N (z / 10)) g 19 = Some (Some 11) /\
    op_get_object_unbuffered ids (fun z => Z.to_N (z / 10)) hl g 19 = Some (Some 12) /\
    op_iter hl g 2 2 = Some [((0, 0), 10); ((0, 1), 11); ((0, 1), 20)] /\
    op_empty_bags hl g 2 2 = Some [(1, 0); (1, 1)].
Proof.
  do 2 eexists. split; [vm_compute; reflexivity|]. split; [exact ids_lawful|].
  vm_compute. repeat split; reflexivity.
Qed.
