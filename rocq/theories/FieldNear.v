(** * Proofs: which objects a neighbour query returns, and how often *)
From Coq Require Import List Bool ZArith NArith Arith Permutation Reals Lia Lra Psatz.
From Flocq Require Import Core.
From Verif Require Import F32 Grid ObjModel FieldModel FieldSpec FieldProofs FieldReal FieldNearSpec.
Import ListNotations.
Local Open Scope Z_scope.

Lemma as_often_split {X Y} (a b : X * Y -> nat) ps :
  Permutation (as_often a ps ++ as_often b ps) (as_often (fun p => a p + b p)%nat ps).
Proof.
  induction ps as [|p ps IH]; [constructor|]. unfold as_often in *. cbn [flat_map]. rewrite repeat_app, <- !app_assoc.
  apply Permutation_app_head. rewrite app_assoc.
  etransitivity; [apply Permutation_app_tail, Permutation_app_comm|]. rewrite <- app_assoc. apply Permutation_app_head. exact IH.
Qed.
Lemma as_often_ext {X Y} (a b : X * Y -> nat) ps : (forall p, In p ps -> a p = b p) -> as_often a ps = as_often b ps.
Proof.
  induction ps as [|p ps IH]; intros H; [reflexivity|]. unfold as_often in *. cbn [flat_map].
  rewrite H by (left; reflexivity). rewrite IH by (intros q Hq; apply H; right; exact Hq). reflexivity.
Qed.

Section Bags.
Variable A : arith.
Context {O : Type}.
Notation pt := (num A * num A)%type.
Variable d : num A.

(** The bags [ids], each filtered, hold the placements as often as their bag is in [ids]. *)
Lemma bags_often (g : loc -> O -> bool) (ps : list (O * pt)) ids :
  Permutation (flat_map (fun c => filter (g c) (at_cell A d c ps)) ids)
    (as_often (fun p => if g (discretize A d (snd p)) (fst p) then length (filter (loc_eqb (discretize A d (snd p))) ids) else 0)%nat ps).
Proof.
  induction ids as [|c ids IH]; cbn [flat_map].
  - erewrite as_often_ext; [|intros p _; cbn; instantiate (1 := fun _ => 0%nat); destruct (g _ _); reflexivity].
    unfold as_often. cbn. induction ps as [|p ps IH]; [constructor|exact IH].
  - assert (E1 : filter (g c) (at_cell A d c ps) =
      as_often (fun p => if g (discretize A d (snd p)) (fst p) then (if loc_eqb (discretize A d (snd p)) c then 1 else 0) else 0)%nat ps).
    { clear IH. unfold at_cell, as_often. induction ps as [|p ps IH]; [reflexivity|]. cbn [filter flat_map].
      destruct (loc_eqb (discretize A d (snd p)) c) eqn:E.
      - apply loc_eqb_eq in E. rewrite E. cbn [map filter]. destruct (g c (fst p)); cbn [repeat app]; rewrite IH; reflexivity.
      - destruct (g _ _); cbn [repeat app]; exact IH. }
    rewrite E1. etransitivity; [apply Permutation_app_head; exact IH|]. etransitivity; [apply as_often_split|].
    erewrite as_often_ext; [reflexivity|]. intros p _. cbv beta. cbn [filter].
    destruct (g _ _); [|reflexivity]. destruct (loc_eqb _ c); reflexivity.
Qed.
End Bags.

Lemma numbers_zfrom lo hi : numbers lo hi = zfrom lo (hi + 1).
Proof. reflexivity. Qed.

Lemma stands_for_ok n i : 1 <= n < 2 ^ 31 - 1 -> t_transform i n = Some (stands_for n i).
Proof.
  intros Hn. unfold t_transform, stands_for. destruct (Z.eqb_spec n 0); [lia|]. destruct (Z.eqb_spec n (-1)); [lia|]. cbn [orb andb].
  destruct (Z.leb_spec 0 i) as [P|P].
  - rewrite Z.rem_mod_nonneg by lia. reflexivity.
  - f_equal. assert (E : Z.rem i n = - ((- i) mod n)).
    { rewrite <- (Z.opp_involutive i) at 1. rewrite Z.rem_opp_l by lia. rewrite Z.rem_mod_nonneg by lia. reflexivity. }
    rewrite E. pose proof (Z.mod_pos_bound (- i) n ltac:(lia)). rewrite wrap32_id by (unfold in_i32; lia). lia.
Qed.

Lemma mapM_map {X Y} (f : X -> option Y) (g : X -> Y) l : (forall x, f x = Some (g x)) -> mapM f l = Some (map g l).
Proof. intros H. induction l as [|x l IH]; [reflexivity|]. cbn. rewrite H, IH. reflexivity. Qed.

Lemma count_prod (f g : Z -> bool) xs ys :
  length (filter (fun p => f (fst p) && g (snd p)) (list_prod xs ys)) = (length (filter f xs) * length (filter g ys))%nat.
Proof.
  induction xs as [|x xs IH]; [reflexivity|]. cbn [list_prod filter]. rewrite filter_app, app_length, IH.
  assert (E : length (filter (fun p => f (fst p) && g (snd p)) (map (fun y => (x, y)) ys)) = if f x then length (filter g ys) else 0%nat).
  { clear. induction ys as [|y ys IH]; [destruct (f x); reflexivity|]. cbn [map filter fst snd]. destruct (f x); cbn [andb]; [|exact IH].
    destruct (g y); cbn [length]; rewrite IH; reflexivity. }
  rewrite E. destruct (f x); cbn [length]; lia.
Qed.
Lemma filter_map_len {X Y} (g : X -> Y) (f : Y -> bool) l : length (filter f (map g l)) = length (filter (fun x => f (g x)) l).
Proof. induction l as [|x l IH]; [reflexivity|]. cbn. destruct (f (g x)); cbn; rewrite IH; reflexivity. Qed.

Local Open Scope R_scope.
Section Real.
Variables w h d : R.
Hypothesis Hw : 0 < w.
Hypothesis Hh : 0 < h.
Hypothesis Hd : 0 < d.
Hypothesis Hsize : (Zceil (w / d) + 1 < 2 ^ 31 /\ Zceil (h / d) + 1 < 2 ^ 31 /\ (Zceil (w / d) + 1) * (Zceil (h / d) + 1) < 2 ^ 31)%Z.
Context {O : Type}.

Lemma window_counts (f : field2d RA (O := O)) t (l : R * R) (dist : R) :
  fwf RA w h d t f -> Rabs (fst l) <= 2 ^ 29 * d -> Rabs (snd l) <= 2 ^ 29 * d -> 0 <= dist <= 2 ^ 29 * d ->
  exists ids, window RA f l dist = Some ids /\
    forall p : R * R, 0 <= fst p <= w -> 0 <= snd p <= h ->
      length (filter (loc_eqb (discretize RA d p)) ids) = visits t w h d l dist p.
Proof.
  intros W Lx Ly Hdist. destruct W as (W1 & W2 & W3 & W4 & _). unfold window. cbv zeta. rewrite W1, W2, W3, W4.
  destruct l as [lx ly]. cbn [fst snd] in *.
  pose proof (floor_small d Hd lx Lx) as Fx. pose proof (floor_small d Hd ly Ly) as Fy.
  assert (Fd : (0 <= Zfloor (dist / d) <= 2 ^ 29)%Z).
  { split; [|apply (floor_small d Hd); rewrite Rabs_right; lra]. apply Zfloor_lub. apply Rmult_le_pos; [lra|]. left. apply Rinv_0_lt_compat. exact Hd. }
  pose proof (ceil_pos d Hd w Hw) as Mw. pose proof (ceil_pos d Hd h Hh) as Mh.
  unfold discretize. cbn [fst snd floor_i32 ceil_i32 div RA].
  rewrite !(sat_id (Zfloor (lx / d))), !(sat_id (Zfloor (ly / d))), !(sat_id (Zfloor (dist / d))), !(sat_id (Zceil (w / d))), !(sat_id (Zceil (h / d))) by lia.
  rewrite (wrap32_id (Zfloor (lx / d) - Zfloor (dist / d))), (wrap32_id (Zfloor (lx / d) + Zfloor (dist / d))),
    (wrap32_id (Zfloor (ly / d) - Zfloor (dist / d))), (wrap32_id (Zfloor (ly / d) + Zfloor (dist / d))),
    (wrap32_id (Zceil (w / d) - 1)), (wrap32_id (Zceil (h / d) - 1)) by (unfold in_i32; lia).
  rewrite !wrap32_id by (unfold in_i32; destruct t; lia).
  eexists. split.
  - apply (mapM_map _ (fun p => (stands_for (Zceil (w / d)) (fst p), stands_for (Zceil (h / d)) (snd p)))).
    intros p. rewrite !stands_for_ok by lia. reflexivity.
  - intros [px py] Px Py. cbn [fst snd] in *.
    destruct (cell_bounds d Hd px w Px ltac:(lia)) as (Ex & _). destruct (cell_bounds d Hd py h Py ltac:(lia)) as (Ey & _). cbn [floor_i32 RA div] in Ex, Ey.
    rewrite filter_map_len. unfold visits, looks, column. cbn [fst snd]. rewrite !numbers_zfrom, <- count_prod.
    f_equal. apply filter_ext. intros [i j]. unfold loc_eqb. cbn [fst snd].
    rewrite Ex, Ey. rewrite (Z.eqb_sym (Zfloor (px / d))), (Z.eqb_sym (Zfloor (py / d))). reflexivity.
Qed.

Lemma close_ok t (a b : R * R) (dist : R) : le RA (distance RA a b w h t) dist = true <-> close t w h a b dist.
Proof.
  cbn [le RA]. rewrite Rle_bool_iff. unfold close. destruct t.
  - split.
    + intros H. exists (distance RA a b w h true). split; [apply distance_RA_torus; assumption|exact H].
    + intros (far & T & H). rewrite (torus_unique _ _ _ _ _ _ (distance_RA_torus a b w h Hw Hh) T). exact H.
  - rewrite distance_RA_plane. reflexivity.
Qed.
Lemma corners_ok (p c : R * R) : 0 <= fst p <= w -> 0 <= snd p <= h ->
  In c (corners RA (discretize RA d p) d w h) <-> corner_of w h d p c.
Proof.
  intros Px Py. destruct p as [px py], c as [cx cy]. cbn [fst snd] in *.
  destruct (cell_bounds d Hd px w Px ltac:(lia)) as (Ex & _). destruct (cell_bounds d Hd py h Py ltac:(lia)) as (Ey & _).
  unfold corners, corner_of, discretize, column. cbv zeta. cbn [fst snd]. rewrite Ex, Ey. cbn [mul add of_int minn RA num In].
  split.
  - intros [E|[E|[E|[E|[]]]]]; injection E as <- <-; auto.
  - intros [[H1 | H1] [H2 | H2]]; subst; auto 6.
Qed.

(** The test of the model is the one of the specification. *)
Lemma keeps_ok (location : O -> R * R) t (l : R * R) (dist : R) (o : O) (p : R * R) : 0 <= fst p <= w -> 0 <= snd p <= h ->
  keeps RA location w h d t l dist (discretize RA d p) o = true <-> selected t w h d l dist (location o) p.
Proof.
  intros Px Py. unfold keeps. cbv zeta. set (cs := corners RA (discretize RA d p) d w h).
  assert (Hall : forallb (fun c => le RA (distance RA c l w h t) dist) cs = true <-> forall c, corner_of w h d p c -> close t w h c l dist).
  { rewrite forallb_forall. split; intros H c Hc; [apply close_ok, H, corners_ok|apply close_ok, H, corners_ok]; assumption. }
  assert (Hnone : forallb (fun c => lt RA dist (distance RA c l w h t)) cs = false <-> exists c, corner_of w h d p c /\ close t w h c l dist).
  { split.
    - intros H. destruct (existsb (fun c => le RA (distance RA c l w h t) dist) cs) eqn:E.
      + apply existsb_exists in E. destruct E as (c & Hc & E). exists c. split; [apply corners_ok; assumption|apply close_ok; exact E].
      + exfalso. rewrite <- not_true_iff_false in H. apply H. apply forallb_forall. intros c Hc. cbn [lt RA]. apply Rlt_bool_iff.
        destruct (Rlt_or_le dist (distance RA c l w h t)) as [L|L]; [exact L|]. exfalso. rewrite <- not_true_iff_false in E. apply E.
        apply existsb_exists. exists c. split; [exact Hc|]. cbn [le RA]. apply Rle_bool_iff. exact L.
    - intros (c & Hc & Cc). apply not_true_iff_false. rewrite forallb_forall. intros H. apply (corners_ok p c Px Py) in Hc.
      specialize (H c Hc). cbn [lt RA] in H. apply Rlt_bool_iff in H. apply close_ok in Cc. cbn [le RA] in Cc. apply Rle_bool_iff in Cc.
      cbn [num RA] in *. lra. }
  unfold check_circle. cbv zeta. fold cs. unfold selected. rewrite <- Hall, <- Hnone, <- close_ok.
  destruct (forallb (fun c => le RA (distance RA c l w h t) dist) cs).
  - cbn. split; auto.
  - destruct (forallb (fun c => lt RA dist (distance RA c l w h t)) cs).
    + cbn. split; [discriminate|intros [H|[H _]]; discriminate].
    + cbn [Z.eqb andb orb]. rewrite orb_false_r. split; [auto|intros [H|[_ H]]; [discriminate|exact H]].
Qed.

(** The two queries on a field whose bags hold the placements [ps]. *)
Lemma exact_at (location : O -> R * R) t (f : field2d RA (O := O)) (ps : list (O * (R * R))) (l : R * R) (dist : R) :
  fwf RA w h d t f ->
  (forall c, in_range (cols RA w d) (cols RA h d) c -> vget (f_read f) (cell_index (cols RA h d) c) = Some (at_cell RA d c ps)) ->
  (forall o p, In (o, p) ps -> 0 <= fst p <= w /\ 0 <= snd p <= h) ->
  Rabs (fst l) <= 2 ^ 29 * d -> Rabs (snd l) <= 2 ^ 29 * d -> 0 < dist <= 2 ^ 29 * d ->
  exists r r' keep, f_neighbors RA location f l dist = Some r /\ f_relax RA f l dist = Some r' /\
    (forall o p, In (o, p) ps -> keep (o, p) = true <-> selected t w h d l dist (location o) p) /\
    Permutation r (as_often (fun q => if keep q then visits t w h d l dist (snd q) else 0%nat) ps) /\
    Permutation r' (as_often (fun q => visits t w h d l dist (snd q)) ps).
Proof.
  intros W Hps Hin Lx Ly Hdist.
  assert (Hpos : le RA dist (of_int RA 0) = false) by (cbn; destruct (Rle_bool_spec dist 0); [lra|reflexivity]).
  destruct (window_counts f t l dist W Lx Ly ltac:(lra)) as (ids & Ew & Cnt).
  destruct (neighbors_eq RA location w h d t (good_size_R w h d Hw Hh Hd Hsize) f l dist (fun c => at_cell RA d c ps) W Hps Hpos) as (ids' & Ew' & _ & E1 & E2).
  rewrite Ew in Ew'. injection Ew' as <-.
  exists (flat_map (fun c => filter (keeps RA location w h d t l dist c) (at_cell RA d c ps)) ids), (flat_map (fun c => at_cell RA d c ps) ids),
    (fun q => keeps RA location w h d t l dist (discretize RA d (snd q)) (fst q)).
  split; [exact E1|]. split; [exact E2|]. split; [|split].
  - intros o p Hp. cbn [fst snd]. apply keeps_ok; apply (Hin o p Hp).
  - etransitivity; [apply bags_often|]. erewrite as_often_ext; [reflexivity|]. intros [o p] Hp. cbv beta. cbn [fst snd].
    destruct (keeps _ _ _ _ _ _ _ _ _ _); [|reflexivity]. apply Cnt; apply (Hin o p Hp).
  - etransitivity; [|etransitivity; [apply (bags_often RA d (fun _ _ => true) ps ids)|]].
    + clear. induction ids as [|c ids IH]; [constructor|]. cbn [flat_map]. apply Permutation_app; [|exact IH].
      clear. induction (at_cell RA d c ps) as [|x xs IH]; [constructor|]. cbn. constructor. exact IH.
    + erewrite as_often_ext; [reflexivity|]. intros [o p] Hp. cbv beta. cbn [fst snd]. apply Cnt; apply (Hin o p Hp).
Qed.
End Real.
