(** * Field2D with exact numbers

    The same code with real arithmetic instead of [f32].  Axioms used: those of the
    standard library's real numbers. *)
From Coq Require Import List Bool ZArith NArith Arith Reals Lia Lra Psatz.
From Verif Require Import F32 Grid ObjModel FieldModel FieldSpec FieldProofs.
From Flocq Require Import Core.
Import ListNotations.
Local Open Scope R_scope.

Definition real_arith : arith :=
  Arith R Rplus Rminus Rmult Rdiv (fun x y => x - y * IZR (Ztrunc (x / y))) Ropp Rabs sqrt Rmin Rle_bool Rlt_bool IZR
    (fun x => IZR (Zceil x)) (fun x => sat_i32 (Zfloor x)) (fun x => sat_i32 (Zceil x))
    (fun x => Z.to_N (Z.min usize_max (Ztrunc x))).
Notation RA := real_arith.

(** ** Specification: distances on a torus *)
(** [a] and [b] are the same point of a circle of length [dim]. *)
Definition congruent (dim a b : R) : Prop := exists k : Z, a - b = IZR k * dim.
(** [r] is the length of the shortest way between [a] and [b] on that circle. *)
Definition circle_distance (dim a b r : R) : Prop :=
  (exists k : Z, r = Rabs (a - b + IZR k * dim)) /\ forall k : Z, r <= Rabs (a - b + IZR k * dim).

(** ** Toroidal arithmetic *)
Lemma Rle_bool_iff x y : Rle_bool x y = true <-> x <= y.
Proof. destruct (Rle_bool_spec x y); split; intros; auto; try discriminate; lra. Qed.
Lemma Rlt_bool_iff x y : Rlt_bool x y = true <-> x < y.
Proof. destruct (Rlt_bool_spec x y); split; intros; auto; try discriminate; lra. Qed.

Lemma rem_bounds (x dim : R) : 0 < dim ->
  let r := rem RA x dim in congruent dim r x /\ Rabs r < dim /\ 0 <= r * x.
Proof.
  intros Hd. cbn. split.
  - exists (- Ztrunc (x / dim))%Z. rewrite opp_IZR. ring.
  - set (q := x / dim). assert (E : x = q * dim) by (unfold q; field; lra). rewrite E.
    replace (q * dim - dim * IZR (Ztrunc q)) with ((q - IZR (Ztrunc q)) * dim) by ring.
    assert (B : Rabs (q - IZR (Ztrunc q)) < 1 /\ 0 <= (q - IZR (Ztrunc q)) * q).
    { unfold Ztrunc. destruct (Rlt_bool_spec q 0) as [H|H].
      - assert (IZR (Zceil q) - 1 < q <= IZR (Zceil q)).
        { split; [|apply Zceil_ub]. pose proof (Zceil_lb q). lra. }
        split; [apply Rabs_def1; lra|]. nra.
      - pose proof (Zfloor_lb q). pose proof (Zfloor_ub q). split; [apply Rabs_def1; lra|]. nra. }
    destruct B as [B1 B2]. split.
    + rewrite Rabs_mult, (Rabs_right dim) by lra. nra.
    + replace ((q - IZR (Ztrunc q)) * dim * (q * dim)) with ((q - IZR (Ztrunc q)) * q * (dim * dim)) by ring. nra.
Qed.

Lemma transform_R (val dim : R) : 0 < dim ->
  0 <= toroidal_transform RA val dim < dim /\ congruent dim (toroidal_transform RA val dim) val.
Proof.
  intros Hd. unfold toroidal_transform. cbn [le lt of_int RA add].
  destruct (Rle_bool 0 val && Rlt_bool val dim) eqn:E.
  - apply andb_prop in E. rewrite Rle_bool_iff, Rlt_bool_iff in E. split; [exact E|]. exists 0%Z. lra.
  - destruct (rem_bounds val dim Hd) as (C & B & _). cbv zeta. apply Rabs_def2 in B.
    destruct (Rlt_bool_spec (rem RA val dim) 0) as [H|H].
    + split; [lra|]. destruct C as [k C]. exists (k + 1)%Z. rewrite plus_IZR. lra.
    + split; [lra|]. exact C.
Qed.

Lemma congruent_refl dim a : congruent dim a a.
Proof. exists 0%Z. lra. Qed.

Lemma distance_R (v1 v2 dim : R) : 0 < dim ->
  Rabs (toroidal_distance RA v1 v2 dim) <= dim / 2 /\ congruent dim (toroidal_distance RA v1 v2 dim) (v1 - v2).
Proof.
  intros Hd. unfold toroidal_distance. cbn [le lt of_int RA absn sub div mul neg add].
  destruct (Rle_bool_spec (Rabs (v1 - v2)) (dim / 2)) as [H|H]; [split; [exact H|apply congruent_refl]|].
  destruct (transform_R v1 dim Hd) as [B1 [k1 C1]]. destruct (transform_R v2 dim Hd) as [B2 [k2 C2]]. cbv zeta.
  set (a := toroidal_transform RA v1 dim) in *. set (b := toroidal_transform RA v2 dim) in *.
  destruct (Rlt_bool_spec dim ((a - b) * 2)); [|destruct (Rlt_bool_spec ((a - b) * 2) (- dim))].
  - split; [apply Rabs_le; lra|]. exists (k1 - k2 - 1)%Z. rewrite !minus_IZR. lra.
  - split; [apply Rabs_le; lra|]. exists (k1 - k2 + 1)%Z. rewrite plus_IZR, minus_IZR. lra.
  - split; [apply Rabs_le; lra|]. exists (k1 - k2)%Z. rewrite minus_IZR. lra.
Qed.

(** The shortest representative. *)
Lemma shortest dim x y : 0 < dim -> Rabs x <= dim / 2 -> congruent dim x y -> forall k : Z, Rabs x <= Rabs (y + IZR k * dim).
Proof.
  intros Hd Hx [n Hn] k. replace (y + IZR k * dim) with (x + IZR (k - n) * dim) by (rewrite minus_IZR; lra).
  destruct (Z.eq_dec (k - n) 0) as [->|NE]; [rewrite Rmult_0_l, Rplus_0_r; lra|].
  assert (B : dim <= Rabs (IZR (k - n) * dim)).
  { rewrite Rabs_mult, (Rabs_right dim) by lra. rewrite <- abs_IZR. assert (1 <= IZR (Z.abs (k - n))) by (apply IZR_le; lia). nra. }
  pose proof (Rabs_triang_inv (IZR (k - n) * dim) (- x)) as T. rewrite Rabs_Ropp in T.
  replace (IZR (k - n) * dim - - x) with (x + IZR (k - n) * dim) in T by ring. lra.
Qed.
Lemma distance_circle (v1 v2 dim : R) : 0 < dim -> circle_distance dim v1 v2 (Rabs (toroidal_distance RA v1 v2 dim)).
Proof.
  intros Hd. destruct (distance_R v1 v2 dim Hd) as [B C]. split; [|exact (shortest dim _ _ Hd B C)].
  destruct C as [k C]. exists k. f_equal. lra.
Qed.
Lemma circle_unique dim a b r r' : circle_distance dim a b r -> circle_distance dim a b r' -> r = r'.
Proof. intros [[k1 E1] H1] [[k2 E2] H2]. apply Rle_antisym; [rewrite E2; apply H1|rewrite E1; apply H2]. Qed.
Lemma circle_sym dim a b r : circle_distance dim a b r -> circle_distance dim b a r.
Proof.
  intros [[k E] H]. split.
  - exists (- k)%Z. rewrite E, <- Rabs_Ropp, opp_IZR. f_equal. ring.
  - intros j. specialize (H (- j)%Z). rewrite opp_IZR in H. rewrite <- Rabs_Ropp. eapply Rle_trans; [exact H|]. right. f_equal. ring.
Qed.

Lemma distance_antisym (v1 v2 dim : R) : 0 < dim -> toroidal_distance RA v2 v1 dim = - toroidal_distance RA v1 v2 dim.
Proof.
  intros Hd. unfold toroidal_distance. cbn [le lt of_int RA absn sub div mul neg add]. rewrite (Rabs_minus_sym v2 v1).
  cbn [num RA]. destruct (Rle_bool (Rabs (v1 - v2)) (dim / 2)); [change (v2 - v1 = - (v1 - v2)); ring|]. cbv zeta.
  set (a := toroidal_transform RA v1 dim). set (b := toroidal_transform RA v2 dim).
  destruct (Rlt_bool_spec dim ((a - b) * 2)), (Rlt_bool_spec dim ((b - a) * 2)), (Rlt_bool_spec ((a - b) * 2) (- dim)), (Rlt_bool_spec ((b - a) * 2) (- dim)); cbn [num RA] in *; lra.
Qed.

(** The triangle inequality used for the corners of a bag. *)
Lemma distance_near (v1 v2 v2' dim : R) : 0 < dim ->
  Rabs (toroidal_distance RA v1 v2' dim) <= Rabs (toroidal_distance RA v1 v2 dim) + Rabs (v2 - v2').
Proof.
  intros Hd. destruct (distance_circle v1 v2 dim Hd) as [[k E] _]. destruct (distance_circle v1 v2' dim Hd) as [_ H].
  rewrite E. eapply Rle_trans; [exact (H k)|].
  replace (v1 - v2' + IZR k * dim) with ((v1 - v2 + IZR k * dim) + (v2 - v2')) by ring. apply Rabs_triang.
Qed.
Lemma distance_plain (v1 v2 dim : R) : 0 < dim -> Rabs (toroidal_distance RA v1 v2 dim) <= Rabs (v1 - v2).
Proof.
  intros Hd. destruct (distance_circle v1 v2 dim Hd) as [_ H]. specialize (H 0%Z). rewrite Rmult_0_l, Rplus_0_r in H. exact H.
Qed.

(** ** The field *)
(** Distance of two points of the plane, and on the torus. *)
Definition plane_distance (a b : R * R) : R := sqrt ((fst a - fst b) ^ 2 + (snd a - snd b) ^ 2).
Definition torus_distance (w h : R) (a b : R * R) (r : R) : Prop :=
  exists x y, circle_distance w (fst a) (fst b) x /\ circle_distance h (snd a) (snd b) y /\ r = sqrt (x ^ 2 + y ^ 2).

Lemma distance_RA_plane (a b : R * R) (w h : R) : distance RA a b w h false = plane_distance a b.
Proof. unfold distance, plane_distance. cbn [sqrtn RA add mul sub num]. f_equal. ring. Qed.
Lemma distance_RA_torus (a b : R * R) (w h : R) : 0 < w -> 0 < h -> torus_distance w h a b (distance RA a b w h true).
Proof.
  intros Hw Hh. exists (Rabs (toroidal_distance RA (fst a) (fst b) w)), (Rabs (toroidal_distance RA (snd a) (snd b) h)).
  split; [apply distance_circle; exact Hw|]. split; [apply distance_circle; exact Hh|].
  unfold distance. cbn [sqrtn RA add mul num]. f_equal. rewrite !pow2_abs. ring.
Qed.
Lemma torus_unique w h a b r r' : torus_distance w h a b r -> torus_distance w h a b r' -> r = r'.
Proof.
  intros (x & y & X & Y & ->) (x' & y' & X' & Y' & ->). rewrite (circle_unique _ _ _ _ _ X X'), (circle_unique _ _ _ _ _ Y Y'). reflexivity.
Qed.

Section RealField.
Variables w h d : R.
Hypothesis Hw : 0 < w.
Hypothesis Hh : 0 < h.
Hypothesis Hd : 0 < d.
Hypothesis Hsize : (Zceil (w / d) + 1 < 2 ^ 31 /\ Zceil (h / d) + 1 < 2 ^ 31 /\ (Zceil (w / d) + 1) * (Zceil (h / d) + 1) < 2 ^ 31)%Z.

Lemma ceil_pos x : 0 < x -> (1 <= Zceil (x / d))%Z.
Proof.
  intros Hx. assert (0 < x / d) by (apply Rdiv_lt_0_compat; lra). pose proof (Zceil_ub (x / d)).
  assert (0 < IZR (Zceil (x / d))) by lra. apply lt_IZR in H1. lia.
Qed.
Lemma sat_id z : (-2 ^ 31 <= z < 2 ^ 31)%Z -> sat_i32 z = z.
Proof. unfold sat_i32, i32_min, i32_max. lia. Qed.
Lemma cols_w : cols RA w d = (Zceil (w / d) + 1)%Z.
Proof. unfold cols. cbn [ceil_i32 RA div]. pose proof (ceil_pos w Hw). rewrite sat_id; lia. Qed.
Lemma cols_h : cols RA h d = (Zceil (h / d) + 1)%Z.
Proof. unfold cols. cbn [ceil_i32 RA div]. pose proof (ceil_pos h Hh). rewrite sat_id; lia. Qed.

Lemma good_size_R : good_size RA w h d.
Proof.
  unfold good_size. rewrite cols_w, cols_h. pose proof (ceil_pos w Hw). pose proof (ceil_pos h Hh).
  split; [lia|]. split; [lia|]. split; [apply Hsize|]. unfold bag_count. cbn [as_usize RA mul add of_int ceiln div].
  rewrite <- !plus_IZR, <- mult_IZR, Ztrunc_IZR. rewrite Z2N.id by (unfold usize_max; nia). apply Z.min_r. unfold usize_max. nia.
Qed.

(** Cells of points of the field. *)
Lemma cell_bounds (x size : R) : 0 <= x <= size -> (Zceil (size / d) + 1 < 2 ^ 31)%Z ->
  let i := floor_i32 RA (div RA x d) in
  i = Zfloor (x / d) /\ (0 <= i <= Zceil (size / d))%Z /\ IZR i * d <= x < IZR i * d + d.
Proof.
  intros Hx Hs. cbn [floor_i32 RA div].
  assert (Q0 : 0 <= x / d) by (apply Rmult_le_pos; [lra|left; apply Rinv_0_lt_compat; exact Hd]).
  assert (Q1 : x / d <= size / d) by (apply Rmult_le_compat_r; [left; apply Rinv_0_lt_compat; exact Hd|lra]).
  assert (B : (0 <= Zfloor (x / d) <= Zceil (size / d))%Z).
  { split; [apply Zfloor_lub; exact Q0|]. apply le_IZR. eapply Rle_trans; [apply Zfloor_lb|]. eapply Rle_trans; [exact Q1|apply Zceil_ub]. }
  rewrite sat_id by lia. split; [reflexivity|]. split; [exact B|].
  assert (E : x = x / d * d) by (field; lra). pose proof (Zfloor_lb (x / d)). pose proof (Zfloor_ub (x / d)). split; nra.
Qed.
Lemma in_field_R (l : R * R) : 0 <= fst l <= w -> 0 <= snd l <= h -> in_field RA w h d l.
Proof.
  destruct l as [lx ly]. cbn [fst snd]. intros Hx Hy. unfold in_field, in_range. rewrite cols_w, cols_h. unfold discretize. cbn [fst snd].
  destruct (cell_bounds lx w Hx ltac:(lia)) as (_ & Bx & _). destruct (cell_bounds ly h Hy ltac:(lia)) as (_ & By & _).
  cbn [floor_i32 RA div] in *. lia.
Qed.

(** A point of the field is between the corners of its bag. *)
Lemma in_corners (l : R * R) : 0 <= fst l <= w -> 0 <= snd l <= h ->
  exists x1 x2 y1 y2 : R, corners RA (discretize RA d l) d w h = [(x1, y1); (x1, y2); (x2, y1); (x2, y2)] /\
    x1 <= fst l <= x2 /\ y1 <= snd l <= y2 /\ x2 - x1 <= d /\ y2 - y1 <= d.
Proof.
  destruct l as [lx ly]. cbn [fst snd]. intros Hx Hy. unfold corners. cbv zeta. cbn [fst snd]. do 4 eexists. split; [reflexivity|].
  destruct (cell_bounds lx w Hx ltac:(lia)) as (_ & _ & Bx). destruct (cell_bounds ly h Hy ltac:(lia)) as (_ & _ & By).
  unfold discretize. cbn [fst snd mul add of_int minn RA num floor_i32 div] in *.
  set (X := IZR (sat_i32 (Zfloor (lx / d))) * d) in *. set (Y := IZR (sat_i32 (Zfloor (ly / d))) * d) in *.
  pose proof (Rmin_r (X + d) w). pose proof (Rmin_r (Y + d) h). pose proof (Rmin_l (X + d) w). pose proof (Rmin_l (Y + d) h).
  assert (lx <= Rmin (X + d) w) by (apply Rmin_glb; lra). assert (ly <= Rmin (Y + d) h) by (apply Rmin_glb; lra). lra.
Qed.

Lemma sq_bound a b x : a <= x <= b -> x ^ 2 <= a ^ 2 \/ x ^ 2 <= b ^ 2.
Proof. intros H. destruct (Rle_or_lt 0 x); [right|left]; nra. Qed.

(** If all corners are within the distance, so is the point (plane). *)
Lemma inside_plane (l o : R * R) (dist : R) : 0 <= fst o <= w -> 0 <= snd o <= h ->
  (forall c, In c (corners RA (discretize RA d o) d w h) -> plane_distance c l <= dist) -> plane_distance l o <= dist.
Proof.
  intros Hx Hy H. destruct (in_corners o Hx Hy) as (x1 & x2 & y1 & y2 & E & Bx & By & _ & _). rewrite E in H.
  assert (K : exists c, In c [(x1, y1); (x1, y2); (x2, y1); (x2, y2)] /\ (fst l - fst o) ^ 2 <= (fst c - fst l) ^ 2 /\ (snd l - snd o) ^ 2 <= (snd c - snd l) ^ 2).
  { destruct l as [lx ly], o as [ox oy]; cbn [fst snd] in *. destruct (sq_bound (x1 - lx) (x2 - lx) (ox - lx) ltac:(lra)) as [SX|SX];
      destruct (sq_bound (y1 - ly) (y2 - ly) (oy - ly) ltac:(lra)) as [SY|SY].
    - exists (x1, y1). split; [left; reflexivity|]. cbn. nra.
    - exists (x1, y2). split; [right; left; reflexivity|]. cbn. nra.
    - exists (x2, y1). split; [right; right; left; reflexivity|]. cbn. nra.
    - exists (x2, y2). split; [right; right; right; left; reflexivity|]. cbn. nra. }
  destruct K as (c & Hc & Kx & Ky). eapply Rle_trans; [|exact (H c Hc)]. unfold plane_distance. apply sqrt_le_1_alt. lra.
Qed.

(** The corner nearest to a point of the bag. *)
Lemma near_corner (o : R * R) : 0 <= fst o <= w -> 0 <= snd o <= h ->
  exists c : R * R, In c (corners RA (discretize RA d o) d w h) /\ Rabs (fst c - fst o) <= d / 2 /\ Rabs (snd c - snd o) <= d / 2.
Proof.
  intros Hx Hy. destruct (in_corners o Hx Hy) as (x1 & x2 & y1 & y2 & E & Bx & By & Dx & Dy). rewrite E. destruct o as [ox oy]. cbn [fst snd] in *.
  assert (N : forall a b z, a <= z <= b -> b - a <= d -> Rabs (a - z) <= d / 2 \/ Rabs (b - z) <= d / 2).
  { intros a b z Hz Hb. destruct (Rle_or_lt (z - a) (d / 2)); [left|right]; apply Rabs_le; lra. }
  destruct (N x1 x2 ox Bx Dx) as [NX|NX]; destruct (N y1 y2 oy By Dy) as [NY|NY].
  - exists (x1, y1). split; [left; reflexivity|]. split; assumption.
  - exists (x1, y2). split; [right; left; reflexivity|]. split; assumption.
  - exists (x2, y1). split; [right; right; left; reflexivity|]. split; assumption.
  - exists (x2, y2). split; [right; right; right; left; reflexivity|]. split; assumption.
Qed.
Lemma sqrt_shift a b : 0 <= a -> 0 <= b -> sqrt ((a + d / 2) ^ 2 + (b + d / 2) ^ 2) <= sqrt (a ^ 2 + b ^ 2) + d.
Proof.
  intros Ha Hb. set (s := sqrt (a ^ 2 + b ^ 2)). assert (Hs : 0 <= s) by apply sqrt_pos.
  assert (E : s * s = a ^ 2 + b ^ 2) by (apply sqrt_sqrt; nra). rewrite <- (sqrt_square (s + d)) by lra. apply sqrt_le_1_alt.
  assert (Hab : a + b <= 2 * s) by (apply Rsqr_incr_0_var; [unfold Rsqr; pose proof (Rle_0_sqr (a - b)) as Q; unfold Rsqr in Q; nra|lra]).
  assert (P : 0 <= d * (2 * s - (a + b))) by (apply Rmult_le_pos; lra). nra.
Qed.
Lemma sqrt_mono a b a' b' : 0 <= a -> 0 <= b -> a <= a' -> b <= b' -> sqrt (a ^ 2 + b ^ 2) <= sqrt (a' ^ 2 + b' ^ 2).
Proof. intros. apply sqrt_le_1_alt. nra. Qed.
Lemma sq_abs x : Rabs x ^ 2 = x ^ 2.
Proof. apply pow2_abs. Qed.

Lemma torus_abs (a b : R * R) : distance RA a b w h true =
  sqrt (Rabs (toroidal_distance RA (fst a) (fst b) w) ^ 2 + Rabs (toroidal_distance RA (snd a) (snd b) h) ^ 2).
Proof. unfold distance. cbn [sqrtn RA add mul num]. f_equal. rewrite !sq_abs. ring. Qed.
Lemma td_sym (a b dim : R) : 0 < dim -> Rabs (toroidal_distance RA a b dim) = Rabs (toroidal_distance RA b a dim).
Proof. intros H. apply (circle_unique dim a b); [apply distance_circle; exact H|apply circle_sym, distance_circle; exact H]. Qed.

(** If all corners are within the distance on the torus, the point is at most [d] farther. *)
Lemma inside_torus (l o : R * R) (dist : R) : 0 <= fst o <= w -> 0 <= snd o <= h ->
  (forall c, In c (corners RA (discretize RA d o) d w h) -> distance RA c l w h true <= dist) -> distance RA l o w h true <= dist + d.
Proof.
  intros Hx Hy H. destruct (near_corner o Hx Hy) as (c & Hc & Cx & Cy). specialize (H c Hc). rewrite torus_abs in *.
  pose proof (distance_near (fst l) (fst c) (fst o) w Hw) as Dx. pose proof (distance_near (snd l) (snd c) (snd o) h Hh) as Dy.
  rewrite (td_sym (fst l) (fst c)) in Dx by exact Hw. rewrite (td_sym (snd l) (snd c)) in Dy by exact Hh.
  eapply Rle_trans; [apply sqrt_mono with (a' := Rabs (toroidal_distance RA (fst c) (fst l) w) + d / 2) (b' := Rabs (toroidal_distance RA (snd c) (snd l) h) + d / 2)|].
  - apply Rabs_pos.
  - apply Rabs_pos.
  - cbn [num RA] in *. lra.
  - cbn [num RA] in *. lra.
  - eapply Rle_trans; [apply sqrt_shift; apply Rabs_pos|]. cbn [num RA] in *. lra.
Qed.

(** A point [d] closer than the distance has a corner of its bag within the distance. *)
Lemma plane_near (l o : R * R) (dist : R) : 0 <= fst o <= w -> 0 <= snd o <= h -> plane_distance l o <= dist - d ->
  exists c, In c (corners RA (discretize RA d o) d w h) /\ plane_distance c l <= dist.
Proof.
  intros Hx Hy H. destruct (near_corner o Hx Hy) as (c & Hc & Cx & Cy). exists c. split; [exact Hc|].
  assert (E : forall a b : R * R, plane_distance a b = sqrt (Rabs (fst a - fst b) ^ 2 + Rabs (snd a - snd b) ^ 2)).
  { intros a b. unfold plane_distance. rewrite !sq_abs. reflexivity. }
  rewrite E in *. destruct c as [cx cy], l as [lx ly], o as [ox oy]. cbn [fst snd] in *.
  eapply Rle_trans; [apply sqrt_mono with (a' := Rabs (lx - ox) + d / 2) (b' := Rabs (ly - oy) + d / 2)|].
  - apply Rabs_pos.
  - apply Rabs_pos.
  - pose proof (Rabs_triang (ox - lx) (cx - ox)) as T. replace (ox - lx + (cx - ox)) with (cx - lx) in T by ring. rewrite (Rabs_minus_sym lx ox). lra.
  - pose proof (Rabs_triang (oy - ly) (cy - oy)) as T. replace (oy - ly + (cy - oy)) with (cy - ly) in T by ring. rewrite (Rabs_minus_sym ly oy). lra.
  - eapply Rle_trans; [apply sqrt_shift; apply Rabs_pos|]. lra.
Qed.
Lemma plane_coord (l o : R * R) (r : R) : plane_distance l o <= r -> Rabs (fst l - fst o) <= r /\ Rabs (snd l - snd o) <= r.
Proof.
  unfold plane_distance. intros H.
  assert (G : forall a b : R, Rabs a <= sqrt (a ^ 2 + b ^ 2)).
  { intros a b. rewrite <- sqrt_Rsqr_abs. apply sqrt_le_1_alt. unfold Rsqr. nra. }
  split; [eapply Rle_trans; [apply (G _ (snd l - snd o))|exact H]|].
  eapply Rle_trans; [apply (G _ (fst l - fst o))|]. rewrite Rplus_comm. exact H.
Qed.
Lemma torus_le_plane (a b : R * R) (t : bool) : distance RA a b w h t <= plane_distance a b.
Proof.
  destruct t; [|rewrite distance_RA_plane; right; reflexivity]. rewrite torus_abs. unfold plane_distance.
  rewrite <- (sq_abs (fst a - fst b)), <- (sq_abs (snd a - snd b)). apply sqrt_mono; try apply Rabs_pos; apply distance_plain; assumption.
Qed.

(** The bag of a point of the field that close is visited. *)
Lemma floor_close a b c : 0 <= b -> Rabs (a - c) <= b - 1 ->
  (Zfloor a - Zfloor b <= Zfloor c <= Zfloor a + Zfloor b)%Z.
Proof.
  intros Hb H. apply Rabs_le_inv in H.
  pose proof (Zfloor_lb a). pose proof (Zfloor_ub a). pose proof (Zfloor_lb b). pose proof (Zfloor_ub b). pose proof (Zfloor_lb c). pose proof (Zfloor_ub c).
  split.
  - enough (Zfloor a - Zfloor b < Zfloor c + 1)%Z by lia. apply lt_IZR. rewrite minus_IZR, plus_IZR. lra.
  - enough (Zfloor c < Zfloor a + Zfloor b + 1)%Z by lia. apply lt_IZR. rewrite !plus_IZR. lra.
Qed.
Lemma cell_close (lx ox dist : R) : 0 <= dist -> Rabs (lx - ox) <= dist - d ->
  (Zfloor (lx / d) - Zfloor (dist / d) <= Zfloor (ox / d) <= Zfloor (lx / d) + Zfloor (dist / d))%Z.
Proof.
  intros H0 H. apply floor_close.
  - apply Rmult_le_pos; [exact H0|]. left. apply Rinv_0_lt_compat. exact Hd.
  - replace (lx / d - ox / d) with ((lx - ox) / d) by (field; lra). unfold Rdiv. rewrite Rabs_mult, (Rabs_right (/ d)).
    + replace (dist * / d - 1) with ((dist - d) * / d) by (field; lra). apply Rmult_le_compat_r; [left; apply Rinv_0_lt_compat; exact Hd|exact H].
    + left. apply Rinv_0_lt_compat. exact Hd.
Qed.
Lemma floor_small (x : R) : Rabs x <= 2 ^ 29 * d -> (- 2 ^ 29 <= Zfloor (x / d) <= 2 ^ 29)%Z.
Proof.
  intros H. apply Rabs_le_inv in H. assert (E : x = x / d * d) by (field; lra).
  assert (B : - 2 ^ 29 <= x / d <= 2 ^ 29) by nra. split.
  - apply Zfloor_lub. replace (2 ^ 29) with (IZR (2 ^ 29)) in B by (cbn; lra). 
    rewrite opp_IZR. lra.
  - apply le_IZR. eapply Rle_trans; [apply Zfloor_lb|]. replace (2 ^ 29) with (IZR (2 ^ 29)) in B by (cbn; lra). lra.
Qed.

Lemma visited {O} (f : field2d RA (O := O)) t (l o : R * R) (dist : R) ids :
  fwf RA w h d t f -> window RA f l dist = Some ids ->
  Rabs (fst l) <= 2 ^ 29 * d -> Rabs (snd l) <= 2 ^ 29 * d -> 0 <= dist <= 2 ^ 29 * d ->
  0 <= fst o < w -> 0 <= snd o < h -> plane_distance l o <= dist - d -> In (discretize RA d o) ids.
Proof.
  intros W E Lx Ly Hdist Ox Oy Hp. destruct W as (W1 & W2 & W3 & W4 & _). revert E. unfold window. cbv zeta. rewrite W1, W2, W3, W4.
  destruct (plane_coord l o _ Hp) as [Px Py]. destruct l as [lx ly], o as [ox oy]. cbn [fst snd] in *.
  pose proof (cell_close lx ox dist ltac:(lra) Px) as Cx. pose proof (cell_close ly oy dist ltac:(lra) Py) as Cy.
  pose proof (floor_small lx Lx) as Fx. pose proof (floor_small ly Ly) as Fy.
  assert (Fd : (0 <= Zfloor (dist / d) <= 2 ^ 29)%Z).
  { split; [|apply floor_small; rewrite Rabs_right; lra]. apply Zfloor_lub. apply Rmult_le_pos; [lra|]. left. apply Rinv_0_lt_compat. exact Hd. }
  assert (LT : forall z size, 0 <= z < size -> (Zceil (size / d) + 1 < 2 ^ 31)%Z -> (0 <= Zfloor (z / d) < Zceil (size / d))%Z).
  { intros z size Hz Hs. split; [apply Zfloor_lub, Rmult_le_pos; [lra|left; apply Rinv_0_lt_compat; exact Hd]|].
    apply lt_IZR. eapply Rle_lt_trans; [apply Zfloor_lb|]. eapply Rlt_le_trans; [|apply Zceil_ub].
    apply Rmult_lt_compat_r; [apply Rinv_0_lt_compat; exact Hd|lra]. }
  pose proof (LT ox w Ox ltac:(lia)) as Bx. pose proof (LT oy h Oy ltac:(lia)) as By.
  pose proof (ceil_pos w Hw) as Mw. pose proof (ceil_pos h Hh) as Mh.
  unfold discretize. cbn [fst snd floor_i32 ceil_i32 div RA].
  rewrite !(sat_id (Zfloor (lx / d))), !(sat_id (Zfloor (ly / d))), !(sat_id (Zfloor (dist / d))), !(sat_id (Zceil (w / d))), !(sat_id (Zceil (h / d))), !(sat_id (Zfloor (ox / d))), !(sat_id (Zfloor (oy / d))) by lia.
  rewrite (wrap32_id (Zfloor (lx / d) - Zfloor (dist / d))), (wrap32_id (Zfloor (lx / d) + Zfloor (dist / d))),
    (wrap32_id (Zfloor (ly / d) - Zfloor (dist / d))), (wrap32_id (Zfloor (ly / d) + Zfloor (dist / d))),
    (wrap32_id (Zceil (w / d) - 1)), (wrap32_id (Zceil (h / d) - 1)) by (unfold in_i32; lia).
  intros E. eapply (mapM_In _ _ _ (Zfloor (ox / d), Zfloor (oy / d)) _ E).
  - apply in_prod_iff. rewrite !zfrom_In, !wrap32_id by (unfold in_i32; destruct t; lia). destruct t; lia.
  - cbn [fst snd]. rewrite !t_transform_id by lia. reflexivity.
Qed.

(** An object at a point of the field [d] closer than the distance is found. *)
Lemma inner_at {O} (location : O -> R * R) t (f : field2d RA (O := O)) ps (l : R * R) (dist : R) o :
  fwf RA w h d t f -> (forall c, in_range (cols RA w d) (cols RA h d) c -> vget (f_read f) (cell_index (cols RA h d) c) = Some (at_cell RA d c ps)) ->
  Rabs (fst l) <= 2 ^ 29 * d -> Rabs (snd l) <= 2 ^ 29 * d -> 0 < dist <= 2 ^ 29 * d ->
  In (o, location o) ps -> 0 <= fst (location o) < w -> 0 <= snd (location o) < h ->
  plane_distance l (location o) <= dist - d ->
  exists r, f_neighbors RA location f l dist = Some r /\ In o r.
Proof.
  intros W S Lx Ly Hdist Ho Ox Oy Hp.
  destruct (window_ok RA w h d t good_size_R f l dist W) as (ids & Ew & _).
  destruct (plane_near l (location o) dist) as (c & Hc & Dc); [lra|lra|exact Hp|].
  apply (complete_at RA location w h d t good_size_R f ps W S l dist ids o (location o)); try assumption.
  - cbn. destruct (Rle_bool_spec dist 0); [lra|reflexivity].
  - apply (visited f t l (location o) dist ids W Ew); try assumption. lra.
  - apply Rle_bool_iff. eapply Rle_trans; [apply torus_le_plane|]. lra.
  - exists c. split; [exact Hc|]. cbn [lt RA]. destruct (Rlt_bool_spec dist (distance RA c l w h t)) as [B|B]; [|reflexivity].
    exfalso. pose proof (torus_le_plane c l t) as B'. cbn [num RA] in *. lra.
Qed.
Lemma neighbors_inner {O} (eqo : O -> O -> bool) (location : O -> R * R) t cs f rs (l : R * R) (dist : R) o :
  Forall (f_in RA w h d) cs ->
  f_run RA eqo location (f_new RA w h d t) cs = Some (f, rs) ->
  Rabs (fst l) <= 2 ^ 29 * d -> Rabs (snd l) <= 2 ^ 29 * d -> 0 < dist <= 2 ^ 29 * d ->
  In (o, location o) (readable RA eqo d cs) -> 0 <= fst (location o) < w -> 0 <= snd (location o) < h ->
  plane_distance l (location o) <= dist - d ->
  exists r, f_neighbors RA location f l dist = Some r /\ In o r.
Proof.
  intros Hin E. destruct (history RA eqo location w h d t good_size_R cs Hin) as (f' & rs' & E' & _ & W & S). rewrite E in E'. injection E' as <- <-.
  apply (inner_at location t f (readable RA eqo d cs)); [exact W|]. intros c Hc. apply (S c Hc).
Qed.

End RealField.
