(** * Field2D in f32

    Axioms used: those of the standard library's real numbers. *)
From Coq Require Import List Bool ZArith NArith Arith Reals Lia Lra Psatz.
From Verif Require Import F32 F32Real F32Ops Grid ObjModel FieldModel FieldSpec FieldProofs FieldReal.
From Flocq Require Import Core IEEE754.BinarySingleNaN.
From Flocq Require Import Sterbenz.
Import ListNotations.
Local Open Scope R_scope.

#[local] Existing Instance Hprec.
#[local] Existing Instance Hmax.
Notation FA := f32_arith.

(** ** Sizes *)
Definition positive (x : f32) : Prop := fok x /\ 0 < f2R x.

Lemma div_pos x d : 0 <= x -> 0 < d -> 0 <= x / d.
Proof. intros. apply Rmult_le_pos; [lra|]. left. apply Rinv_0_lt_compat. lra. Qed.
Lemma div_le x y d : x <= y -> 0 < d -> x / d <= y / d.
Proof. intros. apply Rmult_le_compat_r; [|lra]. left. apply Rinv_0_lt_compat. lra. Qed.

(** Division of a non-negative number by a positive one: finite or +infinity. *)
Lemma fdiv_cases x d : fok x -> 0 <= f2R x -> positive d ->
  (fok (fdiv x d) /\ f2R (fdiv x d) = rnd (f2R x / f2R d) /\ 0 <= f2R (fdiv x d)) \/
  (fdiv x d = S754_infinity false /\ fmax <= rnd (f2R x / f2R d)).
Proof.
  intros Hx H0 [Hd Pd]. pose proof (div_pos _ _ H0 Pd) as Q. assert (Q' : 0 <= rnd (f2R x / f2R d)) by (rewrite <- rnd_0; apply rnd_le; exact Q).
  destruct (Rlt_or_le (rnd (f2R x / f2R d)) fmax) as [L|L].
  - left. destruct (fdiv_ok x d Hx Hd ltac:(lra)) as [K E]; [rewrite Rabs_right; lra|]. split; [exact K|]. split; [exact E|]. lra.
  - right. split; [|exact L]. destruct Hx as [Vx Fx], Hd as [Vd Fd].
    pose proof (Bdiv_correct 24 128 Hprec Hmax mode_NE (SF2B x Vx) (SF2B d Vd)) as C.
    rewrite !B2R_SF2B in C. fold (f2R x) in C. fold (f2R d) in C. specialize (C ltac:(lra)).
    rewrite Rlt_bool_false in C by (rewrite Rabs_right; lra). rewrite (fdiv_B x d Vx Vd). 
    rewrite C, overflow_inf. f_equal. rewrite !Bsign_SF2B.
    assert (Sd : sign_SF d = false).
    { destruct d as [s|s| |[] m e]; try discriminate; try reflexivity; [destruct s; [|reflexivity]; cbn in Pd; lra|].
      exfalso. apply (Rlt_irrefl 0). eapply Rlt_trans; [exact Pd|]. apply F2R_lt_0. reflexivity. }
    assert (Sx : sign_SF x = false).
    { destruct x as [s|s| |[] m e]; try discriminate; try reflexivity.
      - exfalso. revert L. rewrite f2R_0. unfold Rdiv. rewrite Rmult_0_l, rnd_0. pose proof (bpow_gt_0 radix2 128). lra.
      - exfalso. apply (Rlt_irrefl 0). eapply Rle_lt_trans; [exact H0|]. apply F2R_lt_0. reflexivity. }
    rewrite Sx, Sd. reflexivity.
Qed.

Lemma ceil_i32_R x : fok x -> f_ceil_i32 x = sat_i32 (Zceil (f2R x)).
Proof. intros [V F]. rewrite <- f_ceilZ_R by exact F. destruct x; try discriminate; reflexivity. Qed.
Lemma floor_i32_R x : fok x -> f_floor_i32 x = sat_i32 (Zfloor (f2R x)).
Proof. intros [V F]. rewrite <- f_floorZ_R by exact F. destruct x; try discriminate; reflexivity. Qed.

(** The number of columns, when it is small enough to be counted in f32. *)
Lemma cols_R size d : positive size -> positive d -> (2 <= cols FA size d <= 2 ^ 24)%Z ->
  fok (fdiv size d) /\ f2R (fdiv size d) = rnd (f2R size / f2R d) /\
  Zceil (f2R (fdiv size d)) = (cols FA size d - 1)%Z /\ 0 <= f2R (fdiv size d).
Proof.
  intros [Hs Ps] Hd Hc. unfold cols in *. cbn [ceil_i32 FA div] in *.
  destruct (fdiv_cases size d Hs ltac:(lra) Hd) as [(K & E & P)|[E L]].
  - split; [exact K|]. split; [exact E|]. rewrite (ceil_i32_R _ K) in *. split; [|exact P].
    assert (B : (sat_i32 (Zceil (f2R (fdiv size d))) <= 2 ^ 24)%Z) by lia.
    assert (B' : (1 <= sat_i32 (Zceil (f2R (fdiv size d))))%Z) by lia. clear Hc. unfold sat_i32, i32_min, i32_max in *. lia.
  - exfalso. rewrite E in Hc. cbn in Hc. unfold i32_max in Hc. lia.
Qed.

Lemma fadd_int a b : (Z.abs a <= 2 ^ 24)%Z -> (Z.abs b <= 2 ^ 24)%Z -> (Z.abs (a + b) <= 2 ^ 24)%Z ->
  fok (fadd (f_of_Z a) (f_of_Z b)) /\ f2R (fadd (f_of_Z a) (f_of_Z b)) = IZR (a + b).
Proof.
  intros Ha Hb Hab. destruct (f_of_Z_exact a Ha) as [Ea _]. destruct (f_of_Z_exact b Hb) as [Eb _].
  assert (E : rnd (f2R (f_of_Z a) + f2R (f_of_Z b)) = IZR (a + b)) by (rewrite Ea, Eb, <- plus_IZR; apply rnd_exact, int_format; lia).
  destruct (fadd_ok (f_of_Z a) (f_of_Z b)) as [K R]; [apply fok_of_Z; lia|apply fok_of_Z; lia|rewrite E; apply IZR_lt_128; lia|].
  split; [exact K|]. rewrite R. exact E.
Qed.
Lemma as_usize_int x n : fok x -> f2R x = IZR n -> (0 <= n <= 2 ^ 24)%Z -> f_as_usize x = Z.to_N n.
Proof.
  intros [V F] E Hn. pose proof (f_floorZ_R x F) as FL. rewrite E, Zfloor_IZR in FL.
  destruct x as [s|s| |s m e]; try discriminate; cbn [f_as_usize].
  - cbn in FL. subst n. reflexivity.
  - destruct s.
    + exfalso. assert (N : IZR n < 0) by (rewrite <- E; apply F2R_lt_0; reflexivity). apply lt_IZR in N. lia.
    + rewrite FL. unfold usize_max. rewrite Z.min_r by lia. reflexivity.
Qed.

Section F32Size.
Variables w h d : f32.
Hypothesis Hw : positive w.
Hypothesis Hh : positive h.
Hypothesis Hd : positive d.
Hypothesis Hcw : (2 <= cols FA w d)%Z.
Hypothesis Hch : (2 <= cols FA h d)%Z.
Hypothesis Hsize : (cols FA w d * cols FA h d <= 2 ^ 24)%Z.

Lemma good_size_f32 : good_size FA w h d.
Proof.
  assert (Bw : (cols FA w d <= 2 ^ 24)%Z) by nia. assert (Bh : (cols FA h d <= 2 ^ 24)%Z) by nia.
  destruct (cols_R w d Hw Hd ltac:(lia)) as (Kw & _ & Ew & Pw). destruct (cols_R h d Hh Hd ltac:(lia)) as (Kh & _ & Eh & Ph).
  split; [lia|]. split; [lia|]. split; [lia|]. unfold bag_count. cbn [as_usize FA mul add ceiln div of_int].
  assert (C : forall x, fok x -> (0 <= Zceil (f2R x) <= 2 ^ 24)%Z -> fok (fceil x) /\ f2R (fceil x) = IZR (Zceil (f2R x))).
  { intros x [V F] B. pose proof (f_ceilZ_R x F) as E. destruct x as [s|s| |s m e]; try discriminate; cbn [fceil].
    - split; [split; reflexivity|]. rewrite f2R_0, Zceil_IZR. reflexivity.
    - rewrite E. split; [apply fok_of_Z; lia|apply f_of_Z_exact; lia]. }
  assert (S : forall x, fok x -> (0 <= Zceil (f2R x) < 2 ^ 24)%Z -> fok (fadd (fceil x) (f_of_Z 1)) /\ f2R (fadd (fceil x) (f_of_Z 1)) = IZR (Zceil (f2R x) + 1)).
  { intros x Hx B. destruct (C x Hx ltac:(lia)) as [K1 E1]. destruct (f_of_Z_exact 1 ltac:(lia)) as [E2 _].
    assert (R : rnd (f2R (fceil x) + f2R (f_of_Z 1)) = IZR (Zceil (f2R x) + 1)) by (rewrite E1, E2, <- plus_IZR; apply rnd_exact, int_format; lia).
    destruct (fadd_ok (fceil x) (f_of_Z 1)) as [K R']; [exact K1|apply fok_of_Z; lia|rewrite R; apply IZR_lt_128; lia|].
    split; [exact K|]. rewrite R'. exact R. }
  destruct (S _ Kw ltac:(lia)) as [Sw Rw]. destruct (S _ Kh ltac:(lia)) as [Sh Rh].
  rewrite Ew in Rw. rewrite Eh in Rh.
  assert (R : rnd (f2R (fadd (fceil (fdiv w d)) (f_of_Z 1)) * f2R (fadd (fceil (fdiv h d)) (f_of_Z 1))) = IZR (cols FA w d * cols FA h d)).
  { rewrite Rw, Rh, <- mult_IZR. rewrite !Z.sub_add. apply rnd_exact, int_format. nia. }
  destruct (fmul_ok _ _ Sw Sh) as [K R']; [rewrite R; apply IZR_lt_128; nia|].
  rewrite (as_usize_int _ (cols FA w d * cols FA h d) K); [|rewrite R'; exact R|nia]. rewrite Z2N.id by nia. reflexivity.
Qed.

(** Coordinates between 0 and the size fall in a cell. *)
Lemma inside_fok x size : f32_valid x -> fok size -> fleb (f_of_Z 0) x = true -> fleb x size = true ->
  fok x /\ 0 <= f2R x <= f2R size.
Proof.
  intros V Hs H0 H1. assert (F : f32_is_finite x = true).
  { destruct x as [s|s| |s m e]; try reflexivity; destruct Hs as [_ Hs]; [destruct s, size as [?|?| |[] ? ?]; discriminate|discriminate H0]. }
  assert (K : fok x) by (split; assumption). split; [exact K|]. apply (fle_R _ _ (fok_of_Z 0 ltac:(lia)) K) in H0. rewrite f0_R in H0.
  apply fle_R in H1; [|exact K|exact Hs]. lra.
Qed.
Lemma cell_f32 x size : fok x -> positive size -> (2 <= cols FA size d <= 2 ^ 24)%Z -> 0 <= f2R x <= f2R size ->
  fok (fdiv x d) /\ f2R (fdiv x d) = rnd (f2R x / f2R d) /\
  f_floor_i32 (fdiv x d) = Zfloor (f2R (fdiv x d)) /\ (0 <= Zfloor (f2R (fdiv x d)) < cols FA size d)%Z.
Proof.
  intros Hx Hs Hc B. destruct (cols_R size d Hs Hd Hc) as (K & E & C & P).
  assert (Q : 0 <= rnd (f2R x / f2R d) <= f2R (fdiv size d)).
  { rewrite E. split; [rewrite <- rnd_0|]; apply rnd_le; [apply div_pos; [lra|apply Hd]|apply div_le; [lra|apply Hd]]. }
  destruct (fdiv_ok x d Hx (proj1 Hd)) as [K' E']; [destruct Hd; lra|pose proof (f2R_lt _ K) as L; apply Rabs_def2 in L; apply Rabs_def1; lra|].
  split; [exact K'|]. split; [exact E'|]. rewrite (floor_i32_R _ K').
  assert (Z : (0 <= Zfloor (f2R (fdiv x d)) < cols FA size d)%Z).
  { split; [apply Zfloor_lub; rewrite E'; lra|]. enough (Zfloor (f2R (fdiv x d)) <= Zceil (f2R (fdiv size d)))%Z by lia.
    apply le_IZR. eapply Rle_trans; [apply Zfloor_lb|]. eapply Rle_trans; [|apply Zceil_ub]. rewrite E'. lra. }
  split; [apply sat_id; lia|exact Z].
Qed.
Lemma in_field_f32 (l : f32 * f32) : f32_valid (fst l) -> f32_valid (snd l) -> inside FA w h l -> in_field FA w h d l.
Proof.
  destruct l as [lx ly]. cbn [fst snd]. intros V1 V2 (I1 & I2 & I3 & I4).
  destruct (inside_fok _ w V1 (proj1 Hw) I1 I2) as [K1 B1]. destruct (inside_fok _ h V2 (proj1 Hh) I3 I4) as [K2 B2].
  unfold in_field, in_range, discretize. cbn [fst snd floor_i32 FA div].
  destruct (cell_f32 lx w K1 Hw ltac:(nia) B1) as (_ & _ & E1 & R1). destruct (cell_f32 ly h K2 Hh ltac:(nia) B2) as (_ & _ & E2 & R2).
  rewrite E1, E2. lia.
Qed.

End F32Size.

(** ** Distances in the plane *)
Definition fdist (dx dy : f32) : f32 := fsqrt (fadd (fmul dx dx) (fmul dy dy)).
Lemma distance_plane_eq (a b : f32 * f32) (w h : f32) : distance FA a b w h false = fdist (fsub (fst a) (fst b)) (fsub (snd a) (snd b)).
Proof. reflexivity. Qed.
Lemma fdist_valid dx dy : f32_valid dx -> f32_valid dy -> f32_valid (fdist dx dy).
Proof. intros. apply fsqrt_valid, fadd_valid; apply fmul_valid; assumption. Qed.

Lemma fle_sqrt_finite y b : f32_valid y -> fok b -> fleb (fsqrt y) b = true -> f32_is_finite (fsqrt y) = true.
Proof.
  intros V [_ Fb] H. destruct y as [s|[]| |[] m e]; try reflexivity.
  - discriminate H.
  - destruct b as [?|?| |[] ? ?]; discriminate.
  - discriminate H.
  - discriminate H.
  - apply fsqrt_ok; [split; [exact V|reflexivity]|]. apply F2R_ge_0. cbn. lia.
Qed.

(** Smaller differences give a smaller computed distance. *)
Lemma sq_le a b : Rabs a <= Rabs b -> a * a <= b * b.
Proof. intros H. apply Rsqr_le_abs_1 in H. exact H. Qed.
Lemma rsq_pos a : 0 <= rnd (a * a).
Proof. rewrite <- rnd_0. apply rnd_le. nra. Qed.
Lemma fdist_mono dx dy dx' dy' : f32_valid dx -> f32_valid dy -> fok dx' -> fok dy' ->
  f32_is_finite (fdist dx dy) = true -> Rabs (f2R dx') <= Rabs (f2R dx) -> Rabs (f2R dy') <= Rabs (f2R dy) ->
  fok (fdist dx' dy') /\ f2R (fdist dx' dy') <= f2R (fdist dx dy).
Proof.
  intros Vx Vy Kx' Ky' F Hx Hy. unfold fdist in *.
  destruct (fsqrt_inv _ (fadd_valid _ _ (fmul_valid _ _ Vx Vx) (fmul_valid _ _ Vy Vy)) F) as (Ks & Ps & Es).
  destruct (fadd_inv _ _ (fmul_valid _ _ Vx Vx) (fmul_valid _ _ Vy Vy) (proj2 Ks)) as (Kx & Ky & Ea).
  destruct (fmul_inv _ _ Vx Vx (proj2 Kx)) as (_ & _ & Ex). destruct (fmul_inv _ _ Vy Vy (proj2 Ky)) as (_ & _ & Ey).
  assert (Ix : rnd (f2R dx' * f2R dx') <= f2R (fmul dx dx)) by (rewrite Ex; apply rnd_le, sq_le; exact Hx).
  assert (Iy : rnd (f2R dy' * f2R dy') <= f2R (fmul dy dy)) by (rewrite Ey; apply rnd_le, sq_le; exact Hy).
  pose proof (rsq_pos (f2R dx')) as Nx. pose proof (rsq_pos (f2R dy')) as Ny.
  pose proof (f2R_lt _ Kx) as Lx. pose proof (f2R_lt _ Ky) as Ly. apply Rabs_def2 in Lx, Ly.
  destruct (fmul_ok dx' dx' Kx' Kx') as [Mx Rx]; [rewrite Rabs_right; lra|].
  destruct (fmul_ok dy' dy' Ky' Ky') as [My Ry]; [rewrite Rabs_right; lra|].
  assert (Is : rnd (f2R (fmul dx' dx') + f2R (fmul dy' dy')) <= f2R (fadd (fmul dx dx) (fmul dy dy))) by (rewrite Ea; apply rnd_le; lra).
  assert (Ns : 0 <= rnd (f2R (fmul dx' dx') + f2R (fmul dy' dy'))) by (rewrite <- rnd_0; apply rnd_le; lra).
  pose proof (f2R_lt _ Ks) as Ls. apply Rabs_def2 in Ls.
  destruct (fadd_ok _ _ Mx My) as [Ma Ra]; [rewrite Rabs_right; lra|].
  destruct (fsqrt_ok _ Ma ltac:(lra)) as [Mq Rq]. split; [exact Mq|]. rewrite Rq, Es. apply rnd_le, sqrt_le_1_alt. lra.
Qed.

(** If the corners surround a point and are all within the distance, so is the point. *)
Lemma inside_plane_f32 (l o : f32 * f32) (x1 x2 y1 y2 dist w h : f32) :
  fok (fst l) -> fok (snd l) -> fok (fst o) -> fok (snd o) -> fok dist -> fok x1 -> fok x2 -> fok y1 -> fok y2 ->
  f2R x1 <= f2R (fst o) <= f2R x2 -> f2R y1 <= f2R (snd o) <= f2R y2 ->
  (forall c, In c [(x1, y1); (x1, y2); (x2, y1); (x2, y2)] -> fleb (distance FA c l w h false) dist = true) ->
  fleb (distance FA l o w h false) dist = true.
Proof.
  destruct l as [lx ly], o as [ox oy]. cbn [fst snd]. intros Klx Kly Kox Koy Kd Kx1 Kx2 Ky1 Ky2 Bx By H.
  assert (G : forall cx cy, In (cx, cy) [(x1, y1); (x1, y2); (x2, y1); (x2, y2)] -> fok cx -> fok cy ->
    Rabs (f2R lx - f2R ox) <= Rabs (f2R cx - f2R lx) -> Rabs (f2R ly - f2R oy) <= Rabs (f2R cy - f2R ly) ->
    fleb (distance FA (lx, ly) (ox, oy) w h false) dist = true).
  { intros cx cy Hc Kcx Kcy Ax Ay. specialize (H _ Hc). rewrite distance_plane_eq in *. cbn [fst snd] in *.
    pose proof (fsub_valid _ _ (proj1 Kcx) (proj1 Klx)) as Vx. pose proof (fsub_valid _ _ (proj1 Kcy) (proj1 Kly)) as Vy.
    assert (F : f32_is_finite (fdist (fsub cx lx) (fsub cy ly)) = true).
    { apply (fle_sqrt_finite _ dist); [apply fadd_valid; apply fmul_valid; assumption|exact Kd|exact H]. }
    assert (FF := F). unfold fdist in FF.
    destruct (fsqrt_inv _ (fadd_valid _ _ (fmul_valid _ _ Vx Vx) (fmul_valid _ _ Vy Vy)) FF) as (Ks & _ & _).
    destruct (fadd_inv _ _ (fmul_valid _ _ Vx Vx) (fmul_valid _ _ Vy Vy) (proj2 Ks)) as (Kx & Ky & _).
    destruct (fmul_inv _ _ Vx Vx (proj2 Kx)) as (Sx & _ & _). destruct (fmul_inv _ _ Vy Vy (proj2 Ky)) as (Sy & _ & _).
    destruct (fsub_inv _ _ (proj1 Kcx) (proj1 Klx) (proj2 Sx)) as (_ & _ & Ex). destruct (fsub_inv _ _ (proj1 Kcy) (proj1 Kly) (proj2 Sy)) as (_ & _ & Ey).
    assert (Ix : Rabs (rnd (f2R lx - f2R ox)) <= Rabs (f2R (fsub cx lx))) by (rewrite Ex, <- !rnd_abs; apply rnd_le; exact Ax).
    assert (Iy : Rabs (rnd (f2R ly - f2R oy)) <= Rabs (f2R (fsub cy ly))) by (rewrite Ey, <- !rnd_abs; apply rnd_le; exact Ay).
    destruct (fsub_ok lx ox Klx Kox) as [Dx Rx]; [eapply Rle_lt_trans; [exact Ix|apply f2R_lt; exact Sx]|].
    destruct (fsub_ok ly oy Kly Koy) as [Dy Ry]; [eapply Rle_lt_trans; [exact Iy|apply f2R_lt; exact Sy]|].
    destruct (fdist_mono _ _ _ _ Vx Vy Dx Dy F) as [Kf Lf]; [rewrite Rx; exact Ix|rewrite Ry; exact Iy|].
    apply fle_R; [exact Kf|exact Kd|]. apply fle_R in H; [lra|split; [apply fdist_valid; assumption|exact F]|exact Kd]. }
  assert (S : forall a b x y : R, a <= x <= b -> Rabs (y - x) <= Rabs (a - y) \/ Rabs (y - x) <= Rabs (b - y)).
  { intros a b x y B. destruct (Rle_or_lt x y); [left|right]; unfold Rabs; destruct (Rcase_abs (y - x)), (Rcase_abs (a - y)), (Rcase_abs (b - y)); lra. }
  destruct (S _ _ _ (f2R lx) Bx) as [Sx|Sx]; destruct (S _ _ _ (f2R ly) By) as [Sy|Sy].
  - apply (G x1 y1); try assumption. left. reflexivity.
  - apply (G x1 y2); try assumption. right. left. reflexivity.
  - apply (G x2 y1); try assumption. right. right. left. reflexivity.
  - apply (G x2 y2); try assumption. right. right. right. left. reflexivity.
Qed.

(** ** A discretization that is a power of two *)
Definition power_of_two (d : f32) : Prop := exists e : Z, f2R d = bpow radix2 e.

Lemma format_scaled (m e : Z) : (Z.abs m <= 2 ^ 24)%Z -> (-149 <= e)%Z -> generic_format radix2 (SpecFloat.fexp 24 128) (IZR m * bpow radix2 e).
Proof.
  intros Hm He. destruct (Z.eq_dec (Z.abs m) (2 ^ 24)) as [E|NE].
  - assert (F : IZR m * bpow radix2 e = F2R (Float radix2 (Z.sgn m) (e + 24))).
    { unfold F2R. cbn [Fnum Fexp]. rewrite bpow_plus. replace (IZR m) with (IZR (Z.abs m * Z.sgn m)) by (rewrite Z.abs_sgn; reflexivity). rewrite E, mult_IZR. change (IZR (2 ^ 24)) with (bpow radix2 24). ring. }
    rewrite F. apply generic_format_FLT. eexists; [reflexivity| |cbn; lia]. cbn [Fnum]. change (Zpower radix2 24) with (2 ^ 24)%Z. lia.
  - apply generic_format_FLT. exists (Float radix2 m e); [reflexivity| |cbn; lia]. cbn [Fnum]. change (Zpower radix2 24) with (2 ^ 24)%Z. lia.
Qed.
Lemma pow2_exp d e : fok d -> f2R d = bpow radix2 e -> (-149 <= e < 128)%Z.
Proof.
  intros K E. split.
  - assert (P : bpow radix2 (-149) <= bpow radix2 e); [|apply le_bpow in P; exact P].
    rewrite <- E. destruct K as [V F]. assert (P : 0 < f2R d) by (rewrite E; apply bpow_gt_0).
    destruct d as [s|s| |s m e']; try discriminate; [cbn in P; lra|]. destruct (mag_ok _ _ _ V) as [_ Be]. destruct s.
    + exfalso. apply (Rlt_irrefl 0). eapply Rlt_trans; [exact P|]. apply F2R_lt_0. reflexivity.
    + unfold f2R, SF2R, F2R. cbn [Fnum Fexp cond_Zopp]. apply Rle_trans with (bpow radix2 e'); [apply bpow_le; lia|].
      rewrite <- (Rmult_1_l (bpow radix2 e')) at 1. apply Rmult_le_compat_r; [apply bpow_ge_0|]. apply IZR_le. lia.
  - apply (lt_bpow radix2). rewrite <- E. pose proof (f2R_lt _ K) as L. apply Rabs_def2 in L. lra.
Qed.

(** Discretizing by a power of two is exact. *)
Lemma floor_pow2 x d : fok x -> fok d -> power_of_two d -> 0 <= f2R x -> fok (fdiv x d) ->
  f2R (fdiv x d) = rnd (f2R x / f2R d) -> Zfloor (f2R (fdiv x d)) = Zfloor (f2R x / f2R d).
Proof.
  intros Kx Kd [e Ed] P0 K E. rewrite E, Ed. assert (D : f2R x / bpow radix2 e = f2R x * bpow radix2 (- e)) by (rewrite bpow_opp; reflexivity).
  rewrite D. destruct Kx as [Vx Fx]. destruct x as [s|s| |s m ex]; try discriminate.
  { rewrite f2R_0, Rmult_0_l, rnd_0. reflexivity. }
  destruct (mag_ok _ _ _ Vx) as [Bm Be]. destruct s; [exfalso; apply (Rlt_irrefl 0); eapply Rle_lt_trans; [exact P0|]; apply F2R_lt_0; reflexivity|].
  assert (X : f2R (S754_finite false m ex) * bpow radix2 (- e) = IZR (Zpos m) * bpow radix2 (ex - e)).
  { unfold f2R, SF2R, F2R. cbn [Fnum Fexp cond_Zopp]. unfold Zminus. rewrite bpow_plus. ring. }
  rewrite X. destruct (Z_le_gt_dec (-149) (ex - e)) as [L|L].
  - rewrite rnd_exact; [reflexivity|]. apply format_scaled; lia.
  - assert (U : 0 <= IZR (Zpos m) * bpow radix2 (ex - e) <= bpow radix2 (-1)).
    { split; [apply Rmult_le_pos; [apply IZR_le; lia|apply bpow_ge_0]|].
      apply Rle_trans with (bpow radix2 24 * bpow radix2 (ex - e)).
      - apply Rmult_le_compat_r; [apply bpow_ge_0|]. change (bpow radix2 24) with (IZR (2 ^ 24)). apply IZR_le. lia.
      - rewrite <- bpow_plus. apply bpow_le. lia. }
    assert (H1 : bpow radix2 (-1) < 1) by (change 1 with (bpow radix2 0); apply bpow_lt; lia).
    assert (F1 : rnd (bpow radix2 (-1)) = bpow radix2 (-1)).
    { apply rnd_exact. rewrite <- (Rmult_1_l (bpow radix2 (-1))). apply (format_scaled 1); lia. }
    assert (B : 0 <= rnd (IZR (Zpos m) * bpow radix2 (ex - e)) <= bpow radix2 (-1)).
    { split; [rewrite <- rnd_0|rewrite <- F1]; apply rnd_le; apply U. }
    rewrite (Zfloor_imp 0 (rnd _)), (Zfloor_imp 0 (_ * _)); [reflexivity| |]; change (0 + 1)%Z with 1%Z; lra.
Qed.

Lemma fmul_pow2 i d : fok d -> power_of_two d -> (0 <= i <= 2 ^ 24)%Z -> IZR i * f2R d < fmax ->
  fok (fmul (f_of_Z i) d) /\ f2R (fmul (f_of_Z i) d) = IZR i * f2R d.
Proof.
  intros K [e E] Hi L. destruct (pow2_exp d e K E) as [Le _]. destruct (f_of_Z_exact i ltac:(lia)) as [Ei _].
  assert (P : 0 <= IZR i * f2R d) by (rewrite E; apply Rmult_le_pos; [apply IZR_le; lia|apply bpow_ge_0]).
  assert (R : rnd (f2R (f_of_Z i) * f2R d) = IZR i * f2R d) by (rewrite Ei, E; apply rnd_exact, format_scaled; lia).
  destruct (fmul_ok (f_of_Z i) d) as [M RM]; [apply fok_of_Z; lia|exact K|rewrite R, Rabs_right; lra|].
  split; [exact M|]. rewrite RM. exact R.
Qed.

(** The corners of the bag of a coordinate surround it. *)
Lemma side_pow2 x size d : fok x -> positive size -> positive d -> power_of_two d -> (2 <= cols FA size d <= 2 ^ 24)%Z ->
  f2R size + f2R d < fmax -> 0 <= f2R x <= f2R size ->
  let x1 := fmul (f_of_Z (f_floor_i32 (fdiv x d))) d in
  let x2 := fmin (fadd x1 d) size in
  fok x1 /\ fok x2 /\ f2R x1 <= f2R x <= f2R x2.
Proof.
  intros Kx Hs Hd PD Hc HM B. cbv zeta. destruct (cell_f32 d Hd x size Kx Hs Hc B) as (K & E & EF & R). rewrite EF. clear EF.
  rewrite (floor_pow2 x d Kx (proj1 Hd) PD ltac:(lra) K E) in *. set (i := Zfloor (f2R x / f2R d)) in *.
  destruct Hd as [Kd Pd]. pose proof (Zfloor_lb (f2R x / f2R d)) as L1. pose proof (Zfloor_ub (f2R x / f2R d)) as L2. fold i in L1, L2.
  assert (X : f2R x = f2R x / f2R d * f2R d) by (field; lra).
  assert (B1 : IZR i * f2R d <= f2R x) by (rewrite X; apply Rmult_le_compat_r; lra).
  assert (B2 : f2R x < (IZR i + 1) * f2R d) by (rewrite X; apply Rmult_lt_compat_r; lra).
  destruct (fmul_pow2 i d Kd PD ltac:(lia)) as [K1 E1]; [lra|].
  assert (R2 : rnd (f2R (fmul (f_of_Z i) d) + f2R d) = (IZR i + 1) * f2R d).
  { rewrite E1. replace (IZR i * f2R d + f2R d) with (IZR (i + 1) * f2R d) by (rewrite plus_IZR; ring). rewrite <- plus_IZR.
    destruct PD as [e Ee]. rewrite Ee. apply rnd_exact, format_scaled; [lia|]. apply (pow2_exp d e Kd Ee). }
  assert (P1 : 0 <= (IZR i + 1) * f2R d) by (rewrite <- plus_IZR; apply Rmult_le_pos; [apply IZR_le; lia|lra]).
  destruct (fadd_ok (fmul (f_of_Z i) d) d K1 Kd) as [K2 E2]; [rewrite R2, Rabs_right; lra|]. rewrite R2 in E2.
  destruct (fmin_ok _ _ K2 (proj1 Hs)) as [K3 E3]. split; [exact K1|]. split; [exact K3|]. rewrite E1, E3, E2.
  split; [lra|]. apply Rmin_glb; lra.
Qed.

(** ** Toroidal arithmetic *)
Lemma half_format : forall dim, fok dim -> bpow radix2 (-125) <= f2R dim -> generic_format radix2 (SpecFloat.fexp 24 128) (f2R dim / 2).
Proof.
  intros dim [V F] H. destruct dim as [s|s| |s m e]; try discriminate.
  { rewrite f2R_0. replace (0 / 2) with 0 by lra. apply generic_format_0. }
  destruct (mag_ok _ _ _ V) as [Bm Be].
  assert (X : f2R (S754_finite s m e) / 2 = IZR (cond_Zopp s (Zpos m)) * bpow radix2 (e - 1)).
  { unfold f2R, SF2R, F2R. cbn [Fnum Fexp]. unfold Zminus. rewrite bpow_plus. change (bpow radix2 (- (1))) with (/ 2). field. }
  rewrite X. apply format_scaled; [destruct s; cbn [cond_Zopp]; lia|].
  destruct (Z.eq_dec e (-149)) as [->|]; [|lia]. exfalso.
  revert H. unfold f2R, SF2R, F2R. cbn [Fnum Fexp]. intros H.
  assert (IZR (cond_Zopp s (Zpos m)) * bpow radix2 (-149) < bpow radix2 24 * bpow radix2 (-149)).
  { apply Rmult_lt_compat_r; [apply bpow_gt_0|]. change (bpow radix2 24) with (IZR (2 ^ 24)). apply IZR_lt. destruct s; cbn [cond_Zopp]; lia. }
  rewrite <- bpow_plus in H0. exact (Rlt_irrefl _ (Rle_lt_trans _ _ _ H H0)).
Qed.

Section Torus.
Variable dim : f32.
Hypothesis Hdim : positive dim.

Lemma rem_f32 v : fok v -> exists k : Z,
  fok (frem v dim) /\ f2R (frem v dim) = f2R v + IZR k * f2R dim /\ Rabs (f2R (frem v dim)) < f2R dim /\ 0 <= f2R (frem v dim) * f2R v /\
  (f2R v = 0 -> f2R (frem v dim) = 0).
Proof.
  intros Kv. destruct Hdim as [Kd Pd]. destruct (frem_ok v dim Kv Kd ltac:(lra)) as [K E].
  destruct (rem_bounds (f2R v) (f2R dim) Pd) as (_ & B & S). cbn [rem RA] in B, S.
  exists (- Ztrunc (f2R v / f2R dim))%Z. rewrite opp_IZR. split; [exact K|]. split; [rewrite E; ring|]. rewrite E. split; [exact B|]. split; [exact S|].
  intros ->. unfold Rdiv. rewrite Rmult_0_l, Ztrunc_IZR. lra.
Qed.
Lemma transform_f32 v : fok v ->
  fok (toroidal_transform FA v dim) /\ 0 <= f2R (toroidal_transform FA v dim) <= f2R dim /\
  exists k : Z, f2R (toroidal_transform FA v dim) = rnd (f2R v + IZR k * f2R dim) /\
    (0 <= f2R v -> f2R (toroidal_transform FA v dim) = f2R v + IZR k * f2R dim) /\
    0 <= f2R v + IZR k * f2R dim < f2R dim.
Proof.
  intros Kv. destruct (rem_f32 v Kv) as (k & Kr & Er & Br & Sr & Zr). apply Rabs_def2 in Br. destruct Hdim as [Kd Pd].
  unfold toroidal_transform. cbn [le lt of_int FA add rem].
  assert (K0 : fok (f_of_Z 0)) by (apply fok_of_Z; lia).
  assert (G : (f2R v < 0 \/ 0 <= f2R v) -> let t := if fltb (frem v dim) (f_of_Z 0) then fadd (frem v dim) dim else frem v dim in
    fok t /\ 0 <= f2R t <= f2R dim /\
    exists k : Z, f2R t = rnd (f2R v + IZR k * f2R dim) /\ (0 <= f2R v -> f2R t = f2R v + IZR k * f2R dim) /\ 0 <= f2R v + IZR k * f2R dim < f2R dim).
  { intros SV. destruct (flt_spec (frem v dim) (f_of_Z 0) Kr K0) as [L|L]; rewrite f0_R in L; cbv zeta.
    - assert (NV : f2R v < 0) by (destruct SV as [|SV]; [assumption|exfalso; destruct (Req_dec (f2R v) 0) as [Z0|]; [specialize (Zr Z0); lra|nra]]).
      assert (R : 0 <= rnd (f2R (frem v dim) + f2R dim) <= f2R dim).
      { split; [rewrite <- rnd_0; apply rnd_le; lra|]. rewrite <- (rnd_f2R dim Kd) at 2. apply rnd_le. lra. }
      pose proof (f2R_lt _ Kd) as LD. apply Rabs_def2 in LD.
      destruct (fadd_ok _ _ Kr Kd) as [K E]; [rewrite Rabs_right; lra|]. split; [exact K|]. rewrite E. split; [exact R|].
      exists (k + 1)%Z. rewrite plus_IZR. replace (f2R v + (IZR k + 1) * f2R dim) with (f2R (frem v dim) + f2R dim) by lra.
      split; [reflexivity|]. split; [lra|]. lra.
    - split; [exact Kr|]. split; [lra|]. exists k. rewrite <- Er, rnd_f2R by exact Kr. split; [reflexivity|]. split; [reflexivity|lra]. }
  specialize (G (Rlt_or_le (f2R v) 0)).
  destruct (fle_spec (f_of_Z 0) v K0 Kv) as [A|A]; [destruct (flt_spec v dim Kv Kd) as [B|B]|]; cbn [andb]; try exact G.
  rewrite f0_R in A. split; [exact Kv|]. split; [lra|]. exists 0%Z. rewrite Rmult_0_l, Rplus_0_r, rnd_f2R by exact Kv.
  split; [reflexivity|]. split; [reflexivity|lra].
Qed.

(** Error of one rounding of a number not larger than [dim]. *)
Lemma rnd_error a : bpow radix2 (-126) <= f2R dim -> Rabs a <= f2R dim -> Rabs (rnd a - a) <= f2R dim * bpow radix2 (-24).
Proof.
  intros Hn Ha. destruct Hdim as [Kd Pd].
  pose proof (error_le_half_ulp radix2 (FLT_exp (-149) 24) (fun x => negb (Z.even x)) a) as H1.
  pose proof (ulp_le radix2 (FLT_exp (-149) 24) a (f2R dim)) as H2. rewrite (Rabs_right (f2R dim)) in H2 by lra. specialize (H2 Ha).
  pose proof (ulp_FLT_le radix2 (-149) 24 (f2R dim)) as H3. rewrite (Rabs_right (f2R dim)) in H3 by lra. specialize (H3 Hn).
  assert (E : bpow radix2 (1 - 24) = 2 * bpow radix2 (-24)) by (change 2 with (bpow radix2 1); rewrite <- bpow_plus; reflexivity). rewrite E in H3.
  eapply Rle_trans; [exact H1|]. lra.
Qed.

(** The test made on the plain difference, overflow included. *)
Lemma sub_abs_le x y b : fok x -> fok y -> fok b ->
  fleb (fabs (fsub x y)) b = true <-> Rabs (rnd (f2R x - f2R y)) <= f2R b.
Proof.
  intros Kx Ky Kb. destruct (Rlt_or_le (Rabs (rnd (f2R x - f2R y))) fmax) as [L|L].
  - destruct (fsub_ok x y Kx Ky L) as [K E]. destruct (fabs_ok _ K) as [K' E']. rewrite (fle_R _ _ K' Kb), E', E. reflexivity.
  - split; intros H.
    + exfalso. destruct Kx as [Vx Fx], Ky as [Vy Fy]. pose proof (Bminus_correct 24 128 Hprec Hmax mode_NE (SF2B x Vx) (SF2B y Vy)) as C.
      rewrite !finite_B, !B2R_SF2B in C. specialize (C Fx Fy). fold (f2R x) in C. fold (f2R y) in C. rewrite Rlt_bool_false in C by exact L.
      destruct C as [C _]. rewrite (fsub_B x y Vx Vy), C, overflow_inf in H. cbn [fabs SFabs] in H. destruct Kb as [_ Fb].
      destruct b as [?|?| |[] ? ?]; discriminate.
    + exfalso. pose proof (f2R_lt _ Kb) as LB. apply Rabs_def2 in LB. lra.
Qed.
Lemma double_format x : fok x -> generic_format radix2 (SpecFloat.fexp 24 128) (f2R x * 2).
Proof.
  intros [V F]. destruct x as [s|s| |s m e]; try discriminate.
  { rewrite f2R_0, Rmult_0_l. apply generic_format_0. }
  destruct (mag_ok _ _ _ V) as [Bm Be].
  replace (f2R (S754_finite s m e) * 2) with (IZR (cond_Zopp s (Zpos m)) * bpow radix2 (e + 1)).
  - apply format_scaled; [destruct s; cbn [cond_Zopp]; lia|lia].
  - unfold f2R, SF2R, F2R. cbn [Fnum Fexp]. rewrite bpow_plus. change (bpow radix2 1) with 2. ring.
Qed.

Hypothesis Hsmall : bpow radix2 (-125) <= f2R dim.
Hypothesis Hlarge : f2R dim < bpow radix2 127.

(** The reduction of a difference of two reduced coordinates. *)
Definition fold_diff (df : f32) : f32 :=
  if fltb dim (fmul df (f_of_Z 2)) then fsub df dim
  else if fltb (fmul df (f_of_Z 2)) (fopp dim) then fadd df dim else df.
Lemma fold_diff_f32 df : fok df -> Rabs (f2R df) <= f2R dim ->
  fok (fold_diff df) /\
  f2R (fold_diff df) = (if Rlt_dec (f2R dim) (f2R df * 2) then f2R df - f2R dim
                        else if Rlt_dec (f2R df * 2) (- f2R dim) then f2R df + f2R dim else f2R df).
Proof.
  intros Kf Bf. pose proof (Rabs_le_inv _ _ Bf) as Bf'. destruct Hdim as [Kd Pd]. unfold fold_diff. pose proof (fok_of_Z 2 ltac:(lia)) as K2.
  assert (E2 : rnd (f2R df * f2R (f_of_Z 2)) = f2R df * 2) by (rewrite f2_R; apply rnd_exact, double_format; exact Kf).
  assert (M : bpow radix2 127 * 2 = fmax) by (change (bpow radix2 127 * bpow radix2 1 = bpow radix2 128); rewrite <- bpow_plus; reflexivity).
  destruct (fmul_ok df (f_of_Z 2) Kf K2) as [Km Em]; [rewrite E2; apply Rabs_def1; lra|]. rewrite E2 in Em.
  destruct (fopp_ok dim Kd) as [Ko Eo]. pose proof (f2R_lt _ Kd) as LD. apply Rabs_def2 in LD.
  destruct (flt_spec dim (fmul df (f_of_Z 2)) Kd Km) as [L|L]; rewrite Em in L; destruct (Rlt_dec (f2R dim) (f2R df * 2)) as [L'|L']; try lra.
  - assert (X : rnd (f2R df - f2R dim) = f2R df - f2R dim).
    { apply rnd_exact. apply (sterbenz radix2 (FLT_exp (-149) 24)); [apply f2R_format, Kf|apply f2R_format, Kd|lra]. }
    destruct (fsub_ok df dim Kf Kd) as [K E]; [rewrite X; apply Rabs_def1; lra|]. split; [exact K|]. rewrite E. exact X.
  - destruct (flt_spec (fmul df (f_of_Z 2)) (fopp dim) Km Ko) as [L2|L2]; rewrite Em, Eo in L2; destruct (Rlt_dec (f2R df * 2) (- f2R dim)) as [L3|L3]; try lra.
    + assert (X : rnd (f2R df + f2R dim) = f2R df + f2R dim).
      { replace (f2R df + f2R dim) with (f2R dim - f2R (fopp df)) by (destruct (fopp_ok df Kf) as [_ ->]; ring).
        apply rnd_exact. apply (sterbenz radix2 (FLT_exp (-149) 24)); [apply f2R_format, Kd|apply f2R_format, (fopp_ok df Kf)|].
        destruct (fopp_ok df Kf) as [_ ->]. lra. }
      destruct (fadd_ok df dim Kf Kd) as [K E]; [rewrite X; apply Rabs_def1; lra|]. split; [exact K|]. rewrite E. exact X.
    + split; [exact Kf|reflexivity].
Qed.

Lemma half_f32 : fok (fdiv dim (f_of_Z 2)) /\ f2R (fdiv dim (f_of_Z 2)) = f2R dim / 2.
Proof.
  destruct Hdim as [Kd Pd]. pose proof (fok_of_Z 2 ltac:(lia)) as K2. pose proof (f2R_lt _ Kd) as LD. apply Rabs_def2 in LD.
  assert (X : rnd (f2R dim / f2R (f_of_Z 2)) = f2R dim / 2) by (rewrite f2_R; apply rnd_exact, half_format; assumption).
  destruct (fdiv_ok dim (f_of_Z 2) Kd K2) as [K E]; [rewrite f2_R; lra|rewrite X; apply Rabs_def1; lra|]. split; [exact K|]. rewrite E. exact X.
Qed.
Lemma diff_f32 a b : fok a -> fok b -> 0 <= f2R a <= f2R dim -> 0 <= f2R b <= f2R dim ->
  fok (fsub a b) /\ f2R (fsub a b) = rnd (f2R a - f2R b) /\ Rabs (f2R (fsub a b)) <= f2R dim.
Proof.
  intros Ka Kb Ba Bb. destruct Hdim as [Kd Pd].
  assert (X : Rabs (rnd (f2R a - f2R b)) <= f2R dim).
  { rewrite <- rnd_abs. rewrite <- (rnd_f2R dim Kd). apply rnd_le. apply Rabs_le. lra. }
  destruct (fsub_ok a b Ka Kb) as [K E]; [eapply Rle_lt_trans; [exact X|]; pose proof (f2R_lt _ Kd) as LD; apply Rabs_def2 in LD; lra|].
  split; [exact K|]. split; [exact E|]. rewrite E. exact X.
Qed.

Lemma distance_f32 v1 v2 : fok v1 -> fok v2 ->
  fok (toroidal_distance FA v1 v2 dim) /\ Rabs (f2R (toroidal_distance FA v1 v2 dim)) <= f2R dim / 2 /\
  (exists k : Z, Rabs (f2R (toroidal_distance FA v1 v2 dim) - (f2R v1 - f2R v2 + IZR k * f2R dim)) <= f2R dim * bpow radix2 (-22)) /\
  f2R (toroidal_distance FA v2 v1 dim) = - f2R (toroidal_distance FA v1 v2 dim).
Proof.
  intros K1 K2. destruct half_f32 as [Kh Eh].
  assert (N126 : bpow radix2 (-126) <= f2R dim) by (eapply Rle_trans; [|exact Hsmall]; apply bpow_le; lia).
  assert (C24 : bpow radix2 (-22) = 4 * bpow radix2 (-24)).
  { change 4 with (bpow radix2 2). rewrite <- bpow_plus. reflexivity. }
  pose proof (bpow_gt_0 radix2 (-24)) as P24.
  assert (SY : rnd (f2R v2 - f2R v1) = - rnd (f2R v1 - f2R v2)) by (rewrite <- rnd_opp; f_equal; ring).
  assert (PD : 0 < f2R dim) by apply Hdim.
  unfold toroidal_distance. cbn [le lt of_int FA absn sub div mul neg add].
  destruct (fleb (fabs (fsub v1 v2)) (fdiv dim (f_of_Z 2))) eqn:T1.
  - assert (T1' := proj1 (sub_abs_le _ _ _ K1 K2 Kh) T1). rewrite Eh in T1'.
    assert (T2 : fleb (fabs (fsub v2 v1)) (fdiv dim (f_of_Z 2)) = true) by (apply (sub_abs_le _ _ _ K2 K1 Kh); rewrite SY, Rabs_Ropp, Eh; exact T1').
    rewrite T2. assert (LB : f2R dim / 2 < fmax) by (pose proof (f2R_lt _ (proj1 Hdim)) as LD; apply Rabs_def2 in LD; lra).
    destruct (fsub_ok v1 v2 K1 K2) as [K E]; [lra|]. destruct (fsub_ok v2 v1 K2 K1) as [K' E']; [rewrite SY, Rabs_Ropp; lra|].
    split; [exact K|]. rewrite E, E'. split; [exact T1'|]. split; [|exact SY]. exists 0%Z. rewrite Rmult_0_l, Rplus_0_r.
    eapply Rle_trans; [apply rnd_error; [exact N126|]|].
    + destruct (Rle_or_lt (Rabs (f2R v1 - f2R v2)) (f2R dim)) as [|L]; [assumption|exfalso].
      assert (f2R dim <= Rabs (rnd (f2R v1 - f2R v2))) by (rewrite <- rnd_abs, <- (rnd_f2R dim (proj1 Hdim)); apply rnd_le; lra). lra.
    + rewrite C24. nra.
  - assert (T2 : fleb (fabs (fsub v2 v1)) (fdiv dim (f_of_Z 2)) = false).
    { destruct (fleb (fabs (fsub v2 v1)) (fdiv dim (f_of_Z 2))) eqn:T2; [|reflexivity]. apply (sub_abs_le _ _ _ K2 K1 Kh) in T2.
      rewrite SY, Rabs_Ropp in T2. apply (sub_abs_le _ _ _ K1 K2 Kh) in T2. rewrite T2 in T1. discriminate. }
    rewrite T2. cbv zeta. destruct (transform_f32 v1 K1) as (Ka & Ba & k1 & Ea & _ & Ra). destruct (transform_f32 v2 K2) as (Kb & Bb & k2 & Eb & _ & Rb).
    set (a := toroidal_transform FA v1 dim) in *. set (b := toroidal_transform FA v2 dim) in *.
    destruct (diff_f32 a b Ka Kb Ba Bb) as (Kf & Ef & Bf). destruct (diff_f32 b a Kb Ka Bb Ba) as (Kg & Eg & Bg).
    assert (SY2 : f2R (fsub b a) = - f2R (fsub a b)) by (rewrite Ef, Eg, <- rnd_opp; f_equal; ring).
    destruct (fold_diff_f32 _ Kf Bf) as [KF EF]. destruct (fold_diff_f32 _ Kg Bg) as [KG EG]. rewrite SY2 in EG.
    pose proof (rnd_error (f2R a - f2R b) N126 ltac:(apply Rabs_le; lra)) as R1.
    pose proof (rnd_error (f2R v1 + IZR k1 * f2R dim) N126 ltac:(apply Rabs_le; lra)) as R2.
    pose proof (rnd_error (f2R v2 + IZR k2 * f2R dim) N126 ltac:(apply Rabs_le; lra)) as R3.
    rewrite <- Ef in R1. rewrite <- Ea in R2. rewrite <- Eb in R3. apply Rabs_le_inv in R1, R2, R3, Bf.
    assert (ERR : forall z : R, z = f2R (fsub a b) -> Rabs (z - (f2R v1 + IZR k1 * f2R dim - (f2R v2 + IZR k2 * f2R dim))) <= f2R dim * bpow radix2 (-22)).
    { intros z ->. rewrite C24. apply Rabs_le. nra. }
    unfold fold_diff in EF, EG, KF. split; [exact KF|]. cbn [num FA] in *. rewrite EF, EG.
    destruct (Rlt_dec (f2R dim) (f2R (fsub a b) * 2)); destruct (Rlt_dec (f2R dim) (- f2R (fsub a b) * 2)); try lra;
      destruct (Rlt_dec (f2R (fsub a b) * 2) (- f2R dim)); destruct (Rlt_dec (- f2R (fsub a b) * 2) (- f2R dim)); try lra.
    + split; [apply Rabs_le; lra|]. split; [|lra]. exists (k1 - k2 - 1)%Z. rewrite !minus_IZR.
      eapply Rle_trans; [|apply (ERR _ eq_refl)]. right. f_equal. ring.
    + split; [apply Rabs_le; lra|]. split; [|lra]. exists (k1 - k2 + 1)%Z. rewrite plus_IZR, minus_IZR.
      eapply Rle_trans; [|apply (ERR _ eq_refl)]. right. f_equal. ring.
    + split; [apply Rabs_le; lra|]. split; [|lra]. exists (k1 - k2)%Z. rewrite minus_IZR.
      eapply Rle_trans; [|apply (ERR _ eq_refl)]. right. f_equal. ring.
Qed.
End Torus.

(** The cast to usize for every f32: truncated, and cut to the range of usize. *)
Lemma as_usize_finite x : fok x -> f_as_usize x = Z.to_N (Z.max 0 (Z.min usize_max (Ztrunc (f2R x)))).
Proof.
  intros [V F]. pose proof (f_floorZ_R x F) as FL. destruct x as [s|s| |s m e]; try discriminate; cbn [f_as_usize].
  - cbn [f2R SF2R]. rewrite Ztrunc_IZR. reflexivity.
  - destruct s.
    + assert (N : f2R (S754_finite true m e) <= 0) by (left; apply F2R_lt_0; reflexivity).
      rewrite Ztrunc_ceil by exact N. assert (C : (Zceil (f2R (S754_finite true m e)) <= 0)%Z) by (apply Zceil_glb; exact N).
      unfold usize_max. rewrite Z.max_l by lia. reflexivity.
    + assert (N : 0 <= f2R (S754_finite false m e)) by (left; apply F2R_gt_0; reflexivity).
      rewrite Ztrunc_floor by exact N. rewrite FL. assert (C : (0 <= Zfloor (f2R (S754_finite false m e)))%Z) by (apply Zfloor_lub; exact N).
      unfold usize_max. rewrite Z.max_r by lia. reflexivity.
Qed.
Lemma as_usize_special : f_as_usize S754_nan = 0%N /\ f_as_usize (S754_infinity true) = 0%N /\ f_as_usize (S754_infinity false) = Z.to_N (2 ^ 64 - 1).
Proof. repeat split. Qed.
