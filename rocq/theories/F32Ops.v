(** * f32 operations on finite values, as rounded real operations

    Axioms used: those of the standard library's real numbers. *)
From Coq Require Import ZArith Reals Bool Lia Lra Psatz.
From Verif Require Import F32 F32Real.
From Flocq Require Import Core IEEE754.BinarySingleNaN.
Local Open Scope R_scope.

#[local] Existing Instance Hprec.
#[local] Existing Instance Hmax.

(** A finite f32. *)
Definition fok (x : f32) : Prop := f32_valid x /\ f32_is_finite x = true.
Notation fmax := (bpow radix2 128).

Lemma finite_B2SF (x : bin) : f32_is_finite (B2SF x) = is_finite x.
Proof. destruct x; reflexivity. Qed.
Lemma overflow_not_finite s : f32_is_finite (binary_overflow 24 128 mode_NE s) = false.
Proof. destruct s; reflexivity. Qed.
Lemma overflow_inf s : binary_overflow 24 128 mode_NE s = S754_infinity s.
Proof. destruct s; reflexivity. Qed.

Lemma rnd_le a b : a <= b -> rnd a <= rnd b.
Proof. apply round_le; [apply fexp_correct; reflexivity|apply valid_rnd_round_mode]. Qed.
Lemma rnd_0 : rnd 0 = 0.
Proof. apply round_0, valid_rnd_round_mode. Qed.
Lemma rnd_opp a : rnd (- a) = - rnd a.
Proof. apply round_NE_opp. Qed.
Lemma rnd_abs a : rnd (Rabs a) = Rabs (rnd a).
Proof.
  unfold Rabs. destruct (Rcase_abs a) as [H|H], (Rcase_abs (rnd a)) as [H'|H']; try reflexivity.
  - apply rnd_opp.
  - rewrite rnd_opp. pose proof (rnd_le a 0 ltac:(lra)). rewrite rnd_0 in *. lra.
  - pose proof (rnd_le 0 a ltac:(lra)). rewrite rnd_0 in *. lra.
Qed.
Lemma f2R_lt x : fok x -> Rabs (f2R x) < fmax.
Proof. intros [V F]. unfold f2R. rewrite <- (B2R_SF2B 24 128 x V). apply abs_B2R_lt_emax. Qed.
Lemma rnd_f2R x : fok x -> rnd (f2R x) = f2R x.
Proof. intros [V F]. apply rnd_exact, f2R_format, V. Qed.
(** A rounded value between two finite ones does not overflow. *)
Lemma rnd_no_overflow a x y : fok x -> fok y -> f2R x <= rnd a <= f2R y -> Rabs (rnd a) < fmax.
Proof. intros Hx Hy H. apply f2R_lt in Hx, Hy. apply Rabs_def2 in Hx, Hy. apply Rabs_def1; lra. Qed.

Lemma fadd_ok x y : fok x -> fok y -> Rabs (rnd (f2R x + f2R y)) < fmax ->
  fok (fadd x y) /\ f2R (fadd x y) = rnd (f2R x + f2R y).
Proof.
  intros [Vx Fx] [Vy Fy] H. destruct (fadd_R x y Vx Vy Fx Fy) as [H1 _]. destruct (H1 H) as [H2 H3].
  split; [split; [apply fadd_valid; assumption|exact H3]|exact H2].
Qed.
Lemma fadd_inv x y : f32_valid x -> f32_valid y -> f32_is_finite (fadd x y) = true ->
  fok x /\ fok y /\ f2R (fadd x y) = rnd (f2R x + f2R y).
Proof.
  intros Vx Vy F. assert (FF : f32_is_finite x = true /\ f32_is_finite y = true).
  { destruct x as [[]|[]| |[] ? ?], y as [[]|[]| |[] ? ?]; try discriminate F; split; reflexivity. }
  destruct FF as [Fx Fy]. split; [split; assumption|]. split; [split; assumption|].
  destruct (fadd_R x y Vx Vy Fx Fy) as [H1 H2]. destruct (Rlt_or_le (Rabs (rnd (f2R x + f2R y))) fmax) as [L|L]; [apply H1; exact L|].
  destruct (H2 L) as [E _]. rewrite E in F. discriminate.
Qed.

Lemma fsub_ok x y : fok x -> fok y -> Rabs (rnd (f2R x - f2R y)) < fmax ->
  fok (fsub x y) /\ f2R (fsub x y) = rnd (f2R x - f2R y).
Proof.
  intros [Vx Fx] [Vy Fy] H. pose proof (Bminus_correct 24 128 _ _ mode_NE (SF2B x Vx) (SF2B y Vy)) as C.
  rewrite !finite_B, !B2R_SF2B in C. specialize (C Fx Fy). fold (f2R x) in C. fold (f2R y) in C. rewrite Rlt_bool_true in C by exact H.
  destruct C as (C1 & C2 & _). split; [split; [apply fsub_valid; assumption|]|].
  - rewrite (fsub_B x y Vx Vy), finite_B2SF. exact C2.
  - rewrite (fsub_B x y Vx Vy), f2R_B. exact C1.
Qed.
Lemma fsub_inv x y : f32_valid x -> f32_valid y -> f32_is_finite (fsub x y) = true ->
  fok x /\ fok y /\ f2R (fsub x y) = rnd (f2R x - f2R y).
Proof.
  intros Vx Vy F. assert (FF : f32_is_finite x = true /\ f32_is_finite y = true).
  { destruct x as [[]|[]| |[] ? ?], y as [[]|[]| |[] ? ?]; try discriminate F; split; reflexivity. }
  destruct FF as [Fx Fy]. split; [split; assumption|]. split; [split; assumption|].
  pose proof (Bminus_correct 24 128 _ _ mode_NE (SF2B x Vx) (SF2B y Vy)) as C.
  rewrite !finite_B, !B2R_SF2B in C. specialize (C Fx Fy). fold (f2R x) in C. fold (f2R y) in C.
  destruct (Rlt_bool_spec (Rabs (rnd (f2R x - f2R y))) fmax) as [L|L].
  - rewrite (fsub_B x y Vx Vy), f2R_B. apply C.
  - destruct C as [C _]. rewrite (fsub_B x y Vx Vy) in F. rewrite C in F. rewrite overflow_not_finite in F. discriminate.
Qed.

Lemma fmul_ok x y : fok x -> fok y -> Rabs (rnd (f2R x * f2R y)) < fmax ->
  fok (fmul x y) /\ f2R (fmul x y) = rnd (f2R x * f2R y).
Proof.
  intros [Vx Fx] [Vy Fy] H. pose proof (Bmult_correct 24 128 _ _ mode_NE (SF2B x Vx) (SF2B y Vy)) as C.
  rewrite !finite_B, !B2R_SF2B in C. fold (f2R x) in C. fold (f2R y) in C. rewrite Rlt_bool_true in C by exact H.
  destruct C as (C1 & C2 & _). split; [split; [apply fmul_valid; assumption|]|].
  - rewrite (fmul_B x y Vx Vy), finite_B2SF, C2, Fx, Fy. reflexivity.
  - rewrite (fmul_B x y Vx Vy), f2R_B. exact C1.
Qed.
Lemma fmul_inv x y : f32_valid x -> f32_valid y -> f32_is_finite (fmul x y) = true ->
  fok x /\ fok y /\ f2R (fmul x y) = rnd (f2R x * f2R y).
Proof.
  intros Vx Vy F. assert (FF : f32_is_finite x = true /\ f32_is_finite y = true).
  { destruct x as [[]|[]| |[] ? ?], y as [[]|[]| |[] ? ?]; try discriminate F; split; reflexivity. }
  destruct FF as [Fx Fy]. split; [split; assumption|]. split; [split; assumption|].
  pose proof (Bmult_correct 24 128 _ _ mode_NE (SF2B x Vx) (SF2B y Vy)) as C.
  rewrite !finite_B, !B2R_SF2B in C. fold (f2R x) in C. fold (f2R y) in C.
  destruct (Rlt_bool_spec (Rabs (rnd (f2R x * f2R y))) fmax) as [L|L].
  - rewrite (fmul_B x y Vx Vy), f2R_B. apply C.
  - rewrite (fmul_B x y Vx Vy), C, overflow_not_finite in F. discriminate.
Qed.

Lemma fdiv_ok x y : fok x -> fok y -> f2R y <> 0 -> Rabs (rnd (f2R x / f2R y)) < fmax ->
  fok (fdiv x y) /\ f2R (fdiv x y) = rnd (f2R x / f2R y).
Proof.
  intros [Vx Fx] [Vy Fy] Hy H. pose proof (Bdiv_correct 24 128 _ _ mode_NE (SF2B x Vx) (SF2B y Vy)) as C.
  rewrite !finite_B, !B2R_SF2B in C. fold (f2R x) in C. fold (f2R y) in C. specialize (C Hy). rewrite Rlt_bool_true in C by exact H.
  destruct C as (C1 & C2 & _). split; [split; [apply fdiv_valid; assumption|]|].
  - rewrite (fdiv_B x y Vx Vy), finite_B2SF, C2, Fx. reflexivity.
  - rewrite (fdiv_B x y Vx Vy), f2R_B. exact C1.
Qed.
Lemma fdiv_inv x y : fok x -> fok y -> f2R y <> 0 -> f32_is_finite (fdiv x y) = true ->
  f2R (fdiv x y) = rnd (f2R x / f2R y).
Proof.
  intros [Vx Fx] [Vy Fy] Hy F. pose proof (Bdiv_correct 24 128 _ _ mode_NE (SF2B x Vx) (SF2B y Vy)) as C.
  rewrite !finite_B, !B2R_SF2B in C. fold (f2R x) in C. fold (f2R y) in C. specialize (C Hy).
  destruct (Rlt_bool_spec (Rabs (rnd (f2R x / f2R y))) fmax) as [L|L].
  - rewrite (fdiv_B x y Vx Vy), f2R_B. apply C.
  - rewrite (fdiv_B x y Vx Vy), C, overflow_not_finite in F. discriminate.
Qed.

Lemma fsqrt_ok x : fok x -> 0 <= f2R x -> fok (fsqrt x) /\ f2R (fsqrt x) = rnd (sqrt (f2R x)).
Proof.
  intros [V F] H. destruct (Bsqrt_correct 24 128 _ _ mode_NE (SF2B x V)) as (C1 & C2 & _). rewrite B2R_SF2B in C1. fold (f2R x) in C1.
  split; [split; [apply fsqrt_valid; exact V|]|].
  - rewrite (fsqrt_B x V), finite_B2SF, C2. destruct x as [?|?| |[] m e]; try discriminate; try reflexivity.
    exfalso. revert H. unfold f2R, SF2R. apply Rlt_not_le. apply F2R_lt_0. reflexivity.
  - rewrite (fsqrt_B x V), f2R_B. exact C1.
Qed.
Lemma fsqrt_inv x : f32_valid x -> f32_is_finite (fsqrt x) = true -> fok x /\ 0 <= f2R x /\ f2R (fsqrt x) = rnd (sqrt (f2R x)).
Proof.
  intros V F. assert (G : f32_is_finite x = true /\ 0 <= f2R x).
  { destruct x as [?|[]| |[] m e]; try discriminate F; split; try reflexivity; unfold f2R, SF2R; [lra|]. apply F2R_ge_0. cbn. lia. }
  destruct G as [Fx Hx]. split; [split; assumption|]. split; [exact Hx|]. apply fsqrt_ok; [split; assumption|exact Hx].
Qed.

(** Floor and ceiling. *)
Lemma Zfloor_div_pow (m e : Z) : (0 < e)%Z -> Zfloor (IZR m * bpow radix2 (- e)) = (m / 2 ^ e)%Z.
Proof.
  intros He. rewrite bpow_opp, <- IZR_Zpower by lia. change (Zpower radix2 e) with (2 ^ e)%Z.
  rewrite <- (Zfloor_div m (2 ^ e)) by lia. reflexivity.
Qed.
Lemma f_floorZ_R x : f32_is_finite x = true -> f_floorZ x = Zfloor (f2R x).
Proof.
  destruct x as [s|s| |s m e]; intros F; try discriminate; unfold f_floorZ, f2R, SF2R; [rewrite (Zfloor_IZR 0); reflexivity|].
  unfold F2R. cbn [Fnum Fexp]. destruct (Z.leb_spec 0 e) as [H|H].
  - rewrite <- IZR_Zpower by exact H. rewrite <- mult_IZR, Zfloor_IZR. change (Zpower radix2 e) with (2 ^ e)%Z.
    destruct s; cbn [cond_Zopp]; [|reflexivity]. change (SpecFloat.cond_Zopp true (Zpos m)) with (Zneg m). lia.
  - pose proof (Zfloor_div_pow (cond_Zopp s (Zpos m)) (- e) ltac:(lia)) as E. rewrite Z.opp_involutive in E. rewrite E. destruct s; reflexivity.
Qed.
Lemma f_ceilZ_R x : f32_is_finite x = true -> f_ceilZ x = Zceil (f2R x).
Proof.
  destruct x as [s|s| |s m e]; intros F; try discriminate; unfold f_ceilZ, f2R, SF2R; [rewrite (Zceil_IZR 0); reflexivity|].
  unfold F2R. cbn [Fnum Fexp]. destruct (Z.leb_spec 0 e) as [H|H].
  - rewrite <- IZR_Zpower by exact H. rewrite <- mult_IZR, Zceil_IZR. change (Zpower radix2 e) with (2 ^ e)%Z.
    destruct s; cbn [cond_Zopp]; [|reflexivity]. change (SpecFloat.cond_Zopp true (Zpos m)) with (Zneg m). lia.
  - unfold Zceil. rewrite Ropp_mult_distr_l, <- opp_IZR. pose proof (Zfloor_div_pow (- cond_Zopp s (Zpos m)) (- e) ltac:(lia)) as E. rewrite Z.opp_involutive in E. rewrite E. destruct s; reflexivity.
Qed.

(** Signs. *)
Lemma f2R_0 s : f2R (S754_zero s) = 0.
Proof. reflexivity. Qed.
Lemma f0_R : f2R (f_of_Z 0) = 0.
Proof. reflexivity. Qed.
Lemma f2_R : f2R (f_of_Z 2) = 2.
Proof. destruct (f_of_Z_exact 2) as [E _]; [lia|exact E]. Qed.
Lemma fok_of_Z z : (Z.abs z <= 2 ^ 24)%Z -> fok (f_of_Z z).
Proof. intros H. split; [apply f_of_Z_valid|]. apply f_of_Z_exact. exact H. Qed.
Lemma fle_R x y : fok x -> fok y -> fleb x y = true <-> f2R x <= f2R y.
Proof. intros [? ?] [? ?]. apply fleb_R; assumption. Qed.
Lemma flt_R x y : fok x -> fok y -> fltb x y = true <-> f2R x < f2R y.
Proof. intros [? ?] [? ?]. apply fltb_R; assumption. Qed.
Lemma fle_spec x y : fok x -> fok y -> Bool.reflect (f2R x <= f2R y) (fleb x y).
Proof. intros Hx Hy. apply iff_reflect. symmetry. apply fle_R; assumption. Qed.
Lemma flt_spec x y : fok x -> fok y -> Bool.reflect (f2R x < f2R y) (fltb x y).
Proof. intros Hx Hy. apply iff_reflect. symmetry. apply flt_R; assumption. Qed.
Lemma fopp_ok x : fok x -> fok (fopp x) /\ f2R (fopp x) = - f2R x.
Proof.
  intros [V F]. destruct x as [s|s| |s m e]; try discriminate.
  - split; [split; reflexivity|]. cbn. lra.
  - split; [split; [exact V|reflexivity]|]. unfold f2R, fopp, SFopp, SF2R. rewrite <- F2R_Zopp. destruct s; reflexivity.
Qed.
Lemma fabs_ok x : fok x -> fok (fabs x) /\ f2R (fabs x) = Rabs (f2R x).
Proof.
  intros [V F]. destruct x as [s|s| |s m e]; try discriminate.
  - split; [split; reflexivity|]. cbn. rewrite Rabs_R0. reflexivity.
  - split; [split; [exact V|reflexivity]|]. unfold f2R, fabs, SFabs, SF2R. rewrite <- F2R_Zabs. destruct s; reflexivity.
Qed.
Lemma fmin_ok x y : fok x -> fok y -> fok (fmin x y) /\ f2R (fmin x y) = Rmin (f2R x) (f2R y).
Proof.
  intros Hx Hy. unfold fmin. destruct Hx as [Vx Fx], Hy as [Vy Fy]. rewrite fcompare_R by assumption.
  destruct (Rcompare_spec (f2R x) (f2R y)) as [H|H|H].
  - split; [split; assumption|]. rewrite Rmin_left; lra.
  - split; [split; assumption|]. rewrite Rmin_left; lra.
  - split; [split; assumption|]. rewrite Rmin_right; lra.
Qed.

(** ** The remainder is exact *)
Lemma mag_ok s m e : f32_valid (S754_finite s m e) -> (Zpos m < 2 ^ 24)%Z /\ (-149 <= e <= 104)%Z.
Proof.
  unfold f32_valid, valid_binary, bounded, canonical_mantissa. rewrite andb_true_iff, Z.leb_le.
  intros [H1 H2]. apply Zeq_bool_eq in H1. unfold SpecFloat.fexp, SpecFloat.emin in H1.
  pose proof (Digits.Zpos_digits2_pos m) as E. rewrite E in H1.
  assert (B : (Digits.Zdigits radix2 (Zpos m) <= 24)%Z) by lia.
  split; [|lia]. apply Digits.Zpower_gt_Zdigits in B. exact B.
Qed.
Lemma frem_ok x y : fok x -> fok y -> f2R y <> 0 ->
  fok (frem x y) /\ f2R (frem x y) = f2R x - f2R y * IZR (Ztrunc (f2R x / f2R y)).
Proof.
  intros [Vx Fx] [Vy Fy] Hy.
  destruct y as [sy|sy| |sy my ey]; try discriminate; [destruct Hy; reflexivity|].
  destruct x as [sx|sx| |sx mx ex]; try discriminate.
  { cbn [frem]. split; [split; reflexivity|]. rewrite f2R_0. unfold Rdiv. rewrite Rmult_0_l, Ztrunc_IZR. lra. }
  destruct (mag_ok _ _ _ Vx) as [Bx Ex]. destruct (mag_ok _ _ _ Vy) as [By Ey].
  cbn [frem]. set (e0 := Z.min ex ey). set (a := (Zpos mx * 2 ^ (ex - e0))%Z). set (b := (Zpos my * 2 ^ (ey - e0))%Z).
  assert (Px : (0 < 2 ^ (ex - e0))%Z) by (apply Z.pow_pos_nonneg; lia). assert (Py : (0 < 2 ^ (ey - e0))%Z) by (apply Z.pow_pos_nonneg; lia).
  assert (Ha : (0 < a)%Z) by (unfold a; nia). assert (Hb : (0 < b)%Z) by (unfold b; nia).
  assert (Rx : f2R (S754_finite sx mx ex) = IZR (SpecFloat.cond_Zopp sx a) * bpow radix2 e0).
  { unfold f2R, SF2R, F2R. cbn [Fnum Fexp]. replace ex with ((ex - e0) + e0)%Z at 1 by lia. rewrite bpow_plus, <- IZR_Zpower by lia.
    change (Zpower radix2 (ex - e0)) with (2 ^ (ex - e0))%Z. rewrite <- Rmult_assoc, <- mult_IZR. f_equal. f_equal. unfold a. destruct sx; cbn [SpecFloat.cond_Zopp cond_Zopp]; lia. }
  assert (Ry : f2R (S754_finite sy my ey) = IZR (SpecFloat.cond_Zopp sy b) * bpow radix2 e0).
  { unfold f2R, SF2R, F2R. cbn [Fnum Fexp]. replace ey with ((ey - e0) + e0)%Z at 1 by lia. rewrite bpow_plus, <- IZR_Zpower by lia.
    change (Zpower radix2 (ey - e0)) with (2 ^ (ey - e0))%Z. rewrite <- Rmult_assoc, <- mult_IZR. f_equal. f_equal. unfold b. destruct sy; cbn [SpecFloat.cond_Zopp cond_Zopp]; lia. }
  set (r := (a mod b)%Z). assert (Hr : (0 <= r < b)%Z) by (apply Z.mod_pos_bound; exact Hb).
  assert (Hr24 : (r < 2 ^ 24)%Z).
  { destruct (Z.le_ge_cases ey ex) as [H|H].
    - assert (e0 = ey) by (unfold e0; lia). assert (b = Zpos my) by (unfold b; rewrite H0, Z.sub_diag; lia). lia.
    - assert (e0 = ex) by (unfold e0; lia). assert (a = Zpos mx) by (unfold a; rewrite H0, Z.sub_diag; lia).
      assert (r <= a)%Z by (apply Z.mod_le; lia). lia. }
  assert (BP : 0 < bpow radix2 e0) by apply bpow_gt_0.
  set (z := SpecFloat.cond_Zopp sx r). assert (Hz : (Z.abs z = r)%Z) by (unfold z; destruct sx; cbn [SpecFloat.cond_Zopp]; lia).
  pose proof (binary_normalize_correct 24 128 Hprec Hmax mode_NE z e0 sx) as C. cbv zeta in C.
  assert (G : generic_format radix2 (SpecFloat.fexp 24 128) (F2R (Float radix2 z e0))).
  { apply generic_format_FLT. exists (Float radix2 z e0); [reflexivity| |cbn; lia]. cbn [Fnum]. change (Zpower radix2 24) with (2 ^ 24)%Z. lia. }
  rewrite (rnd_exact _ G) in C.
  assert (L : Rabs (F2R (Float radix2 z e0)) < fmax).
  { rewrite <- F2R_Zabs. unfold F2R. cbn [Fnum Fexp]. rewrite Hz. apply Rlt_le_trans with (IZR (2 ^ 24) * bpow radix2 e0).
    - apply Rmult_lt_compat_r; [exact BP|]. apply IZR_lt. exact Hr24.
    - change (IZR (2 ^ 24)) with (bpow radix2 24). rewrite <- bpow_plus. apply bpow_le. lia. }
  rewrite Rlt_bool_true in C by exact L. destruct C as (C1 & C2 & _).
  rewrite binary_normalize_equiv. split.
  - split; [apply B2SF_ok|]. rewrite finite_B2SF. exact C2.
  - rewrite f2R_B, C1, Rx, Ry.
    assert (T : Ztrunc (IZR (SpecFloat.cond_Zopp sx a) * bpow radix2 e0 / (IZR (SpecFloat.cond_Zopp sy b) * bpow radix2 e0)) = Z.quot (SpecFloat.cond_Zopp sx a) (SpecFloat.cond_Zopp sy b)).
    { replace (IZR (SpecFloat.cond_Zopp sx a) * bpow radix2 e0 / (IZR (SpecFloat.cond_Zopp sy b) * bpow radix2 e0)) with (IZR (SpecFloat.cond_Zopp sx a) / IZR (SpecFloat.cond_Zopp sy b)).
      - rewrite Ztrunc_div; [reflexivity|]. destruct sy; cbn [SpecFloat.cond_Zopp]; lia.
      - field. split; [lra|]. apply not_0_IZR. destruct sy; cbn [SpecFloat.cond_Zopp]; lia. }
    rewrite T. unfold F2R. cbn [Fnum Fexp].
    assert (Q : (SpecFloat.cond_Zopp sx a = SpecFloat.cond_Zopp sy b * Z.quot (SpecFloat.cond_Zopp sx a) (SpecFloat.cond_Zopp sy b) + z)%Z).
    { pose proof (Z.quot_rem' (SpecFloat.cond_Zopp sx a) (SpecFloat.cond_Zopp sy b)) as QR.
      enough (Z.rem (SpecFloat.cond_Zopp sx a) (SpecFloat.cond_Zopp sy b) = z) by lia.
      unfold z, r. destruct sx, sy; cbn [SpecFloat.cond_Zopp]; rewrite ?Z.rem_opp_r', ?Z.rem_opp_l', ?Z.rem_mod_nonneg by lia; reflexivity. }
    rewrite Q at 1. rewrite plus_IZR, mult_IZR. ring.
Qed.

Lemma f2R_frac m k : f2R (S754_finite false m (Zneg k)) = IZR (Zpos m) / IZR (2 ^ Zpos k).
Proof. unfold f2R, SF2R, F2R. cbn [Fnum Fexp cond_Zopp]. change (Zneg k) with (- Zpos k)%Z. rewrite bpow_opp, <- IZR_Zpower by lia. reflexivity. Qed.
