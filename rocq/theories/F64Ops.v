(** * Monotonicity of the f64 operations *)
From Coq Require Import ZArith Reals Bool Lia Lra.
From Verif Require Import F32 OptModel F64 F64Real.
From Flocq Require Import Core IEEE754.BinarySingleNaN.
Local Open Scope R_scope.
#[local] Existing Instance Hprec64.
#[local] Existing Instance Hmax64.

Notation dmaxR := (bpow radix2 1024).
Lemma d_finite_B2SF (x : bin64) : f64_is_finite (B2SF x) = is_finite x.
Proof. destruct x; reflexivity. Qed.
Lemma drnd_le a b : a <= b -> drnd a <= drnd b.
Proof. apply round_le; [apply fexp_correct; reflexivity|apply valid_rnd_round_mode]. Qed.
Lemma drnd_0 : drnd 0 = 0.
Proof. apply round_0, valid_rnd_round_mode. Qed.
Lemma d2R_lt x : dok x -> Rabs (d2R x) < dmaxR.
Proof. intros [V F]. unfold d2R. rewrite <- (B2R_SF2B 53 1024 x V). apply abs_B2R_lt_emax. Qed.
Lemma drnd_d2R x : dok x -> drnd (d2R x) = d2R x.
Proof. intros [V F]. apply d_rnd_exact, d2R_format, V. Qed.
Lemma d_no_overflow a x y : dok x -> dok y -> d2R x <= drnd a <= d2R y -> Rabs (drnd a) < dmaxR.
Proof. intros Hx Hy H. apply d2R_lt in Hx, Hy. apply Rabs_def2 in Hx, Hy. apply Rabs_def1; lra. Qed.
Lemma ddiv_ok x y : dok x -> dok y -> d2R y <> 0 -> Rabs (drnd (d2R x / d2R y)) < dmaxR ->
  dok (ddiv x y) /\ d2R (ddiv x y) = drnd (d2R x / d2R y).
Proof.
  intros [Vx Fx] [Vy Fy] Hy H. pose proof (Bdiv_correct 53 1024 _ _ mode_NE (SF2B x Vx) (SF2B y Vy)) as C.
  rewrite !d_finite_B, !B2R_SF2B in C. fold (d2R x) in C. fold (d2R y) in C. specialize (C Hy). rewrite Rlt_bool_true in C by exact H.
  destruct C as (C1 & C2 & _). split; [split; [apply ddiv_valid; assumption|]|].
  - rewrite (ddiv_B x y Vx Vy), d_finite_B2SF, C2, Fx. reflexivity.
  - rewrite (ddiv_B x y Vx Vy), d2R_B. exact C1.
Qed.
Lemma dmul_ok x y : dok x -> dok y -> Rabs (drnd (d2R x * d2R y)) < dmaxR ->
  dok (dmul x y) /\ d2R (dmul x y) = drnd (d2R x * d2R y).
Proof.
  intros [Vx Fx] [Vy Fy] H. pose proof (Bmult_correct 53 1024 _ _ mode_NE (SF2B x Vx) (SF2B y Vy)) as C.
  rewrite !d_finite_B, !B2R_SF2B in C. fold (d2R x) in C. fold (d2R y) in C. rewrite Rlt_bool_true in C by exact H.
  destruct C as (C1 & C2 & _). split; [split; [apply dmul_valid; assumption|]|].
  - rewrite (dmul_B x y Vx Vy), d_finite_B2SF, C2, Fx, Fy. reflexivity.
  - rewrite (dmul_B x y Vx Vy), d2R_B. exact C1.
Qed.

Lemma d1_R : d2R d1 = 1.
Proof. unfold d2R, d1, SF2R, F2R. cbn. lra. Qed.
Lemma d0_R : d2R d0 = 0.
Proof. reflexivity. Qed.
Lemma ok1 : dok d1. Proof. split; reflexivity. Qed.
Lemma ok0 : dok d0. Proof. split; reflexivity. Qed.

(** Integers of at most 64 bits convert to finite numbers. *)
Lemma d_of_Z_round z : (Z.abs z <= 2 ^ 64)%Z -> dok (d_of_Z z) /\ d2R (d_of_Z z) = drnd (IZR z).
Proof.
  intros Hz. pose proof (binary_normalize_correct 53 1024 Hprec64 Hmax64 mode_NE z 0 false) as H. cbv zeta in H.
  assert (E : F2R (Float radix2 z 0) = IZR z) by (unfold F2R; cbn; lra). rewrite E in H.
  assert (B : Rabs (drnd (IZR z)) < dmaxR).
  { assert (X : dok (S754_finite false 4503599627370496 12) /\ d2R (S754_finite false 4503599627370496 12) = IZR (2 ^ 64)).
    { split; [split; reflexivity|]. unfold d2R, SF2R, F2R. cbn -[IZR]. rewrite <- mult_IZR. reflexivity. }
    assert (Y : dok (S754_finite true 4503599627370496 12) /\ d2R (S754_finite true 4503599627370496 12) = - IZR (2 ^ 64)).
    { split; [split; reflexivity|]. unfold d2R, SF2R, F2R. cbn -[IZR]. rewrite <- mult_IZR, <- opp_IZR. reflexivity. }
    destruct X as [X1 X2], Y as [Y1 Y2]. eapply d_no_overflow; [exact Y1|exact X1|]. rewrite <- (drnd_d2R _ Y1), <- (drnd_d2R _ X1), X2, Y2, <- opp_IZR.
    split; apply drnd_le, IZR_le; lia. }
  rewrite Rlt_bool_true in H by exact B. destruct H as (H1 & H2 & _). split.
  - split; [apply d_of_Z_valid|]. rewrite d_of_Z_B, d_finite_B2SF. exact H2.
  - rewrite d_of_Z_B, d2R_B. exact H1.
Qed.

(** A quotient of integers 0 <= a <= b, b > 0, computed in f64, is in [0,1]. *)
Lemma ratio_range a b : (0 <= a <= b)%Z -> (0 < b <= 2 ^ 64)%Z ->
  let r := ddiv (d_of_Z a) (d_of_Z b) in dok r /\ dleb d0 r = true /\ dleb r d1 = true.
Proof.
  intros A B r. destruct (d_of_Z_round a ltac:(lia)) as [Oa Ra]. destruct (d_of_Z_round b ltac:(lia)) as [Ob Rb].
  assert (L : 0 <= drnd (IZR a) <= drnd (IZR b)).
  { split; [rewrite <- drnd_0; apply drnd_le; apply IZR_le; lia|apply drnd_le, IZR_le; lia]. }
  assert (P : 1 <= drnd (IZR b)).
  { rewrite <- (d_rnd_exact 1) at 1 by (apply (d_int_format 1); cbn; lia). apply drnd_le, IZR_le. lia. }
  assert (Q : 0 <= drnd (d2R (d_of_Z a) / d2R (d_of_Z b)) <= 1).
  { rewrite Ra, Rb. split.
    - rewrite <- drnd_0 at 1. apply drnd_le. apply Rmult_le_pos; [lra|]. left. apply Rinv_0_lt_compat. lra.
    - rewrite <- (d_rnd_exact 1) at 1 by (apply (d_int_format 1); cbn; lia). apply drnd_le. apply Rmult_le_reg_r with (drnd (IZR b)); [lra|].
      unfold Rdiv. rewrite Rmult_assoc, Rinv_l by lra. lra. }
  destruct (ddiv_ok (d_of_Z a) (d_of_Z b) Oa Ob) as [Or Rr].
  - rewrite Rb. lra.
  - eapply d_no_overflow; [exact ok0|exact ok1|]. rewrite d0_R, d1_R. exact Q.
  - fold r in Or, Rr. split; [exact Or|]. destruct Or as [V F]. split.
    + apply dleb_R; [reflexivity|exact V|reflexivity|exact F|]. rewrite d0_R, Rr. lra.
    + apply dleb_R; [exact V|reflexivity|exact F|reflexivity|]. rewrite d1_R, Rr. lra.
Qed.

(** Adding a number that is not negative never goes down. *)
Lemma dadd_ge x y : dok x -> dok y -> 0 <= d2R y -> dleb x (dadd x y) = true.
Proof.
  intros X Y H. destruct X as [Vx Fx], Y as [Vy Fy]. destruct (dadd_R x y Vx Vy Fx Fy) as [Hlt Hge].
  destruct (Rlt_or_le (Rabs (drnd (d2R x + d2R y))) dmaxR) as [L|L].
  - destruct (Hlt L) as [E F]. apply dleb_R; auto; [apply dadd_valid; assumption|]. rewrite E, <- (drnd_d2R x (conj Vx Fx)) at 1. apply drnd_le. lra.
  - destruct (Hge L) as [E Es]. rewrite E, Es.
    assert (S : Bsign (SF2B y Vy : bin64) = false).
    { destruct y as [s|s| |s m e]; try discriminate; destruct s; try reflexivity.
      - exfalso. cbn in Es. assert (G : Rabs (drnd (d2R x + d2R (S754_zero true))) < dmaxR).
        { change (d2R (S754_zero true)) with 0. rewrite Rplus_0_r, drnd_d2R by (split; assumption). apply d2R_lt. split; assumption. } lra.
      - exfalso. unfold d2R, SF2R, F2R in H. cbn in H. assert (0 < bpow radix2 e) by apply bpow_gt_0.
        assert (IZR (Z.neg m) < 0) by (apply IZR_lt; lia). assert (IZR (Z.neg m) * bpow radix2 e < 0 * bpow radix2 e) by (apply Rmult_lt_compat_r; assumption). lra. }
    rewrite S. destruct x as [s|s| |s m e]; try discriminate; reflexivity.
Qed.
