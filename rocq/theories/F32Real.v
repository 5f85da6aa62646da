(** * f32 operations as rounded real operations

    Connects the executable f32 operations of [F32] to real arithmetic through Flocq.
    Axioms used: those of the standard library's real numbers. *)
From Coq Require Import ZArith Reals Bool Lia Lra Psatz.
From Verif Require Import F32.
From Flocq Require Import Core IEEE754.BinarySingleNaN.
Local Open Scope R_scope.

Lemma Hprec : FLX.Prec_gt_0 24. Proof. reflexivity. Qed.
Lemma Hmax : Prec_lt_emax 24 128. Proof. reflexivity. Qed.
#[local] Existing Instance Hprec.
#[local] Existing Instance Hmax.

Notation bin := (binary_float 24 128).
Notation rnd := (round radix2 (SpecFloat.fexp 24 128) (round_mode mode_NE)).

(** The real number an f32 stands for (0 for infinities and NaN). *)
Definition f2R (x : f32) : R := SF2R radix2 x.

Lemma round_nearest_even_equiv s m l :
  SpecFloat.round_nearest_even m l = choice_mode mode_NE s m l.
Proof.
  destruct l as [|c]; [reflexivity|].
  destruct c; [|reflexivity..].
  simpl. unfold Round.cond_incr. destruct (Z.even m); reflexivity.
Qed.

Lemma binary_round_aux_equiv sx mx ex lx :
  SpecFloat.binary_round_aux 24 128 sx mx ex lx
  = binary_round_aux 24 128 mode_NE sx mx ex lx.
Proof.
  unfold SpecFloat.binary_round_aux, binary_round_aux.
  destruct (SpecFloat.shr_fexp _ _ _ _ _) as [mrs' e']. cbv zeta.
  rewrite (round_nearest_even_equiv sx). reflexivity.
Qed.

Lemma binary_round_equiv s m e :
  SpecFloat.binary_round 24 128 s m e = binary_round 24 128 mode_NE s m e.
Proof.
  unfold SpecFloat.binary_round, binary_round, shl_align_fexp.
  destruct (SpecFloat.shl_align _ _ _) as [mz ez].
  apply binary_round_aux_equiv.
Qed.

Lemma binary_normalize_equiv m e szero :
  SpecFloat.binary_normalize 24 128 m e szero
  = B2SF (binary_normalize 24 128 Hprec Hmax mode_NE m e szero).
Proof.
  destruct m as [|p|p]; [reflexivity| |];
    simpl; rewrite B2SF_SF2B; apply binary_round_equiv.
Qed.

Lemma fadd_B x y Hx Hy :
  fadd x y = B2SF (Bplus mode_NE (SF2B x Hx : bin) (SF2B y Hy : bin)).
Proof.
  unfold fadd.
  destruct x as [sx|sx| |sx mx ex], y as [sy|sy| |sy my ey];
    [(trivial || (simpl; destruct (Bool.eqb _ _); reflexivity))..|].
  apply binary_normalize_equiv.
Qed.

Lemma fsub_B x y Hx Hy :
  fsub x y = B2SF (Bminus mode_NE (SF2B x Hx : bin) (SF2B y Hy : bin)).
Proof.
  unfold fsub.
  destruct x as [sx|sx| |sx mx ex], y as [sy|sy| |sy my ey];
    [(trivial || (simpl; destruct (Bool.eqb _ _); reflexivity))..|].
  simpl. unfold Zminus. rewrite <- cond_Zopp_negb. apply binary_normalize_equiv.
Qed.

Lemma fmul_B x y Hx Hy :
  fmul x y = B2SF (Bmult mode_NE (SF2B x Hx : bin) (SF2B y Hy : bin)).
Proof.
  unfold fmul.
  destruct x as [sx|sx| |sx mx ex], y as [sy|sy| |sy my ey]; [trivial..|].
  simpl. rewrite B2SF_SF2B. apply binary_round_aux_equiv.
Qed.

Lemma fdiv_B x y Hx Hy :
  fdiv x y = B2SF (Bdiv mode_NE (SF2B x Hx : bin) (SF2B y Hy : bin)).
Proof.
  unfold fdiv.
  destruct x as [sx|sx| |sx mx ex], y as [sy|sy| |sy my ey]; [trivial..|].
  simpl. rewrite B2SF_SF2B. destruct (SpecFloat.SFdiv_core_binary _ _ _ _ _ _) as [[mz ez] lz].
  apply binary_round_aux_equiv.
Qed.

Lemma fsqrt_B x Hx :
  fsqrt x = B2SF (Bsqrt mode_NE (SF2B x Hx : bin)).
Proof.
  unfold fsqrt.
  destruct x as [sx|sx| |sx mx ex]; [(trivial || (destruct sx; reflexivity))..|].
  destruct sx; [reflexivity|].
  simpl. rewrite B2SF_SF2B. destruct (SpecFloat.SFsqrt_core_binary _ _ _ _) as [[mz ez] lz].
  apply binary_round_aux_equiv.
Qed.

Lemma f_of_Z_B z : f_of_Z z = B2SF (binary_normalize 24 128 Hprec Hmax mode_NE z 0 false).
Proof. apply binary_normalize_equiv. Qed.

(** Results are f32 values again. *)
Lemma B2SF_ok (x : bin) : f32_valid (B2SF x).
Proof. apply valid_binary_B2SF. Qed.
Lemma fadd_valid x y : f32_valid x -> f32_valid y -> f32_valid (fadd x y).
Proof. intros Hx Hy. rewrite (fadd_B x y Hx Hy). apply B2SF_ok. Qed.
Lemma fsub_valid x y : f32_valid x -> f32_valid y -> f32_valid (fsub x y).
Proof. intros Hx Hy. rewrite (fsub_B x y Hx Hy). apply B2SF_ok. Qed.
Lemma fmul_valid x y : f32_valid x -> f32_valid y -> f32_valid (fmul x y).
Proof. intros Hx Hy. rewrite (fmul_B x y Hx Hy). apply B2SF_ok. Qed.
Lemma fdiv_valid x y : f32_valid x -> f32_valid y -> f32_valid (fdiv x y).
Proof. intros Hx Hy. rewrite (fdiv_B x y Hx Hy). apply B2SF_ok. Qed.
Lemma fsqrt_valid x : f32_valid x -> f32_valid (fsqrt x).
Proof. intros Hx. rewrite (fsqrt_B x Hx). apply B2SF_ok. Qed.
Lemma f_of_Z_valid z : f32_valid (f_of_Z z).
Proof. rewrite f_of_Z_B. apply B2SF_ok. Qed.

Lemma f2R_B (x : bin) : f2R (B2SF x) = B2R x.
Proof. apply SF2R_B2SF. Qed.

(** Comparison of finite values is comparison of reals. *)
Lemma fcompare_R x y :
  f32_valid x -> f32_valid y -> f32_is_finite x = true -> f32_is_finite y = true ->
  SFcompare x y = Some (Rcompare (f2R x) (f2R y)).
Proof.
  intros Hx Hy Fx Fy.
  pose proof (Bcompare_correct 24 128 (SF2B x Hx) (SF2B y Hy)) as H.
  unfold Bcompare in H. rewrite !B2SF_SF2B, !B2R_SF2B in H. apply H.
  - destruct x; auto.
  - destruct y; auto.
Qed.

Lemma fltb_R x y :
  f32_valid x -> f32_valid y -> f32_is_finite x = true -> f32_is_finite y = true ->
  fltb x y = true <-> f2R x < f2R y.
Proof.
  intros. unfold fltb, SFltb. rewrite fcompare_R by auto.
  destruct (Rcompare_spec (f2R x) (f2R y)); split; intros; try discriminate; lra || auto.
Qed.
Lemma fleb_R x y :
  f32_valid x -> f32_valid y -> f32_is_finite x = true -> f32_is_finite y = true ->
  fleb x y = true <-> f2R x <= f2R y.
Proof.
  intros. unfold fleb, SFleb. rewrite fcompare_R by auto.
  destruct (Rcompare_spec (f2R x) (f2R y)); split; intros; try discriminate; lra || auto.
Qed.
Lemma feqb_R x y :
  f32_valid x -> f32_valid y -> f32_is_finite x = true -> f32_is_finite y = true ->
  feqb x y = true <-> f2R x = f2R y.
Proof.
  intros. unfold feqb, SFeqb. rewrite fcompare_R by auto.
  destruct (Rcompare_spec (f2R x) (f2R y)); split; intros; try discriminate; lra || auto.
Qed.

Lemma finite_B x Hx : is_finite (SF2B x Hx : bin) = f32_is_finite x.
Proof. destruct x; reflexivity. Qed.

Lemma f2R_format x : f32_valid x -> generic_format radix2 (SpecFloat.fexp 24 128) (f2R x).
Proof.
  intros Hx. unfold f2R. rewrite <- (B2R_SF2B 24 128 x Hx). apply generic_format_B2R.
Qed.

(** Addition of finite values: rounded real sum, or overflow. *)

Lemma fadd_R x y (Hx : f32_valid x) (Hy : f32_valid y) :
  f32_is_finite x = true -> f32_is_finite y = true ->
  (Rabs (rnd (f2R x + f2R y)) < bpow radix2 128 ->
   f2R (fadd x y) = rnd (f2R x + f2R y) /\ f32_is_finite (fadd x y) = true) /\
  (bpow radix2 128 <= Rabs (rnd (f2R x + f2R y)) ->
   fadd x y = S754_infinity (Bsign (SF2B x Hx : bin)) /\
   Bsign (SF2B x Hx : bin) = Bsign (SF2B y Hy : bin)) .
Proof.
  intros Fx Fy.
  pose proof (Bplus_correct 24 128 _ _ mode_NE (SF2B x Hx) (SF2B y Hy)) as H.
  rewrite !finite_B in H. specialize (H Fx Fy). rewrite !B2R_SF2B in H.
  fold (f2R x) in H. fold (f2R y) in H.
  rewrite (fadd_B x y Hx Hy).
  destruct (Rlt_bool_spec (Rabs (rnd (f2R x + f2R y))) (bpow radix2 128)) as [L|L].
  - split; [|lra]. intros _. rewrite f2R_B.
    destruct H as (H1 & H2 & _). split; [exact H1|].
    revert H2. destruct (Bplus _ _ _); auto.
  - split; [lra|]. intros _. exact H.
Qed.

(** An exact result is returned exactly. *)
Lemma rnd_exact r : generic_format radix2 (SpecFloat.fexp 24 128) r -> rnd r = r.
Proof. intros H. apply round_generic; [apply valid_rnd_round_mode|exact H]. Qed.

(** Integers up to 2^24 in absolute value are f32 numbers. *)
Lemma int_format z : (Z.abs z <= 2 ^ 24)%Z ->
  generic_format radix2 (SpecFloat.fexp 24 128) (IZR z).
Proof.
  intros Hz. apply generic_format_FLT.
  destruct (Z.eq_dec (Z.abs z) (2 ^ 24)) as [E|E].
  - exists (Float radix2 (z / 2 ^ 23) 23).
    + assert (z = 2 ^ 24 \/ z = - 2 ^ 24)%Z as [->| ->] by lia;
        unfold F2R; cbn -[IZR]; rewrite <- mult_IZR; reflexivity.
    + assert (z = 2 ^ 24 \/ z = - 2 ^ 24)%Z as [->| ->] by lia; cbn; lia.
    + cbn. lia.
  - exists (Float radix2 z 0).
    + unfold F2R; cbn. lra.
    + change (Z.abs z < 2 ^ 24)%Z. lia.
    + cbn. lia.
Qed.

Lemma IZR_lt_128 z : (Z.abs z <= 2 ^ 24)%Z -> Rabs (IZR z) < bpow radix2 128.
Proof.
  intros H. rewrite <- abs_IZR. change (bpow radix2 128) with (IZR (2 ^ 128)).
  apply IZR_lt. lia.
Qed.

Lemma f_of_Z_exact z : (Z.abs z <= 2 ^ 24)%Z ->
  f2R (f_of_Z z) = IZR z /\ f32_is_finite (f_of_Z z) = true.
Proof.
  intros Hz. rewrite f_of_Z_B, f2R_B.
  pose proof (binary_normalize_correct 24 128 Hprec Hmax mode_NE z 0 false) as H.
  cbv zeta in H.
  assert (E : F2R (Float radix2 z 0) = IZR z) by (unfold F2R; cbn; lra).
  rewrite E in H. rewrite rnd_exact in H by (apply int_format; exact Hz).
  rewrite Rlt_bool_true in H by (apply IZR_lt_128; exact Hz).
  destruct H as (H1 & H2 & _). split; [exact H1|].
  revert H2. destruct (binary_normalize _ _ _ _ _ _ _ _); auto.
Qed.

(** Two finite valid f32 with the same real value are equal up to the sign of zero. *)
Lemma f2R_inj x y :
  f32_valid x -> f32_valid y -> f32_is_finite x = true -> f32_is_finite y = true ->
  f2R x = f2R y -> f2R x <> 0 -> x = y.
Proof.
  intros Hx Hy Fx Fy E Hz.
  rewrite <- (B2SF_SF2B 24 128 x Hx), <- (B2SF_SF2B 24 128 y Hy). f_equal.
  apply B2R_inj.
  - destruct x; cbn in *; try discriminate; auto; destruct Hz; reflexivity.
  - destruct y; cbn in *; try discriminate; auto; destruct Hz; rewrite E; reflexivity.
  - rewrite !B2R_SF2B. exact E.
Qed.

(** Adding one never goes down. *)
Lemma fadd_one_ge x :
  f32_valid x -> f32_is_nan x = false ->
  fleb x (fadd x f1) = true /\ f32_is_nan (fadd x f1) = false.
Proof.
  intros Hx Hn.
  destruct (f32_is_finite x) eqn:Fx.
  2:{ destruct x as [s|s| |s m e]; try discriminate. destruct s; cbn; auto. }
  assert (H1 : f32_valid f1) by reflexivity.
  assert (R1 : f2R f1 = 1).
  { unfold f2R, f1, SF2R, F2R. cbn. lra. }
  destruct (fadd_R x f1 Hx H1 Fx eq_refl) as [Hlt Hge].
  destruct (Rlt_or_le (Rabs (rnd (f2R x + f2R f1))) (bpow radix2 128)) as [L|L].
  - destruct (Hlt L) as [E F]. split.
    + apply fleb_R; auto; [apply fadd_valid; auto|].
      rewrite E, R1. rewrite <- (rnd_exact (f2R x)) at 1 by (apply f2R_format; auto).
      apply round_le; [apply fexp_correct; reflexivity|apply valid_rnd_round_mode|lra].
    + destruct (fadd x f1); try discriminate; auto.
  - destruct (Hge L) as [E Es]. rewrite E. rewrite Es.
    change (Bsign (SF2B f1 H1 : bin)) with false. split; [|reflexivity].
    destruct x as [s|s| |s m e]; try discriminate; reflexivity.
Qed.

(** Integral times advance by exactly one up to 2^24. *)
Lemma fadd_one_int z :
  (- 2 ^ 24 <= z < 2 ^ 24)%Z -> fadd (f_of_Z z) f1 = f_of_Z (z + 1).
Proof.
  intros [H0 H1].
  destruct (Z.eq_dec z (-1)) as [->|Hz]; [reflexivity|].
  destruct (f_of_Z_exact z) as [E F]; [lia|].
  destruct (f_of_Z_exact (z + 1)) as [E' F']; [lia|].
  assert (V1 : f32_valid f1) by reflexivity.
  assert (R1 : f2R f1 = 1) by (unfold f2R, f1, SF2R, F2R; cbn; lra).
  destruct (fadd_R (f_of_Z z) f1 (f_of_Z_valid z) V1 F eq_refl) as [Hlt _].
  assert (S : rnd (f2R (f_of_Z z) + f2R f1) = IZR (z + 1)).
  { rewrite E, R1, <- (plus_IZR z 1). apply rnd_exact. apply int_format. lia. }
  rewrite S in Hlt. destruct Hlt as [E2 F2]; [apply IZR_lt_128; lia|].
  apply f2R_inj; auto.
  - apply fadd_valid; auto. apply f_of_Z_valid.
  - apply f_of_Z_valid.
  - congruence.
  - rewrite E2. apply not_0_IZR. lia.
Qed.

Lemma f_of_Z_not_nan z : (Z.abs z <= 2 ^ 24)%Z -> f32_is_nan (f_of_Z z) = false.
Proof. intros H. apply f_of_Z_exact in H. destruct (f_of_Z z); cbn in *; intuition discriminate. Qed.
