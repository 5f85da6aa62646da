(** * f64 operations as rounded real operations

    Connects the executable f64 operations of [F64] to real arithmetic through Flocq.
    Axioms used: those of the standard library's real numbers. *)
From Coq Require Import ZArith Reals Bool Lia Lra Psatz.
From Verif Require Import F32 OptModel F64.
From Flocq Require Import Core IEEE754.BinarySingleNaN.
Local Open Scope R_scope.

Lemma Hprec64 : FLX.Prec_gt_0 53. Proof. reflexivity. Qed.
Lemma Hmax64 : Prec_lt_emax 53 1024. Proof. reflexivity. Qed.
#[local] Existing Instance Hprec64.
#[local] Existing Instance Hmax64.

Notation bin64 := (binary_float 53 1024).
Notation drnd := (round radix2 (SpecFloat.fexp 53 1024) (round_mode mode_NE)).

(** The real number an f64 stands for (0 for infinities and NaN). *)
Definition d2R (x : f64) : R := SF2R radix2 x.

Lemma d_round_nearest_even_equiv s m l :
  SpecFloat.round_nearest_even m l = choice_mode mode_NE s m l.
Proof.
  destruct l as [|c]; [reflexivity|].
  destruct c; [|reflexivity..].
  simpl. unfold Round.cond_incr. destruct (Z.even m); reflexivity.
Qed.

Lemma d_binary_round_aux_equiv sx mx ex lx :
  SpecFloat.binary_round_aux 53 1024 sx mx ex lx
  = binary_round_aux 53 1024 mode_NE sx mx ex lx.
Proof.
  unfold SpecFloat.binary_round_aux, binary_round_aux.
  destruct (SpecFloat.shr_fexp _ _ _ _ _) as [mrs' e']. cbv zeta.
  rewrite (d_round_nearest_even_equiv sx). reflexivity.
Qed.

Lemma d_binary_round_equiv s m e :
  SpecFloat.binary_round 53 1024 s m e = binary_round 53 1024 mode_NE s m e.
Proof.
  unfold SpecFloat.binary_round, binary_round, shl_align_fexp.
  destruct (SpecFloat.shl_align _ _ _) as [mz ez].
  apply d_binary_round_aux_equiv.
Qed.

Lemma d_binary_normalize_equiv m e szero :
  SpecFloat.binary_normalize 53 1024 m e szero
  = B2SF (binary_normalize 53 1024 Hprec64 Hmax64 mode_NE m e szero).
Proof.
  destruct m as [|p|p]; [reflexivity| |];
    simpl; rewrite B2SF_SF2B; apply d_binary_round_equiv.
Qed.

Lemma dadd_B x y Hx Hy :
  dadd x y = B2SF (Bplus mode_NE (SF2B x Hx : bin64) (SF2B y Hy : bin64)).
Proof.
  unfold dadd.
  destruct x as [sx|sx| |sx mx ex], y as [sy|sy| |sy my ey];
    [(trivial || (simpl; destruct (Bool.eqb _ _); reflexivity))..|].
  apply d_binary_normalize_equiv.
Qed.

Lemma dsub_B x y Hx Hy :
  dsub x y = B2SF (Bminus mode_NE (SF2B x Hx : bin64) (SF2B y Hy : bin64)).
Proof.
  unfold dsub.
  destruct x as [sx|sx| |sx mx ex], y as [sy|sy| |sy my ey];
    [(trivial || (simpl; destruct (Bool.eqb _ _); reflexivity))..|].
  simpl. unfold Zminus. rewrite <- cond_Zopp_negb. apply d_binary_normalize_equiv.
Qed.

Lemma dmul_B x y Hx Hy :
  dmul x y = B2SF (Bmult mode_NE (SF2B x Hx : bin64) (SF2B y Hy : bin64)).
Proof.
  unfold dmul.
  destruct x as [sx|sx| |sx mx ex], y as [sy|sy| |sy my ey]; [trivial..|].
  simpl. rewrite B2SF_SF2B. apply d_binary_round_aux_equiv.
Qed.

Lemma ddiv_B x y Hx Hy :
  ddiv x y = B2SF (Bdiv mode_NE (SF2B x Hx : bin64) (SF2B y Hy : bin64)).
Proof.
  unfold ddiv.
  destruct x as [sx|sx| |sx mx ex], y as [sy|sy| |sy my ey]; [trivial..|].
  simpl. rewrite B2SF_SF2B. destruct (SpecFloat.SFdiv_core_binary _ _ _ _ _ _) as [[mz ez] lz].
  apply d_binary_round_aux_equiv.
Qed.

Lemma dsqrt_B x Hx :
  dsqrt x = B2SF (Bsqrt mode_NE (SF2B x Hx : bin64)).
Proof.
  unfold dsqrt.
  destruct x as [sx|sx| |sx mx ex]; [(trivial || (destruct sx; reflexivity))..|].
  destruct sx; [reflexivity|].
  simpl. rewrite B2SF_SF2B. destruct (SpecFloat.SFsqrt_core_binary _ _ _ _) as [[mz ez] lz].
  apply d_binary_round_aux_equiv.
Qed.

Lemma d_of_Z_B z : d_of_Z z = B2SF (binary_normalize 53 1024 Hprec64 Hmax64 mode_NE z 0 false).
Proof. apply d_binary_normalize_equiv. Qed.

(** Results are f64 values again. *)
Lemma d_B2SF_ok (x : bin64) : f64_valid (B2SF x).
Proof. apply valid_binary_B2SF. Qed.
Lemma dadd_valid x y : f64_valid x -> f64_valid y -> f64_valid (dadd x y).
Proof. intros Hx Hy. rewrite (dadd_B x y Hx Hy). apply d_B2SF_ok. Qed.
Lemma dsub_valid x y : f64_valid x -> f64_valid y -> f64_valid (dsub x y).
Proof. intros Hx Hy. rewrite (dsub_B x y Hx Hy). apply d_B2SF_ok. Qed.
Lemma dmul_valid x y : f64_valid x -> f64_valid y -> f64_valid (dmul x y).
Proof. intros Hx Hy. rewrite (dmul_B x y Hx Hy). apply d_B2SF_ok. Qed.
Lemma ddiv_valid x y : f64_valid x -> f64_valid y -> f64_valid (ddiv x y).
Proof. intros Hx Hy. rewrite (ddiv_B x y Hx Hy). apply d_B2SF_ok. Qed.
Lemma dsqrt_valid x : f64_valid x -> f64_valid (dsqrt x).
Proof. intros Hx. rewrite (dsqrt_B x Hx). apply d_B2SF_ok. Qed.
Lemma d_of_Z_valid z : f64_valid (d_of_Z z).
Proof. rewrite d_of_Z_B. apply d_B2SF_ok. Qed.

Lemma d2R_B (x : bin64) : d2R (B2SF x) = B2R x.
Proof. apply SF2R_B2SF. Qed.

(** Comparison of finite values is comparison of reals. *)
Lemma dcompare_R x y :
  f64_valid x -> f64_valid y -> f64_is_finite x = true -> f64_is_finite y = true ->
  SFcompare x y = Some (Rcompare (d2R x) (d2R y)).
Proof.
  intros Hx Hy Fx Fy.
  pose proof (Bcompare_correct 53 1024 (SF2B x Hx) (SF2B y Hy)) as H.
  unfold Bcompare in H. rewrite !B2SF_SF2B, !B2R_SF2B in H. apply H.
  - destruct x; auto.
  - destruct y; auto.
Qed.

Lemma dltb_R x y :
  f64_valid x -> f64_valid y -> f64_is_finite x = true -> f64_is_finite y = true ->
  dltb x y = true <-> d2R x < d2R y.
Proof.
  intros. unfold dltb, SFltb. rewrite dcompare_R by auto.
  destruct (Rcompare_spec (d2R x) (d2R y)); split; intros; try discriminate; lra || auto.
Qed.
Lemma dleb_R x y :
  f64_valid x -> f64_valid y -> f64_is_finite x = true -> f64_is_finite y = true ->
  dleb x y = true <-> d2R x <= d2R y.
Proof.
  intros. unfold dleb, SFleb. rewrite dcompare_R by auto.
  destruct (Rcompare_spec (d2R x) (d2R y)); split; intros; try discriminate; lra || auto.
Qed.
Lemma deqb_R x y :
  f64_valid x -> f64_valid y -> f64_is_finite x = true -> f64_is_finite y = true ->
  deqb x y = true <-> d2R x = d2R y.
Proof.
  intros. unfold deqb, SFeqb. rewrite dcompare_R by auto.
  destruct (Rcompare_spec (d2R x) (d2R y)); split; intros; try discriminate; lra || auto.
Qed.

Lemma d_finite_B x Hx : is_finite (SF2B x Hx : bin64) = f64_is_finite x.
Proof. destruct x; reflexivity. Qed.

Lemma d2R_format x : f64_valid x -> generic_format radix2 (SpecFloat.fexp 53 1024) (d2R x).
Proof.
  intros Hx. unfold d2R. rewrite <- (B2R_SF2B 53 1024 x Hx). apply generic_format_B2R.
Qed.

(** Addition of finite values: rounded real sum, or overflow. *)

Lemma dadd_R x y (Hx : f64_valid x) (Hy : f64_valid y) :
  f64_is_finite x = true -> f64_is_finite y = true ->
  (Rabs (drnd (d2R x + d2R y)) < bpow radix2 1024 ->
   d2R (dadd x y) = drnd (d2R x + d2R y) /\ f64_is_finite (dadd x y) = true) /\
  (bpow radix2 1024 <= Rabs (drnd (d2R x + d2R y)) ->
   dadd x y = S754_infinity (Bsign (SF2B x Hx : bin64)) /\
   Bsign (SF2B x Hx : bin64) = Bsign (SF2B y Hy : bin64)) .
Proof.
  intros Fx Fy.
  pose proof (Bplus_correct 53 1024 _ _ mode_NE (SF2B x Hx) (SF2B y Hy)) as H.
  rewrite !d_finite_B in H. specialize (H Fx Fy). rewrite !B2R_SF2B in H.
  fold (d2R x) in H. fold (d2R y) in H.
  rewrite (dadd_B x y Hx Hy).
  destruct (Rlt_bool_spec (Rabs (drnd (d2R x + d2R y))) (bpow radix2 1024)) as [L|L].
  - split; [|lra]. intros _. rewrite d2R_B.
    destruct H as (H1 & H2 & _). split; [exact H1|].
    revert H2. destruct (Bplus _ _ _); auto.
  - split; [lra|]. intros _. exact H.
Qed.

(** An exact result is returned exactly. *)
Lemma d_rnd_exact r : generic_format radix2 (SpecFloat.fexp 53 1024) r -> drnd r = r.
Proof. intros H. apply round_generic; [apply valid_rnd_round_mode|exact H]. Qed.

(** Integers up to 2^53 in absolute value are f64 numbers. *)
Lemma d_int_format z : (Z.abs z <= 2 ^ 53)%Z ->
  generic_format radix2 (SpecFloat.fexp 53 1024) (IZR z).
Proof.
  intros Hz. apply generic_format_FLT.
  destruct (Z.eq_dec (Z.abs z) (2 ^ 53)) as [E|E].
  - exists (Float radix2 (z / 2 ^ 52) 52).
    + assert (z = 2 ^ 53 \/ z = - 2 ^ 53)%Z as [->| ->] by lia;
        unfold F2R; cbn -[IZR]; rewrite <- mult_IZR; reflexivity.
    + assert (z = 2 ^ 53 \/ z = - 2 ^ 53)%Z as [->| ->] by lia; cbn; lia.
    + cbn. lia.
  - exists (Float radix2 z 0).
    + unfold F2R; cbn. lra.
    + change (Z.abs z < 2 ^ 53)%Z. lia.
    + cbn. lia.
Qed.

Lemma d_IZR_lt_1024 z : (Z.abs z <= 2 ^ 53)%Z -> Rabs (IZR z) < bpow radix2 1024.
Proof.
  intros H. rewrite <- abs_IZR. change (bpow radix2 1024) with (IZR (2 ^ 1024)).
  apply IZR_lt. lia.
Qed.

Lemma d_of_Z_exact z : (Z.abs z <= 2 ^ 53)%Z ->
  d2R (d_of_Z z) = IZR z /\ f64_is_finite (d_of_Z z) = true.
Proof.
  intros Hz. rewrite d_of_Z_B, d2R_B.
  pose proof (binary_normalize_correct 53 1024 Hprec64 Hmax64 mode_NE z 0 false) as H.
  cbv zeta in H.
  assert (E : F2R (Float radix2 z 0) = IZR z) by (unfold F2R; cbn; lra).
  rewrite E in H. rewrite d_rnd_exact in H by (apply d_int_format; exact Hz).
  rewrite Rlt_bool_true in H by (apply d_IZR_lt_1024; exact Hz).
  destruct H as (H1 & H2 & _). split; [exact H1|].
  revert H2. destruct (binary_normalize _ _ _ _ _ _ _ _); auto.
Qed.

(** Two finite valid f64 with the same real value are equal up to the sign of zero. *)
Lemma d2R_inj x y :
  f64_valid x -> f64_valid y -> f64_is_finite x = true -> f64_is_finite y = true ->
  d2R x = d2R y -> d2R x <> 0 -> x = y.
Proof.
  intros Hx Hy Fx Fy E Hz.
  rewrite <- (B2SF_SF2B 53 1024 x Hx), <- (B2SF_SF2B 53 1024 y Hy). f_equal.
  apply B2R_inj.
  - destruct x; cbn in *; try discriminate; auto; destruct Hz; reflexivity.
  - destruct y; cbn in *; try discriminate; auto; destruct Hz; rewrite E; reflexivity.
  - rewrite !B2R_SF2B. exact E.
Qed.

(** Integral times advance by exactly one up to 2^53. *)
Lemma dadd_one_int z :
  (- 2 ^ 53 <= z < 2 ^ 53)%Z -> dadd (d_of_Z z) d1 = d_of_Z (z + 1).
Proof.
  intros [H0 H1].
  destruct (Z.eq_dec z (-1)) as [->|Hz]; [reflexivity|].
  destruct (d_of_Z_exact z) as [E F]; [lia|].
  destruct (d_of_Z_exact (z + 1)) as [E' F']; [lia|].
  assert (V1 : f64_valid d1) by reflexivity.
  assert (R1 : d2R d1 = 1) by (unfold d2R, d1, SF2R, F2R; cbn; lra).
  destruct (dadd_R (d_of_Z z) d1 (d_of_Z_valid z) V1 F eq_refl) as [Hlt _].
  assert (S : drnd (d2R (d_of_Z z) + d2R d1) = IZR (z + 1)).
  { rewrite E, R1, <- (plus_IZR z 1). apply d_rnd_exact. apply d_int_format. lia. }
  rewrite S in Hlt. destruct Hlt as [E2 F2]; [apply d_IZR_lt_1024; lia|].
  apply d2R_inj; auto.
  - apply dadd_valid; auto. apply d_of_Z_valid.
  - apply d_of_Z_valid.
  - congruence.
  - rewrite E2. apply not_0_IZR. lia.
Qed.

