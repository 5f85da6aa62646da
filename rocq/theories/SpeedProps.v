(** * Property theorems: the speed slider (C133) *)
From Coq Require Import ZArith List Bool Reals Lia Lra.
From Flocq Require Import Core Relative IEEE754.BinarySingleNaN.
From Verif Require Import F32 OptModel F64 F64Real F64Ops SpeedModel.
Import ListNotations.
#[local] Existing Instance Hprec64.
#[local] Existing Instance Hmax64.
Local Open Scope R_scope.

(** ** Specification *)
(** A value the slider offers. *)
Definition offered (v : f64) : Prop := dok v /\ 1 / 10 <= d2R v <= 250.
(** [n] nanoseconds are the time between two of [v] steps per second, up to one nanosecond. *)
Definition spaced (n : Z) (v : R) : Prop := Rabs (IZR n - 1000000000 / v) < 1.
(** The last value chosen, [None] if the slider was never touched. *)
Fixpoint last_chosen (ts : list touch) : option f64 :=
  match ts with
  | [] => None
  | t :: ts' => match last_chosen ts' with Some v => Some v | None => match t with Chosen v => Some v | Left _ => None end end
  end.

(** ** Rounding *)
Lemma drnd_rel x : bpow radix2 (-1022) <= Rabs x -> Rabs (drnd x - x) <= / 1000000000000000 * Rabs x.
Proof.
  intros H. pose proof (relative_error_N_FLT radix2 (-1074) 53 eq_refl (fun x => negb (Z.even x)) x H) as E.
  eapply Rle_trans; [exact E|]. apply Rmult_le_compat_r; [apply Rabs_pos|].
  change (bpow radix2 (- (53) + 1)) with (/ 4503599627370496). lra.
Qed.
Lemma drnd_near x : 1 / 1000000000000 <= x -> exists e, drnd x = x * (1 + e) /\ Rabs e <= / 1000000000000000.
Proof.
  intros H. assert (B : bpow radix2 (-1022) <= Rabs x).
  { rewrite Rabs_pos_eq by lra. eapply Rle_trans; [|exact H]. apply Rle_trans with (bpow radix2 (-40)); [apply bpow_le; lia|]. cbn. lra. }
  apply drnd_rel in B. exists ((drnd x - x) / x). split; [field; lra|].
  unfold Rdiv. rewrite Rabs_mult, Rabs_inv. rewrite (Rabs_pos_eq x) in * by lra.
  apply Rmult_le_reg_r with x; [lra|]. rewrite Rmult_assoc, Rinv_l by lra. lra.
Qed.
Lemma div_nearest_ok a b : (0 < b)%Z -> Rabs (IZR (div_nearest a b) - IZR a / IZR b) <= 1 / 2.
Proof.
  intros Hb. assert (B : 0 < IZR b) by (apply (IZR_lt 0); exact Hb).
  pose proof (Z.div_mod a b ltac:(lia)) as E. pose proof (Z.mod_pos_bound a b Hb) as M.
  assert (X : IZR a / IZR b = IZR (a / b) + IZR (a mod b) / IZR b).
  { rewrite E at 1. rewrite plus_IZR, mult_IZR. field. lra. }
  assert (G : forall k, IZR (a mod b) / IZR b - k = (IZR (a mod b) - k * IZR b) / IZR b) by (intros; field; lra).
  assert (H0 : (2 * (a mod b) <= b)%Z -> Rabs (IZR (a / b) - IZR a / IZR b) <= 1 / 2).
  { intros H. apply IZR_le in H. rewrite mult_IZR in H. destruct M as [M _]. apply IZR_le in M. rewrite X.
    replace (IZR (a / b) - (IZR (a / b) + IZR (a mod b) / IZR b)) with (- (IZR (a mod b) / IZR b)) by lra. rewrite Rabs_Ropp.
    rewrite Rabs_pos_eq by (apply Rmult_le_pos; [exact M|left; apply Rinv_0_lt_compat, B]).
    apply Rmult_le_reg_r with (IZR b); [exact B|]. unfold Rdiv. rewrite Rmult_assoc, Rinv_l by lra. lra. }
  assert (H1 : (b <= 2 * (a mod b))%Z -> Rabs (IZR (a / b + 1) - IZR a / IZR b) <= 1 / 2).
  { intros H. apply IZR_le in H. rewrite mult_IZR in H. destruct M as [_ M]. apply IZR_lt in M. rewrite X, plus_IZR.
    replace (IZR (a / b) + 1 - (IZR (a / b) + IZR (a mod b) / IZR b)) with ((IZR b - IZR (a mod b)) / IZR b) by (field; lra).
    rewrite Rabs_pos_eq by (apply Rmult_le_pos; [lra|left; apply Rinv_0_lt_compat, B]).
    apply Rmult_le_reg_r with (IZR b); [exact B|]. unfold Rdiv. rewrite Rmult_assoc, Rinv_l by lra. lra. }
  unfold div_nearest. destruct (Z.compare_spec (2 * (a mod b)) b) as [C|C|C]; [destruct (Z.even (a / b))| |]; try (apply H0; lia); apply H1; lia.
Qed.

Lemma from_secs_near x : dok x -> 0 < d2R x <= 100 ->
  exists n, from_secs_f64 x = Some n /\ Rabs (IZR n - d2R x * 1000000000) <= 1 / 2.
Proof.
  intros [V F] Hx. destruct x as [s|s| |s m e]; try discriminate F.
  - unfold d2R in Hx. cbn in Hx. lra.
  - destruct s.
    { exfalso. unfold d2R, SF2R, F2R in Hx. cbn -[bpow] in Hx. pose proof (bpow_gt_0 radix2 e). assert (IZR (Z.neg m) < 0) by (apply (IZR_lt _ 0); reflexivity). nra. }
    cbn [from_secs_f64]. set (n := if (0 <=? e)%Z then _ else _).
    assert (N : Rabs (IZR n - d2R (S754_finite false m e) * 1000000000) <= 1 / 2).
    { unfold n, d2R, SF2R, F2R. cbn [Fnum Fexp SpecFloat.cond_Zopp]. unfold billion. destruct (Z.leb_spec 0 e) as [H|H].
      - rewrite !mult_IZR. replace (IZR (2 ^ e)) with (bpow radix2 e) by (symmetry; apply (IZR_Zpower radix2 e H)).
        replace (_ - _) with 0 by ring. rewrite Rabs_R0. lra.
      - pose proof (div_nearest_ok (Z.pos m * 1000000000) (2 ^ (- e)) ltac:(apply Z.pow_pos_nonneg; lia)) as D.
        rewrite mult_IZR in D. replace (IZR (2 ^ (- e))) with (bpow radix2 (- e)) in D by (symmetry; apply (IZR_Zpower radix2); lia).
        replace (IZR (Z.pos m) * bpow radix2 e * 1000000000) with (IZR (Z.pos m) * 1000000000 / bpow radix2 (- e)); [exact D|].
        rewrite bpow_opp. field. apply Rgt_not_eq, bpow_gt_0. }
    exists n. split; [|exact N]. destruct (Z.ltb_spec n (2 ^ 64 * billion)) as [H|H]; [reflexivity|]. exfalso.
    apply IZR_le in H. rewrite mult_IZR in H. unfold billion in H. apply Rabs_le_inv in N.
    assert (IZR (2 ^ 64) > 1000) by (change (IZR (2 ^ 64)) with (IZR 18446744073709551616); lra). nra.
Qed.

(** ** The two divisions *)
Lemma inverse_ok x : dok x -> 1 / 1000 <= d2R x <= 1000 ->
  dok (ddiv d1 x) /\ exists e, d2R (ddiv d1 x) = 1 / d2R x * (1 + e) /\ Rabs e <= / 1000000000000000.
Proof.
  intros Hx H. assert (I : 1 / 1000 <= 1 / d2R x <= 1000).
  { unfold Rdiv. rewrite !Rmult_1_l. split; [apply Rinv_le; lra|]. replace 1000 with (/ (1 / 1000)) by lra. apply Rinv_le; lra. }
  destruct (drnd_near (1 / d2R x) ltac:(lra)) as (e & E & He).
  destruct (ddiv_ok d1 x ok1 Hx ltac:(lra)) as [K1 K2].
  - rewrite d1_R, E. apply Rabs_le_inv in He. apply Rlt_trans with 2000; [apply Rabs_def1; nra|]. apply Rlt_le_trans with (bpow radix2 11); [cbn; lra|apply bpow_le; lia].
  - split; [exact K1|]. exists e. rewrite K2, d1_R. split; assumption.
Qed.

Lemma seconds_ok n : (4000000 <= n <= 10000000000)%Z ->
  dok (as_secs_f64 n) /\ exists e, d2R (as_secs_f64 n) = IZR n / 1000000000 * (1 + e) /\ Rabs e <= 3 / 1000000000000000.
Proof.
  intros Hn. unfold as_secs_f64. set (q := (n / billion)%Z). set (r := (n mod billion)%Z).
  assert (E : (n = billion * q + r)%Z) by (apply Z.div_mod; discriminate). assert (Hr : (0 <= r < 1000000000)%Z) by (apply Z.mod_pos_bound; reflexivity).
  assert (Hq : (0 <= q <= 10)%Z) by (unfold billion in E; lia). clearbody q r. unfold billion in *.
  assert (Z : forall z, (Z.abs z <= 2 ^ 53)%Z -> dok (d_of_Z z) /\ d2R (d_of_Z z) = IZR z).
  { intros z Hz. destruct (d_of_Z_exact z Hz). split; [split; [apply d_of_Z_valid|]|]; assumption. }
  destruct (Z q ltac:(lia)) as (Q1 & Q2). destruct (Z r ltac:(lia)) as (R1 & R2). destruct (Z 1000000000%Z ltac:(lia)) as (B1 & B2).
  assert (Big : 100 < dmaxR) by (apply Rlt_le_trans with (bpow radix2 7); [cbn; lra|apply bpow_le; lia]).
  assert (Hq' : 0 <= IZR q <= 10) by (split; apply IZR_le; lia). assert (Hr' : 0 <= IZR r <= 1000000000) by (split; apply IZR_le; lia).
  assert (En : IZR n = 1000000000 * IZR q + IZR r) by (rewrite E, plus_IZR, mult_IZR; reflexivity).
  assert (Hn' : 4000000 <= IZR n) by (apply IZR_le; lia).
  (* the fraction *)
  assert (Fr : exists e, drnd (IZR r / 1000000000) = IZR r / 1000000000 * (1 + e) /\ Rabs e <= / 1000000000000000).
  { destruct (Z.eq_dec r 0) as [->|Nz].
    - exists 0. unfold Rdiv. rewrite !Rmult_0_l, drnd_0, Rabs_R0. split; [ring|lra].
    - apply drnd_near. assert (1 <= IZR r) by (apply (IZR_le 1); lia). lra. }
  destruct Fr as (e1 & F1 & He1). apply Rabs_le_inv in He1.
  assert (F0 : 0 <= IZR r / 1000000000 * (1 + e1) <= 2) by nra.
  destruct (ddiv_ok _ _ R1 B1) as [D1 D2]; [rewrite B2; lra| |].
  { rewrite R2, B2, F1. apply Rle_lt_trans with 2; [apply Rabs_le; lra|lra]. }
  rewrite R2, B2, F1 in D2.
  destruct (drnd_near (IZR q + IZR r / 1000000000 * (1 + e1)) ltac:(nra)) as (e2 & F2 & He2). apply Rabs_le_inv in He2.
  assert (A : Rabs (drnd (d2R (d_of_Z q) + d2R (ddiv (d_of_Z r) (d_of_Z 1000000000)))) < dmaxR).
  { rewrite Q2, D2, F2. apply Rle_lt_trans with 100; [apply Rabs_le; nra|lra]. }
  destruct (dadd_R _ _ (proj1 Q1) (proj1 D1) (proj2 Q1) (proj2 D1)) as [A1 _]. destruct (A1 A) as [A2 A3].
  rewrite Q2, D2, F2 in A2. split; [split; [apply dadd_valid; [apply Q1|apply D1]|exact A3]|].
  assert (P : 4 / 1000 <= IZR n / 1000000000) by lra. assert (S : IZR n / 1000000000 = IZR q + IZR r / 1000000000) by lra.
  assert (X0 : 0 <= IZR r / 1000000000) by lra.
  exists (((IZR q + IZR r / 1000000000 * (1 + e1)) * (1 + e2)) / (IZR n / 1000000000) - 1). split; [rewrite A2; field; lra|].
  set (s := IZR n / 1000000000) in *. set (x := IZR r / 1000000000) in *. clearbody s x.
  replace ((IZR q + x * (1 + e1)) * (1 + e2) / s - 1) with (((IZR q + x * (1 + e1)) * (1 + e2) - s) / s) by (field; lra).
  unfold Rdiv. rewrite Rabs_mult, Rabs_inv, (Rabs_pos_eq s) by lra. apply Rmult_le_reg_r with s; [lra|]. rewrite Rmult_assoc, Rinv_l, Rmult_1_r by lra.
  assert (X : 0 <= x <= s) by lra. replace ((IZR q + x * (1 + e1)) * (1 + e2) - s) with (x * e1 + s * e2 + x * e1 * e2) by (rewrite S; ring).
  apply Rabs_le. clear - He1 He2 X P.
  assert (- (s * / 1000000000000000) <= x * e1 <= s * / 1000000000000000) by nra.
  assert (- (s * / 1000000000000000) <= s * e2 <= s * / 1000000000000000) by nra.
  assert (- (s * / 1000000000000000) <= x * e1 * e2 <= s * / 1000000000000000) by nra. lra.
Qed.

Lemma slowest_ok : dok slowest /\ 1 / 10 <= d2R slowest <= 1 / 10 * (1 + / 1000000000000000).
Proof.
  split; [split; reflexivity|]. unfold d2R, slowest. set (x := ddiv (d_of_Z 1) (d_of_Z 10)). vm_compute in x. subst x. unfold SF2R, F2R. cbn. lra.
Qed.
Lemma fastest_ok : dok fastest /\ d2R fastest = 250.
Proof. destruct (d_of_Z_exact 250 ltac:(lia)) as [E F]. split; [split; [apply d_of_Z_valid|exact F]|exact E]. Qed.

(** What clamping does to a number close to the offered range. *)
Lemma clamp_ok x : dok x -> dok (clamp x) /\ d2R (clamp x) = Rmax (d2R slowest) (Rmin (d2R x) 250).
Proof.
  intros Hx. destruct slowest_ok as [S1 S2]. destruct fastest_ok as [T1 T2]. unfold clamp.
  destruct (dltb x slowest) eqn:E1; [|destruct (dltb fastest x) eqn:E2].
  - apply dltb_R in E1; try (apply Hx || apply S1). split; [exact S1|]. rewrite Rmax_left; [reflexivity|]. eapply Rle_trans; [apply Rmin_l|lra].
  - split; [exact T1|]. apply dltb_R in E2; try (apply Hx || apply T1). rewrite T2 in *. rewrite Rmin_right by lra. rewrite Rmax_right by lra. reflexivity.
  - assert (G1 : d2R slowest <= d2R x). { apply Rnot_lt_le. intros H. apply dltb_R in H; try (apply Hx || apply S1). congruence. }
    assert (G2 : d2R x <= 250). { apply Rnot_lt_le. rewrite <- T2. intros H. apply dltb_R in H; try (apply Hx || apply T1). congruence. }
    split; [exact Hx|]. rewrite Rmin_left by exact G2. rewrite Rmax_right by exact G1. reflexivity.
Qed.

(** From a value of the slider to the time it sets. *)
Lemma set_near v : dok v -> 1 / 11 <= d2R v <= 300 ->
  exists n, set_timestep_seconds (ddiv d1 v) = Some n /\ Rabs (IZR n - 1000000000 / d2R v) <= 1 / 2 + 2 / 10000.
Proof.
  intros Hv R. destruct (inverse_ok v Hv ltac:(lra)) as (K & e & E & He). apply Rabs_le_inv in He.
  assert (I : 1 / 300 <= 1 / d2R v <= 11).
  { unfold Rdiv. rewrite !Rmult_1_l. split; [apply Rinv_le; lra|]. replace 11 with (/ (1 / 11)) by lra. apply Rinv_le; lra. }
  replace (1000000000 / d2R v) with (1 / d2R v * 1000000000) by (field; lra). set (i := 1 / d2R v) in *. clearbody i.
  destruct (from_secs_near _ K) as (n & N & Hn); [rewrite E; nra|]. rewrite E in Hn. apply Rabs_le_inv in Hn.
  assert (D : - (1 / 10000) <= i * e * 1000000000 <= 1 / 10000) by nra. exists n. split.
  - unfold set_timestep_seconds. rewrite N. destruct n; try reflexivity. exfalso. nra.
  - apply Rabs_le. nra.
Qed.

Lemma speed_left n b : (4000000 <= n <= 10000000000)%Z -> speed_frame n (Left b) = Some n.
Proof.
  intros Hn. unfold speed_frame. destruct (seconds_ok n Hn) as (K & e1 & E1 & He1). apply Rabs_le_inv in He1.
  assert (HS : 4 / 1000 <= IZR n / 1000000000 <= 10).
  { assert (4000000 <= IZR n <= 10000000000) by (split; apply IZR_le; lia). lra. }
  assert (En : IZR n = IZR n / 1000000000 * 1000000000) by field. set (S := IZR n / 1000000000) in *. clearbody S.
  destruct (inverse_ok _ K ltac:(rewrite E1; nra)) as (Kv & e2 & E2 & He2). apply Rabs_le_inv in He2. fold (steps_per_second n) in Kv, E2.
  set (v := steps_per_second n) in *. clearbody v. rewrite E1 in E2.
  assert (VS : d2R v * S * (1 + e1) = 1 + e2) by (rewrite E2; field; nra).
  assert (A : 1 - 5 / 1000000000000000 <= d2R v * S <= 1 + 5 / 1000000000000000) by nra.
  assert (B : dok (slide v (Left b)) /\ 1 - 5 / 1000000000000000 <= d2R (slide v (Left b)) * S <= 1 + 5 / 1000000000000000).
  { destruct b; cbn [slide]; [|split; assumption]. destruct (clamp_ok v Kv) as [C1 C2]. split; [exact C1|]. rewrite C2.
    destruct slowest_ok as [_ L]. unfold Rmax, Rmin. destruct (Rle_dec (d2R v) 250); destruct (Rle_dec (d2R slowest) _); nra. }
  set (x := slide v (Left b)) in *. clearbody x. destruct B as [B1 B2].
  assert (X : 1 / 11 <= d2R x <= 300) by nra.
  destruct (set_near x B1 X) as (m & M & Hm). rewrite M. f_equal. apply Rabs_le_inv in Hm.
  assert (Q : - (1 / 1000) <= 1000000000 / d2R x - IZR n <= 1 / 1000).
  { rewrite En. assert (G : 1000000000 / d2R x * d2R x = 1000000000) by (field; lra). set (y := 1000000000 / d2R x) in *. clearbody y.
    assert (0 < y) by nra. assert (y * (d2R x * S) = 1000000000 * S) by nra. assert (y <= 11000000000) by nra. nra. }
  assert (- (1) < IZR (m - n) < 1) by (rewrite minus_IZR; lra). destruct H as [H1 H2]. apply (lt_IZR (-1)) in H1. apply (lt_IZR _ 1) in H2. lia.
Qed.

Lemma spaced_range n v : 1 / 10 <= v <= 250 -> spaced n v -> (4000000 <= n <= 10000000000)%Z.
Proof.
  intros Hv H. unfold spaced in H. apply Rabs_def2 in H.
  assert (G : 1000000000 / v * v = 1000000000) by (field; lra). set (y := 1000000000 / v) in *. clearbody y.
  assert (B : 4000000 <= y <= 10000000000) by nra. assert (H1 : 3999999 < IZR n) by lra. assert (H2 : IZR n < 10000000001) by lra.
  apply lt_IZR in H1, H2. lia.
Qed.

(** ** C133 *)
(** Choosing a value that the slider offers sets the time between two steps to that value, up
    to one nanosecond, whatever it was. *)
Theorem C133_chosen : forall n v, offered v -> exists n', speed_frame n (Chosen v) = Some n' /\ spaced n' (d2R v).
Proof.
  intros n v [Hv R]. unfold speed_frame. cbn [slide]. destruct (clamp_ok v Hv) as [C1 C2]. destruct slowest_ok as [_ L].
  assert (D : d2R v <= d2R (clamp v) <= d2R v * (1 + / 1000000000000000)).
  { rewrite C2. unfold Rmax, Rmin. destruct (Rle_dec (d2R v) 250); destruct (Rle_dec (d2R slowest) _); lra. }
  destruct (set_near (clamp v) C1 ltac:(lra)) as (m & M & Hm). exists m. split; [exact M|]. unfold spaced. apply Rabs_le_inv in Hm.
  assert (G1 : 1000000000 / d2R v * d2R v = 1000000000) by (field; lra). assert (G2 : 1000000000 / d2R (clamp v) * d2R (clamp v) = 1000000000) by (field; lra).
  set (y := 1000000000 / d2R v) in *. set (z := 1000000000 / d2R (clamp v)) in *. clearbody y z.
  assert (0 < y <= 10000000000) by nra. assert (0 < z <= y) by nra. assert (y - z <= 1 / 1000) by nra. apply Rabs_def1; lra.
Qed.
Print Assumptions C133_chosen.

(** A slider that is left alone never changes the time, however many frames are drawn:
    nothing drifts although every frame divides twice and rounds to nanoseconds. *)
Theorem C133_left : forall n ts, (4000000 <= n <= 10000000000)%Z -> last_chosen ts = None -> speed_frames n ts = Some n.
Proof.
  intros n ts Hn. induction ts as [|t ts IH]; [reflexivity|]. cbn [last_chosen speed_frames]. destruct (last_chosen ts); [discriminate|].
  destruct t as [b|v]; [|discriminate]. intros _. rewrite (speed_left n b Hn). apply IH. reflexivity.
Qed.
Print Assumptions C133_left.

(** So in every session the panel never panics, and the time between two steps is the one
    last chosen, or that of 64 steps per second. *)
Theorem C133_session : forall ts, Forall (fun t => match t with Chosen v => offered v | Left _ => True end) ts ->
  exists n, speed_frames default_timestep ts = Some n /\
    match last_chosen ts with
    | Some v => spaced n (d2R v)
    | None => IZR n = 1000000000 / 64
    end.
Proof.
  assert (G : forall ts n, (4000000 <= n <= 10000000000)%Z -> Forall (fun t => match t with Chosen v => offered v | Left _ => True end) ts ->
    exists n', speed_frames n ts = Some n' /\ match last_chosen ts with Some v => spaced n' (d2R v) | None => n' = n end).
  { induction ts as [|t ts IH]; intros n Hn F; [exists n; split; reflexivity|]. inversion_clear F as [|? ? Ht F']. cbn [speed_frames last_chosen].
    destruct t as [b|v].
    - rewrite (speed_left n b Hn). destruct (IH n Hn F') as (n' & E & H). exists n'. split; [exact E|]. destruct (last_chosen ts); exact H.
    - destruct (C133_chosen n v Ht) as (m & M & S). rewrite M. destruct Ht as [_ Ht]. destruct (IH m (spaced_range _ _ Ht S) F') as (n' & E & H).
      exists n'. split; [exact E|]. destruct (last_chosen ts); [exact H|]. subst n'. exact S. }
  intros ts F. destruct (G ts default_timestep ltac:(unfold default_timestep; lia) F) as (n & E & H). exists n. split; [exact E|].
  destruct (last_chosen ts); [exact H|]. subst n. unfold default_timestep. lra.
Qed.
Print Assumptions C133_session.

(** And the slider goes on showing the value chosen, up to a ten-thousandth. *)
Theorem C133_shown : forall n v, offered v -> spaced n (d2R v) -> Rabs (d2R (steps_per_second n) - d2R v) <= 1 / 10000.
Proof.
  intros n v [Hv R] S. pose proof (spaced_range _ _ R S) as Hn. unfold spaced in S. apply Rabs_def2 in S.
  destruct (seconds_ok n Hn) as (K & e1 & E1 & He1). apply Rabs_le_inv in He1.
  assert (N : 4000000 <= IZR n <= 10000000000) by (split; apply IZR_le; lia).
  destruct (inverse_ok _ K ltac:(rewrite E1; nra)) as (Kv & e2 & E2 & He2). apply Rabs_le_inv in He2. fold (steps_per_second n) in Kv, E2.
  assert (G : 1000000000 / d2R v * d2R v = 1000000000) by (field; lra). set (y := 1000000000 / d2R v) in *. clearbody y.
  set (x := d2R (steps_per_second n)) in *. clearbody x. rewrite E1 in E2.
  assert (X : x * IZR n * (1 + e1) = 1000000000 * (1 + e2)) by (rewrite E2; field; nra).
  set (m := IZR n) in *. clearbody m. set (w := d2R v) in *. clearbody w. clear -S N G X R He1 He2.
  assert (P : 1000000000 - 1 / 100000 <= x * m <= 1000000000 + 1 / 100000) by nra.
  assert (Q : w * m = 1000000000 + w * (m - y)) by nra. assert (T : - (250) <= w * (m - y) <= 250) by nra.
  assert (U : - (251) <= (x - w) * m <= 251) by nra. apply Rabs_le. nra.
Qed.
Print Assumptions C133_shown.

(** Non-vacuity: the default time is in the range, and 30 steps per second are offered; they
    set 33333333 nanoseconds, which stay. *)
Example C133_concrete :
  (4000000 <= default_timestep <= 10000000000)%Z /\ offered (d_of_Z 30) /\
  speed_frames default_timestep [Left true; Chosen (d_of_Z 30); Left false; Left true] = Some 33333333%Z.
Proof.
  split; [unfold default_timestep; lia|]. split; [|reflexivity].
  destruct (d_of_Z_exact 30 ltac:(lia)) as [E F]. split; [split; [apply d_of_Z_valid|exact F]|]. rewrite E. lra.
Qed.
