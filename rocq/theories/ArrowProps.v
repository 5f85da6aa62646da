(** * Property theorems: arrows (C139) *)
From Coq Require Import Reals List Lra Psatz.
From Verif Require Import ArrowModel ArrowSpec.
Import ListNotations.
Open Scope R_scope.

(** [atan2] is the angle of its vector. *)
Lemma atan2_polar y x : norm (x, y) * cos (atan2 y x) = x /\ norm (x, y) * sin (atan2 y x) = y.
Proof.
  unfold norm, atan2. cbn [fst snd].
  assert (Q : forall s, s = 1 \/ s = -1 -> 0 < s * x ->
     sqrt (x * x + y * y) * (s * cos (atan (y / x))) = x /\ sqrt (x * x + y * y) * (s * sin (atan (y / x))) = y).
  { intros s Hs Hx. assert (X0 : x <> 0) by (intros ->; lra).
    rewrite cos_atan, sin_atan. 
    assert (E : sqrt (x * x + y * y) = s * x * sqrt (1 + (y / x)²)).
    { replace (x * x + y * y) with ((s * x)² * (1 + (y / x)²)).
      - rewrite sqrt_mult_alt by apply Rle_0_sqr. rewrite sqrt_Rsqr by lra. reflexivity.
      - unfold Rsqr. destruct Hs as [-> | ->]; field; exact X0. }
    rewrite E. assert (P : sqrt (1 + (y / x)²) <> 0).
    { apply Rgt_not_eq, sqrt_lt_R0. pose proof (Rle_0_sqr (y / x)). lra. }
    destruct Hs as [-> | ->]; split; field; auto. }
  destruct (Rlt_dec 0 x) as [H|H].
  - destruct (Q 1 (or_introl eq_refl)) as [A B]; [lra|]. rewrite !Rmult_1_l in A, B. split; assumption.
  - destruct (Rlt_dec x 0) as [H0|H0].
    + destruct (Q (-1) (or_intror eq_refl)) as [A B]; [lra|].
      assert (C : forall t, cos (t + PI) = -1 * cos t) by (intros t; rewrite neg_cos; ring).
      assert (D : forall t, sin (t + PI) = -1 * sin t) by (intros t; rewrite neg_sin; ring).
      destruct (Rle_dec 0 y) as [Y|Y]; [rewrite C, D; split; assumption|].
      assert (C' : forall t, cos (t - PI) = -1 * cos t) by (intros t; replace (cos t) with (cos (t - PI + PI)) by (f_equal; ring); rewrite C; ring).
      assert (D' : forall t, sin (t - PI) = -1 * sin t) by (intros t; replace (sin t) with (sin (t - PI + PI)) by (f_equal; ring); rewrite D; ring).
      rewrite C', D'. split; assumption.
    + assert (x = 0) by lra. subst x. clear Q. replace (0 * 0 + y * y) with (y²) by (unfold Rsqr; ring).
      destruct (Rlt_dec 0 y) as [Y|Y].
      * rewrite cos_PI2, sin_PI2, sqrt_Rsqr by lra. lra.
      * destruct (Rlt_dec y 0) as [Y0|Y0].
        { rewrite cos_neg, sin_neg, cos_PI2, sin_PI2. rewrite Rsqr_neg, sqrt_Rsqr by lra. lra. }
        assert (y = 0) by lra. subst y. rewrite Rsqr_0, sqrt_0. lra.
Qed.

Lemma norm_pos p q : p <> q -> 0 < norm (minus p q).
Proof.
  destruct p as [a b], q as [c d]. intros H. unfold norm, minus. cbn [fst snd]. apply sqrt_lt_R0.
  destruct (Req_dec a c) as [->|Hac]; [destruct (Req_dec b d) as [->|Hbd]; [congruence|]|].
  - pose proof (Rsqr_pos_lt (b - d) (Rminus_eq_contra _ _ Hbd)) as X. pose proof (Rle_0_sqr (c - c)) as Y. unfold Rsqr in *. lra.
  - pose proof (Rsqr_pos_lt (a - c) (Rminus_eq_contra _ _ Hac)) as X. pose proof (Rle_0_sqr (b - d)) as Y. unfold Rsqr in *. lra.
Qed.

(** Drawn are the shaft from the first end to the second and, from the second end and back,
    two lines of the length given: the direction back along the shaft, turned by the angle
    given to either side. *)
Theorem C139_arrow :
  forall a, a_start a <> a_end a ->
  exists h1 h2,
    drawn (0, 0) (add_geometry a) = [(a_start a, a_end a); (a_end a, h1); (h1, a_end a); (a_end a, h2)] /\
    let back := minus (a_start a) (a_end a) in
    minus h1 (a_end a) = scale (a_length a / norm back) (turned (- a_angle a) back) /\
    minus h2 (a_end a) = scale (a_length a / norm back) (turned (a_angle a) back) /\
    norm (minus h1 (a_end a)) = Rabs (a_length a) /\ norm (minus h2 (a_end a)) = Rabs (a_length a).
Proof.
  intros [[sx sy] [ex ey] len ang] H. cbn [a_start a_end a_length a_angle] in *.
  eexists _, _. split; [reflexivity|]. cbv zeta. cbn [a_length a_angle].
  pose proof (norm_pos _ _ H) as D. destruct (atan2_polar (ey - sy) (ex - sx)) as [PX PY].
  assert (N : norm (minus (sx, sy) (ex, ey)) = norm (ex - sx, ey - sy)) by (unfold norm, minus; cbn [fst snd]; f_equal; ring).
  rewrite N in *. set (d := norm (ex - sx, ey - sy)) in *. set (t := atan2 (ey - sy) (ex - sx)) in *.
  assert (D0 : d <> 0) by lra.
  assert (U : forall w, norm (minus (ex - len * cos w, ey - len * sin w) (ex, ey)) = Rabs len).
  { intros w. unfold norm, minus. cbn [fst snd]. rewrite <- sqrt_Rsqr_abs. f_equal.
    replace ((ex - len * cos w - ex) * (ex - len * cos w - ex) + (ey - len * sin w - ey) * (ey - len * sin w - ey)) with (len² * ((sin w)² + (cos w)²)) by (unfold Rsqr; ring).
    rewrite sin2_cos2. ring. }
  split; [|split; [|split; apply U]]; unfold minus, scale, turned; cbn [fst snd]; replace (sx - ex) with (- (d * cos t)) by (rewrite PX; ring); replace (sy - ey) with (- (d * sin t)) by (rewrite PY; ring);
    rewrite ?cos_neg, ?sin_neg, ?cos_minus, ?sin_minus, ?cos_plus, ?sin_plus; f_equal; field; exact D0.
Qed.
Print Assumptions C139_arrow.

(** An arrow from a point to itself is drawn as if it came from the left. *)
Theorem C139_point :
  forall p len ang,
  exists h1 h2, add_geometry (Arrow p p len ang) = [Begin p; LineTo p; LineTo h1; LineTo p; LineTo h2] /\
    minus h1 p = scale len (turned (- ang) (-1, 0)) /\ minus h2 p = scale len (turned ang (-1, 0)).
Proof.
  intros [x y] len ang. eexists _, _. split; [reflexivity|].
  assert (Z : atan2 (y - y) (x - x) = 0).
  { unfold atan2. rewrite !Rminus_eq_0. destruct (Rlt_dec 0 0); [lra|reflexivity]. }
  rewrite Z. unfold minus, scale, turned. cbn [fst snd a_length a_angle]. rewrite Rminus_0_l, Rplus_0_l, !cos_neg, !sin_neg. split; f_equal; ring.
Qed.
Print Assumptions C139_point.

(** An arrow that points down, with a head that opens at right angles. *)
Example C139_concrete :
  add_geometry (Arrow (3, 5) (3, 1) 2 (PI / 2)) = [Begin (3, 5); LineTo (3, 1); LineTo (5, 1); LineTo (3, 1); LineTo (1, 1)] /\
  a_start (Arrow (3, 5) (3, 1) 2 (PI / 2)) <> a_end (Arrow (3, 5) (3, 1) 2 (PI / 2)).
Proof.
  split; [|cbn; intros E; injection E as E; lra]. unfold add_geometry. cbn [a_start a_end a_length a_angle].
  assert (Z : atan2 (1 - 5) (3 - 3) = - (PI / 2)).
  { unfold atan2. destruct (Rlt_dec 0 (3 - 3)); [lra|]. destruct (Rlt_dec (3 - 3) 0); [lra|]. destruct (Rlt_dec 0 (1 - 5)); [lra|]. destruct (Rlt_dec (1 - 5) 0); [reflexivity|lra]. }
  rewrite Z. replace (- (PI / 2) - PI / 2) with (- PI) by field. replace (- (PI / 2) + PI / 2) with 0 by ring.
  rewrite cos_neg, sin_neg, cos_PI, sin_PI, cos_0, sin_0. repeat (f_equal; try lra).
Qed.
