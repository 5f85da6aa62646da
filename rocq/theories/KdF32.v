(** * Kdtree in f32: sizes for which nothing is rounded *)
From Coq Require Import List Bool ZArith NArith Arith Reals Lia Lra Psatz.
From Verif Require Import F32 F32Real F32Ops Grid ObjModel FieldModel FieldReal FieldF32 KdModel KdSpec KdProofs KdReal.
From Flocq Require Import Core IEEE754.BinarySingleNaN.
Import ListNotations.
Local Open Scope R_scope.

#[local] Existing Instance Hprec.
#[local] Existing Instance Hmax.
Notation rectF := (rect FA).

(** [x] is a multiple of [2^g] of absolute value at most [2^(g+24)]. *)
Definition multiple (g : Z) (v : R) : Prop := exists n : Z, v = IZR n * bpow radix2 g.

Section Exact.
Variable g : Z.
Hypothesis Hg : (-149 <= g <= 103)%Z.
Notation big := (bpow radix2 (g + 24)).

Lemma multiple_format v : multiple g v -> Rabs v <= big -> rnd v = v /\ Rabs v < fmax.
Proof.
  intros [n ->] B. split.
  - apply rnd_exact, format_scaled; [|lia]. apply le_IZR. rewrite abs_IZR.
    apply Rmult_le_reg_r with (bpow radix2 g); [apply bpow_gt_0|].
    rewrite Rabs_mult, (Rabs_right (bpow radix2 g)) in B by (apply Rle_ge, bpow_ge_0).
    eapply Rle_trans; [exact B|]. rewrite bpow_plus. rewrite Rmult_comm. apply Rmult_le_compat_r; [apply bpow_ge_0|].
    apply Req_le. reflexivity.
  - eapply Rle_lt_trans; [exact B|]. apply bpow_lt. lia.
Qed.

Lemma multiple_add a b : multiple g a -> multiple g b -> multiple g (a + b).
Proof. intros [n ->] [m ->]. exists (n + m)%Z. rewrite plus_IZR. ring. Qed.
Lemma multiple_sub a b : multiple g a -> multiple g b -> multiple g (a - b).
Proof. intros [n ->] [m ->]. exists (n - m)%Z. rewrite minus_IZR. ring. Qed.

Lemma exact_add x y : fok x -> fok y -> multiple g (f2R x) -> multiple g (f2R y) -> Rabs (f2R x + f2R y) <= big ->
  fok (fadd x y) /\ f2R (fadd x y) = f2R x + f2R y.
Proof.
  intros Kx Ky Mx My B. destruct (multiple_format _ (multiple_add _ _ Mx My) B) as [E L].
  destruct (fadd_ok x y Kx Ky) as [K R]; [rewrite E; exact L|]. split; [exact K|]. rewrite R. exact E.
Qed.
Lemma exact_sub x y : fok x -> fok y -> multiple g (f2R x) -> multiple g (f2R y) -> Rabs (f2R x - f2R y) <= big ->
  fok (fsub x y) /\ f2R (fsub x y) = f2R x - f2R y.
Proof.
  intros Kx Ky Mx My B. destruct (multiple_format _ (multiple_sub _ _ Mx My) B) as [E L].
  destruct (fsub_ok x y Kx Ky) as [K R]; [rewrite E; exact L|]. split; [exact K|]. rewrite R. exact E.
Qed.
Lemma exact_half x : fok x -> multiple (g + 1) (f2R x) -> Rabs (f2R x) <= big ->
  fok (fdiv x (f_of_Z 2)) /\ f2R (fdiv x (f_of_Z 2)) = f2R x / 2.
Proof.
  intros Kx [n E] B. assert (M : multiple g (f2R x / 2)).
  { exists n. rewrite E, bpow_plus. change (bpow radix2 1) with 2. field. }
  assert (B' : Rabs (f2R x / 2) <= big).
  { unfold Rdiv. rewrite Rabs_mult, (Rabs_right (/ 2)) by lra. pose proof (Rabs_pos (f2R x)). lra. }
  destruct (multiple_format _ M B') as [E' L].
  destruct (fdiv_ok x (f_of_Z 2) Kx (fok_of_Z 2 ltac:(lia))) as [K R]; [rewrite f2_R; lra|rewrite f2_R, E'; exact L|].
  split; [exact K|]. rewrite R, f2_R. exact E'.
Qed.
End Exact.

Lemma multiple_weaken g i v : (0 <= i)%Z -> multiple (g + i) v -> multiple g v.
Proof.
  intros Hi [n ->]. exists (n * 2 ^ i)%Z. rewrite mult_IZR, bpow_plus. change 2%Z with (radix_val radix2). rewrite (IZR_Zpower radix2 i Hi). ring.
Qed.

Definition same (f : f32) (v : R) : Prop := fok f /\ f2R f = v.

(** A rectangle of floats and the same one of reals, on the grid of [2^(g + i)]. *)
Definition rel (g i : Z) (rf : rectF) (r : rectR) : Prop :=
  same (r_x rf) (r_x r) /\ same (r_y rf) (r_y r) /\ same (r_w rf) (r_w r) /\ same (r_h rf) (r_h r) /\
  multiple (g + i) (r_x r) /\ multiple (g + i) (r_y r) /\ multiple (g + i) (r_w r) /\ multiple (g + i) (r_h r) /\
  0 <= r_x r /\ 0 <= r_y r /\ 0 <= r_w r /\ 0 <= r_h r /\
  r_x r + r_w r <= bpow radix2 (g + 24) /\ r_y r + r_h r <= bpow radix2 (g + 24).

Lemma rel_weaken g i i' rf r : (i' <= i)%Z -> rel g i rf r -> rel g i' rf r.
Proof.
  intros H. unfold rel. replace (g + i)%Z with (g + i' + (i - i'))%Z by lia.
  intros (A1 & A2 & A3 & A4 & M1 & M2 & M3 & M4 & B). repeat split; try apply A1; try apply A2; try apply A3; try apply A4; try apply B;
    eapply multiple_weaken; try eassumption; lia.
Qed.

Lemma split_rel g i a rf r : (-149 <= g <= 103)%Z -> (0 <= i)%Z -> rel g (i + 1) rf r ->
  rel g i (fst (split FA a rf)) (fst (split RA a r)) /\ rel g i (snd (split FA a rf)) (snd (split RA a r)).
Proof.
  intros Hg Hi H. assert (W := rel_weaken g (i + 1) i rf r ltac:(lia) H). assert (W1 := rel_weaken g (i + 1) 1 rf r ltac:(lia) H).
  assert (W0 := rel_weaken g (i + 1) 0 rf r ltac:(lia) H).
  destruct rf as [fx fy fw fh], r as [rx ry rw rh]. unfold rel in *. cbn [r_x r_y r_w r_h num FA RA] in *.
  destruct H as ([Kx Ex] & [Ky Ey] & [Kw Ew] & [Kh Eh] & Mx & My & Mw & Mh & P).
  destruct W as (_ & _ & _ & _ & Nx & Ny & Nw & Nh & _). destruct W1 as (_ & _ & _ & _ & Ox & Oy & Ow & Oh & _).
  destruct W0 as (_ & _ & _ & _ & Qx & Qy & Qw & Qh & _). rewrite !Z.add_0_r in *.
  assert (Half : forall v, multiple (g + (i + 1)) v -> multiple (g + i) (v / 2)).
  { intros v [n ->]. exists n. replace (g + (i + 1))%Z with (g + i + 1)%Z by lia. rewrite (bpow_plus radix2 (g + i) 1). change (bpow radix2 1) with 2. field. }
  assert (Half0 : forall v, multiple (g + 1) v -> multiple g (v / 2)).
  { intros v [n ->]. exists n. rewrite (bpow_plus radix2 g 1). change (bpow radix2 1) with 2. field. }
  subst rx ry rw rh.
  destruct a; unfold split, half; cbn [r_x r_y r_w r_h num FA RA add div of_int fst snd].
  - destruct (exact_half g Hg fw Kw Ow) as [K E]; [rewrite Rabs_right; lra|].
    destruct (exact_add g Hg fx (fdiv fw (f_of_Z 2)) Kx K Qx) as [K2 E2]; [rewrite E; apply Half0; exact Ow|rewrite E, Rabs_right; lra|].
    rewrite E in E2.
    unfold same; repeat match goal with |- _ /\ _ => split end; try assumption; try lra; try (apply Half; assumption).
    apply (multiple_add (g + i)); [assumption|apply Half; assumption].
  - destruct (exact_half g Hg fh Kh Oh) as [K E]; [rewrite Rabs_right; lra|].
    destruct (exact_add g Hg fy (fdiv fh (f_of_Z 2)) Ky K Qy) as [K2 E2]; [rewrite E; apply Half0; exact Oh|rewrite E, Rabs_right; lra|].
    rewrite E in E2.
    unfold same; repeat match goal with |- _ /\ _ => split end; try assumption; try lra; try (apply Half; assumption).
    apply (multiple_add (g + i)); [assumption|apply Half; assumption].
Qed.

Lemma refine_rel g i a m lf l : (-149 <= g <= 103)%Z -> (0 <= i)%Z -> Forall2 (rel g (i + 1)) lf l ->
  Forall2 (rel g i) (refine FA m a lf) (refine RA m a l).
Proof.
  intros Hg Hi H. revert m. induction H as [|rf r lf l H F IH]; intros [|m]; cbn [refine]; try constructor.
  - apply (rel_weaken g (i + 1)); [lia|exact H].
  - specialize (IH 0%nat). destruct lf, l; cbn [refine] in IH; exact IH.
  - apply split_rel; assumption.
  - constructor; [apply split_rel; assumption|]. apply IH.
Qed.

Lemma F2_len {X Y} (P : X -> Y -> Prop) l l' : Forall2 P l l' -> length l = length l'.
Proof. induction 1; cbn; congruence. Qed.

Lemma loop_rel g k p : (-149 <= g <= 103)%Z -> (p <= 2 ^ k)%nat -> forall fuel a j lf l, Forall2 (rel g (Z.of_nat k - Z.of_nat j)) lf l ->
  length l = (2 ^ j)%nat -> (j <= k)%nat -> (p - length l <= fuel)%nat ->
  exists lf' l', split_loop FA fuel a p (length l) lf = Some lf' /\ split_loop RA fuel a p (length l) l = Some l' /\ Forall2 (rel g 0) lf' l'.
Proof.
  intros Hg Hp. assert (W0 : forall j lf l, (j <= k)%nat -> Forall2 (rel g (Z.of_nat k - Z.of_nat j)) lf l -> Forall2 (rel g 0) lf l).
  { intros j lf l Hj H. induction H; constructor; [|assumption]. eapply rel_weaken; [|exact H]. lia. }
  induction fuel as [|fuel IH]; intros a j lf l H L Hj Hf; cbn [split_loop]; destruct (Nat.ltb_spec (length l) p) as [C|C]; try lia.
  - exists lf, l. eauto.
  - assert (Hjk : (j < k)%nat).
    { destruct (Nat.lt_ge_cases j k) as [|B]; [assumption|]. assert (j = k) by lia. subst j. lia. }
    pose proof (F2_len _ _ _ H) as LL.
    pose proof (split_pass_eq FA a p (length lf) 0 (length l) [] lf eq_refl (le_n _)) as SF. cbn [app] in SF. rewrite SF. clear SF.
    pose proof (split_pass_eq RA a p (length l) 0 (length l) [] l eq_refl (le_n _)) as SR. cbn [app] in SR. rewrite SR. clear SR.
    rewrite LL. 
    assert (R : Forall2 (rel g (Z.of_nat k - Z.of_nat (S j))) (refine FA (Nat.min (length l) (p - length l)) a lf) (refine RA (Nat.min (length l) (p - length l)) a l)).
    { apply refine_rel; [exact Hg|lia|]. replace (Z.of_nat k - Z.of_nat (S j) + 1)%Z with (Z.of_nat k - Z.of_nat j)%Z by lia. exact H. }
    pose proof (refine_length RA (Nat.min (length l) (p - length l)) a l ltac:(lia)) as RL.
    assert (1 <= length l)%nat by (rewrite L; pose proof (Nat.pow_nonzero 2 j); lia).
    destruct (Nat.le_gt_cases (p - length l) (length l)) as [B|B].
    + rewrite Nat.min_r in * by lia. eexists _, _. 
      assert (E : (length l + (p - length l) = p)%nat) by lia. rewrite E in *.
      destruct fuel; cbn [split_loop]; rewrite Nat.ltb_irrefl; (split; [reflexivity|]); (split; [reflexivity|]); apply (W0 (S j)); assumption.
    + rewrite Nat.min_l in * by lia. rewrite <- RL. apply (IH (other_axis a) (S j)); try assumption; [|lia].
      rewrite RL, L. cbn [Nat.pow]. lia.
  - exists lf, l. eauto.
Qed.

Lemma subdivide_rel g k p rf r : (-149 <= g <= 103)%Z -> (2 <= p <= 2 ^ k)%nat -> rel g (Z.of_nat k) rf r ->
  exists lf l, subdivide FA p rf = Some lf /\ subdivide RA p r = Some l /\ Forall2 (rel g 0) lf l.
Proof.
  intros Hg Hp H. unfold subdivide. cbv zeta.
  assert (Hk : (1 <= k)%nat) by (destruct k; [cbn in Hp; lia|lia]).
  apply (loop_rel g k p Hg ltac:(lia) p Horizontal 1 [fst (split FA Vertical rf); snd (split FA Vertical rf)] [fst (split RA Vertical r); snd (split RA Vertical r)]);
    cbn [length]; try lia; [|reflexivity].
  destruct (split_rel g (Z.of_nat k - Z.of_nat 1) Vertical rf r Hg ltac:(lia)) as [H1 H2]; [replace (Z.of_nat k - Z.of_nat 1 + 1)%Z with (Z.of_nat k) by lia; exact H|].
  constructor; [exact H1|]. constructor; [exact H2|]. constructor.
Qed.

(** ** Corners *)
Definition same_pt (p : f32 * f32) (q : R * R) : Prop := same (fst p) (fst q) /\ same (snd p) (snd q).

Lemma rem_same x y a b : same x a -> same y b -> b <> 0 -> same (frem x y) (rem RA a b).
Proof. intros [Kx <-] [Ky <-] Hb. destruct (frem_ok x y Kx Ky Hb) as [K E]. split; [exact K|]. exact E. Qed.

Lemma le_same x y a b : same x a -> same y b -> fleb x y = Rle_bool a b.
Proof. intros [Kx <-] [Ky <-]. apply eq_true_iff_eq. rewrite Rle_bool_iff. apply fle_R; assumption. Qed.
Lemma eqpt_same p q p' q' : same_pt p q -> same_pt p' q' -> eqpt FA p p' = eqpt RA q q'.
Proof.
  destruct p, p', q, q'. intros [H1 H2] [H3 H4]. unfold eqpt, eqn. cbn [le FA RA fst snd] in *. rewrite !(le_same _ _ _ _ H1 H3), !(le_same _ _ _ _ H3 H1), !(le_same _ _ _ _ H2 H4), !(le_same _ _ _ _ H4 H2). reflexivity.
Qed.
Lemma share_same ps qs ps' qs' : Forall2 same_pt ps qs -> Forall2 same_pt ps' qs' -> share_point FA ps ps' = share_point RA qs qs'.
Proof.
  intros H H'. unfold share_point. induction H as [|p q ps qs H F IH]; [reflexivity|]. cbn [existsb]. rewrite IH. f_equal.
  clear IH F. induction H' as [|p' q' ps' qs' H' F IH]; [reflexivity|]. cbn [existsb]. rewrite IH. f_equal. apply eqpt_same; assumption.
Qed.

Lemma points_same g fow foh (ow oh : R) rf r : (-149 <= g <= 103)%Z -> same fow ow -> same foh oh -> ow <> 0 -> oh <> 0 -> rel g 0 rf r ->
  Forall2 same_pt (boundary_points FA fow foh (r_x rf) (r_y rf) (r_w rf) (r_h rf)) (boundary_points RA ow oh (r_x r) (r_y r) (r_w r) (r_h r)).
Proof.
  intros Hg Hw Hh Nw Nh (Sx & Sy & Sw & Sh & Mx & My & Mw & Mh & P). rewrite Z.add_0_r in *.
  assert (SX : same (fadd (r_x rf) (r_w rf)) (r_x r + r_w r)).
  { destruct Sx as [Kx Ex], Sw as [Kw Ew]. rewrite <- Ex, <- Ew in *. destruct (exact_add g Hg _ _ Kx Kw Mx Mw) as [K E]; [rewrite Rabs_right; lra|]. split; assumption. }
  assert (SY : same (fadd (r_y rf) (r_h rf)) (r_y r + r_h r)).
  { destruct Sy as [Kx Ex], Sh as [Kw Ew]. rewrite <- Ex, <- Ew in *. destruct (exact_add g Hg _ _ Kx Kw My Mh) as [K E]; [rewrite Rabs_right; lra|]. split; assumption. }
  unfold boundary_points. cbn [add rem FA]. repeat (constructor; [split; cbn [fst snd]; try assumption; apply rem_same; assumption|]). constructor.
Qed.

(** ** The tree of one process *)
Definition brect {A} (b : block A) : rect A := Rect (b_x b) (b_y b) (b_w b) (b_h b).
Definition brel (g : Z) (bf : block FA) (b : block RA) : Prop := b_id bf = b_id b /\ rel g 0 (brect bf) (brect b).

Lemma number_rel g id lf l : Forall2 (rel g 0) lf l -> Forall2 (brel g) (number FA id lf) (number RA id l).
Proof.
  intros H. revert id. induction H as [|rf r lf l H F IH]; intros id; cbn [number]; constructor; [|apply IH].
  split; [reflexivity|]. destruct rf, r. exact H.
Qed.

Lemma block_points_same g fow foh (ow oh : R) bf b : (-149 <= g <= 103)%Z -> same fow ow -> same foh oh -> ow <> 0 -> oh <> 0 -> brel g bf b ->
  Forall2 same_pt (block_points FA fow foh bf) (block_points RA ow oh b).
Proof. intros Hg Hw Hh Nw Nh [_ H]. apply (points_same g fow foh ow oh (brect bf) (brect b)); assumption. Qed.

Lemma filter_ids g (ff : block FA -> bool) (f : block RA -> bool) lf l : Forall2 (brel g) lf l ->
  (forall bf b, brel g bf b -> ff bf = f b) -> map b_id (filter ff lf) = map b_id (filter f l).
Proof.
  intros H E. induction H as [|bf b lf l H F IH]; [reflexivity|]. cbn [filter]. rewrite (E bf b H).
  destruct (f b); [cbn [map]; rewrite IH; f_equal; apply H|exact IH].
Qed.

Lemma in_block_same g bf b p q : (-149 <= g <= 103)%Z -> brel g bf b -> same_pt p q -> in_block FA bf p = in_block RA b q.
Proof.
  intros Hg [_ (Sx & Sy & Sw & Sh & Mx & My & Mw & Mh & P)] [H1 H2]. destruct bf as [fi fx fy fw fh], b as [ri rx ry rw rh], p as [px py], q as [qx qy].
  unfold brect in *. cbn [r_x r_y r_w r_h b_x b_y b_w b_h fst snd num RA FA] in *. rewrite Z.add_0_r in *.
  assert (SX : same (fadd fx fw) (rx + rw)).
  { destruct Sx as [Kx Ex], Sw as [Kw Ew]. rewrite <- Ex, <- Ew in *. destruct (exact_add g Hg _ _ Kx Kw Mx Mw) as [K E]; [rewrite Rabs_right; lra|]. split; assumption. }
  assert (SY : same (fadd fy fh) (ry + rh)).
  { destruct Sy as [Kx Ex], Sh as [Kw Ew]. rewrite <- Ex, <- Ew in *. destruct (exact_add g Hg _ _ Kx Kw My Mh) as [K E]; [rewrite Rabs_right; lra|]. split; assumption. }
  unfold in_block. cbn [le add FA RA b_x b_y b_w b_h fst snd].
  rewrite (le_same _ _ _ _ Sx H1), (le_same _ _ _ _ H1 SX), (le_same _ _ _ _ Sy H2), (le_same _ _ _ _ H2 SY). reflexivity.
Qed.

Lemma find_same g bfs bs p q : (-149 <= g <= 103)%Z -> Forall2 (brel g) bfs bs -> same_pt p q ->
  option_map b_id (find (fun b => in_block FA b p) bfs) = option_map b_id (find (fun b => in_block RA b q) bs).
Proof.
  intros Hg H HS. induction H as [|bf b bfs bs H F IH]; [reflexivity|]. cbn [find]. rewrite (in_block_same g bf b p q Hg H HS).
  destruct (in_block RA b q); [cbn; f_equal; apply H|exact IH].
Qed.

Lemma neighbor_regions_same g rank fow foh (ow oh : R) rfs rs bfs bs : (-149 <= g <= 103)%Z -> same fow ow -> same foh oh -> ow <> 0 -> oh <> 0 ->
  Forall2 (brel g) rfs rs -> Forall2 (brel g) bfs bs ->
  neighbor_regions FA rank fow foh rfs bfs = neighbor_regions RA rank ow oh rs bs.
Proof.
  intros Hg Hw Hh Nw Nh HR HB. unfold neighbor_regions. f_equal. induction HR as [|rf r rfs rs H F IH]; [reflexivity|]. cbn [map]. rewrite IH. f_equal.
  clear F IH. unfold filter_map. induction HB as [|bf b bfs bs H' F IH]; [reflexivity|]. cbn [flat_map]. rewrite IH. f_equal.
  rewrite (share_same _ _ _ _ (block_points_same g fow foh ow oh rf r Hg Hw Hh Nw Nh H) (block_points_same g fow foh ow oh bf b Hg Hw Hh Nw Nh H')).
  destruct H as [<- _], H' as [<- _]. reflexivity.
Qed.

Lemma regions_same g fd (d : R) rf r : (-149 <= g <= 103)%Z -> rel g 0 rf r -> same fd d -> multiple g d -> 0 <= d -> d <= r_w r -> d <= r_h r ->
  Forall2 (brel g) (regions FA fd (r_x rf) (r_y rf) (r_w rf) (r_h rf)) (regions RA d (r_x r) (r_y r) (r_w r) (r_h r)).
Proof.
  intros Hg (Sx & Sy & Sw & Sh & Mx & My & Mw & Mh & P) Sd Md H0 Hw Hh. destruct rf as [fx fy fw fh], r as [rx ry rw rh].
  cbn [r_x r_y r_w r_h num RA FA] in *.
  assert (E0 : (g + 0 = g)%Z) by lia.
  assert (SX : same (fsub (fadd fx fw) fd) (rx + rw - d)).
  { rewrite E0 in *. destruct Sx as [Kx Ex], Sw as [Kw Ew], Sd as [Kd Ed]. rewrite <- Ex, <- Ew, <- Ed in *. destruct (exact_add g Hg _ _ Kx Kw Mx Mw) as [K E]; [rewrite Rabs_right; lra|].
    destruct (exact_sub g Hg _ fd K Kd) as [K2 E2]; [rewrite E; apply multiple_add; assumption|assumption|rewrite E, Rabs_right; lra|]. split; [exact K2|]. rewrite E2, E. reflexivity. }
  assert (SY : same (fsub (fadd fy fh) fd) (ry + rh - d)).
  { rewrite E0 in *. destruct Sy as [Kx Ex], Sh as [Kw Ew], Sd as [Kd Ed]. rewrite <- Ex, <- Ew, <- Ed in *. destruct (exact_add g Hg _ _ Kx Kw My Mh) as [K E]; [rewrite Rabs_right; lra|].
    destruct (exact_sub g Hg _ fd K Kd) as [K2 E2]; [rewrite E; apply multiple_add; assumption|assumption|rewrite E, Rabs_right; lra|]. split; [exact K2|]. rewrite E2, E. reflexivity. }
  assert (MX : multiple (g + 0) (rx + rw - d)) by (rewrite E0 in *; apply multiple_sub; [apply multiple_add|]; assumption).
  assert (MY : multiple (g + 0) (ry + rh - d)) by (rewrite E0 in *; apply multiple_sub; [apply multiple_add|]; assumption).
  assert (Md' : multiple (g + 0) d) by (rewrite E0; exact Md).
  unfold regions. cbn [add sub FA RA].
  repeat (constructor; [split; [reflexivity|]; unfold rel, brect; cbn [r_x r_y r_w r_h b_x b_y b_w b_h];
    repeat match goal with |- _ /\ _ => split end; (assumption || lra)|]). constructor.
Qed.

(** Sizes for which the [f32] program does exactly what the program with exact numbers
    does: multiples of [2^(g + k)], where there are at most [2^k] processes, and not larger
    than [2^(g + 24)]. *)
Definition exact_field (g : Z) (k : nat) (x y w h : f32) : Prop :=
  (-149 <= g <= 103)%Z /\ fok x /\ fok y /\ fok w /\ fok h /\
  multiple (g + Z.of_nat k) (f2R x) /\ multiple (g + Z.of_nat k) (f2R y) /\
  multiple (g + Z.of_nat k) (f2R w) /\ multiple (g + Z.of_nat k) (f2R h) /\
  0 <= f2R x /\ 0 <= f2R y /\ 0 < f2R w /\ 0 < f2R h /\
  f2R x + f2R w <= bpow radix2 (g + 24) /\ f2R y + f2R h <= bpow radix2 (g + 24).

Lemma exact_rel g k x y w h : exact_field g k x y w h ->
  rel g (Z.of_nat k) (Rect (A := FA) x y w h) (Rect (A := RA) (f2R x) (f2R y) (f2R w) (f2R h)).
Proof.
  intros (Hg & Kx & Ky & Kw & Kh & Mx & My & Mw & Mh & P). unfold rel. cbn [r_x r_y r_w r_h num FA RA].
  repeat match goal with |- _ /\ _ => split end; try (split; [assumption|reflexivity]); try assumption; lra.
Qed.

Lemma exact_blocks g k p x y w h : exact_field g k x y w h -> (2 <= p <= 2 ^ k)%nat ->
  exists bf b, blocks FA p 0 x y w h = Some bf /\ blocks RA p 0 (f2R x) (f2R y) (f2R w) (f2R h) = Some b /\ Forall2 (brel g) bf b.
Proof.
  intros E Hp. destruct (subdivide_rel g k p _ _ (proj1 E) Hp (exact_rel g k x y w h E)) as (lf & l & E1 & E2 & F).
  unfold blocks. destruct (Nat.eqb_spec p 1); [lia|]. rewrite E1, E2. cbn [option_map]. eexists _, _. split; [reflexivity|]. split; [reflexivity|].
  apply number_rel, F.
Qed.

Lemma Forall2_nth {X Y} (P : X -> Y -> Prop) l l' k x y : Forall2 P l l' -> nth_error l k = Some x -> nth_error l' k = Some y -> P x y.
Proof. intros H. revert k. induction H; intros [|k] E1 E2; try discriminate; cbn in *; [congruence|eauto]. Qed.

Lemma exact_create {O} g k p rank x y w h disc dist disc' dist' : exact_field g k x y w h -> (2 <= p <= 2 ^ k)%nat -> (rank < p)%nat ->
  same dist dist' -> multiple g dist' -> 0 <= dist' ->
  exists (kf : kdtree FA (O := O)) (kr : kdtree RA (O := O)) lf l rf r,
    create_tree FA p (Z.of_nat rank) 0 x y w h disc dist = Some kf /\
    create_tree RA p (Z.of_nat rank) 0 (f2R x) (f2R y) (f2R w) (f2R h) disc' dist' = Some kr /\
    subdivide FA p (Rect (A := FA) x y w h) = Some lf /\ subdivide RA p (Rect (A := RA) (f2R x) (f2R y) (f2R w) (f2R h)) = Some l /\
    Forall2 (rel g 0) lf l /\ nth_error lf rank = Some rf /\ nth_error l rank = Some r /\ rel g 0 rf r /\
    k_neighbor_trees kf = k_neighbor_trees kr /\
    (dist' <= r_w r -> dist' <= r_h r ->
       k_neighbor_regions kf = k_neighbor_regions kr /\ Forall2 (brel g) (k_regions kf) (k_regions kr)).
Proof.
  intros E Hp Hr Hd Md H0.
  destruct (subdivide_rel g k p _ _ (proj1 E) Hp (exact_rel g k x y w h E)) as (lf & l & E1 & E2 & F).
  destruct (create_tree_eq FA (O := O) p rank x y w h disc dist ltac:(lia) Hr) as (lf' & rf & kf & E1' & _ & Nf & Cf & _ & _ & _ & _ & _ & _ & _ & NTf & Rf & NRf & _).
  destruct (create_tree_eq RA (O := O) p rank (f2R x) (f2R y) (f2R w) (f2R h) disc' dist' ltac:(lia) Hr) as (l' & r & kr & E2' & _ & Nr & Cr & _ & _ & _ & _ & _ & _ & _ & NTr & Rr & NRr & _).
  assert (lf' = lf) by congruence. assert (l' = l) by congruence. subst lf' l'.
  pose proof (Forall2_nth _ _ _ _ _ _ F Nf Nr) as RR.
  exists kf, kr, lf, l, rf, r. repeat match goal with |- _ /\ _ => split end; try assumption.
  - rewrite NTf, NTr. apply (filter_ids g); [apply number_rel, F|]. intros bf b B.
    destruct E as (Hg & Kx & Ky & Kw & Kh & _ & _ & _ & _ & _ & _ & Pw & Ph & _).
    rewrite (share_same _ _ (block_points FA w h bf) (block_points RA (f2R w) (f2R h) b)
               (block_points_same g w h (f2R w) (f2R h) (to_block FA (Z.of_nat rank) rf) (to_block RA (Z.of_nat rank) r) Hg (conj Kw eq_refl) (conj Kh eq_refl) ltac:(lra) ltac:(lra) (conj eq_refl ltac:(destruct rf, r; exact RR)))
               (block_points_same g w h _ _ bf b Hg (conj Kw eq_refl) (conj Kh eq_refl) ltac:(lra) ltac:(lra) B)).
    destruct B as [-> _]. reflexivity.
  - intros Dw Dh. destruct E as (Hg & Kx & Ky & Kw & Kh & _ & _ & _ & _ & _ & _ & Pw & Ph & _).
    assert (RS : Forall2 (brel g) (k_regions kf) (k_regions kr)) by (rewrite Rf, Rr; apply regions_same; assumption).
    split; [|exact RS]. rewrite NRf, NRr.
    apply (neighbor_regions_same g); [exact Hg|split; [assumption|reflexivity]|split; [assumption|reflexivity]|lra|lra|exact RS|apply number_rel, F].
Qed.
