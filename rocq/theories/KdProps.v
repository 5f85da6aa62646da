(** * Property theorems: the distributed Kdtree (C52, C75-C78) *)
From Coq Require Import List Bool ZArith NArith Arith Permutation Sorted Reals Lia Lra Psatz.
From Verif Require Import F32 F32Real F32Ops Grid ObjModel FieldModel FieldSpec FieldProofs FieldReal FieldF32 FieldProps
  KdModel KdSpec KdProofs KdReal KdF32 KdStore.
From Flocq Require Import Core.
Import ListNotations.
Local Open Scope R_scope.

(** ** Vocabulary *)
(** The exact block that a block with f32 coordinates stands for. *)
Definition bR (b : block FA) : block RA :=
  Block (A := RA) (b_id b) (f2R (b_x b)) (f2R (b_y b)) (f2R (b_w b)) (f2R (b_h b)).
Definition is_point (l : f32 * f32) : Prop := fok (fst l) /\ fok (snd l).

(** The blocks cover the rectangle without overlapping, and are found by location.  [bs] are
    exact; [where_is] answers [get_block_by_location]. *)
Definition tiles (p : nat) (x y w h : R) (bs : list (block RA)) : Prop :=
  map b_id bs = map Z.of_nat (seq 0 p) /\
  Forall (fun b : block RA => 0 < b_w b /\ 0 < b_h b /\ x <= b_x b /\ b_x b + b_w b <= x + w /\ y <= b_y b /\ b_y b + b_h b <= y + h) bs /\
  (forall i j b b' l, nth_error bs i = Some b -> nth_error bs j = Some b' -> i <> j -> b_inner b l -> ~ b_contains b' l).

Lemma pairs_nth {X} (P : X -> X -> Prop) l i j a b : (forall a b, P a b -> P b a) -> ForallOrdPairs P l ->
  nth_error l i = Some a -> nth_error l j = Some b -> i <> j -> P a b.
Proof.
  intros Sym H. revert i j. induction H as [|x l H F IH]; intros [|i] [|j] Ha Hb Ne; try discriminate; try lia; cbn in *.
  - injection Ha as <-. rewrite Forall_forall in H. apply H. eapply nth_error_In; exact Hb.
  - injection Hb as <-. rewrite Forall_forall in H. apply Sym, H. eapply nth_error_In; exact Ha.
  - apply (IH i j); auto.
Qed.
Lemma find_first {X} (f : X -> bool) l x : In x l -> f x = true -> exists i y, find f l = Some y /\ nth_error l i = Some y /\ f y = true.
Proof.
  intros Hx Fx. destruct (find f l) as [y|] eqn:E.
  - pose proof (find_some _ _ E) as [Hy Fy]. apply In_nth_error in Hy. destruct Hy as [i Hi]. eauto.
  - pose proof (find_none _ _ E _ Hx). congruence.
Qed.

(** ** C52: the blocks tile the field *)
(** For any arithmetic and any size, even not finite: the subdivision does not panic, there
    are [p] blocks numbered from 0, and process [rank] owns the block of its number and
    knows all of them. *)
Theorem C52_blocks :
  forall (A : arith) (O : Type) p rank (x y w h d dist : num A), (2 <= p)%nat -> (rank < p)%nat ->
    exists bs b (k : kdtree A (O := O)),
      blocks A p 0 x y w h = Some bs /\ map b_id bs = map Z.of_nat (seq 0 p) /\ nth_error bs rank = Some b /\
      create_tree A p (Z.of_nat rank) 0 x y w h d dist = Some k /\ k_subtrees k = bs /\
      k_x k = b_x b /\ k_y k = b_y b /\ k_w k = b_w b /\ k_h k = b_h b /\ k_ow k = w /\ k_oh k = h.
Proof.
  intros A O p rank x y w h d dist Hp Hr.
  destruct (create_tree_eq A (O := O) p rank x y w h d dist Hp Hr) as (l & r & k & E & L & Nr & C & Sb & X & Y & W & H & OW & OH & _).
  exists (number A 0 l), (to_block A (Z.of_nat rank) r), k. unfold blocks. destruct (Nat.eqb_spec p 1); [lia|]. rewrite E.
  split; [reflexivity|]. split; [rewrite number_ids, L; reflexivity|]. split; [exact (number_nth A 0 l rank r Nr)|]. repeat (split; [assumption|]). exact OH.
Qed.
Print Assumptions C52_blocks.

(** Exact numbers: every point of the field, borders included, is found in a block that
    contains it, and the inside of a block is in no other block. *)
Theorem C52_tiles_exact :
  forall p (x y w h : R), (2 <= p)%nat -> 0 < w -> 0 < h ->
    exists bs, blocks RA p 0 x y w h = Some bs /\ tiles p x y w h bs /\
      forall l, contains x y w h l ->
        exists i b, block_by_location RA p bs l = Some (Z.of_nat i) /\ nth_error bs i = Some b /\ b_contains b l.
Proof.
  intros p x y w h Hp Hw Hh. destruct (subdivide_tiling p x y w h Hp Hw Hh) as (rs & E & L & (Wi & Ap & Co)).
  exists (number RA 0 rs). unfold blocks. destruct (Nat.eqb_spec p 1); [lia|]. rewrite E. split; [reflexivity|]. split; [split; [|split]|].
  - rewrite number_ids, L. reflexivity.
  - apply Forall_forall. intros b Hb. apply number_In in Hb. destruct Hb as (k & r & Hr & ->). apply nth_error_In in Hr.
    rewrite Forall_forall in Wi. exact (Wi r Hr).
  - intros i j b b' l Hi Hj Ne. destruct (number_nth_inv _ _ _ _ _ Hi) as (r & Hr & ->). destruct (number_nth_inv _ _ _ _ _ Hj) as (s & Hs & ->).
    pose proof (pairs_nth apart rs i j r s apart_sym Ap Hr Hs Ne) as AP. destruct r as [rx ry rw rh], s as [sx sy sw sh], l as [lx ly].
    unfold apart, b_inner, inner, b_contains, contains, to_block in *. cbn [r_x r_y r_w r_h b_x b_y b_w b_h fst snd num RA] in *. intros B1 B2. lra.
  - intros l Hl. destruct (Co l Hl) as (r & Hr & Cr). apply In_nth_error in Hr. destruct Hr as [k Hk].
    destruct (find_first (fun b => in_block RA b l) (number RA 0 rs) (to_block RA (0 + Z.of_nat k) r)) as (i & b & Ef & Hi & Hb).
    { eapply nth_error_In, number_nth, Hk. }
    { apply in_block_R. exact Cr. }
    exists i, b. unfold block_by_location. destruct (Nat.eqb_spec p 1); [lia|]. rewrite Ef. split; [|split; [exact Hi|apply in_block_R; exact Hb]].
    destruct (number_nth_inv _ _ _ _ _ Hi) as (s & _ & ->). reflexivity.
Qed.
Print Assumptions C52_tiles_exact.

(** With one process there are no blocks, and every location is on process 0. *)
Theorem C52_single :
  forall (A : arith) (x y w h : num A) l, blocks A 1 0 x y w h = Some [] /\ block_by_location A 1 [] l = Some 0%Z.
Proof. intros. split; reflexivity. Qed.
Print Assumptions C52_single.

(** f32, when nothing is rounded: the origin and the size are multiples of [2 ^ (g + k)]
    below [2 ^ (g + 24)], and there are at most [2 ^ k] processes.  Missing: other sizes,
    for which the statement is false (below). *)
Theorem C52_f32_partial :
  forall g k p (x y w h : f32), exact_field g k x y w h -> (2 <= p <= 2 ^ k)%nat ->
    exists bs, blocks FA p 0 x y w h = Some bs /\ tiles p (f2R x) (f2R y) (f2R w) (f2R h) (map bR bs) /\
      forall l, is_point l -> contains (f2R x) (f2R y) (f2R w) (f2R h) (p2R l) ->
        exists i b, block_by_location FA p bs l = Some (Z.of_nat i) /\ nth_error bs i = Some b /\ b_contains (bR b) (p2R l).
Proof.
  intros g k p x y w h E Hp. destruct (exact_blocks g k p x y w h E Hp) as (bf & b & Ef & Er & F). exists bf. split; [exact Ef|].
  assert (EB : map bR bf = b).
  { clear - F. induction F as [|f r bf b H F IH]; [reflexivity|]. cbn [map]. rewrite IH. f_equal. destruct H as [Hi ((_ & X) & (_ & Y) & (_ & W) & (_ & H) & _)].
    destruct f as [fi fx fy fw fh], r as [ri rx ry rw rh]. unfold bR, brect in *. cbn [b_id b_x b_y b_w b_h r_x r_y r_w r_h] in *. subst. reflexivity. }
  pose proof E as (Hg & _ & _ & _ & _ & _ & _ & _ & _ & _ & _ & Pw & Ph & _).
  destruct (C52_tiles_exact p (f2R x) (f2R y) (f2R w) (f2R h) ltac:(lia) Pw Ph) as (b' & Er' & T & Loc). assert (b' = b) by congruence. subst b'.
  rewrite EB. split; [exact T|]. intros l [K1 K2] Hl. destruct (Loc (p2R l) Hl) as (i & c & Lo & Hi & Hc).
  exists i. destruct (nth_error bf i) as [bi|] eqn:Hbi.
  - exists bi. assert (bR bi = c). { rewrite <- EB, nth_error_map, Hbi in Hi. cbn in Hi. congruence. } subst c.
    split; [|split; [reflexivity|exact Hc]]. revert Lo. unfold block_by_location. destruct (Nat.eqb_spec p 1); [lia|]. intros <-.
    apply (find_same g bf b l (p2R l) Hg F). split; split; cbn; auto.
  - exfalso. rewrite <- EB, nth_error_map, Hbi in Hi. discriminate.
Qed.
Print Assumptions C52_f32_partial.

(** f32 in general: a corner of the field belongs to no block, so [get_block_by_location]
    panics; and so does a point strictly inside. *)
Definition w598 : f32 := S754_finite false 15676211 (-18).       (* 59.8 *)
Definition find_block (p : nat) (x y w h : f32) (l : f32 * f32) : option (option Z) :=
  option_map (fun bs => block_by_location FA p bs l) (blocks FA p 0 x y w h).
Definition show_blocks (p : nat) (x y w h : f32) : option (list (Z * (f32 * f32) * (f32 * f32))) :=
  option_map (map (fun b : block FA => (b_id b, (b_x b, b_y b), (b_w b, b_h b)))) (blocks FA p 0 x y w h).
Theorem C52_border_refuted :
  find_block 27 (z 0) (z 0) w598 w598 (w598, z 0) = Some None.
Proof. vm_compute. reflexivity. Qed.
Print Assumptions C52_border_refuted.
Definition x263 : f32 := S754_finite false 13788774 (-19).       (* 26.3 *)
Definition w1586 : f32 := S754_finite false 10394010 (-16).      (* 158.6 *)
Definition in1 : f32 * f32 := (S754_finite false 13841203 (-17), S754_finite false 10394010 (-19)).  (* (105.6, 19.825) *)
Theorem C52_gap_refuted :
  find_block 19 x263 (z 0) w1586 w1586 in1 = Some None /\
  fltb x263 (fst in1) = true /\ fltb (fst in1) (fadd x263 w1586) = true /\ fltb (z 0) (snd in1) = true /\ fltb (snd in1) w1586 = true.
Proof. repeat split; vm_compute; reflexivity. Qed.
Print Assumptions C52_gap_refuted.

Lemma multiple_Z g n : (0 <= g)%Z -> (Z.abs (n * 2 ^ g) <= 2 ^ 24)%Z -> fok (z (n * 2 ^ g)) /\ f2R (z (n * 2 ^ g)) = IZR (n * 2 ^ g) /\ multiple g (f2R (z (n * 2 ^ g))).
Proof.
  intros Hg Hn. pose proof (fok_of_Z (n * 2 ^ g) Hn) as K. destruct (f_of_Z_exact (n * 2 ^ g) Hn) as [E _]. split; [exact K|]. split; [exact E|]. unfold z. rewrite E. exists n.
  rewrite mult_IZR. f_equal. apply (IZR_Zpower radix2). exact Hg.
Qed.
Example C52_concrete :
  exact_field 0 3 (z 0) (z 0) (z 104) (z 208) /\ (2 <= 5 <= 2 ^ 3)%nat /\
  show_blocks 5 (z 0) (z 0) (z 104) (z 208) =
    Some [(0, (z 0, z 0), (z 26, z 104)); (1, (z 26, z 0), (z 26, z 104)); (2, (z 0, z 104), (z 52, z 104));
          (3, (z 52, z 0), (z 52, z 104)); (4, (z 52, z 104), (z 52, z 104))]%Z /\
  find_block 5 (z 0) (z 0) (z 104) (z 208) (z 52, z 104) = Some (Some 1%Z).
Proof.
  split; [|split; [|split]].
  - destruct (multiple_Z 3 0) as (K0 & E0 & M0); [lia|lia|]. destruct (multiple_Z 3 13) as (K1 & E1 & M1); [lia|lia|].
    destruct (multiple_Z 3 26) as (K2 & E2 & M2); [lia|lia|].
    change (0 * 2 ^ 3)%Z with 0%Z in *. change (13 * 2 ^ 3)%Z with 104%Z in *. change (26 * 2 ^ 3)%Z with 208%Z in *.
    unfold exact_field. change (0 + Z.of_nat 3)%Z with 3%Z. split; [lia|].
    repeat (split; [assumption|]). rewrite E0, E1, E2. change (bpow radix2 (0 + 24)) with 16777216. lra.
  - cbn. lia.
  - vm_compute. reflexivity.
  - vm_compute. reflexivity.
Qed.

(** ** C75: the neighbours are the blocks that touch *)
(** For any arithmetic: the neighbour lists are increasing, in range, without the process
    itself, and mutual. *)
Theorem C75_symmetric :
  forall (A : arith) (O : Type) p r s (x y w h d dist : num A), (2 <= p)%nat -> (r < p)%nat -> (s < p)%nat ->
    exists kr ks : kdtree A (O := O),
      create_tree A p (Z.of_nat r) 0 x y w h d dist = Some kr /\ create_tree A p (Z.of_nat s) 0 x y w h d dist = Some ks /\
      StronglySorted Z.lt (k_neighbor_trees kr) /\ Forall (fun i => 0 <= i < Z.of_nat p)%Z (k_neighbor_trees kr) /\
      ~ In (Z.of_nat r) (k_neighbor_trees kr) /\
      (In (Z.of_nat s) (k_neighbor_trees kr) <-> In (Z.of_nat r) (k_neighbor_trees ks)).
Proof.
  intros A O p r s x y w h d dist Hp Hr Hs.
  destruct (create_tree_eq A (O := O) p r x y w h d dist Hp Hr) as (l & br & kr & E & L & Nr & Cr & _ & _ & _ & _ & _ & _ & _ & NTr & _).
  destruct (create_tree_eq A (O := O) p s x y w h d dist Hp Hs) as (l' & bs & ks & E' & _ & Ns & Cs & _ & _ & _ & _ & _ & _ & _ & NTs & _).
  assert (l' = l) by congruence. subst l'. exists kr, ks. split; [exact Cr|]. split; [exact Cs|]. rewrite NTr, NTs.
  match goal with |- StronglySorted _ (map b_id (filter ?f _)) /\ _ => destruct (number_sorted A 0 l f) as [S1 S2] end.
  split; [exact S1|]. split; [eapply Forall_impl; [|exact S2]; cbn; intros; lia|]. split.
  - intros H. apply neighbor_iff in H. destruct H as (k & b & Ek & Ne & _). lia.
  - rewrite !neighbor_iff. split; intros (k & b & Ek & Ne & Hb & H); apply Nat2Z.inj in Ek; subst k.
    + exists r, br. split; [reflexivity|]. split; [congruence|]. split; [exact Nr|]. rewrite share_sym. rewrite Ns in Hb. injection Hb as <-. exact H.
    + exists s, bs. split; [reflexivity|]. split; [congruence|]. split; [exact Ns|]. rewrite share_sym. rewrite Nr in Hb. injection Hb as <-. exact H.
Qed.
Print Assumptions C75_symmetric.

(** Exact numbers: [s] is a neighbour of [r] exactly if their blocks have a point in
    common once the field is wrapped around. *)
Theorem C75_touch_exact :
  forall (O : Type) p r s (x y w h d dist : R), (2 <= p)%nat -> (r < p)%nat -> 0 <= x -> 0 <= y -> 0 < w -> 0 < h ->
    exists bs br (k : kdtree RA (O := O)),
      blocks RA p 0 x y w h = Some bs /\ nth_error bs r = Some br /\
      create_tree RA p (Z.of_nat r) 0 x y w h d dist = Some k /\
      (In (Z.of_nat s) (k_neighbor_trees k) <-> s <> r /\ exists b, nth_error bs s = Some b /\ touch w h br b).
Proof.
  intros O p r s x y w h d dist Hp Hr Hx Hy Hw Hh.
  destruct (create_tree_eq RA (O := O) p r x y w h d dist Hp Hr) as (l & br & k & E & L & Nr & C & Sb & _ & _ & _ & _ & _ & _ & NT & _).
  exists (number RA 0 l), (to_block RA (Z.of_nat r) br), k. unfold blocks. destruct (Nat.eqb_spec p 1); [lia|]. rewrite E.
  split; [reflexivity|]. split; [exact (number_nth RA 0 l r br Nr)|]. split; [exact C|]. rewrite NT, neighbor_iff.
  destruct (subdivide_grid p x y w h Hp) as (N & M & a & l0 & m & j & G & Hm & Hl & _ & E'). rewrite E in E'. injection E' as ->.
  pose proof (refine_cellular x y w h N M a m l0 G) as F. rewrite Forall_forall in F. destruct G as [[HN HM] _].
  destruct (F br (nth_error_In _ _ Nr)) as (X1 & Y1 & W1 & H1 & C1 & G1).
  assert (T : forall i b, nth_error (refine RA m a l0) i = Some b ->
    share_point RA (block_points RA w h (to_block RA (Z.of_nat r) br)) (block_points RA w h (to_block RA (Z.of_nat i) b)) = true <->
    touch w h (to_block RA (Z.of_nat r) br) (to_block RA (Z.of_nat i) b)).
  { intros i b Hb. destruct (F b (nth_error_In _ _ Hb)) as (X2 & Y2 & W2 & H2 & C2 & G2).
    change (block_points RA w h (to_block RA (Z.of_nat r) br)) with (rect_points w h br). change (block_points RA w h (to_block RA (Z.of_nat i) b)) with (rect_points w h b).
    rewrite (touch_iff x y w h N M a X1 Y1 W1 H1 X2 Y2 W2 H2 br b Hw Hh Hx Hy HN HM C1 C2 G1 G2). unfold touch, near_block, near_coordinate. split.
    - intros (q & q' & Hq & Hq' & Cx & Cy). exists q. split; [exact Hq|]. exists q'. split; [exact Hq'|].
      split; [exists (fst q)|exists (snd q)]; (split; [assumption|]); rewrite Rminus_diag_eq, Rabs_R0 by reflexivity; lra.
    - intros (q & Hq & q' & Hq' & (u & Cu & Du) & (v & Cv & Dv)). exists q, q'. split; [exact Hq|]. split; [exact Hq'|].
      assert (Z0 : forall t : R, Rabs t <= 0 -> t = 0) by (intros t Ht; destruct (Req_dec t 0) as [|Nt]; [assumption|apply Rabs_pos_lt in Nt; lra]).
      apply Z0 in Du, Dv. replace (fst q) with u by lra. replace (snd q) with v by lra. split; assumption. }
  split.
  - intros (i & b & Ei & Ne & Hb & Hs). apply Nat2Z.inj in Ei. subst i. split; [exact Ne|]. exists (to_block RA (Z.of_nat s) b).
    split; [exact (number_nth RA 0 _ s b Hb)|]. apply T; assumption.
  - intros [Ne (b & Hb & Ht)]. destruct (number_nth_inv _ _ _ _ _ Hb) as (q & Hq & ->). exists s, q. split; [reflexivity|]. split; [exact Ne|]. split; [exact Hq|].
    apply (T s q Hq). exact Ht.
Qed.
Print Assumptions C75_touch_exact.

(** f32, when nothing is rounded.  Missing: other sizes. *)
Theorem C75_touch_f32_partial :
  forall (O : Type) g k p r s (x y w h d dist : f32), exact_field g k x y w h -> (2 <= p <= 2 ^ k)%nat -> (r < p)%nat ->
    exists bs br (kt : kdtree FA (O := O)),
      blocks FA p 0 x y w h = Some bs /\ nth_error bs r = Some br /\
      create_tree FA p (Z.of_nat r) 0 x y w h d dist = Some kt /\
      (In (Z.of_nat s) (k_neighbor_trees kt) <->
       s <> r /\ exists b, nth_error bs s = Some b /\ touch (f2R w) (f2R h) (bR br) (bR b)).
Proof.
  intros O g k p r s x y w h d dist E Hp Hr.
  destruct (exact_blocks g k p x y w h E Hp) as (bf & b & Ef & Er & F).
  assert (EB : map bR bf = b).
  { clear - F. induction F as [|f q bf b H F IH]; [reflexivity|]. cbn [map]. rewrite IH. f_equal. destruct H as [Hi ((_ & X) & (_ & Y) & (_ & W) & (_ & H) & _)].
    destruct f as [fi fx fy fw fh], q as [ri rx ry rw rh]. unfold bR, brect in *. cbn [b_id b_x b_y b_w b_h r_x r_y r_w r_h] in *. subst. reflexivity. }
  pose proof E as (Hg & _ & _ & _ & _ & _ & _ & _ & _ & Px & Py & Pw & Ph & _).
  destruct (C75_touch_exact O p r s (f2R x) (f2R y) (f2R w) (f2R h) (f2R d) 0 ltac:(lia) Hr Px Py Pw Ph) as (b' & br & kr & Er' & Nr & Cr & T).
  assert (b' = b) by congruence. subst b'. rewrite <- EB, nth_error_map in Nr. destruct (nth_error bf r) as [bfr|] eqn:Hbf; [|discriminate].
  injection Nr as <-.
  destruct (create_tree_eq FA (O := O) p r x y w h d dist ltac:(lia) Hr) as (lf & rf & kf & E1 & _ & Nf & Cf & _ & _ & _ & _ & _ & _ & _ & NTf & _).
  destruct (create_tree_eq FA (O := O) p r x y w h d (z 0) ltac:(lia) Hr) as (lf' & rf' & kf' & E1' & _ & Nf' & Cf' & _ & _ & _ & _ & _ & _ & _ & NTf' & _).
  assert (lf' = lf) by congruence. subst lf'. assert (rf' = rf) by congruence. subst rf'.
  assert (S0 : same (z 0) 0). { split; [apply fok_of_Z; lia|]. apply (f_of_Z_exact 0). lia. }
  assert (M0 : multiple g 0) by (exists 0%Z; ring).
  destruct (exact_create (O := O) g k p r x y w h d (z 0) (f2R d) 0 E Hp Hr S0 M0 (Rle_refl 0)) as (kf2 & kr2 & _ & _ & _ & _ & C1 & C2 & _ & _ & _ & _ & _ & _ & NT & _).
  assert (kf2 = kf') by congruence. assert (kr2 = kr) by congruence. subst kf2 kr2.
  exists bf, bfr, kf. split; [exact Ef|]. split; [exact Hbf|]. split; [exact Cf|].
  assert (EN : k_neighbor_trees kf = k_neighbor_trees kr) by congruence. rewrite EN, T.
  split; intros [Ne (c & Hc & Ht)]; (split; [exact Ne|]).
  - rewrite <- EB, nth_error_map in Hc. destruct (nth_error bf s) as [bs|]; [|discriminate]. injection Hc as <-. exists bs. auto.
  - exists (bR c). split; [|exact Ht]. rewrite <- EB, nth_error_map, Hc. reflexivity.
Qed.
Print Assumptions C75_touch_f32_partial.

(** f32 in general: 25 processes, field 43.9 by 4096.  Process 17 has one neighbour left;
    five blocks around it are missed because their common corners are rounded apart. *)
Definition w439 : f32 := S754_finite false 11508122 (-18).       (* 43.9 *)
Definition neighbors_of (p : nat) (rank : Z) (w h : f32) : option (list Z) :=
  option_map (k_neighbor_trees (O := unit)) (create_tree FA p rank 0 (z 0) (z 0) w h (z 512) (z 1)).
Theorem C75_rounding_refuted :
  neighbors_of 25 17 w439 (z 4096) = Some [16]%Z /\ neighbors_of 25 17 (z 44) (z 4096) = Some [16; 18; 19; 20; 22; 24]%Z.
Proof. split; vm_compute; reflexivity. Qed.
Print Assumptions C75_rounding_refuted.
Example C75_concrete :
  exact_field 0 3 (z 0) (z 0) (z 104) (z 208) /\
  neighbors_of 5 0 (z 104) (z 208) = Some [1; 2; 3; 4]%Z /\ neighbors_of 5 1 (z 104) (z 208) = Some [0; 2; 3; 4]%Z.
Proof. split; [apply C52_concrete|]. split; vm_compute; reflexivity. Qed.

(** ** C76: agents near another block are sent to its process *)
(** For any arithmetic, after any calls: in region mode the slot of process [s] holds the
    agents inserted between the last two updates at a location of a halo region that has
    [s] among its neighbours, region by region, each insertion at most once. *)
Theorem C76_outgoing :
  forall (A : arith) (O : Type) (eqo : O -> O -> bool) p rank (x y w h d dist : num A) cs e,
    good_size A w h d -> (2 <= p)%nat -> (rank < p)%nat -> Forall (k_in A p w h d) cs -> before_update A (rev cs) = Some e ->
    exists (k0 k : kdtree A (O := O)) out,
      create_tree A p (Z.of_nat rank) 0 x y w h d dist = Some k0 /\ k_run A eqo p k0 cs = Some k /\
      outgoing A p k (k_prec_neighbors k) true = Some out /\ length out = p /\
      NoDup (concat (k_neighbor_regions k0)) /\
      forall s, (s < p)%nat ->
        nth_error out s = Some (flat_map (fun n => if (snd n =? Z.of_nat s)%Z then inserted_in A (region_of A k0) e (fst n) else [])
                                         (concat (k_neighbor_regions k0))).
Proof.
  intros A O eqo p rank x y w h d dist cs e GS Hp Hr Hin He.
  destruct (outgoing_regions A eqo p rank x y w h d dist cs e GS Hp Hr Hin He) as (k0 & k & out & C & E & Ou & ->).
  destruct (fresh_tree A (O := O) p rank x y w h d dist GS Hp Hr) as (k1 & C1 & _ & _ & _ & _ & _ & _ & _ & _ & _ & ND & _).
  assert (k1 = k0) by congruence. subst k1.
  exists k0, k. eexists. split; [exact C|]. split; [exact E|]. split; [exact Ou|]. rewrite map_length, seq_length. split; [reflexivity|]. split; [exact ND|].
  intros s Hs. rewrite nth_seq by exact Hs. reflexivity.
Qed.
Print Assumptions C76_outgoing.

Lemma sent {A : arith} {O : Type} (eqo : O -> O -> bool) p rank s (x y w h d dist : num A) cs e k0 o l g :
  good_size A w h d -> (2 <= p)%nat -> (rank < p)%nat -> (s < p)%nat -> Forall (k_in A p w h d) cs -> before_update A (rev cs) = Some e ->
  In (KInsert o l) e -> create_tree A p (Z.of_nat rank) 0 x y w h d dist = Some k0 ->
  region_of A k0 l = Some g -> In (g, Z.of_nat s) (concat (k_neighbor_regions k0)) ->
  exists (k : kdtree A (O := O)) out slot, k_run A eqo p k0 cs = Some k /\ outgoing A p k (k_prec_neighbors k) true = Some out /\
    nth_error out s = Some slot /\ In o slot.
Proof.
  intros GS Hp Hr Hs Hin He Ho C Eg Hg.
  destruct (C76_outgoing A O eqo p rank x y w h d dist cs e GS Hp Hr Hin He) as (k1 & k & out & C' & E & Ou & _ & _ & N).
  assert (k1 = k0) by congruence. subst k1. exists k, out. eexists. split; [exact E|]. split; [exact Ou|]. split; [exact (N s Hs)|].
  apply in_flat_map. exists (g, Z.of_nat s). split; [exact Hg|]. cbn [fst snd]. rewrite Z.eqb_refl.
  unfold inserted_in. apply in_flat_map. exists (KInsert o l). split; [exact Ho|]. rewrite Eg, Z.eqb_refl. left. reflexivity.
Qed.

(** Exact numbers and a power of two of processes: an agent inserted in the block of
    [rank], at most [dist] from the block of [s] in each direction on the torus, with
    blocks more than twice as wide and high, is sent to [s] after the next update.
    Missing: other numbers of processes, for which it is false. *)
Lemma halo_R {O : Type} j rank s (x y w h d dist : R) bs b b' (l : R * R) (k0 : kdtree RA (O := O)) :
  (1 <= j)%nat -> (rank < 2 ^ j)%nat -> (s < 2 ^ j)%nat -> s <> rank -> 0 <= x -> 0 <= y -> 0 < w -> 0 < h ->
  blocks RA (2 ^ j) 0 x y w h = Some bs -> nth_error bs rank = Some b -> nth_error bs s = Some b' ->
  2 * dist < b_w b -> 2 * dist < b_h b -> b_contains b l -> near_block w h dist l b' ->
  create_tree RA (2 ^ j) (Z.of_nat rank) 0 x y w h d dist = Some k0 ->
  exists g, region_of RA k0 l = Some g /\ In (g, Z.of_nat s) (concat (k_neighbor_regions k0)).
Proof.
  intros Hj Hr Hs Ne Hx Hy Hw Hh Eb Nb Nb' Dw Dh Hl Hn C.
  assert (Hp : (2 <= 2 ^ j)%nat) by (change 2%nat with (2 ^ 1)%nat at 1; apply Nat.pow_le_mono_r; lia).
  destruct (create_tree_eq RA (O := O) (2 ^ j) rank x y w h d dist Hp Hr) as (rs & r & k & E & L & Nr & C' & _ & _ & _ & _ & _ & _ & _ & _ & RG & NR & _).
  assert (k = k0) by congruence. subst k.
  unfold blocks in Eb. destruct (Nat.eqb_spec (2 ^ j) 1); [lia|]. rewrite E in Eb. cbn [option_map] in Eb. injection Eb as <-.
  destruct (number_nth_inv _ _ _ _ _ Nb) as (r' & Nr' & ->). assert (r' = r) by congruence. subst r'.
  destruct (number_nth_inv _ _ _ _ _ Nb') as (s' & Ns & ->).
  destruct (subdivide_regular j x y w h Hj) as (N & M & rs' & E' & ((HN & HM) & G)). assert (rs' = rs) by congruence. subst rs'. rewrite Forall_forall in G.
  destruct (subdivide_tiling (2 ^ j) x y w h Hp Hw Hh) as (rs' & E'' & _ & (Wi & Ap & _)). assert (rs' = rs) by congruence. subst rs'.
  destruct (G r (nth_error_In _ _ Nr)) as (X & Y & GR). destruct (G s' (nth_error_In _ _ Ns)) as (X' & Y' & GS').
  assert (D : (X', Y') <> (X, Y)).
  { intros EQ. injection EQ as -> ->. pose proof (pairs_nth apart rs rank s r s' apart_sym Ap Nr Ns ltac:(congruence)) as AP.
    rewrite Forall_forall in Wi. destruct (Wi r (nth_error_In _ _ Nr)) as (P1 & P2 & _).
    destruct GR as (e1 & e2 & e3 & e4 & _), GS' as (f1 & f2 & f3 & f4 & _). unfold apart in AP. cbn [num RA] in *. rewrite e1, e2, e3, e4, f1, f2, f3, f4 in AP.
    rewrite e3 in P1. rewrite e4 in P2. lra. }
  destruct (halo_grid x y w h dist N M X Y X' Y' r s' l (Z.of_nat rank) (Z.of_nat s) (number RA 0 rs)) as (g & Eg & Hg); try assumption.
  - lia.
  - eapply nth_error_In. exact (number_nth RA 0 rs s s' Ns).
  - exists g. unfold region_of. rewrite NR, RG. split; [exact Eg|exact Hg].
Qed.
Theorem C76_halo_exact_partial :
  forall (O : Type) (eqo : O -> O -> bool) j rank s (x y w h d dist : R) bs b b' cs e o l,
    (1 <= j)%nat -> (rank < 2 ^ j)%nat -> (s < 2 ^ j)%nat -> s <> rank ->
    usable_R w h d -> 0 <= x -> 0 <= y ->
    blocks RA (2 ^ j) 0 x y w h = Some bs -> nth_error bs rank = Some b -> nth_error bs s = Some b' ->
    2 * dist < b_w b -> 2 * dist < b_h b ->
    Forall (k_in RA (2 ^ j) w h d) cs -> before_update RA (rev cs) = Some e -> In (KInsert o l) e ->
    b_contains b l -> near_block w h dist l b' ->
    exists (k0 k : kdtree RA (O := O)) out slot,
      create_tree RA (2 ^ j) (Z.of_nat rank) 0 x y w h d dist = Some k0 /\ k_run RA eqo (2 ^ j) k0 cs = Some k /\
      outgoing RA (2 ^ j) k (k_prec_neighbors k) true = Some out /\ nth_error out s = Some slot /\ In o slot.
Proof.
  intros O eqo j rank s x y w h d dist bs b b' cs e o l Hj Hr Hs Ne (Pw & Ph & Pd & Ps) Hx Hy Eb Nb Nb' Dw Dh Hin He Ho Hl Hn.
  assert (Hp : (2 <= 2 ^ j)%nat) by (change 2%nat with (2 ^ 1)%nat at 1; apply Nat.pow_le_mono_r; lia).
  pose proof (good_size_R w h d Pw Ph Pd Ps) as GS.
  destruct (fresh_tree RA (O := O) (2 ^ j) rank x y w h d dist GS Hp Hr) as (k0 & C & _).
  destruct (halo_R j rank s x y w h d dist bs b b' l k0 Hj Hr Hs Ne Hx Hy Pw Ph Eb Nb Nb' Dw Dh Hl Hn C) as (g & Eg & Hg).
  destruct (sent (A := RA) eqo (2 ^ j) rank s x y w h d dist cs e k0 o l g GS Hp Hr Hs Hin He Ho C Eg Hg) as (k & out & slot & E & Ou & Ns & I).
  exists k0, k, out, slot. auto.
Qed.
Print Assumptions C76_halo_exact_partial.

(** f32, when nothing is rounded.  Missing also: other sizes and distances. *)
Theorem C76_halo_f32_partial :
  forall (O : Type) (eqo : O -> O -> bool) g j rank s (x y w h d dist : f32) bs b b' cs e o l,
    (1 <= j)%nat -> (rank < 2 ^ j)%nat -> (s < 2 ^ j)%nat -> s <> rank ->
    usable w h d -> exact_field g j x y w h -> fok dist -> multiple g (f2R dist) -> 0 <= f2R dist ->
    blocks FA (2 ^ j) 0 x y w h = Some bs -> nth_error bs rank = Some b -> nth_error bs s = Some b' ->
    2 * f2R dist < f2R (b_w b) -> 2 * f2R dist < f2R (b_h b) ->
    Forall (k_in FA (2 ^ j) w h d) cs -> before_update FA (rev cs) = Some e -> In (KInsert o l) e ->
    is_point l -> b_contains (bR b) (p2R l) -> near_block (f2R w) (f2R h) (f2R dist) (p2R l) (bR b') ->
    exists (k0 k : kdtree FA (O := O)) out slot,
      create_tree FA (2 ^ j) (Z.of_nat rank) 0 x y w h d dist = Some k0 /\ k_run FA eqo (2 ^ j) k0 cs = Some k /\
      outgoing FA (2 ^ j) k (k_prec_neighbors k) true = Some out /\ nth_error out s = Some slot /\ In o slot.
Proof.
  intros O eqo g j rank s x y w h d dist bs b b' cs e o l Hj Hr Hs Ne U E Kd Md Pd Eb Nb Nb' Dw Dh Hin He Ho [K1 K2] Hl Hn.
  assert (Hp : (2 <= 2 ^ j)%nat) by (change 2%nat with (2 ^ 1)%nat at 1; apply Nat.pow_le_mono_r; lia).
  pose proof (usable_good w h d U) as GS.
  destruct (exact_blocks g j (2 ^ j) x y w h E ltac:(lia)) as (bf & br & Ef & Er & F). assert (bf = bs) by congruence. subst bf.
  assert (EB : map bR bs = br).
  { clear - F. induction F as [|f q bf b H F IH]; [reflexivity|]. cbn [map]. rewrite IH. f_equal. destruct H as [Hi ((_ & X) & (_ & Y) & (_ & W) & (_ & H) & _)].
    destruct f as [fi fx fy fw fh], q as [ri rx ry rw rh]. unfold bR, brect in *. cbn [b_id b_x b_y b_w b_h r_x r_y r_w r_h] in *. subst. reflexivity. }
  destruct (exact_create (O := O) g j (2 ^ j) rank x y w h d dist (f2R d) (f2R dist) E ltac:(lia) Hr (conj Kd eq_refl) Md Pd)
    as (kf & kr & lf & lr & rf & r & C1 & C2 & S1 & S2 & _ & N1 & N2 & RL & NT & RG).
  pose proof E as (Hg & _ & _ & _ & _ & _ & _ & _ & _ & Px & Py & Pw & Ph & _).
  assert (Nbr : nth_error br rank = Some (bR b)) by (rewrite <- EB, nth_error_map, Nb; reflexivity).
  assert (Nbr' : nth_error br s = Some (bR b')) by (rewrite <- EB, nth_error_map, Nb'; reflexivity).
  assert (Erb : to_block RA (Z.of_nat rank) r = bR b).
  { unfold blocks in Er. destruct (Nat.eqb_spec (2 ^ j) 1); [lia|]. rewrite S2 in Er. cbn [option_map] in Er. injection Er as <-.
    pose proof (number_nth RA 0 lr rank r N2) as Q. cbn [Z.add] in Q. congruence. }
  assert (Wr : r_w r = f2R (b_w b)) by (change (r_w r) with (b_w (to_block RA (Z.of_nat rank) r)); rewrite Erb; reflexivity).
  assert (Hr' : r_h r = f2R (b_h b)) by (change (r_h r) with (b_h (to_block RA (Z.of_nat rank) r)); rewrite Erb; reflexivity).
  destruct RG as [NR BR]; [cbn [num RA] in *; lra|cbn [num RA] in *; lra|].
  destruct (halo_R j rank s (f2R x) (f2R y) (f2R w) (f2R h) (f2R d) (f2R dist) br (bR b) (bR b') (p2R l) kr Hj Hr Hs Ne Px Py Pw Ph Er Nbr Nbr' Dw Dh Hl Hn C2) as (g0 & Eg & Hg0).
  assert (Eg' : region_of FA kf l = Some g0).
  { unfold region_of in *. rewrite <- Eg. apply (find_same g (k_regions kf) (k_regions kr) l (p2R l) Hg BR). split; split; cbn; auto. }
  rewrite <- NR in Hg0.
  destruct (sent (A := FA) eqo (2 ^ j) rank s x y w h d dist cs e kf o l g0 GS Hp Hr Hs Hin He Ho C1 Eg' Hg0) as (k & out & slot & Ek & Ou & Ns & I).
  exists kf, k, out, slot. auto.
Qed.
Print Assumptions C76_halo_f32_partial.

(** Three processes, field 100 by 100, distance 10: process 0 owns (0,0)-(50,50), process 2
    owns (50,0)-(100,100).  The agent at (49,49) is in the corner of the block of process
    0; its region is the northern one, whose corners do not meet the corners of block 2.
    Nothing is sent to process 2. *)
Definition ship (p : nat) (rank : Z) (w d dist : f32) (objs : list obj) : option (list (list nat)) :=
  match create_tree FA p rank 0 (z 0) (z 0) w w d dist with
  | None => None
  | Some k0 =>
      match k_run FA same_obj p k0 (map (fun o => KInsert (A := FA) o (snd o)) objs ++ [KLazyUpdate]) with
      | None => None
      | Some k => option_map (map (map fst)) (outgoing FA p k (k_prec_neighbors k) true)
      end
  end.
Theorem C76_halo_refuted :
  ship 3 0 (z 100) (z 10) (z 10) [at_ 1%nat 49 49; at_ 2%nat 49 5]%Z = Some [[]; [1; 2]; [2]]%nat /\
  show_blocks 3 (z 0) (z 0) (z 100) (z 100) =
    Some [(0, (z 0, z 0), (z 50, z 50)); (1, (z 0, z 50), (z 50, z 50)); (2, (z 50, z 0), (z 50, z 100))]%Z.
Proof. split; vm_compute; reflexivity. Qed.
Print Assumptions C76_halo_refuted.
(** Rounding: two processes, field 254.2 by 254.2, distance 16.7.  The agent at (127, 100)
    is 0.1 from the block of process 1 and is not sent; the corners of the eastern region
    are rounded away from those of block 1. *)
Definition w2542 : f32 := S754_finite false 16659251 (-16).       (* 254.2 *)
Definition d167 : f32 := S754_finite false 8755610 (-19).         (* 16.7 *)
Theorem C76_rounding_refuted :
  ship 2 0 w2542 (z 16) d167 [at_ 1%nat 127 100]%Z = Some [[]; []] /\
  show_blocks 2 (z 0) (z 0) w2542 w2542 =
    Some [(0, (z 0, z 0), (S754_finite false 16659251 (-17), w2542)); (1, (S754_finite false 16659251 (-17), z 0), (S754_finite false 16659251 (-17), w2542))]%Z /\
  fltb (z 127) (S754_finite false 16659251 (-17)) = true /\ fleb (fsub (S754_finite false 16659251 (-17)) (z 127)) d167 = true.
Proof. repeat split; vm_compute; reflexivity. Qed.
Print Assumptions C76_rounding_refuted.
Lemma exact_128 : exact_field 0 2 (z 0) (z 0) (z 128) (z 128).
Proof.
  destruct (multiple_Z 2 0) as (K0 & E0 & M0); [lia|lia|]. destruct (multiple_Z 2 32) as (K1 & E1 & M1); [lia|lia|].
  change (0 * 2 ^ 2)%Z with 0%Z in *. change (32 * 2 ^ 2)%Z with 128%Z in *. unfold exact_field. change (0 + Z.of_nat 2)%Z with 2%Z. split; [lia|].
  repeat (split; [assumption|]). rewrite E0, E1. change (bpow radix2 (0 + 24)) with 16777216. lra.
Qed.
(** The agent at (60,60) of process 0 meets the hypotheses of the f32 theorem for process 3,
    whose block is (64,64)-(128,128). *)
Example C76_concrete :
  ship 4 0 (z 128) (z 8) (z 8) [at_ 1%nat 60 60; at_ 2%nat 30 30; at_ 3%nat 2 30; at_ 4%nat 30 127]%Z = Some [[]; [1; 3]; [1; 3]; [1; 3]]%nat /\
  exact_field 0 2 (z 0) (z 0) (z 128) (z 128) /\ usable (z 128) (z 128) (z 8) /\ multiple 0 (f2R (z 8)) /\
  show_blocks 4 (z 0) (z 0) (z 128) (z 128) =
    Some [(0, (z 0, z 0), (z 64, z 64)); (1, (z 0, z 64), (z 64, z 64)); (2, (z 64, z 0), (z 64, z 64)); (3, (z 64, z 64), (z 64, z 64))]%Z /\
  near_block 128 128 8 (60, 60) (Block (A := RA) 3 64 64 64 64).
Proof.
  split; [vm_compute; reflexivity|]. split; [exact exact_128|]. split; [|split; [|split]].
  - split; [apply pos_int; lia|]. split; [apply pos_int; lia|]. split; [apply pos_int; lia|]. change (cols FA (z 128) (z 8)) with 17%Z. lia.
  - exists 8%Z. unfold z. rewrite (proj1 (f_of_Z_exact 8 ltac:(lia))). cbn. lra.
  - vm_compute. reflexivity.
  - exists (64, 64). unfold b_contains, contains. cbn [b_x b_y b_w b_h fst snd]. split; [lra|].
    assert (N : near_coordinate 128 8 60 64) by (exists 64; split; [exists 0%Z; lra|rewrite Rabs_left; lra]). split; exact N.
Qed.

(** ** C77: what a tree stores after any calls *)
(** For any arithmetic and any calls inside the field: nothing panics; the read bags hold
    what the same calls leave in a Field2D and what [insert_read] added since the last
    update; the write bags hold what a Field2D would; [prec_neighbors] has, once updated,
    per halo region the agents inserted there in the previous epoch; the slots of
    [agents_to_send] hold what was addressed since the last update; position, size,
    neighbours and regions never change. *)
Theorem C77_history :
  forall (A : arith) (O : Type) (eqo : O -> O -> bool) p rank (x y w h d dist : num A) cs,
    good_size A w h d -> (2 <= p)%nat -> (rank < p)%nat -> Forall (k_in A p w h d) cs ->
    exists k0 k : kdtree A (O := O),
      create_tree A p (Z.of_nat rank) 0 x y w h d dist = Some k0 /\ k_run A eqo p k0 cs = Some k /\
      (forall l, in_field A w h d l ->
         vget (k_read k) (k_index A k l) = Some (in_cell_of A d l (k_readable A eqo d cs)) /\
         vget (k_write k) (k_index A k l) = Some (in_cell_of A d l (k_pending A eqo d cs))) /\
      k_prec_neighbors k = match before_update A (rev cs) with
                           | None => []
                           | Some e => map (inserted_in A (region_of A k0) e) [0; 1; 2; 3]%Z
                           end /\
      k_agents_to_send k = map (addressed A (since_update A (rev cs))) (seq 0 p) /\
      (k_x k, k_y k, k_w k, k_h k) = (k_x k0, k_y k0, k_w k0, k_h k0) /\ k_subtrees k = k_subtrees k0 /\
      k_neighbor_trees k = k_neighbor_trees k0 /\ k_regions k = k_regions k0 /\ k_neighbor_regions k = k_neighbor_regions k0.
Proof.
  intros A O eqo p rank x y w h d dist cs GS Hp Hr Hin.
  destruct (fresh_tree A (O := O) p rank x y w h d dist GS Hp Hr) as (k0 & C & K0 & F1 & F2 & F3 & F4 & F5 & F6 & _).
  destruct (k_history A eqo w h d GS p k0 K0 F1 F2 F3 F4 F5 F6 cs Hin) as (k & E & W & Sh & (B & _ & Pr & Ag)).
  exists k0, k. split; [exact C|]. split; [exact E|]. split.
  - intros l Hl. destruct W as (_ & _ & W3 & W4 & _). unfold k_index. rewrite W3, W4. exact (B _ Hl).
  - split; [exact Pr|]. split; [exact Ag|]. unfold shape in Sh. injection Sh as -> -> -> -> _ _ _ _ _ -> -> -> -> _. repeat split; reflexivity.
Qed.
Print Assumptions C77_history.

(** In neighbour mode a process hands over what was addressed to its neighbours since the
    last update; whatever the argument is. *)
Theorem C77_addressed :
  forall (A : arith) (O : Type) (eqo : O -> O -> bool) p rank (x y w h d dist : num A) cs arg,
    good_size A w h d -> (2 <= p)%nat -> (rank < p)%nat -> Forall (k_in A p w h d) cs ->
    exists (k0 k : kdtree A (O := O)) out,
      create_tree A p (Z.of_nat rank) 0 x y w h d dist = Some k0 /\ k_run A eqo p k0 cs = Some k /\
      outgoing A p k arg false = Some out /\ length out = p /\
      forall s, (s < p)%nat ->
        (In (Z.of_nat s) (k_neighbor_trees k0) -> nth_error out s = Some (addressed A (since_update A (rev cs)) s)) /\
        (~ In (Z.of_nat s) (k_neighbor_trees k0) -> nth_error out s = Some []).
Proof.
  intros A O eqo p rank x y w h d dist cs arg GS Hp Hr Hin.
  destruct (outgoing_addressed A eqo p rank x y w h d dist cs arg GS Hp Hr Hin) as (k0 & k & out & C & E & Ou & ->).
  exists k0, k. eexists. split; [exact C|]. split; [exact E|]. split; [exact Ou|]. rewrite map_length, seq_length. split; [reflexivity|].
  intros s Hs. rewrite nth_seq by exact Hs. destruct (existsb _ _) eqn:Ex.
  - apply existsb_exists in Ex. destruct Ex as (n & Hn & En). apply Z.eqb_eq in En. subst n. split; [reflexivity|contradiction].
  - split; [|reflexivity]. intros H. exfalso. assert (existsb (Z.eqb (Z.of_nat s)) (k_neighbor_trees k0) = true); [|congruence].
    apply existsb_exists. exists (Z.of_nat s). split; [exact H|apply Z.eqb_refl].
Qed.
Print Assumptions C77_addressed.

(** What the halo lists do not follow: an agent removed before the update is still
    announced to the neighbours, and an agent addressed to a process that is no neighbour
    is dropped. *)
Definition tree_run {X} (p : nat) (rank : Z) (w d dist : f32) (cs : list (kop FA (O := obj))) (get : kdtree FA (O := obj) -> X) : option X :=
  match create_tree FA p rank 0 (z 0) (z 0) w w d dist with
  | None => None
  | Some k0 => option_map get (k_run FA same_obj p k0 cs)
  end.
Theorem C77_removed_refuted :
  let a := at_ 1%nat 60 60 in
  tree_run 4 0 (z 128) (z 8) (z 8) [KInsert (A := FA) a (snd a); KRemove (A := FA) a (snd a); KLazyUpdate]
    (fun k => (map (map fst) (k_prec_neighbors k), option_map (map (map fst)) (outgoing FA 4 k (k_prec_neighbors k) true), map fst (concat (k_read k)))) =
  Some ([[1]; []; []; []], Some [[]; [1]; [1]; [1]], [])%nat.
Proof. vm_compute. reflexivity. Qed.
Print Assumptions C77_removed_refuted.
Theorem C77_dropped_refuted :
  tree_run 16 0 (z 128) (z 8) (z 2) [KAddress (A := FA) 1 (at_ 1%nat 60 60); KAddress (A := FA) 6 (at_ 2%nat 60 60)]
    (fun k => (k_neighbor_trees k, option_map (map (map fst)) (outgoing FA 16 k [] false))) =
  Some ([1; 2; 3; 5; 7; 10; 11; 15]%Z, Some [[]; [1]; []; []; []; []; []; []; []; []; []; []; []; []; []; []])%nat.
Proof. vm_compute. reflexivity. Qed.
Print Assumptions C77_dropped_refuted.
Example C77_concrete :
  let a := at_ 1%nat 60 60 in let b := at_ 2%nat 30 30 in
  good_size FA (z 128) (z 128) (z 8) /\
  Forall (k_in FA 4 (z 128) (z 128) (z 8)) [KInsert (A := FA) a (snd a); KInsert (A := FA) b (snd b); KLazyUpdate; KInsertRead (A := FA) a (snd b); KAddress 2 a] /\
  tree_run 4 0 (z 128) (z 8) (z 8) [KInsert (A := FA) a (snd a); KInsert (A := FA) b (snd b); KLazyUpdate; KInsertRead (A := FA) a (snd b); KAddress 2 a]
    (fun k => (map fst (concat (k_read k)), map (map fst) (k_prec_neighbors k), map (map fst) (k_agents_to_send k))) =
  Some ([2; 1; 1], [[1]; []; []; []], [[]; []; [1]; []])%nat.
Proof.
  split; [|split].
  - apply usable_good. split; [apply pos_int; lia|]. split; [apply pos_int; lia|]. split; [apply pos_int; lia|]. change (cols FA (z 128) (z 8)) with 17%Z. lia.
  - assert (U : usable (z 128) (z 128) (z 8)).
    { split; [apply pos_int; lia|]. split; [apply pos_int; lia|]. split; [apply pos_int; lia|]. change (cols FA (z 128) (z 8)) with 17%Z. lia. }
    assert (I : forall n, In n [60; 30]%Z -> in_field FA (z 128) (z 128) (z 8) (z n, z n)).
    { intros n Hn. destruct U as (U1 & U2 & U3 & U4 & U5 & U6). apply in_field_f32; try assumption; try (apply f_of_Z_valid).
      cbn in Hn. destruct Hn as [<-|[<-|[]]]; repeat split; vm_compute; reflexivity. }
    repeat (apply Forall_cons || apply Forall_nil); cbn [k_in]; try exact Logic.I; try (apply I; cbn; auto); lia.
  - vm_compute. reflexivity.
Qed.

(** ** C78: neighbour queries *)
Definition k_home (A : arith) {O} (location : O -> num A * num A) (c : kop A (O := O)) : Prop :=
  match c with KInsert o l | KInsertRead o l => l = location o | _ => True end.
(** For any arithmetic and any calls inside the field: the query does not panic, whatever the
    location and the distance; its answer is a part of the stored agents, each at most once;
    an agent at the very location of the query is not among them, any other one passed the
    distance test or lies in a cell whose corners all passed it. *)
Theorem C78_sound :
  forall (A : arith) (O : Type) (eqo : O -> O -> bool) location p rank (x y w h d rad : num A) cs l dist,
    good_size A w h d -> (2 <= p)%nat -> (rank < p)%nat -> Forall (k_in A p w h d) cs ->
    exists (k0 k : kdtree A (O := O)) r keep,
      create_tree A p (Z.of_nat rank) 0 x y w h d rad = Some k0 /\ k_run A eqo p k0 cs = Some k /\
      k_neighbors_within A location k l dist = Some r /\
      Permutation r (map fst (filter keep (k_readable A eqo d cs))) /\
      forall o, In o r -> eqpt A (location o) l = false /\ le A dist (of_int A 0) = false /\
        exists l', In (o, l') (k_readable A eqo d cs) /\
          (le A (distance A l (location o) w h true) dist = true \/
           forall c, In c (corners A (discretize A d l') d w h) -> le A (distance A c l w h true) dist = true).
Proof.
  intros A O eqo location p rank x y w h d rad cs l dist GS Hp Hr Hin.
  destruct (fresh_tree A (O := O) p rank x y w h d rad GS Hp Hr) as (k0 & C & K0 & F1 & F2 & F3 & F4 & F5 & F6 & _).
  destruct (k_history A eqo w h d GS p k0 K0 F1 F2 F3 F4 F5 F6 cs Hin) as (k & E & W & Sh & (B & _)).
  pose proof (as_field_wf A w h d k W) as FW. set (f := as_field A k 0) in *.
  assert (HB : forall c, in_range (cols A w d) (cols A h d) c -> vget (f_read f) (cell_index (cols A h d) c) = Some (at_cell A d c (k_readable A eqo d cs))) by (intros c Hc; apply (B c Hc)).
  assert (Q : exists r keep, f_neighbors A location f l dist = Some r /\ Permutation r (map fst (filter keep (k_readable A eqo d cs)))).
  { destruct (le A dist (of_int A 0)) eqn:Hd.
    - exists [], (fun _ => false). unfold f_neighbors. rewrite Hd. split; [reflexivity|]. replace (filter _ _) with (@nil (O * (num A * num A))); [constructor|].
      symmetry. clear. induction (k_readable A eqo d cs) as [|q ps IH]; [reflexivity|exact IH].
    - destruct (window_torus A w h d true GS f l dist FW eq_refl) as (ids & Ew & N).
      destruct (perm_at A location w h d true GS f (k_readable A eqo d cs) l dist ids FW HB Hd Ew N) as (r & Er & P). exists r. eexists. split; [exact Er|exact P]. }
  destruct Q as (r & keep & Er & P).
  exists k0, k, (filter (fun o => negb (eqpt A (location o) l)) r), (fun q => keep q && negb (eqpt A (location (fst q)) l)).
  split; [exact C|]. split; [exact E|]. split; [rewrite (neighbors_same A location k 0); fold f; rewrite Er; reflexivity|]. split.
  - assert (G : forall ps : list (O * (num A * num A)), map fst (filter (fun q => keep q && negb (eqpt A (location (fst q)) l)) ps) =
        filter (fun o => negb (eqpt A (location o) l)) (map fst (filter keep ps))).
    { induction ps as [|q ps IH]; [reflexivity|]. cbn [filter]. destruct (keep q); cbn [andb map filter]; [destruct (negb _); cbn [map]; rewrite IH; reflexivity|exact IH]. }
    rewrite G. clear - P. induction P as [|a u v P IH|a b u|u v t P1 IH1 P2 IH2]; cbn [filter].
    + constructor.
    + destruct (negb _); [constructor|]; exact IH.
    + destruct (negb (eqpt A (location a) l)), (negb (eqpt A (location b) l)); try apply Permutation_refl. apply perm_swap.
    + eapply Permutation_trans; eassumption.
  - intros o Ho. apply filter_In in Ho. destruct Ho as [Ho Ne]. apply negb_true_iff in Ne. split; [exact Ne|].
    exact (sound_at A location w h d true GS f (k_readable A eqo d cs) FW HB l dist r o Er Ho).
Qed.
Print Assumptions C78_sound.

(** The relaxed query, for any arithmetic and any state of the tree: the distance is cut to
    the radius of the tree, and within that radius the answer is the other one with agents
    inserted; the two panic together. *)
Theorem C78_relax :
  forall (A : arith) (O : Type) location (k : kdtree A (O := O)) l dist,
    (lt A (k_distance k) dist = true -> lt A (k_distance k) (k_distance k) = false ->
     k_relax A location k l dist = k_relax A location k l (k_distance k)) /\
    (lt A (k_distance k) dist = false ->
     match k_neighbors_within A location k l dist, k_relax A location k l dist with
     | Some r, Some r' => subseq r r' /\ forall o, In o r' -> eqpt A (location o) l = false
     | None, None => True
     | _, _ => False
     end).
Proof.
  intros A O location k l dist. split; intros Hd.
  - intros E. unfold k_relax. rewrite Hd, E. reflexivity.
  - rewrite (neighbors_same A location k 0), (relax_same A location k 0). unfold clipped. rewrite Hd.
    pose proof (relax_rel A location (as_field A k 0) l dist) as H. destruct (f_neighbors A location (as_field A k 0) l dist) as [r|], (f_relax A (as_field A k 0) l dist) as [r'|]; try exact H.
    cbn [option_map]. split.
    + clear - H. induction H as [u|a u v H IH|a u v H IH]; cbn [filter]; [constructor| |].
      * destruct (negb _); [constructor|]; exact IH.
      * destruct (negb _); [apply subseq_skip|]; exact IH.
    + intros o Ho. apply filter_In in Ho. apply negb_true_iff. apply Ho.
Qed.
Print Assumptions C78_relax.

Lemma k_readable_In A {O} eqo d (cs : list (kop A (O := O))) o l : In (o, l) (k_readable A eqo d cs) -> In (KInsert o l) cs \/ In (KInsertRead o l) cs.
Proof.
  unfold k_readable. rewrite in_app_iff. intros [H|H].
  - left. apply readable_In in H. cbn [fst snd] in H. apply in_flat_map in H. destruct H as (c & Hc & H). destruct c; cbn in H; try (destruct H as [H|[]]; try discriminate; injection H as -> ->; exact Hc); destruct H.
  - right. unfold read_inserts in H. apply in_flat_map in H. destruct H as (c & Hc & H). destruct c as [?|o' l'|? ?| |? ?]; cbn in H; try (destruct H; fail). destruct H as [H|[]]. injection H as -> ->.
    assert (S : forall cs : list (kop A (O := O)), In (KInsertRead o l) (since_update A cs) -> In (KInsertRead o l) cs).
    { clear. induction cs as [|c cs IH]; [intros []|]. destruct c; cbn [since_update]; try (rewrite in_app_iff; intros [H|[H|[]]]; [right; apply IH; exact H|left; exact H]). intros []. }
    apply in_rev. apply S. exact Hc.
Qed.

(** Exact numbers: an answer is stored, is elsewhere, and is at most a discretization step
    beyond the distance on the torus. *)
Theorem C78_sound_exact_partial :
  forall (O : Type) (eqo : O -> O -> bool) location p rank (x y w h d rad : R) cs l dist,
    usable_R w h d -> (2 <= p)%nat -> (rank < p)%nat -> Forall (k_in RA p w h d) cs -> Forall (k_home RA location) cs ->
    (forall o l, In (KInsert o l) cs \/ In (KInsertRead o l) cs -> 0 <= fst l <= w /\ 0 <= snd l <= h) ->
    exists (k0 k : kdtree RA (O := O)) r,
      create_tree RA p (Z.of_nat rank) 0 x y w h d rad = Some k0 /\ k_run RA eqo p k0 cs = Some k /\
      k_neighbors_within RA location k l dist = Some r /\
      forall o, In o r -> In (o, location o) (k_readable RA eqo d cs) /\ location o <> l /\
        exists far, torus_distance w h l (location o) far /\ far <= dist + d.
Proof.
  intros O eqo location p rank x y w h d rad cs l dist (Pw & Ph & Pd & Ps) Hp Hr Hin Hh Hi.
  pose proof (good_size_R w h d Pw Ph Pd Ps) as GS.
  destruct (C78_sound RA O eqo location p rank x y w h d rad cs l dist GS Hp Hr Hin) as (k0 & k & r & keep & C & E & Er & _ & S).
  exists k0, k, r. split; [exact C|]. split; [exact E|]. split; [exact Er|]. intros o Ho. destruct (S o Ho) as (Ne & _ & l' & Hl & Cs).
  pose proof (k_readable_In RA eqo d cs o l' Hl) as Hc.
  assert (EL : l' = location o). { rewrite Forall_forall in Hh. destruct Hc as [Hc|Hc]; exact (Hh _ Hc). }
  specialize (Hi _ _ Hc). subst l'. split; [exact Hl|]. split.
  - intros EQ. apply eqpt_R in EQ. congruence.
  - exists (distance RA l (location o) w h true). split; [apply distance_RA_torus; assumption|]. destruct Cs as [Cs|Cs].
    + cbn [le RA] in Cs. rewrite Rle_bool_iff in Cs. cbn [num RA] in *. lra.
    + apply (inside_torus w h d Pw Ph Pd Ps l (location o) dist); [apply Hi|apply Hi|]. intros c Hc'. specialize (Cs c Hc'). cbn [le RA] in Cs. rewrite Rle_bool_iff in Cs. exact Cs.
Qed.
Print Assumptions C78_sound_exact_partial.

(** Exact numbers: a stored agent elsewhere, closer than the distance by a discretization
    step (without wrapping), is returned.  Missing: agents nearer to the limit, and across
    the border. *)
Theorem C78_inner_partial :
  forall (O : Type) (eqo : O -> O -> bool) location p rank (x y w h d rad : R) cs l dist o,
    usable_R w h d -> (2 <= p)%nat -> (rank < p)%nat -> Forall (k_in RA p w h d) cs ->
    Rabs (fst l) <= 2 ^ 29 * d -> Rabs (snd l) <= 2 ^ 29 * d -> 0 < dist <= 2 ^ 29 * d ->
    In (o, location o) (k_readable RA eqo d cs) -> 0 <= fst (location o) < w -> 0 <= snd (location o) < h ->
    plane_distance l (location o) <= dist - d -> location o <> l ->
    exists (k0 k : kdtree RA (O := O)) r,
      create_tree RA p (Z.of_nat rank) 0 x y w h d rad = Some k0 /\ k_run RA eqo p k0 cs = Some k /\
      k_neighbors_within RA location k l dist = Some r /\ In o r.
Proof.
  intros O eqo location p rank x y w h d rad cs l dist o (Pw & Ph & Pd & Ps) Hp Hr Hin Lx Ly Hd Ho Ox Oy Hn Ne.
  pose proof (good_size_R w h d Pw Ph Pd Ps) as GS.
  destruct (fresh_tree RA (O := O) p rank x y w h d rad GS Hp Hr) as (k0 & C & K0 & F1 & F2 & F3 & F4 & F5 & F6 & _).
  destruct (k_history RA eqo w h d GS p k0 K0 F1 F2 F3 F4 F5 F6 cs Hin) as (k & E & W & Sh & (B & _)).
  destruct (inner_at w h d Pw Ph Pd Ps location true (as_field RA k 0) (k_readable RA eqo d cs) l dist o (as_field_wf RA w h d k W)
              (fun c Hc => proj1 (B c Hc)) Lx Ly Hd Ho Ox Oy Hn) as (r & Er & I).
  exists k0, k, (filter (fun o => negb (eqpt RA (location o) l)) r). split; [exact C|]. split; [exact E|].
  split; [rewrite (neighbors_same RA location k 0), Er; reflexivity|]. apply filter_In. split; [exact I|].
  apply negb_true_iff, not_true_is_false. intros EQ. apply eqpt_R in EQ. contradiction.
Qed.
Print Assumptions C78_inner_partial.

(** Another agent at the very place of the query is not returned; nor is one two units
    away across the border. *)
Definition k_ask (objs : list obj) (l : f32 * f32) (dist : f32) : option (option (list obj)) :=
  tree_run 4 0 (z 128) (z 8) (z 8) (map (fun o => KInsert (A := FA) o (snd o)) objs ++ [KLazyUpdate]) (fun k => k_neighbors_within FA snd k l dist).
Theorem C78_same_place_refuted :
  k_ask [at_ 1%nat 60 60; at_ 2%nat 60 60; at_ 3%nat 61 60]%Z (z 60, z 60) (z 16) = Some (Some [at_ 3%nat 61 60]%Z).
Proof. vm_compute. reflexivity. Qed.
Print Assumptions C78_same_place_refuted.
Theorem C78_torus_refuted :
  k_ask [at_ 1%nat 127 60; at_ 2%nat 5 60]%Z (z 1, z 60) (z 16) = Some (Some [at_ 2%nat 5 60]%Z) /\
  exists near, torus_distance 128 128 (1, 60) (127, 60) near /\ near <= 16.
Proof.
  split; [vm_compute; reflexivity|]. exists 2. split; [|lra]. exists (Rabs 2), (Rabs 0). cbn [fst snd]. split; [|split].
  - split; [exists 1%Z; f_equal; lra|]. apply shortest; [lra|rewrite Rabs_right; lra|]. exists 1%Z. lra.
  - replace 0 with (60 - 60) by lra. apply circle_small; [lra|]. rewrite Rminus_diag_eq, Rabs_R0 by reflexivity. lra.
  - rewrite !pow2_abs. replace (2 ^ 2 + 0 ^ 2) with (2 * 2) by ring. rewrite sqrt_square; lra.
Qed.
Print Assumptions C78_torus_refuted.
(** The relaxed query cuts a larger distance to the radius, so it misses agents that the
    other one returns. *)
Theorem C78_clipped_refuted :
  tree_run 4 0 (z 128) (z 8) (z 8) [KInsert (A := FA) (at_ 1%nat 60 60) (z 60, z 60); KLazyUpdate]
    (fun k => (option_map (map fst) (k_neighbors_within FA snd k (z 30, z 60) (z 40)), option_map (map fst) (k_relax FA snd k (z 30, z 60) (z 40)))) =
  Some (Some [1%nat], Some []).
Proof. vm_compute. reflexivity. Qed.
Print Assumptions C78_clipped_refuted.
Example C78_concrete :
  k_ask [at_ 1%nat 10 10; at_ 2%nat 12 12; at_ 3%nat 60 60]%Z (z 9, z 9) (z 16) = Some (Some [at_ 1%nat 10 10; at_ 2%nat 12 12]%Z) /\
  usable_R 20 20 2 /\ plane_distance (9, 9) (10, 10) <= 5 - 2.
Proof. split; [vm_compute; reflexivity|]. apply C30_concrete. Qed.
