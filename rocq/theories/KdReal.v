(** * Kdtree with exact numbers *)
From Coq Require Import List Bool ZArith NArith Arith Reals Lia Lra Psatz Sorted.
From Verif Require Import F32 Grid ObjModel FieldModel FieldReal KdModel KdSpec KdProofs.
From Flocq Require Import Core.
Import ListNotations.
Local Open Scope R_scope.

Notation rectR := (rect RA).
Ltac rr := cbn [RA num add sub mul div rem le lt of_int r_x r_y r_w r_h b_x b_y b_w b_h b_id fst snd half split to_block] in *.

(** ** The blocks tile the field *)
Definition r_contains (r : rectR) : R * R -> Prop := contains (r_x r) (r_y r) (r_w r) (r_h r).

(** The rectangles do not overlap. *)
Definition apart (r s : rectR) : Prop :=
  r_x r + r_w r <= r_x s \/ r_x s + r_w s <= r_x r \/ r_y r + r_h r <= r_y s \/ r_y s + r_h s <= r_y r.
Definition within (x y w h : R) (r : rectR) : Prop :=
  0 < r_w r /\ 0 < r_h r /\ x <= r_x r /\ r_x r + r_w r <= x + w /\ y <= r_y r /\ r_y r + r_h r <= y + h.

Lemma split_within (x y w h : R) a r : within x y w h r ->
  within x y w h (fst (split RA a r)) /\ within x y w h (snd (split RA a r)).
Proof. destruct r as [rx ry rw rh]. unfold within. destruct a; rr; intros; repeat split; lra. Qed.
Lemma split_contains a (r : rectR) l : r_contains r l -> r_contains (fst (split RA a r)) l \/ r_contains (snd (split RA a r)) l.
Proof.
  destruct r as [rx ry rw rh], l as [lx ly]. unfold r_contains, contains. destruct a; rr; intros.
  - destruct (Rle_or_lt lx (rx + rw / 2)); [left|right]; repeat split; lra.
  - destruct (Rle_or_lt ly (ry + rh / 2)); [left|right]; repeat split; lra.
Qed.
Lemma split_apart a (r : rectR) : apart (fst (split RA a r)) (snd (split RA a r)).
Proof. destruct r as [rx ry rw rh]. unfold apart. destruct a; rr; [left|right; right; left]; lra. Qed.
Lemma split_apart_l a (r s : rectR) : 0 < r_w r -> 0 < r_h r -> apart r s -> apart (fst (split RA a r)) s /\ apart (snd (split RA a r)) s.
Proof.
  destruct r as [rx ry rw rh], s as [sx sy sw sh]. unfold apart. destruct a; rr; intros Hw Hh [|[|[|]]]; split; try (left; lra); try (right; left; lra);
    try (right; right; left; lra); try (right; right; right; lra).
Qed.
Lemma apart_sym r s : apart r s -> apart s r.
Proof. unfold apart. tauto. Qed.

Definition tiling (x y w h : R) (l : list rectR) : Prop :=
  Forall (within x y w h) l /\ ForallOrdPairs apart l /\
  forall q : R * R, contains x y w h q -> exists r, In r l /\ r_contains r q.

Lemma refine_apart m a : forall (l : list rectR) r, 
  Forall (fun s : rectR => 0 < r_w s /\ 0 < r_h s) l -> Forall (apart r) l -> Forall (apart r) (refine RA m a l).
Proof.
  induction m as [|m IH]; intros [|s l] r Hp H; cbn [refine]; try assumption.
  inversion H; subst. inversion Hp; subst. destruct (split_apart_l a s r) as [S1 S2]; [tauto|tauto|apply apart_sym; assumption|].
  constructor; [apply apart_sym; exact S1|]. constructor; [apply apart_sym; exact S2|]. apply IH; assumption.
Qed.

Lemma refine_tiling x y w h m a l : tiling x y w h l -> tiling x y w h (refine RA m a l).
Proof.
  intros (W & D & C). split; [|split].
  - apply refine_Forall; [|exact W]. intros b r. apply split_within.
  - clear C. assert (P : Forall (fun s : rectR => 0 < r_w s /\ 0 < r_h s) l).
    { eapply Forall_impl; [|exact W]. unfold within. cbn. intros; tauto. }
    clear W. revert l D P. induction m as [|m IH]; intros [|r l] D P; cbn [refine]; try assumption.
    inversion D; subst. inversion P; subst.
    assert (B : Forall (apart (fst (split RA a r))) l /\ Forall (apart (snd (split RA a r))) l).
    { clear IH. split; (eapply Forall_impl; [|exact H1]); intros s Hs; apply (split_apart_l a r s); tauto. }
    destruct B as [B1 B2].
    constructor.
    + constructor; [apply split_apart|]. apply refine_apart; assumption.
    + constructor; [apply refine_apart; assumption|]. apply IH; assumption.
  - intros q Hq. destruct (C q Hq) as (r & Hr & Hc). clear D C W. revert l Hr. induction m as [|m IH]; intros [|r0 l] Hr; cbn [refine]; eauto.
    destruct Hr as [->|Hr].
    + destruct (split_contains a r q Hc) as [H|H]; eexists; (split; [|exact H]); cbn; auto.
    + destruct (IH l Hr) as (r' & H1 & H2). exists r'. split; [right; right; exact H1|exact H2].
Qed.

Lemma subdivide_tiling p (x y w h : R) : (2 <= p)%nat -> 0 < w -> 0 < h ->
  exists l, subdivide RA p (Rect (A := RA) x y w h) = Some l /\ length l = p /\ tiling x y w h l.
Proof.
  intros Hp Hw Hh. apply (subdivide_all RA (tiling x y w h) p); [exact Hp| |intros; apply refine_tiling; assumption].
  split; [|split].
  - repeat constructor; rr; lra.
  - repeat constructor.
  - intros q Hq. exists (Rect (A := RA) x y w h). split; [left; reflexivity|exact Hq].
Qed.

Lemma in_block_R (b : block RA) (l : R * R) : in_block RA b l = true <-> b_contains b l.
Proof. unfold in_block, b_contains, contains. rr. rewrite !andb_true_iff, !Rle_bool_iff. tauto. Qed.

(** ** The grid behind the blocks *)
(** The rectangle covers columns [X] to [X + W] and rows [Y] to [Y + H] of a field cut in
    [N] columns and [M] rows. *)
Definition on_grid (x y w h : R) (N M X Y W H : Z) (r : rectR) : Prop :=
  r_x r = x + IZR X * (w / IZR N) /\ r_y r = y + IZR Y * (h / IZR M) /\
  r_w r = IZR W * (w / IZR N) /\ r_h r = IZR H * (h / IZR M) /\
  (0 <= X /\ X + W <= N /\ 0 <= Y /\ Y + H <= M)%Z.

Definition regular (x y w h : R) (N M : Z) (l : list rectR) : Prop :=
  (0 < N /\ 0 < M)%Z /\ Forall (fun r => exists X Y, on_grid x y w h N M X Y 1 1 r) l.

(** In the middle of a turn: every rectangle is a cell of the finer grid, or two cells
    side by side that begin at an even column (row). *)
Definition cellular (a : axis) (X Y W H : Z) : Prop :=
  match a with
  | Vertical => H = 1%Z /\ (W = 1%Z \/ W = 2%Z /\ Z.even X = true)
  | Horizontal => W = 1%Z /\ (H = 1%Z \/ H = 2%Z /\ Z.even Y = true)
  end.
Definition finer (a : axis) (N M : Z) : Z * Z := match a with Vertical => (2 * N, M)%Z | Horizontal => (N, 2 * M)%Z end.

Lemma split_grid x y w h N M a X Y r : (0 < N)%Z -> (0 < M)%Z -> on_grid x y w h N M X Y 1 1 r ->
  let N' := fst (finer a N M) in let M' := snd (finer a N M) in
  (exists X' Y', on_grid x y w h N' M' X' Y' 1 1 (fst (split RA a r))) /\
  (exists X' Y', on_grid x y w h N' M' X' Y' 1 1 (snd (split RA a r))) /\
  (exists X' Y' W H, cellular a X' Y' W H /\ on_grid x y w h N' M' X' Y' W H r).
Proof.
  intros HN HM (E1 & E2 & E3 & E4 & B). cbv zeta.
  assert (IZR N <> 0) by (apply not_0_IZR; lia). assert (IZR M <> 0) by (apply not_0_IZR; lia).
  destruct a; cbn [finer fst snd].
  - split; [|split].
    + exists (2 * X)%Z, Y. unfold on_grid; rr. rewrite E1, E2, E3, E4, ?mult_IZR. repeat split; try lia; try (field; assumption); try ring.
    + exists (2 * X + 1)%Z, Y. unfold on_grid; rr. rewrite E1, E2, E3, E4, ?plus_IZR, ?mult_IZR. repeat split; try lia; try (field; assumption); try ring.
    + exists (2 * X)%Z, Y, 2%Z, 1%Z. split; [split; [reflexivity|right; split; [reflexivity|]; rewrite Z.even_mul; reflexivity]|].
      unfold on_grid; rr. rewrite E1, E2, E3, E4, ?mult_IZR. repeat split; try lia; try (field; assumption); try ring.
  - split; [|split].
    + exists X, (2 * Y)%Z. unfold on_grid; rr. rewrite E1, E2, E3, E4, ?mult_IZR. repeat split; try lia; try (field; assumption); try ring.
    + exists X, (2 * Y + 1)%Z. unfold on_grid; rr. rewrite E1, E2, E3, E4, ?plus_IZR, ?mult_IZR. repeat split; try lia; try (field; assumption); try ring.
    + exists X, (2 * Y)%Z, 1%Z, 2%Z. split; [split; [reflexivity|right; split; [reflexivity|]; rewrite Z.even_mul; reflexivity]|].
      unfold on_grid; rr. rewrite E1, E2, E3, E4, ?mult_IZR. repeat split; try lia; try (field; assumption); try ring.
Qed.

Lemma refine_regular x y w h N M a l : regular x y w h N M l ->
  regular x y w h (fst (finer a N M)) (snd (finer a N M)) (refine RA (length l) a l).
Proof.
  intros [[HN HM] F]. split; [destruct a; cbn [finer fst snd]; lia|].
  induction l as [|r l IH]; cbn [refine length]; [constructor|]. inversion F; subst. destruct H1 as (X & Y & G).
  destruct (split_grid x y w h N M a X Y r HN HM G) as (S1 & S2 & _). constructor; [exact S1|]. constructor; [exact S2|]. apply IH; assumption.
Qed.
Lemma refine_cellular x y w h N M a m l : regular x y w h N M l ->
  Forall (fun r => exists X Y W H, cellular a X Y W H /\ on_grid x y w h (fst (finer a N M)) (snd (finer a N M)) X Y W H r) (refine RA m a l).
Proof.
  intros [[HN HM] F]. revert m. induction l as [|r l IH]; intros [|m]; cbn [refine]; try constructor; inversion F; subst.
  - destruct H1 as (X & Y & G). apply (split_grid x y w h N M a X Y r HN HM G).
  - apply (IH H2 0%nat).
  - destruct H1 as (X & Y & G). destruct (split_grid x y w h N M a X Y r HN HM G) as ((X1 & Y1 & G1) & _).
    exists X1, Y1, 1%Z, 1%Z. split; [|exact G1]. destruct a; cbn; auto.
  - constructor; [|apply IH; assumption].
    destruct H1 as (X & Y & G). destruct (split_grid x y w h N M a X Y r HN HM G) as (_ & (X1 & Y1 & G1) & _).
    exists X1, Y1, 1%Z, 1%Z. split; [|exact G1]. destruct a; cbn; auto.
Qed.

(** The list of blocks: in the middle of a turn over a regular grid, of which there are
    [2^j] cells. *)
Lemma subdivide_grid p (x y w h : R) : (2 <= p)%nat ->
  exists N M a l0 m j, regular x y w h N M l0 /\ (m <= length l0)%nat /\ (length l0 + m)%nat = p /\
    length l0 = (2 ^ j)%nat /\ subdivide RA p (Rect (A := RA) x y w h) = Some (refine RA m a l0).
Proof.
  intros Hp.
  destruct (subdivide_inv RA (fun _ l => (exists N M, regular x y w h N M l) /\ exists j, length l = (2 ^ j)%nat) p (Rect (A := RA) x y w h) Hp)
    as (a & l0 & m & ((N & M & G) & (j & J)) & Hm & Hl & E).
  - split; [|exists 1%nat; reflexivity].
    exists 2%Z, 1%Z.
    assert (G : regular x y w h 1 1 [Rect (A := RA) x y w h]).
    { split; [lia|]. constructor; [|constructor]. exists 0%Z, 0%Z. unfold on_grid. rr. repeat split; try lia; field. }
    exact (refine_regular x y w h 1 1 Vertical [Rect (A := RA) x y w h] G).
  - intros a l _ _ ((N & M & G) & (j & J)). split.
    + eexists _, _. apply refine_regular, G.
    + exists (S j). rewrite refine_length by lia. cbn [Nat.pow]. lia.
  - exists N, M, a, l0, m, j. auto.
Qed.

(** ** Corners that coincide *)
Definition corner (r : rectR) (c : R * R) : Prop :=
  (fst c = r_x r \/ fst c = r_x r + r_w r) /\ (snd c = r_y r \/ snd c = r_y r + r_h r).

Lemma congruent_trans dim a b c : congruent dim a b -> congruent dim b c -> congruent dim a c.
Proof. intros [k K] [n E]. exists (k + n)%Z. rewrite plus_IZR. lra. Qed.
Lemma congruent_sym dim a b : congruent dim a b -> congruent dim b a.
Proof. intros [k K]. exists (- k)%Z. rewrite opp_IZR. lra. Qed.

Lemma rem_R (x dim : R) : 0 < dim -> 0 <= x -> 0 <= rem RA x dim < dim /\ congruent dim (rem RA x dim) x.
Proof.
  intros Hd Hx. destruct (rem_bounds x dim Hd) as (C & B & S). cbv zeta in *. split; [|exact C].
  apply Rabs_def2 in B. split; [|lra].
  destruct (Rle_or_lt 0 (rem RA x dim)) as [H|H]; [exact H|].
  destruct Hx as [Hx|<-]; [nra|]. exfalso. destruct C as [k C]. assert (E : rem RA 0 dim = 0).
  { cbn. unfold Rdiv. rewrite Rmult_0_l. replace (Ztrunc 0) with 0%Z by (symmetry; apply (Ztrunc_IZR 0)). ring. }
  rewrite E in H. lra.
Qed.
Lemma rem_eq (a b dim : R) : 0 < dim -> 0 <= a -> 0 <= b -> congruent dim a b -> rem RA a dim = rem RA b dim.
Proof.
  intros Hd Ha Hb C. destruct (rem_R a dim Hd Ha) as [Ba Ca]. destruct (rem_R b dim Hd Hb) as [Bb Cb].
  assert (G : congruent dim (rem RA a dim) (rem RA b dim)).
  { eapply congruent_trans; [exact Ca|]. eapply congruent_trans; [exact C|]. apply congruent_sym, Cb. }
  destruct G as [k K]. assert (k = 0)%Z; [|subst; lra].
  assert (IZR k < 1) by nra. assert (-1 < IZR k) by nra. apply lt_IZR in H. apply (lt_IZR (-1)) in H0. lia.
Qed.

Lemma eqpt_R (p q : R * R) : eqpt RA p q = true <-> p = q.
Proof.
  destruct p as [a b], q as [c d]. unfold eqpt, eqn. rr. rewrite !andb_true_iff, !Rle_bool_iff. split.
  - intros. f_equal; lra.
  - injection 1 as -> ->. lra.
Qed.

Definition rect_points (ow oh : R) (r : rectR) := boundary_points RA ow oh (r_x r) (r_y r) (r_w r) (r_h r).
Lemma points_in (ow oh : R) (r : rectR) (q : R * R) :
  In q (rect_points ow oh r) <-> exists c, corner r c /\ (q = c \/ q = (rem RA (fst c) ow, rem RA (snd c) oh)).
Proof.
  unfold rect_points, boundary_points, corner. destruct r as [rx ry rw rh]. cbn [RA num add r_x r_y r_w r_h]. split.
  - cbn [In]. intros H.
    destruct H as [<-|[<-|[<-|[<-|[<-|[<-|[<-|[<-|[]]]]]]]]].
    + exists (rx, ry). cbn [fst snd]. auto.
    + exists (rx + rw, ry). cbn [fst snd]. auto.
    + exists (rx, ry + rh). cbn [fst snd]. auto.
    + exists (rx + rw, ry + rh). cbn [fst snd]. auto.
    + exists (rx, ry). cbn [fst snd]. auto.
    + exists (rx + rw, ry). cbn [fst snd]. auto.
    + exists (rx, ry + rh). cbn [fst snd]. auto.
    + exists (rx + rw, ry + rh). cbn [fst snd]. auto.
  - intros ([cx cy] & [Hx Hy] & H). cbn [fst snd] in *. cbn [In].
    destruct Hx as [->| ->], Hy as [->| ->], H as [->| ->]; tauto.
Qed.

Lemma share_R (ow oh : R) (r s : rectR) : 0 < ow -> 0 < oh ->
  (forall c, corner r c -> 0 <= fst c /\ 0 <= snd c) -> (forall c, corner s c -> 0 <= fst c /\ 0 <= snd c) ->
  share_point RA (rect_points ow oh r) (rect_points ow oh s) = true <->
  exists c c', corner r c /\ corner s c' /\ congruent ow (fst c) (fst c') /\ congruent oh (snd c) (snd c').
Proof.
  intros Hw Hh Pr Ps. rewrite share_iff. split.
  - intros (q & q' & Hq & Hq' & E). apply eqpt_R in E. subst q'. apply points_in in Hq, Hq'.
    destruct Hq as (c & Hc & Eq), Hq' as (c' & Hc' & Eq'). exists c, c'. split; [exact Hc|]. split; [exact Hc'|].
    assert (G : forall c, (0 <= fst c /\ 0 <= snd c) -> q = c \/ q = (rem RA (fst c) ow, rem RA (snd c) oh) ->
                congruent ow (fst q) (fst c) /\ congruent oh (snd q) (snd c)).
    { intros c0 [P1 P2] [->| ->]; cbn [fst snd]; [split; apply congruent_refl|]. split; apply rem_R; assumption. }
    destruct (G c (Pr c Hc) Eq) as [G1 G2], (G c' (Ps c' Hc') Eq') as [G3 G4].
    split; (eapply congruent_trans; [apply congruent_sym; eassumption|assumption]).
  - intros (c & c' & Hc & Hc' & C1 & C2). destruct (Pr c Hc), (Ps c' Hc').
    exists (rem RA (fst c) ow, rem RA (snd c) oh), (rem RA (fst c') ow, rem RA (snd c') oh). split; [|split].
    + apply points_in. eauto.
    + apply points_in. eauto.
    + apply eqpt_R. f_equal; apply rem_eq; assumption.
Qed.

(** The corners the code needs suffice for the "if" direction. *)
Lemma share_intro (ow oh : R) (r s : rectR) c c' : 0 < ow -> 0 < oh ->
  corner r c -> corner s c' -> 0 <= fst c -> 0 <= snd c -> 0 <= fst c' -> 0 <= snd c' ->
  congruent ow (fst c) (fst c') -> congruent oh (snd c) (snd c') ->
  share_point RA (rect_points ow oh r) (rect_points ow oh s) = true.
Proof.
  intros Hw Hh Hc Hc' P1 P2 P3 P4 C1 C2. apply share_iff.
  exists (rem RA (fst c) ow, rem RA (snd c) oh), (rem RA (fst c') ow, rem RA (snd c') oh). split; [|split].
  - apply points_in. eauto.
  - apply points_in. eauto.
  - apply eqpt_R. f_equal; apply rem_eq; assumption.
Qed.

(** ** Touching blocks share a corner *)
(** One coordinate: intervals of one or two cells, the latter beginning at an even cell,
    that meet when the line of [N] cells is closed to a circle. *)
Lemma ends_meet N X1 W1 X2 W2 k :
  (W1 = 1 \/ W1 = 2 /\ Z.even X1 = true)%Z -> (W2 = 1 \/ W2 = 2 /\ Z.even X2 = true)%Z ->
  (Z.even N = true \/ W1 = 1 /\ W2 = 1)%Z ->
  (X1 <= X2 + k * N + W2)%Z -> (X2 + k * N <= X1 + W1)%Z ->
  exists e1 e2, ((e1 = X1 \/ e1 = X1 + W1) /\ (e2 = X2 \/ e2 = X2 + W2) /\ e1 = e2 + k * N)%Z.
Proof.
  intros C1 C2 EN H1 H2. set (S := (k * N)%Z) in *.
  assert (D : (X1 = X2 + S \/ X1 + W1 = X2 + S \/ X1 = X2 + W2 + S \/ X1 + W1 = X2 + W2 + S)%Z).
  { destruct C1 as [->|[-> E1]], C2 as [->|[-> E2]].
    - lia.
    - destruct EN as [EN|[_ ?]]; [|lia]. lia.
    - destruct EN as [EN|[? _]]; [|lia]. lia.
    - destruct EN as [EN|[? _]]; [|lia].
      assert (ES : Z.even S = true) by (unfold S; rewrite Z.even_mul, EN; apply orb_true_r).
      apply Z.even_spec in E1, E2, ES. destruct E1, E2, ES. lia. }
  destruct D as [D|[D|[D|D]]].
  - exists X1, X2. auto.
  - exists (X1 + W1)%Z, X2. auto.
  - exists X1, (X2 + W2)%Z. auto.
  - exists (X1 + W1)%Z, (X2 + W2)%Z. auto.
Qed.

(** Points of two intervals of the grid that are congruent. *)
Lemma meet_cells (o dim : R) (N X1 W1 X2 W2 : Z) a b : 0 < dim -> (0 < N)%Z ->
  o + IZR X1 * (dim / IZR N) <= a <= o + IZR X1 * (dim / IZR N) + IZR W1 * (dim / IZR N) ->
  o + IZR X2 * (dim / IZR N) <= b <= o + IZR X2 * (dim / IZR N) + IZR W2 * (dim / IZR N) ->
  congruent dim a b -> exists k : Z, (X1 <= X2 + k * N + W2)%Z /\ (X2 + k * N <= X1 + W1)%Z.
Proof.
  intros Hd HN Ha Hb [k K]. exists k. assert (PN : 0 < IZR N) by (apply IZR_lt; lia).
  set (u := dim / IZR N) in *. assert (Hu : 0 < u) by (unfold u; apply Rdiv_lt_0_compat; lra).
  assert (Ed : dim = IZR N * u) by (unfold u; field; lra). rewrite Ed in K. 
  split; apply le_IZR; rewrite !plus_IZR, mult_IZR; apply Rmult_le_reg_r with u; try exact Hu; nra.
Qed.

Lemma congruent_cells (o dim : R) (N e1 e2 k : Z) : (0 < N)%Z -> (e1 = e2 + k * N)%Z ->
  congruent dim (o + IZR e1 * (dim / IZR N)) (o + IZR e2 * (dim / IZR N)).
Proof.
  intros HN ->. exists k. rewrite plus_IZR, mult_IZR. assert (IZR N <> 0) by (apply not_0_IZR; lia). field. assumption.
Qed.

Lemma touch_iff x y w h N M a X1 Y1 W1 H1 X2 Y2 W2 H2 r s : 0 < w -> 0 < h -> 0 <= x -> 0 <= y -> (0 < N)%Z -> (0 < M)%Z ->
  cellular a X1 Y1 W1 H1 -> cellular a X2 Y2 W2 H2 ->
  on_grid x y w h (fst (finer a N M)) (snd (finer a N M)) X1 Y1 W1 H1 r ->
  on_grid x y w h (fst (finer a N M)) (snd (finer a N M)) X2 Y2 W2 H2 s ->
  share_point RA (rect_points w h r) (rect_points w h s) = true <->
  exists p q, r_contains r p /\ r_contains s q /\ congruent w (fst p) (fst q) /\ congruent h (snd p) (snd q).
Proof.
  intros Hw Hh Hx Hy HN HM C1 C2 (Ex1 & Ey1 & Ew1 & Eh1 & B1) (Ex2 & Ey2 & Ew2 & Eh2 & B2).
  set (N' := fst (finer a N M)) in *. set (M' := snd (finer a N M)) in *.
  assert (HN' : (0 < N')%Z) by (unfold N'; destruct a; cbn [finer fst snd]; lia). assert (HM' : (0 < M')%Z) by (unfold M'; destruct a; cbn [finer fst snd]; lia).
  assert (UN : 0 < w / IZR N') by (apply Rdiv_lt_0_compat; [lra|apply IZR_lt; lia]).
  assert (UM : 0 < h / IZR M') by (apply Rdiv_lt_0_compat; [lra|apply IZR_lt; lia]).
  assert (D1 : (1 <= W1 /\ 1 <= H1 /\ 1 <= W2 /\ 1 <= H2)%Z) by (destruct a; cbn in C1, C2; lia).
  assert (P : forall (r : rectR) X Y W H, r_x r = x + IZR X * (w / IZR N') -> r_y r = y + IZR Y * (h / IZR M') -> r_w r = IZR W * (w / IZR N') ->
            r_h r = IZR H * (h / IZR M') -> (0 <= X)%Z -> (0 <= Y)%Z -> (1 <= W)%Z -> (1 <= H)%Z -> 0 <= r_x r /\ 0 <= r_y r /\ 0 < r_w r /\ 0 < r_h r).
  { intros r0 X Y W H -> -> -> -> I1 I2 I3 I4. apply IZR_le in I1, I2, I3, I4. repeat split; nra. }
  assert (P1 := P r X1 Y1 W1 H1 Ex1 Ey1 Ew1 Eh1 ltac:(lia) ltac:(lia) ltac:(lia) ltac:(lia)).
  assert (P2 := P s X2 Y2 W2 H2 Ex2 Ey2 Ew2 Eh2 ltac:(lia) ltac:(lia) ltac:(lia) ltac:(lia)). clear P.
  rewrite share_R; try assumption.
  2,3: intros [cx cy] [[E|E] [E'|E']]; cbn [fst snd num RA] in *; rewrite E, E'; lra.
  split.
  - intros (c & c' & [Cx Cy] & [Cx' Cy'] & G1 & G2). exists c, c'. unfold r_contains, contains. 
    repeat split; try assumption; destruct Cx, Cy, Cx', Cy'; cbn [num RA] in *; lra.
  - intros (p & q & [Px Py] & [Qx Qy] & G1 & G2).
    rewrite Ex1, Ew1 in Px. rewrite Ey1, Eh1 in Py. rewrite Ex2, Ew2 in Qx. rewrite Ey2, Eh2 in Qy.
    destruct (meet_cells x w N' X1 W1 X2 W2 _ _ Hw HN' Px Qx G1) as (k & K1 & K2).
    destruct (meet_cells y h M' Y1 H1 Y2 H2 _ _ Hh HM' Py Qy G2) as (n & N1 & N2).
    destruct (ends_meet N' X1 W1 X2 W2 k) as (e1 & e2 & F1 & F2 & F3); try assumption.
    { destruct a; cbn [cellular] in C1; tauto. } { destruct a; cbn [cellular] in C2; tauto. }
    { destruct a; cbn [cellular] in C1, C2; [left; unfold N'; cbn [finer fst snd]; rewrite Z.even_mul; reflexivity|right; lia]. }
    destruct (ends_meet M' Y1 H1 Y2 H2 n) as (i1 & i2 & I1 & I2 & I3); try assumption.
    { destruct a; cbn [cellular] in C1; tauto. } { destruct a; cbn [cellular] in C2; tauto. }
    { destruct a; cbn [cellular] in C1, C2; [right; lia|left; unfold M'; cbn [finer fst snd]; rewrite Z.even_mul; reflexivity]. }
    exists (x + IZR e1 * (w / IZR N'), y + IZR i1 * (h / IZR M')), (x + IZR e2 * (w / IZR N'), y + IZR i2 * (h / IZR M')).
    unfold corner. cbn [fst snd]. rewrite Ex1, Ey1, Ew1, Eh1, Ex2, Ey2, Ew2, Eh2.
    split; [|split; [|split]].
    + split; [destruct F1 as [->| ->]; [left; reflexivity|right; rewrite plus_IZR; ring]|destruct I1 as [->| ->]; [left; reflexivity|right; rewrite plus_IZR; ring]].
    + split; [destruct F2 as [->| ->]; [left; reflexivity|right; rewrite plus_IZR; ring]|destruct I2 as [->| ->]; [left; reflexivity|right; rewrite plus_IZR; ring]].
    + exact (congruent_cells x w N' e1 e2 k HN' F3).
    + exact (congruent_cells y h M' i1 i2 n HM' I3).
Qed.

(** ** Halo regions of a regular grid *)
Lemma subdivide_regular j (x y w h : R) : (1 <= j)%nat ->
  exists N M l, subdivide RA (2 ^ j) (Rect (A := RA) x y w h) = Some l /\ regular x y w h N M l.
Proof.
  intros Hj. assert (H2 : (2 <= 2 ^ j)%nat) by (change 2%nat with (2 ^ 1)%nat at 1; apply Nat.pow_le_mono_r; lia).
  destruct (subdivide_grid (2 ^ j) x y w h H2) as (N & M & a & l0 & m & i & G & Hm & Hl & Hi & E).
  rewrite Hi in Hl, Hm. destruct (Nat.le_gt_cases j i) as [C|C].
  - pose proof (Nat.pow_le_mono_r 2 j i ltac:(lia) C). assert (m = 0)%nat by lia. subst m. exists N, M, l0. split; [|exact G].
    rewrite E. destruct l0; reflexivity.
  - pose proof (Nat.pow_le_mono_r 2 (S i) j ltac:(lia) C) as P. cbn [Nat.pow] in P. assert (m = length l0)%nat by lia. subst m.
    eexists _, _, _. split; [exact E|]. apply refine_regular, G.
Qed.

(** One coordinate: a point [a] of cell [X], and cell [X'] within [d] of it on the circle. *)
Lemma near_cells (o dim d : R) (N X X' : Z) (a q : R) : 0 < dim -> (0 < N)%Z ->
  let u := dim / IZR N in
  2 * d < u ->
  o + IZR X * u <= a <= o + IZR X * u + IZR 1 * u ->
  o + IZR X' * u <= q <= o + IZR X' * u + IZR 1 * u ->
  near_coordinate dim d a q ->
  exists k : Z, (X - 1 <= X' + k * N <= X + 1)%Z /\
    (o + IZR X * u + IZR 1 * u - d <= a -> (X <= X' + k * N)%Z) /\ (a <= o + IZR X * u + d -> (X' + k * N <= X)%Z) /\
    (o + IZR X * u + d < a -> (X <= X' + k * N)%Z) /\ (a < o + IZR X * u + IZR 1 * u - d -> (X' + k * N <= X)%Z).
Proof.
  intros Hd HN u Hu Ha Hq (b & [k K] & Hb). exists k. apply Rabs_le_inv in Hb.
  assert (PN : 0 < IZR N) by (apply IZR_lt; lia). assert (Pu : 0 < u) by (unfold u; apply Rdiv_lt_0_compat; lra).
  assert (Ed : dim = IZR N * u) by (unfold u; field; lra). rewrite Ed in K.
  assert (EZ : IZR (X' + k * N) = IZR X' + IZR k * IZR N) by (rewrite plus_IZR, mult_IZR; reflexivity).
  assert (B : o + IZR (X' + k * N) * u - d <= a <= o + IZR (X' + k * N) * u + u + d) by (rewrite EZ; nra).
  clearbody u. clear K EZ Hq. set (Z := (X' + k * N)%Z) in *. clearbody Z.
  assert (G : forall c : R, IZR Z * u <= IZR X * u + c -> c < 2 * u -> (Z <= X + 1)%Z).
  { intros c H1 H2. assert (IZR Z < IZR (X + 2)) by (rewrite plus_IZR; apply Rmult_lt_reg_r with u; nra). apply lt_IZR in H. lia. }
  assert (G0 : forall c : R, IZR Z * u <= IZR X * u + c -> c < u -> (Z <= X)%Z).
  { intros c H1 H2. assert (IZR Z < IZR (X + 1)) by (rewrite plus_IZR; apply Rmult_lt_reg_r with u; nra). apply lt_IZR in H. lia. }
  assert (G1 : forall c : R, IZR X * u <= IZR Z * u + c -> c < u -> (X <= Z)%Z).
  { intros c H1 H2. assert (IZR X < IZR (Z + 1)) by (rewrite plus_IZR; apply Rmult_lt_reg_r with u; nra). apply lt_IZR in H. lia. }
  assert (G2 : forall c : R, IZR X * u <= IZR Z * u + c -> c < 2 * u -> (X - 1 <= Z)%Z).
  { intros c H1 H2. assert (IZR X < IZR (Z + 2)) by (rewrite plus_IZR; apply Rmult_lt_reg_r with u; nra). apply lt_IZR in H. lia. }
  assert (G3 : forall c : R, IZR X * u < IZR Z * u + c -> c <= u -> (X <= Z)%Z).
  { intros c H1 H2. assert (IZR X < IZR (Z + 1)) by (rewrite plus_IZR; apply Rmult_lt_reg_r with u; nra). apply lt_IZR in H. lia. }
  assert (G4 : forall c : R, IZR Z * u < IZR X * u + c -> c <= u -> (Z <= X)%Z).
  { intros c H1 H2. assert (IZR Z < IZR (X + 1)) by (rewrite plus_IZR; apply Rmult_lt_reg_r with u; nra). apply lt_IZR in H. lia. }
  split; [split|split; [|split; [|split]]].
  - apply (G2 (u + d)); lra.
  - apply (G (u + d)); lra.
  - intros H. apply (G1 (2 * d)); lra.
  - intros H. apply (G0 (2 * d)); lra.
  - intros H. apply (G3 u); lra.
  - intros H. apply (G4 u); lra.
Qed.

Lemma region_neighbor rank (ow oh : R) (rs bs : list (block RA)) reg b :
  In reg rs -> In b bs -> b_id b <> rank -> share_point RA (block_points RA ow oh reg) (block_points RA ow oh b) = true ->
  In (b_id reg, b_id b) (concat (neighbor_regions RA rank ow oh rs bs)).
Proof.
  intros Hr Hb Hne HS. apply in_concat. unfold neighbor_regions.
  set (f := fun r : block RA => filter_map (fun b0 => if (b_id b0 =? rank)%Z || negb (share_point RA (block_points RA ow oh r) (block_points RA ow oh b0)) then None else Some (b_id r, b_id b0)) bs).
  exists (f reg).
  assert (I : In (b_id reg, b_id b) (f reg)).
  { unfold f, filter_map. apply in_flat_map. exists b. split; [exact Hb|].
    apply Z.eqb_neq in Hne. rewrite Hne, HS. cbn. auto. }
  split; [|exact I]. apply filter_In. split; [apply in_map, Hr|]. destruct (f reg); [contradiction|reflexivity].
Qed.

(** The other block shares a corner of the region with the given ends. *)
Lemma halo_corner (x y w h : R) N M X Y s (reg : block RA) k n e f e' f' :
  0 < w -> 0 < h -> 0 <= x -> 0 <= y -> (0 < N)%Z -> (0 < M)%Z -> (0 <= e)%Z -> (0 <= f)%Z ->
  on_grid x y w h N M X Y 1 1 s ->
  (e' = X \/ e' = X + 1)%Z -> (f' = Y \/ f' = Y + 1)%Z -> (e = e' + k * N)%Z -> (f = f' + n * M)%Z ->
  corner (Rect (A := RA) (b_x reg) (b_y reg) (b_w reg) (b_h reg)) (x + IZR e * (w / IZR N), y + IZR f * (h / IZR M)) ->
  forall i, share_point RA (block_points RA w h reg) (block_points RA w h (to_block RA i s)) = true.
Proof.
  intros Hw Hh Hx Hy HN HM He Hf (E1 & E2 & E3 & E4 & B) Ce Cf Ek En Hc i.
  assert (UN : 0 < w / IZR N) by (apply Rdiv_lt_0_compat; [lra|apply IZR_lt; lia]).
  assert (UM : 0 < h / IZR M) by (apply Rdiv_lt_0_compat; [lra|apply IZR_lt; lia]).
  apply (share_intro w h (Rect (A := RA) (b_x reg) (b_y reg) (b_w reg) (b_h reg)) s
           (x + IZR e * (w / IZR N), y + IZR f * (h / IZR M)) (x + IZR e' * (w / IZR N), y + IZR f' * (h / IZR M))); try assumption; cbn [fst snd].
  - unfold corner. cbn [fst snd]. rewrite E1, E2, E3, E4.
    split; [destruct Ce as [->| ->]|destruct Cf as [->| ->]]; rewrite ?plus_IZR; [left|right|left|right]; ring.
  - apply IZR_le in He. nra.
  - apply IZR_le in Hf. nra.
  - assert (0 <= IZR e') by (apply IZR_le; lia). nra.
  - assert (0 <= IZR f') by (apply IZR_le; lia). nra.
  - exact (congruent_cells x w N e e' k HN Ek).
  - exact (congruent_cells y h M f f' n HM En).
Qed.

Lemma halo_grid (x y w h d : R) N M X Y X' Y' (r s : rectR) (l : R * R) (rank i : Z) (bs : list (block RA)) :
  0 < w -> 0 < h -> 0 <= x -> 0 <= y -> (0 < N)%Z -> (0 < M)%Z ->
  on_grid x y w h N M X Y 1 1 r -> on_grid x y w h N M X' Y' 1 1 s -> (X', Y') <> (X, Y) ->
  2 * d < r_w r -> 2 * d < r_h r -> r_contains r l -> near_block w h d l (to_block RA i s) ->
  i <> rank -> In (to_block RA i s) bs ->
  exists g, option_map b_id (find (fun b => in_block RA b l) (regions RA d (r_x r) (r_y r) (r_w r) (r_h r))) = Some g /\
    In (g, i) (concat (neighbor_regions RA rank w h (regions RA d (r_x r) (r_y r) (r_w r) (r_h r)) bs)).
Proof.
  intros Hw Hh Hx Hy HN HM G G' NE Dw Dh [Lx Ly] (q & [Qx Qy] & Nx & Ny) Hne Hin. 
  assert (GS := G'). destruct G as (E1 & E2 & E3 & E4 & B). destruct G' as (E1' & E2' & E3' & E4' & B').
  cbn [to_block b_x b_y b_w b_h] in Qx, Qy. rewrite E1', E3' in Qx. rewrite E2', E4' in Qy.
  pose proof Lx as Lx0. pose proof Ly as Ly0. rewrite E1, E3 in Lx0. rewrite E2, E4 in Ly0.
  set (u := w / IZR N) in *. set (v := h / IZR M) in *.
  assert (Du : 2 * d < u) by (rewrite E3 in Dw; lra). assert (Dv : 2 * d < v) by (rewrite E4 in Dh; lra).
  destruct (near_cells x w d N X X' (fst l) (fst q) Hw HN Du Lx0 Qx Nx) as (k & K1 & K2 & K3 & K4 & K5).
  destruct (near_cells y h d M Y Y' (snd l) (snd q) Hh HM Dv Ly0 Qy Ny) as (n & N1 & N2 & N3 & N4 & N5).
  fold u in K2, K3, K4, K5. fold v in N2, N3, N4, N5.
  replace (IZR 1 * u) with u in * by ring. replace (IZR 1 * v) with v in * by ring.
  assert (EX : exists e e', (e = X \/ e = X + 1)%Z /\ (e' = X' \/ e' = X' + 1)%Z /\ (e = e' + k * N)%Z).
  { assert (D : (X = X' + k * N \/ X = X' + 1 + k * N \/ X + 1 = X' + k * N)%Z) by lia.
    destruct D as [D|[D|D]]; [exists X, X'|exists X, (X' + 1)%Z|exists (X + 1)%Z, X']; auto. }
  assert (EY : exists f f', (f = Y \/ f = Y + 1)%Z /\ (f' = Y' \/ f' = Y' + 1)%Z /\ (f = f' + n * M)%Z).
  { assert (D : (Y = Y' + n * M \/ Y = Y' + 1 + n * M \/ Y + 1 = Y' + n * M)%Z) by lia.
    destruct D as [D|[D|D]]; [exists Y, Y'|exists Y, (Y' + 1)%Z|exists (Y + 1)%Z, Y']; auto. }
  destruct EX as (e & e' & Ce & Ce' & Ek). destruct EY as (f & f' & Cf & Cf' & En).
  assert (Fin : forall reg e f e' f', In reg (regions RA d (r_x r) (r_y r) (r_w r) (r_h r)) ->
    (e = X \/ e = X + 1)%Z -> (e' = X' \/ e' = X' + 1)%Z -> (e = e' + k * N)%Z ->
    (f = Y \/ f = Y + 1)%Z -> (f' = Y' \/ f' = Y' + 1)%Z -> (f = f' + n * M)%Z ->
    corner (Rect (A := RA) (b_x reg) (b_y reg) (b_w reg) (b_h reg)) (x + IZR e * u, y + IZR f * v) ->
    In (b_id reg, i) (concat (neighbor_regions RA rank w h (regions RA d (r_x r) (r_y r) (r_w r) (r_h r)) bs))).
  { intros reg e0 f0 e0' f0' Hreg A1 A2 A3 A4 A5 A6 A7.
    apply (region_neighbor rank w h _ bs reg (to_block RA i s) Hreg Hin Hne).
    apply (halo_corner x y w h N M X' Y' s reg k n e0 f0 e0' f0'); try assumption; lia. }
  unfold regions in *. cbn [num RA add sub] in *. cbn [find]. rewrite E1, E2, E3, E4 in *. replace (IZR 1 * u) with u in * by ring. replace (IZR 1 * v) with v in * by ring.
  unfold in_block at 1. cbn [RA num le add b_x b_y b_w b_h].
  destruct (Rle_or_lt (y + IZR Y * v + v - d) (snd l)) as [HNr|HNr].
  { (* north *)
    rewrite (proj2 (Rle_bool_iff _ _)) by lra. rewrite (proj2 (Rle_bool_iff (fst l) _)) by lra. rewrite (proj2 (Rle_bool_iff _ (snd l))) by lra.
    rewrite (proj2 (Rle_bool_iff (snd l) _)) by lra. cbn [andb option_map b_id].
    exists 0%Z. split; [reflexivity|].
    specialize (N2 HNr). assert (D : (Y + 1 = Y' + 1 + n * M \/ Y + 1 = Y' + n * M)%Z) by lia.
    assert (exists f', (f' = Y' \/ f' = Y' + 1) /\ (Y + 1 = f' + n * M))%Z as (f2 & F1 & F2) by (destruct D; eauto).
    eapply (Fin (Block 0 _ _ _ _) e (Y + 1)%Z e' f2); [left; reflexivity|exact Ce|exact Ce'|exact Ek|right; reflexivity|exact F1|exact F2|].
    unfold corner. cbn [fst snd r_x r_y r_w r_h b_x b_y b_w b_h]. rewrite plus_IZR. split; [destruct Ce as [->| ->]; rewrite ?plus_IZR; [left|right]; ring|right; ring]. }
  rewrite (Rle_bool_false _ (snd l)) by lra. rewrite !andb_false_r. cbn [andb].
  unfold in_block at 1. cbn [RA num le add b_x b_y b_w b_h].
  destruct (Rle_or_lt (x + IZR X * u + u - d) (fst l)) as [HEr|HEr].
  { rewrite (proj2 (Rle_bool_iff _ (fst l))) by lra. rewrite (proj2 (Rle_bool_iff (fst l) _)) by lra. rewrite (proj2 (Rle_bool_iff _ (snd l))) by lra.
    rewrite (proj2 (Rle_bool_iff (snd l) _)) by lra. cbn [andb option_map b_id].
    exists 1%Z. split; [reflexivity|].
    specialize (K2 HEr). assert (D : (X + 1 = X' + 1 + k * N \/ X + 1 = X' + k * N)%Z) by lia.
    assert (exists e', (e' = X' \/ e' = X' + 1) /\ (X + 1 = e' + k * N))%Z as (e2 & F1 & F2) by (destruct D; eauto).
    eapply (Fin (Block 1 _ _ _ _) (X + 1)%Z f e2 f'); [right; left; reflexivity|right; reflexivity|exact F1|exact F2|exact Cf|exact Cf'|exact En|].
    unfold corner. cbn [fst snd r_x r_y r_w r_h b_x b_y b_w b_h]. rewrite plus_IZR. split; [right; ring|destruct Cf as [->| ->]; rewrite ?plus_IZR; [left|right]; ring]. }
  rewrite (Rle_bool_false _ (fst l)) by lra. cbn [andb].
  unfold in_block at 1. cbn [RA num le add b_x b_y b_w b_h].
  destruct (Rle_or_lt (snd l) (y + IZR Y * v + d)) as [HSr|HSr].
  { rewrite (proj2 (Rle_bool_iff _ (fst l))) by lra. rewrite (proj2 (Rle_bool_iff (fst l) _)) by lra. rewrite (proj2 (Rle_bool_iff _ (snd l))) by lra.
    rewrite (proj2 (Rle_bool_iff (snd l) _)) by lra. cbn [andb option_map b_id].
    exists 2%Z. split; [reflexivity|].
    specialize (N3 HSr). assert (D : (Y = Y' + 1 + n * M \/ Y = Y' + n * M)%Z) by lia.
    assert (exists f', (f' = Y' \/ f' = Y' + 1) /\ (Y = f' + n * M))%Z as (f2 & F1 & F2) by (destruct D; eauto).
    eapply (Fin (Block 2 _ _ _ _) e Y e' f2); [right; right; left; reflexivity|exact Ce|exact Ce'|exact Ek|left; reflexivity|exact F1|exact F2|].
    unfold corner. cbn [fst snd r_x r_y r_w r_h b_x b_y b_w b_h]. split; [destruct Ce as [->| ->]; rewrite ?plus_IZR; [left|right]; ring|left; ring]. }
  rewrite (Rle_bool_false (snd l)) by lra. rewrite !andb_false_r.
  unfold in_block at 1. cbn [RA num le add b_x b_y b_w b_h].
  destruct (Rle_or_lt (fst l) (x + IZR X * u + d)) as [HWr|HWr].
  { rewrite (proj2 (Rle_bool_iff _ (fst l))) by lra. rewrite (proj2 (Rle_bool_iff (fst l) _)) by lra. rewrite (proj2 (Rle_bool_iff _ (snd l))) by lra.
    rewrite (proj2 (Rle_bool_iff (snd l) _)) by lra. cbn [andb option_map b_id].
    exists 3%Z. split; [reflexivity|].
    specialize (K3 HWr). assert (D : (X = X' + 1 + k * N \/ X = X' + k * N)%Z) by lia.
    assert (exists e', (e' = X' \/ e' = X' + 1) /\ (X = e' + k * N))%Z as (e2 & F1 & F2) by (destruct D; eauto).
    eapply (Fin (Block 3 _ _ _ _) X f e2 f'); [right; right; right; left; reflexivity|left; reflexivity|exact F1|exact F2|exact Cf|exact Cf'|exact En|].
    unfold corner. cbn [fst snd r_x r_y r_w r_h b_x b_y b_w b_h]. split; [left; ring|destruct Cf as [->| ->]; rewrite ?plus_IZR; [left|right]; ring]. }
  exfalso. apply NE. specialize (K4 HWr). specialize (K5 HEr). specialize (N4 HSr). specialize (N5 HNr).
  assert (k = 0)%Z by nia. assert (n = 0)%Z by nia. subst k n. f_equal; lia.
Qed.
