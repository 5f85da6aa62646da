(** * Order facts about f32 comparisons (no axioms) *)
From Coq Require Import ZArith Bool Lia.
From Verif Require Import F32.
Local Open Scope Z_scope.

(** Lexicographic key of a non-NaN value. *)
Definition fkey (x : f32) : Z * Z * Z :=
  match x with
  | S754_zero _ => (0, 0, 0)
  | S754_infinity true => (-2, 0, 0)
  | S754_infinity false => (2, 0, 0)
  | S754_nan => (0, 0, 0)
  | S754_finite true m e => (-1, - e, - Zpos m)
  | S754_finite false m e => (1, e, Zpos m)
  end.

Definition klt (a b : Z * Z * Z) : Prop :=
  let '(a1, a2, a3) := a in let '(b1, b2, b3) := b in
  a1 < b1 \/ (a1 = b1 /\ (a2 < b2 \/ (a2 = b2 /\ a3 < b3))).

Lemma SFcompare_key x y :
  f32_is_nan x = false -> f32_is_nan y = false ->
  match SFcompare x y with
  | Some Lt => klt (fkey x) (fkey y)
  | Some Gt => klt (fkey y) (fkey x)
  | Some Eq => fkey x = fkey y
  | None => False
  end.
Proof.
  destruct x as [sx|sx| |sx mx ex], y as [sy|sy| |sy my ey];
    cbn; try discriminate; intros _ _;
    repeat match goal with |- context [if ?b then _ else _] => destruct b
           | |- context [match ?b with true => _ | false => _ end] => destruct b end;
    cbn; try lia; try reflexivity.
  - destruct (ex ?= ey) eqn:E; [apply Z.compare_eq in E | | ];
      [ | change (ex < ey) in E | apply Z.compare_gt_iff in E ]; cbn.
    + pose proof (Pos.compare_spec mx my) as P. unfold Pos.compare in P.
      destruct P; subst; cbn; try lia; reflexivity.
    + lia.
    + lia.
  - destruct (ex ?= ey) eqn:E; [apply Z.compare_eq in E | | ];
      [ | change (ex < ey) in E | apply Z.compare_gt_iff in E ]; cbn.
    + pose proof (Pos.compare_spec mx my) as P. unfold Pos.compare in P.
      destruct P; subst; cbn; try lia; reflexivity.
    + lia.
    + lia.
Qed.

Lemma SFcompare_nan_l y : SFcompare S754_nan y = None.
Proof. reflexivity. Qed.
Lemma SFcompare_nan_r x : SFcompare x S754_nan = None.
Proof. destruct x; reflexivity. Qed.

Lemma klt_irrefl a : ~ klt a a.
Proof. destruct a as [[a1 a2] a3]; cbn; lia. Qed.
Lemma klt_asym a b : klt a b -> ~ klt b a.
Proof. destruct a as [[a1 a2] a3], b as [[b1 b2] b3]; cbn; lia. Qed.

Lemma fltb_iff x y :
  fltb x y = true <->
  f32_is_nan x = false /\ f32_is_nan y = false /\ klt (fkey x) (fkey y).
Proof.
  unfold fltb, SFltb.
  destruct (f32_is_nan x) eqn:Nx.
  { destruct x; try discriminate. cbn. split; [discriminate|intros [H _]; discriminate]. }
  destruct (f32_is_nan y) eqn:Ny.
  { destruct y; try discriminate. rewrite SFcompare_nan_r.
    split; [discriminate|intros (_ & H & _); discriminate]. }
  pose proof (SFcompare_key x y Nx Ny) as K.
  destruct (SFcompare x y) as [[| |]|].
  - rewrite K. split; [discriminate|]. intros (_ & _ & H). destruct (klt_irrefl _ H).
  - split; auto.
  - split; [discriminate|]. intros (_ & _ & H). destruct (klt_asym _ _ K H).
  - destruct K.
Qed.

Lemma feqb_iff x y :
  feqb x y = true <->
  f32_is_nan x = false /\ f32_is_nan y = false /\ fkey x = fkey y.
Proof.
  unfold feqb, SFeqb.
  destruct (f32_is_nan x) eqn:Nx.
  { destruct x; try discriminate. cbn. split; [discriminate|intros [H _]; discriminate]. }
  destruct (f32_is_nan y) eqn:Ny.
  { destruct y; try discriminate. rewrite SFcompare_nan_r.
    split; [discriminate|intros (_ & H & _); discriminate]. }
  pose proof (SFcompare_key x y Nx Ny) as K.
  destruct (SFcompare x y) as [[| |]|].
  - split; auto.
  - split; [discriminate|]. intros (_ & _ & H). rewrite H in K. destruct (klt_irrefl _ K).
  - split; [discriminate|]. intros (_ & _ & H). rewrite H in K. destruct (klt_irrefl _ K).
  - destruct K.
Qed.

Lemma fleb_iff x y :
  fleb x y = true <->
  f32_is_nan x = false /\ f32_is_nan y = false /\ (klt (fkey x) (fkey y) \/ fkey x = fkey y).
Proof.
  unfold fleb, SFleb.
  destruct (f32_is_nan x) eqn:Nx.
  { destruct x; try discriminate. cbn. split; [discriminate|intros [H _]; discriminate]. }
  destruct (f32_is_nan y) eqn:Ny.
  { destruct y; try discriminate. rewrite SFcompare_nan_r.
    split; [discriminate|intros (_ & H & _); discriminate]. }
  pose proof (SFcompare_key x y Nx Ny) as K.
  destruct (SFcompare x y) as [[| |]|].
  - split; auto.
  - split; auto.
  - split; [discriminate|]. intros (_ & _ & [H|H]).
    + destruct (klt_asym _ _ K H).
    + rewrite H in K. destruct (klt_irrefl _ K).
  - destruct K.
Qed.

Lemma fgtb_iff x y :
  fgtb x y = true <->
  f32_is_nan x = false /\ f32_is_nan y = false /\ klt (fkey y) (fkey x).
Proof.
  unfold fgtb. change (SFltb y x) with (fltb y x). rewrite fltb_iff. tauto.
Qed.

Lemma bool_false_iff (b : bool) (P : Prop) : (b = true <-> P) -> (b = false <-> ~ P).
Proof. destruct b; intuition congruence. Qed.

Lemma fltb_false_iff x y :
  f32_is_nan x = false -> f32_is_nan y = false ->
  fltb x y = false <-> ~ klt (fkey x) (fkey y).
Proof. intros. rewrite (bool_false_iff _ _ (fltb_iff x y)). tauto. Qed.
Lemma fgtb_false_iff x y :
  f32_is_nan x = false -> f32_is_nan y = false ->
  fgtb x y = false <-> ~ klt (fkey y) (fkey x).
Proof. intros. rewrite (bool_false_iff _ _ (fgtb_iff x y)). tauto. Qed.
Lemma feqb_false_iff x y :
  f32_is_nan x = false -> f32_is_nan y = false ->
  feqb x y = false <-> fkey x <> fkey y.
Proof. intros. rewrite (bool_false_iff _ _ (feqb_iff x y)). tauto. Qed.

Lemma klt_trans a b c : klt a b -> klt b c -> klt a c.
Proof. destruct a as [[]], b as [[]], c as [[]]; cbn; lia. Qed.
Lemma klt_total a b : klt a b \/ a = b \/ klt b a.
Proof.
  destruct a as [[a1 a2] a3], b as [[b1 b2] b3]; cbn.
  destruct (Z.lt_trichotomy a1 b1) as [?|[?|?]]; [lia| |lia].
  destruct (Z.lt_trichotomy a2 b2) as [?|[?|?]]; [lia| |lia].
  destruct (Z.lt_trichotomy a3 b3) as [?|[?|?]]; [lia| |lia].
  right; left; congruence.
Qed.

Lemma fltb_nan_l x : fltb S754_nan x = false. Proof. reflexivity. Qed.
Lemma fltb_nan_r x : fltb x S754_nan = false.
Proof. unfold fltb, SFltb. rewrite SFcompare_nan_r. reflexivity. Qed.
Lemma fgtb_nan_l x : fgtb S754_nan x = false.
Proof. unfold fgtb, SFltb. rewrite SFcompare_nan_r. reflexivity. Qed.
Lemma fgtb_nan_r x : fgtb x S754_nan = false. Proof. reflexivity. Qed.

Lemma feqb_refl x : f32_is_nan x = false -> feqb x x = true.
Proof. intros H. apply feqb_iff. auto. Qed.
Lemma feqb_sym x y : feqb x y = feqb y x.
Proof.
  destruct (feqb x y) eqn:E; symmetry.
  - apply feqb_iff in E. apply feqb_iff. intuition congruence.
  - apply not_true_is_false. intros H. apply feqb_iff in H.
    assert (feqb x y = true) by (apply feqb_iff; intuition congruence). congruence.
Qed.
