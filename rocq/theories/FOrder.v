(** * The order of floating-point numbers

    [SFcompare] on non-NaN values is a total preorder (zeros of both signs are equal), for
    every precision: shown through an order-preserving map into triples of integers. *)
From Coq Require Import ZArith Bool Lia.
From Verif Require Import F32.
Local Open Scope Z_scope.

Definition fkey (x : spec_float) : Z * Z * Z :=
  match x with
  | S754_infinity true => (-2, 0, 0)
  | S754_finite true m e => (-1, - e, - Z.pos m)
  | S754_zero _ => (0, 0, 0)
  | S754_finite false m e => (1, e, Z.pos m)
  | S754_infinity false => (2, 0, 0)
  | S754_nan => (3, 0, 0)
  end.
Definition klt (a b : Z * Z * Z) : Prop :=
  let '(a1, a2, a3) := a in let '(b1, b2, b3) := b in
  a1 < b1 \/ (a1 = b1 /\ (a2 < b2 \/ (a2 = b2 /\ a3 < b3))).

Lemma SFcompare_key x y : f32_is_nan x = false -> f32_is_nan y = false ->
  match SFcompare x y with Some Lt => klt (fkey x) (fkey y) | Some Eq => fkey x = fkey y | Some Gt => klt (fkey y) (fkey x) | None => False end.
Proof.
  destruct x as [sx|sx| |sx mx ex]; destruct y as [sy|sy| |sy my ey]; intros NX NY; try discriminate; destruct sx, sy; cbn [SFcompare fkey klt]; try (left; reflexivity); try reflexivity; try lia.
  - destruct (Z.compare_spec ex ey) as [->|C|C]; [|lia|lia]. change (Pcompare mx my Eq) with (Pos.compare mx my).
    destruct (Pos.compare_spec mx my) as [->|D|D]; cbn [CompOpp]; [reflexivity|right; split; [reflexivity|right; split; [reflexivity|lia]]|right; split; [reflexivity|right; split; [reflexivity|lia]]].
  - destruct (Z.compare_spec ex ey) as [->|C|C]; [|lia|lia]. change (Pcompare mx my Eq) with (Pos.compare mx my).
    destruct (Pos.compare_spec mx my) as [->|D|D]; [reflexivity|right; split; [reflexivity|right; split; [reflexivity|lia]]|right; split; [reflexivity|right; split; [reflexivity|lia]]].
Qed.
Lemma SFltb_key x y : SFltb x y = true <-> f32_is_nan x = false /\ f32_is_nan y = false /\ klt (fkey x) (fkey y).
Proof.
  unfold SFltb. destruct (f32_is_nan x) eqn:NX; [|destruct (f32_is_nan y) eqn:NY].
  - destruct x; try discriminate. cbn. split; [discriminate|intros (H & _); discriminate].
  - destruct y; try discriminate. destruct x; cbn; (split; [discriminate|intros (_ & H & _); discriminate]).
  - pose proof (SFcompare_key x y NX NY) as K. destruct (SFcompare x y) as [[| |]|]; [| | |contradiction]; (split; [try discriminate|]).
    + intros (_ & _ & H). rewrite K in H. exfalso. destruct (fkey y) as [[a b] c]. cbn in H. lia.
    + intros _. repeat split; exact K.
    + intros _. reflexivity.
    + intros (_ & _ & H). exfalso. destruct (fkey x) as [[a b] c], (fkey y) as [[a' b'] c']. cbn in H, K. lia.
Qed.
Lemma SFltb_irrefl x : SFltb x x = false.
Proof. apply not_true_is_false. intros H. apply SFltb_key in H. destruct H as (_ & _ & H). destruct (fkey x) as [[a b] c]. cbn in H. lia. Qed.
Lemma SFltb_trans x y z : SFltb x y = true -> SFltb y z = true -> SFltb x z = true.
Proof.
  rewrite !SFltb_key. intros (NX & NY & A) (_ & NZ & B). split; [exact NX|]. split; [exact NZ|]. destruct (fkey x) as [[a b] c], (fkey y) as [[a' b'] c'], (fkey z) as [[a'' b''] c'']. cbn in *. lia.
Qed.
Lemma SFltb_not x y : f32_is_nan x = false -> f32_is_nan y = false -> (SFltb x y = false <-> SFltb y x = true \/ fkey x = fkey y).
Proof.
  intros NX NY. split.
  - intros H. destruct (SFltb y x) eqn:G; [left; reflexivity|right]. assert (A : ~ klt (fkey x) (fkey y)) by (intros K; assert (SFltb x y = true) by (apply SFltb_key; repeat split; assumption); congruence).
    assert (B : ~ klt (fkey y) (fkey x)) by (intros K; assert (SFltb y x = true) by (apply SFltb_key; repeat split; assumption); congruence).
    destruct (fkey x) as [[a b] c], (fkey y) as [[a' b'] c']. cbn in *. assert (a = a') by lia. assert (b = b') by lia. assert (c = c') by lia. congruence.
  - intros H. apply not_true_is_false. intros G. apply SFltb_key in G. destruct G as (_ & _ & G). destruct H as [H|H].
    + apply SFltb_key in H. destruct H as (_ & _ & H). destruct (fkey x) as [[a b] c], (fkey y) as [[a' b'] c']. cbn in *. lia.
    + rewrite H in G. destruct (fkey y) as [[a b] c]. cbn in G. lia.
Qed.
(** Without NaN, "not less" is transitive. *)
Lemma SFltb_negtrans x y z : f32_is_nan y = false -> SFltb x y = false -> SFltb y z = false -> SFltb x z = false.
Proof.
  intros NY A B. apply not_true_is_false. intros C. pose proof C as C'. apply SFltb_key in C'. destruct C' as (NX & NZ & K).
  apply (SFltb_not x y NX NY) in A. apply (SFltb_not y z NY NZ) in B. destruct A as [A|A]; [apply SFltb_key in A; destruct A as (_ & _ & A)|]; (destruct B as [B|B]; [apply SFltb_key in B; destruct B as (_ & _ & B)|]);
  destruct (fkey x) as [[a b] c], (fkey y) as [[a' b'] c'], (fkey z) as [[a'' b''] c'']; cbn in *; try congruence; try lia.
  - injection B as -> -> ->. lia.
  - injection A as -> -> ->. lia.
  - injection A as -> -> ->. injection B as -> -> ->. lia.
Qed.
(** [<=] is "not greater" without NaN. *)
Lemma SFleb_not x y : f32_is_nan x = false -> f32_is_nan y = false -> SFleb x y = negb (SFltb y x).
Proof.
  intros NX NY. unfold SFleb, SFltb. pose proof (SFcompare_key x y NX NY) as A. pose proof (SFcompare_key y x NY NX) as B.
  destruct (SFcompare x y) as [[| |]|]; try contradiction; destruct (SFcompare y x) as [[| |]|]; try contradiction; try reflexivity; exfalso;
  destruct (fkey x) as [[a b] c], (fkey y) as [[a' b'] c']; cbn in *; try (injection A as -> -> ->); try (injection B as -> -> ->); lia.
Qed.
