(** * Grid coordinates and buffers

    Shared by the models of the grid fields.  A location is [Int2D] (src/engine/location.rs
    L37-40), two [i32] coordinates. *)
From Coq Require Import List Bool ZArith Arith Lia FinFun.
Import ListNotations.
Open Scope Z_scope.

Notation loc := (Z * Z)%type.

(** [PartialEq for Int2D], location.rs L50-54. *)
Definition loc_eqb (a b : loc) : bool := (fst a =? fst b) && (snd a =? snd b).

(** [i32] arithmetic in a release build wraps; a debug build panics instead, and the two
    agree whenever the exact result is an [i32]. *)
Definition wrap32 (z : Z) : Z := (z + 2 ^ 31) mod 2 ^ 32 - 2 ^ 31.
Definition in_i32 (z : Z) : Prop := - 2 ^ 31 <= z < 2 ^ 31.

(** [z as usize] for an [i32] used as a vector index: a negative number becomes larger
    than any length. *)
Definition as_index (z : Z) : option nat := if z <? 0 then None else Some (Z.to_nat z).

(** Reading and writing [v[z as usize]]; [None] is the out-of-bounds panic. *)
Definition vget {X} (v : list X) (z : Z) : option X :=
  match as_index z with None => None | Some i => nth_error v i end.

Fixpoint lset {X} (i : nat) (x : X) (l : list X) : list X :=
  match l, i with
  | [], _ => []
  | _ :: l', O => x :: l'
  | y :: l', S i' => y :: lset i' x l'
  end.
Definition vset {X} (v : list X) (z : Z) (x : X) : option (list X) :=
  match as_index z with
  | None => None
  | Some i => if Nat.ltb i (length v) then Some (lset i x v) else None
  end.

(** [((loc.x * self.height) + loc.y)] in [i32] arithmetic. *)
Definition cell_index (h : Z) (l : loc) : Z := wrap32 (wrap32 (fst l * h) + snd l).

(** [0..n] for an [i32] bound. *)
Definition zrange (n : Z) : list Z := map Z.of_nat (seq 0 (Z.to_nat n)).

(** The double loop [for i in 0..w { for j in 0..h { .. } }]. *)
Definition cells (w h : Z) : list loc := list_prod (zrange w) (zrange h).

(** The locations of a grid. *)
Definition in_range (w h : Z) (l : loc) : Prop := 0 <= fst l < w /\ 0 <= snd l < h.

(** [a] is visited before [b] by the double loop. *)
Definition lex (a b : loc) : Prop := fst a < fst b \/ fst a = fst b /\ snd a < snd b.

(** ** Facts *)

Lemma loc_eqb_eq a b : loc_eqb a b = true <-> a = b.
Proof.
  unfold loc_eqb. rewrite andb_true_iff, !Z.eqb_eq. destruct a, b; cbn.
  split; [intros [-> ->]; reflexivity|intros H; inversion H; auto].
Qed.
Lemma loc_eqb_refl a : loc_eqb a a = true.
Proof. apply loc_eqb_eq. reflexivity. Qed.
Lemma loc_eqb_neq a b : loc_eqb a b = false <-> a <> b.
Proof. rewrite <- not_true_iff_false, loc_eqb_eq. reflexivity. Qed.

Lemma wrap32_id z : in_i32 z -> wrap32 z = z.
Proof. intros H. unfold wrap32, in_i32 in *. rewrite Z.mod_small; lia. Qed.

Lemma zrange_In n z : In z (zrange n) <-> 0 <= z < n.
Proof.
  unfold zrange. rewrite in_map_iff. split.
  - intros (k & <- & Hk). apply in_seq in Hk. lia.
  - intros H. exists (Z.to_nat z). split; [lia|]. apply in_seq. lia.
Qed.

Lemma cells_In w h l : In l (cells w h) <-> in_range w h l.
Proof. unfold cells. destruct l as [x y]. rewrite in_prod_iff, !zrange_In. reflexivity. Qed.

Lemma zrange_NoDup n : NoDup (zrange n).
Proof.
  unfold zrange. apply FinFun.Injective_map_NoDup; [intros a b; lia|apply seq_NoDup].
Qed.

Lemma zrange_sorted n : ForallOrdPairs Z.lt (zrange n).
Proof.
  unfold zrange. generalize 0%nat as s. induction (Z.to_nat n) as [|k IH]; intros s; cbn; constructor; [|apply IH].
  apply Forall_forall. intros z Hz. apply in_map_iff in Hz. destruct Hz as (j & <- & Hj). apply in_seq in Hj. lia.
Qed.

Lemma FOP_app {X} (R : X -> X -> Prop) (a b : list X) : ForallOrdPairs R (a ++ b) <->
  ForallOrdPairs R a /\ ForallOrdPairs R b /\ (forall x y, In x a -> In y b -> R x y).
Proof.
  induction a as [|x a IH]; cbn.
  - split; [intros H; repeat split; [constructor|exact H|intros ? ? []]|tauto].
  - split.
    + intros H. inversion H as [|? ? Hx Hl]; subst. apply IH in Hl. destruct Hl as (A & B & C).
      rewrite Forall_app in Hx. destruct Hx as [Hx1 Hx2]. rewrite Forall_forall in Hx2.
      repeat split; [constructor; assumption|exact B|intros u v [<-|Hu] Hv; auto].
    + intros (A & B & C). inversion A as [|? ? Hx Hl]; subst. constructor.
      * apply Forall_app. split; [exact Hx|]. apply Forall_forall. intros v Hv. apply C; auto.
      * apply IH. repeat split; auto.
Qed.

Lemma cells_sorted w h : ForallOrdPairs lex (cells w h).
Proof.
  unfold cells. pose proof (zrange_sorted w) as Hw. induction (zrange w) as [|i l IH]; cbn [list_prod]; [constructor|].
  inversion Hw as [|? ? Hi Hl]; subst. apply FOP_app. split; [|split; [apply IH; exact Hl|]].
  - clear IH. pose proof (zrange_sorted h) as Hh. induction (zrange h) as [|j m IHm]; cbn; [constructor|].
    inversion Hh as [|? ? Hj Hm]; subst. constructor; [|apply IHm; exact Hm].
    apply Forall_forall. intros p Hp. apply in_map_iff in Hp. destruct Hp as (k & <- & Hk).
    rewrite Forall_forall in Hj. right. cbn. auto.
  - intros [a b] [c d] H1 H2. apply in_map_iff in H1. destruct H1 as (k & E & _). inversion E; subst.
    apply in_prod_iff in H2. destruct H2 as [H2 _]. rewrite Forall_forall in Hi. left. cbn. auto.
Qed.

Lemma FOP_NoDup {X} (R : X -> X -> Prop) (l : list X) : (forall x, ~ R x x) -> ForallOrdPairs R l -> NoDup l.
Proof.
  intros Hirr. induction 1 as [|x l Hx Hl IH]; constructor; [|exact IH].
  intros Hin. rewrite Forall_forall in Hx. exact (Hirr x (Hx x Hin)).
Qed.

Lemma lex_irrefl a : ~ lex a a.
Proof. unfold lex. lia. Qed.

Lemma cells_NoDup w h : NoDup (cells w h).
Proof. exact (FOP_NoDup lex _ lex_irrefl (cells_sorted w h)). Qed.

Lemma FOP_filter {X} (R : X -> X -> Prop) f (l : list X) : ForallOrdPairs R l -> ForallOrdPairs R (filter f l).
Proof.
  induction 1 as [|x l Hx Hl IH]; cbn; [constructor|]. destruct (f x); [|exact IH].
  constructor; [|exact IH]. rewrite Forall_forall in *. intros y Hy. apply filter_In in Hy. apply Hx. tauto.
Qed.

Lemma cells_length w h : length (cells w h) = (Z.to_nat w * Z.to_nat h)%nat.
Proof. unfold cells, zrange. rewrite prod_length, !map_length, !seq_length. reflexivity. Qed.

(** The index of an in-range cell, no overflow. *)
Lemma cell_index_range w h l : in_range w h l -> w * h < 2 ^ 31 ->
  cell_index h l = fst l * h + snd l /\ 0 <= fst l * h + snd l < w * h.
Proof.
  intros [[Hx1 Hx2] [Hy1 Hy2]] Hs. unfold cell_index.
  assert (B : 0 <= fst l * h /\ fst l * h + h <= w * h) by nia.
  rewrite (wrap32_id (fst l * h)) by (unfold in_i32; lia).
  rewrite wrap32_id by (unfold in_i32; lia). lia.
Qed.

Lemma cell_index_inj w h a b : in_range w h a -> in_range w h b -> w * h < 2 ^ 31 ->
  cell_index h a = cell_index h b -> a = b.
Proof.
  intros Ha Hb Hs. destruct (cell_index_range w h a Ha Hs) as [-> _].
  destruct (cell_index_range w h b Hb Hs) as [-> _]. destruct a as [x y], b as [x' y'].
  unfold in_range in *; cbn in *. intros E. assert (x = x') by nia. subst. f_equal. lia.
Qed.

Lemma lset_length {X} i (x : X) l : length (lset i x l) = length l.
Proof. revert i; induction l; intros [|i]; cbn; auto. Qed.
Lemma lset_same {X} i (x : X) l : (i < length l)%nat -> nth_error (lset i x l) i = Some x.
Proof. revert i; induction l as [|y l IH]; intros [|i] H; cbn in *; try lia; [reflexivity|]. apply IH. lia. Qed.
Lemma lset_other {X} i j (x : X) l : i <> j -> nth_error (lset i x l) j = nth_error l j.
Proof.
  revert i j; induction l as [|y l IH]; intros [|i] [|j] H; cbn; try reflexivity; [congruence|].
  apply IH. congruence.
Qed.

Lemma vget_in {X} (v : list X) z : 0 <= z < Z.of_nat (length v) -> exists x, vget v z = Some x.
Proof.
  intros H. unfold vget, as_index. destruct (Z.ltb_spec z 0); [lia|].
  destruct (nth_error v (Z.to_nat z)) eqn:E; [eauto|]. apply nth_error_None in E. lia.
Qed.
Lemma vget_repeat {X} (x : X) n z : 0 <= z < Z.of_nat n -> vget (repeat x n) z = Some x.
Proof.
  intros H. unfold vget, as_index. destruct (Z.ltb_spec z 0); [lia|].
  destruct (nth_error (repeat x n) (Z.to_nat z)) eqn:E.
  - apply nth_error_In, repeat_spec in E. congruence.
  - apply nth_error_None in E. rewrite repeat_length in E. lia.
Qed.
Lemma vget_map {X Y} (f : X -> Y) v z : vget (map f v) z = option_map f (vget v z).
Proof. unfold vget. destruct (as_index z); [apply nth_error_map|reflexivity]. Qed.

Lemma vset_in {X} (v : list X) z x : 0 <= z < Z.of_nat (length v) ->
  exists v', vset v z x = Some v' /\ length v' = length v /\ vget v' z = Some x /\
    forall z', 0 <= z' -> z' <> z -> vget v' z' = vget v z'.
Proof.
  intros H. unfold vset, vget, as_index. destruct (Z.ltb_spec z 0); [lia|].
  destruct (Nat.ltb_spec (Z.to_nat z) (length v)); [|lia].
  eexists. split; [reflexivity|]. split; [apply lset_length|]. split; [apply lset_same; assumption|].
  intros z' Hz Hne. destruct (Z.ltb_spec z' 0); [lia|]. apply lset_other. lia.
Qed.
