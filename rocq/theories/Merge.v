(** * Interleaving lists

    General facts used by the models of concurrent code. *)
From Coq Require Import List Bool Arith Lia Permutation.
Import ListNotations.

(** Replaces element [i] of a list. *)
Fixpoint upd {X} (l : list X) (i : nat) (x : X) : list X :=
  match l, i with
  | [], _ => []
  | _ :: l', O => x :: l'
  | y :: l', Datatypes.S i' => y :: upd l' i' x
  end.

(** [x] comes before [y] in [l]. *)
Definition comes_before {X} (l : list X) (x y : X) : Prop :=
  exists l1 l2 l3, l = l1 ++ x :: l2 ++ y :: l3.

(** ** Merging lists *)

Inductive merge {X} : list (list X) -> list X -> Prop :=
| merge_nil bs : (forall b, In b bs -> b = []) -> merge bs []
| merge_cons l1 x b l2 o : merge (l1 ++ b :: l2) o -> merge (l1 ++ (x :: b) :: l2) (x :: o).

Lemma concat_all_nil {X} (bs : list (list X)) : (forall b, In b bs -> b = []) -> concat bs = [].
Proof.
  induction bs as [|b bs IH]; cbn; intros H; [reflexivity|].
  rewrite (H b) by auto. apply IH. auto.
Qed.

Lemma merge_perm {X} (bs : list (list X)) o : merge bs o -> Permutation (concat bs) o.
Proof.
  induction 1 as [bs H|l1 x b l2 o H IH].
  - rewrite concat_all_nil by exact H. constructor.
  - rewrite concat_app in *. cbn [concat app] in *.
    rewrite <- Permutation_middle. constructor. exact IH.
Qed.

Lemma app_mid_cases {X} (l1 l2 k1 k2 : list X) x y :
  l1 ++ x :: l2 = k1 ++ y :: k2 ->
  (exists m, k1 = l1 ++ x :: m /\ l2 = m ++ y :: k2) \/
  (l1 = k1 /\ x = y /\ l2 = k2) \/
  (exists m, l1 = k1 ++ y :: m /\ k2 = m ++ x :: l2).
Proof.
  revert k1. induction l1 as [|a l1 IH]; cbn; intros k1 E.
  - destruct k1 as [|c k1]; cbn in E; inversion E; subst; [auto|]. left. exists k1. auto.
  - destruct k1 as [|c k1]; cbn in E; inversion E; subst.
    + right. right. exists l1. auto.
    + destruct (IH k1 H1) as [(m & -> & ->)|[(-> & -> & ->)|(m & -> & ->)]].
      * left. exists m. auto.
      * auto.
      * right. right. exists m. auto.
Qed.

Lemma merge_order {X} (bs : list (list X)) o : merge bs o ->
  forall b x y, In b bs -> comes_before b x y -> comes_before o x y.
Proof.
  induction 1 as [bs H|l1 z b0 l2 o H IH]; intros b x y Hin (b1 & b2 & b3 & E).
  - rewrite (H b Hin) in E. destruct b1; discriminate.
  - assert (Hc : In b (l1 ++ b0 :: l2) \/ b = z :: b0).
    { apply in_app_or in Hin. destruct Hin as [K|[K|K]]; [left|right|left]; auto;
        apply in_or_app; cbn; auto. }
    destruct Hc as [Hc| ->].
    + destruct (IH b x y Hc) as (o1 & o2 & o3 & ->); [exists b1, b2, b3; exact E|].
      exists (z :: o1), o2, o3. reflexivity.
    + destruct b1 as [|z' b1]; cbn in E; inversion E; subst.
      * apply merge_perm in H. assert (Hy : In y o).
        { eapply Permutation_in; [exact H|]. rewrite concat_app. cbn.
          apply in_or_app; right; apply in_or_app; left; apply in_or_app; right; left; reflexivity. }
        apply in_split in Hy. destruct Hy as (o1 & o2 & ->). exists [], o1, o2. reflexivity.
      * destruct (IH (b1 ++ x :: b2 ++ y :: b3) x y) as (o1 & o2 & o3 & ->).
        { apply in_or_app; right; left; reflexivity. }
        { exists b1, b2, b3. reflexivity. }
        exists (z' :: o1), o2, o3. reflexivity.
Qed.

(** ** Updating lists *)

Lemma upd_nth_same {X} (l : list X) i x y : nth_error l i = Some y -> nth_error (upd l i x) i = Some x.
Proof. revert i; induction l as [|a l IH]; intros [|i]; cbn; try discriminate; auto. Qed.
Lemma upd_nth_other {X} (l : list X) i j (x : X) : i <> j -> nth_error (upd l i x) j = nth_error l j.
Proof. revert i j; induction l as [|a l IH]; intros [|i] [|j]; cbn; intros H; auto; try congruence.
  all: try (destruct j; reflexivity). Qed.
Lemma upd_split {X} (l : list X) i x y : nth_error l i = Some y ->
  exists l1 l2, l = l1 ++ y :: l2 /\ upd l i x = l1 ++ x :: l2 /\ length l1 = i.
Proof.
  revert i; induction l as [|a l IH]; intros [|i]; cbn; intros H; try discriminate.
  - inversion H; subst. exists [], l. auto.
  - destruct (IH i H) as (l1 & l2 & -> & -> & E). exists (a :: l1), l2. cbn. auto.
Qed.

