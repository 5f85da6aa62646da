(** * Network: the model refines the abstract graph *)
From Coq Require Import List Bool NArith Arith Lia Permutation.
From Verif Require Import DashModel NetModel NetSpec.
Import ListNotations.
Local Open Scope N_scope.

(** ** Lookups in association lists *)
Section Maps.
Context {K V : Type}.
Variable eqk : K -> K -> bool.
Variable E : equivalence eqk.

Definition lk (k : K) (m : list (K * V)) : option V := option_map snd (hm_find eqk k m).
Definition kuniq (m : list (K * V)) : Prop := ForallOrdPairs (fun p q => eqk (fst p) (fst q) = false) m.

Lemma eqk_cong x y z : eqk x y = true -> eqk x z = eqk y z.
Proof.
  intros H. destruct (eqk x z) eqn:A, (eqk y z) eqn:B; trivial.
  - rewrite (eq_trans_ _ E y x z) in B; [discriminate|apply (eq_sym_ _ E); exact H|exact A].
  - rewrite (eq_trans_ _ E x y z H B) in A. discriminate.
Qed.
Lemma eqk_sym x y : eqk x y = eqk y x.
Proof.
  destruct (eqk x y) eqn:A, (eqk y x) eqn:B; trivial.
  - rewrite (eq_sym_ _ E _ _ A) in B. discriminate.
  - rewrite (eq_sym_ _ E _ _ B) in A. discriminate.
Qed.
Lemma lk_cons k p (m : list (K * V)) : lk k (p :: m) = if eqk k (fst p) then Some (snd p) else lk k m.
Proof. unfold lk, hm_find. cbn [find]. destruct (eqk k (fst p)); reflexivity. Qed.
Lemma lk_cong x y (m : list (K * V)) : eqk x y = true -> lk x m = lk y m.
Proof.
  intros H. induction m as [|p m IH]; [reflexivity|]. rewrite !lk_cons, (eqk_cong _ _ _ H), IH. reflexivity.
Qed.
Lemma lk_insert k v x (m : list (K * V)) : lk x (fst (hm_insert eqk k v m)) = if eqk x k then Some v else lk x m.
Proof.
  induction m as [|p m IH]; cbn [hm_insert].
  - cbn [fst]. rewrite lk_cons. reflexivity.
  - destruct (eqk k (fst p)) eqn:A.
    + cbn [fst]. rewrite !lk_cons. cbn [fst snd]. rewrite (eqk_sym x k), (eqk_cong _ _ x A), (eqk_sym (fst p) x).
      destruct (eqk x (fst p)); reflexivity.
    + destruct (hm_insert eqk k v m) as [m' r]. cbn [fst] in *. rewrite !lk_cons, IH.
      destruct (eqk x (fst p)) eqn:B; [|reflexivity]. destruct (eqk x k) eqn:C; [|reflexivity].
      rewrite (eqk_cong _ _ _ C) in B. congruence.
Qed.
Lemma lk_modify k f x (m : list (K * V)) : lk x (hm_modify eqk k f m) = if eqk x k then option_map f (lk x m) else lk x m.
Proof.
  induction m as [|p m IH]; cbn [hm_modify].
  - unfold lk. cbn. destruct (eqk x k); reflexivity.
  - destruct (eqk k (fst p)) eqn:A; rewrite !lk_cons; cbn [fst snd].
    + rewrite (eqk_sym x k), (eqk_cong _ _ x A), (eqk_sym (fst p) x). destruct (eqk x (fst p)); reflexivity.
    + rewrite IH. destruct (eqk x (fst p)) eqn:B; [|reflexivity]. destruct (eqk x k) eqn:C; [|reflexivity].
      rewrite (eqk_cong _ _ _ C) in B. congruence.
Qed.
Lemma kuniq_cons p (m : list (K * V)) : kuniq (p :: m) <-> (forall q, In q m -> eqk (fst p) (fst q) = false) /\ kuniq m.
Proof.
  split.
  - intros H. inversion H as [|a b H1 H2]; subst. rewrite Forall_forall in H1. split; assumption.
  - intros [H1 H2]. constructor; [apply Forall_forall|]; assumption.
Qed.
Lemma lk_none k (m : list (K * V)) : (forall q, In q m -> eqk k (fst q) = false) -> lk k m = None.
Proof.
  induction m as [|p m IH]; intros H; [reflexivity|]. rewrite lk_cons, (H p (or_introl eq_refl)).
  apply IH. intros q Hq. apply H. right. exact Hq.
Qed.
Lemma lk_none_inv k (m : list (K * V)) : lk k m = None -> forall q, In q m -> eqk k (fst q) = false.
Proof.
  induction m as [|p m IH]; [intros _ q []|]. rewrite lk_cons. destruct (eqk k (fst p)) eqn:A; [discriminate|].
  intros H q [<-|Hq]; [exact A|]. apply IH; assumption.
Qed.
Lemma lk_some_in k (m : list (K * V)) v : lk k m = Some v -> exists k', In (k', v) m /\ eqk k k' = true.
Proof.
  induction m as [|p m IH]; [discriminate|]. rewrite lk_cons. destruct (eqk k (fst p)) eqn:A.
  - intros H. injection H as <-. exists (fst p). split; [left; destruct p; reflexivity|exact A].
  - intros H. destruct (IH H) as (k' & H1 & H2). exists k'. split; [right|]; assumption.
Qed.
Lemma lk_in_some k (m : list (K * V)) v : kuniq m -> In (k, v) m -> lk k m = Some v.
Proof.
  induction m as [|p m IH]; [intros _ []|]. rewrite kuniq_cons, lk_cons. intros [H1 H2] [->|H].
  - cbn [fst]. rewrite (eq_refl_ _ E). reflexivity.
  - specialize (H1 _ H). cbn [fst] in H1. rewrite eqk_sym, H1. apply IH; assumption.
Qed.
Lemma lk_remove k x (m : list (K * V)) : kuniq m -> lk x (fst (hm_remove eqk k m)) = if eqk x k then None else lk x m.
Proof.
  induction m as [|p m IH]; cbn [hm_remove].
  - intros _. unfold lk. cbn. destruct (eqk x k); reflexivity.
  - rewrite kuniq_cons. intros [H1 H2]. destruct (eqk k (fst p)) eqn:A.
    + cbn [fst]. rewrite lk_cons, (eqk_sym x k), (eqk_cong _ _ x A), (eqk_sym (fst p) x).
      destruct (eqk x (fst p)) eqn:B; [|reflexivity]. apply lk_none. intros q Hq.
      rewrite (eqk_cong _ _ _ B). apply H1. exact Hq.
    + specialize (IH H2). destruct (hm_remove eqk k m) as [m' r]. cbn [fst] in *. rewrite !lk_cons, IH.
      destruct (eqk x (fst p)) eqn:B; [|reflexivity]. destruct (eqk x k) eqn:C; [|reflexivity].
      rewrite (eqk_cong _ _ _ C) in B. congruence.
Qed.
Lemma in_insert k v (m : list (K * V)) p : In p (fst (hm_insert eqk k v m)) -> p = (k, v) \/ exists q, In q m /\ fst p = fst q.
Proof.
  induction m as [|q m IH]; cbn [hm_insert].
  - intros [<-|[]]. left. reflexivity.
  - destruct (eqk k (fst q)).
    + intros [<-|H]; right; [exists q|exists p]; split; try reflexivity; [left; reflexivity|right; exact H].
    + destruct (hm_insert eqk k v m) as [m' r]. cbn [fst] in *. intros [<-|H].
      * right. exists q. split; [left|]; reflexivity.
      * destruct (IH H) as [->|(q' & H1 & H2)]; [left; reflexivity|]. right. exists q'. split; [right|]; assumption.
Qed.
Lemma kuniq_insert k v (m : list (K * V)) : kuniq m -> kuniq (fst (hm_insert eqk k v m)).
Proof.
  induction m as [|p m IH]; cbn [hm_insert]; intros H.
  - repeat constructor.
  - apply kuniq_cons in H. destruct H as [H1 H2]. destruct (eqk k (fst p)) eqn:A.
    + apply kuniq_cons. split; assumption.
    + specialize (IH H2). pose proof (fun q => in_insert k v m q) as HI. destruct (hm_insert eqk k v m) as [m' r]. cbn [fst] in *.
      apply kuniq_cons. split; [|exact IH]. intros q Hq. destruct (HI q Hq) as [->|(q' & Q1 & Q2)].
      * cbn [fst]. rewrite eqk_sym. exact A.
      * rewrite Q2. apply H1. exact Q1.
Qed.
Lemma in_modify k f (m : list (K * V)) p : In p (hm_modify eqk k f m) -> exists q, In q m /\ fst p = fst q.
Proof.
  induction m as [|q m IH]; cbn [hm_modify]; [intros []|]. destruct (eqk k (fst q)); intros [<-|H].
  - exists q. split; [left|]; reflexivity.
  - exists p. split; [right; exact H|reflexivity].
  - exists q. split; [left|]; reflexivity.
  - destruct (IH H) as (q' & H1 & H2). exists q'. split; [right|]; assumption.
Qed.
Lemma kuniq_modify k f (m : list (K * V)) : kuniq m -> kuniq (hm_modify eqk k f m).
Proof.
  induction m as [|p m IH]; cbn [hm_modify]; intros H; [exact H|].
  apply kuniq_cons in H. destruct H as [H1 H2]. destruct (eqk k (fst p)); apply kuniq_cons; cbn [fst].
  - split; assumption.
  - split; [|exact (IH H2)]. intros q Hq. destruct (in_modify _ _ _ _ Hq) as (q' & Q1 & Q2). rewrite Q2. apply H1. exact Q1.
Qed.
Lemma in_remove k (m : list (K * V)) p : In p (fst (hm_remove eqk k m)) -> In p m.
Proof.
  induction m as [|q m IH]; cbn [hm_remove]; [intros []|]. destruct (eqk k (fst q)); cbn [fst]; [intros H; right; exact H|].
  destruct (hm_remove eqk k m) as [m' r]. cbn [fst] in *. intros [<-|H]; [left; reflexivity|right; exact (IH H)].
Qed.
Lemma kuniq_remove k (m : list (K * V)) : kuniq m -> kuniq (fst (hm_remove eqk k m)).
Proof.
  induction m as [|p m IH]; cbn [hm_remove]; intros H; [exact H|].
  apply kuniq_cons in H. destruct H as [H1 H2]. destruct (eqk k (fst p)); [exact H2|].
  specialize (IH H2). pose proof (fun q => in_remove k m q) as HI. destruct (hm_remove eqk k m) as [m' r]. cbn [fst] in *.
  apply kuniq_cons. split; [|exact IH]. intros q Hq. apply H1, HI, Hq.
Qed.
Lemma length_insert k v (m : list (K * V)) : length (fst (hm_insert eqk k v m)) = match lk k m with Some _ => length m | None => S (length m) end.
Proof.
  induction m as [|p m IH]; cbn [hm_insert]; [reflexivity|]. rewrite lk_cons. destruct (eqk k (fst p)); [reflexivity|].
  destruct (hm_insert eqk k v m) as [m' r]. cbn [fst] in *. cbn [length]. rewrite IH. destruct (lk k m); reflexivity.
Qed.
Lemma length_remove k (m : list (K * V)) : length (fst (hm_remove eqk k m)) = match lk k m with Some _ => pred (length m) | None => length m end.
Proof.
  induction m as [|p m IH]; cbn [hm_remove]; [reflexivity|]. rewrite lk_cons. destruct (eqk k (fst p)); [reflexivity|].
  destruct (hm_remove eqk k m) as [m' r]. cbn [fst] in *. cbn [length]. rewrite IH.
  destruct (lk k m) eqn:F; [|reflexivity]. destruct m; [discriminate|reflexivity].
Qed.
Lemma length_modify k f (m : list (K * V)) : length (hm_modify eqk k f m) = length m.
Proof. induction m as [|p m IH]; [reflexivity|]. cbn [hm_modify]. destruct (eqk k (fst p)); cbn [length]; congruence. Qed.
End Maps.

Lemma Neq : equivalence N.eqb.
Proof.
  constructor.
  - apply N.eqb_refl.
  - intros x y H. rewrite N.eqb_sym. exact H.
  - intros x y z H1 H2. apply N.eqb_eq in H1, H2. subst. apply N.eqb_refl.
Qed.

(** ** List facts *)
Lemma remove_first_spec {X} (f : X -> bool) l :
  match remove_first f l with
  | Some (x, l') => find f l = Some x /\ l' = without_first f l
  | None => find f l = None /\ without_first f l = l
  end.
Proof.
  induction l as [|x l IH]; cbn [remove_first find without_first]; [split; reflexivity|].
  destruct (f x); [split; reflexivity|]. destruct (remove_first f l) as [[y l']|]; cbn [option_map fst snd].
  - destruct IH as [-> ->]. split; reflexivity.
  - destruct IH as [-> ->]. split; reflexivity.
Qed.
Lemma find_cong {X} (f g : X -> bool) l : (forall x, In x l -> f x = g x) -> find f l = find g l.
Proof.
  induction l as [|x l IH]; intros H; [reflexivity|]. cbn [find]. rewrite (H x (or_introl eq_refl)).
  destruct (g x); [reflexivity|]. apply IH. intros y Hy. apply H. right. exact Hy.
Qed.
Lemma without_first_cong {X} (f g : X -> bool) l : (forall x, In x l -> f x = g x) -> without_first f l = without_first g l.
Proof.
  induction l as [|x l IH]; intros H; [reflexivity|]. cbn [without_first]. rewrite (H x (or_introl eq_refl)).
  destruct (g x); [reflexivity|]. f_equal. apply IH. intros y Hy. apply H. right. exact Hy.
Qed.
Lemma filter_all {X} (f : X -> bool) l : (forall x, In x l -> f x = true) -> filter f l = l.
Proof.
  induction l as [|x l IH]; intros H; [reflexivity|]. cbn [filter]. rewrite (H x (or_introl eq_refl)). f_equal.
  apply IH. intros y Hy. apply H. right. exact Hy.
Qed.
Lemma filter_none {X} (f : X -> bool) l : (forall x, In x l -> f x = false) -> filter f l = [].
Proof.
  induction l as [|x l IH]; intros H; [reflexivity|]. cbn [filter]. rewrite (H x (or_introl eq_refl)).
  apply IH. intros y Hy. apply H. right. exact Hy.
Qed.
Lemma find_none_filter {X} (f : X -> bool) l : find f l = None <-> filter f l = [].
Proof.
  split.
  - intros H. apply filter_none. intros x Hx. exact (find_none _ _ H x Hx).
  - intros H. destruct (find f l) as [x|] eqn:F; [|reflexivity]. apply find_some in F.
    assert (HI : In x (filter f l)) by (apply filter_In; exact F). rewrite H in HI. destruct HI.
Qed.
(** With at most one occurrence, dropping the first is dropping all. *)
Lemma without_first_drop {X} (f : X -> bool) l : (length (filter f l) <= 1)%nat -> without_first f l = drop f l.
Proof.
  unfold drop. induction l as [|x l IH]; [reflexivity|]. cbn [filter without_first]. destruct (f x) eqn:F; cbn [negb length]; intros H.
  - symmetry. apply filter_all. intros y Hy. destruct (f y) eqn:G; [|reflexivity].
    assert (HI : In y (filter f l)) by (apply filter_In; split; assumption).
    destruct (filter f l); [destruct HI|cbn [length] in H; lia].
  - f_equal. apply IH. exact H.
Qed.
