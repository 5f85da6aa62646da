(** * Proofs about all processes of a distributed simulation together *)
From Coq Require Import List Bool ZArith NArith Arith Lia Permutation Sorted.
From Verif Require Import F32 SchedModel SchedSpec Grid ObjModel FieldModel FieldSpec KdModel KdSpec KdProofs KdStore
  MpiModel MpiSpec MpiProps FlockSpec DistModel DistSpec DistTree DistProofs.
Import ListNotations.
Local Open Scope nat_scope.

(** ** Lists *)
Lemma flat_map_seq_split {X} (g : nat -> list X) r : forall n a, a <= r < a + n ->
  Permutation (g r ++ flat_map (fun s => if s =? r then [] else g s) (seq a n)) (flat_map g (seq a n)).
Proof.
  induction n as [|n IH]; intros a Ha; [lia|]. cbn [seq flat_map]. destruct (Nat.eqb_spec a r) as [->|N].
  - apply Permutation_app_head. cbn [app].
    replace (flat_map (fun s => if s =? r then [] else g s) (seq (S r) n)) with (flat_map g (seq (S r) n)); [reflexivity|].
    rewrite !flat_map_concat_map. f_equal. apply map_ext_in. intros s Hs. apply in_seq in Hs. destruct (Nat.eqb_spec s r); [lia|reflexivity].
  - rewrite (Permutation_app_comm (g r)), <- app_assoc. apply Permutation_app_head. rewrite Permutation_app_comm. apply IH. lia.
Qed.
Lemma flat_map_perm {X Y} (f g : X -> list Y) l : (forall s, In s l -> Permutation (f s) (g s)) -> Permutation (flat_map f l) (flat_map g l).
Proof. induction l as [|s l IH]; intros H; [reflexivity|]. cbn. apply Permutation_app; [apply H; left; reflexivity|]. apply IH. intros s' Hs'. apply H. right. exact Hs'. Qed.
Lemma flat_map_split {X Y} (f g : X -> list Y) l : Permutation (flat_map (fun s => f s ++ g s) l) (flat_map f l ++ flat_map g l).
Proof.
  induction l as [|s l IH]; [reflexivity|]. cbn. rewrite IH, !app_assoc. apply Permutation_app_tail. rewrite <- !app_assoc. apply Permutation_app_head. apply Permutation_app_comm.
Qed.
Lemma filter_perm {X} (f : X -> bool) l l' : Permutation l l' -> Permutation (filter f l) (filter f l').
Proof.
  induction 1 as [|a l l' P IH|a b l|]; cbn; [constructor| | |].
  - destruct (f a); [constructor|]; exact IH.
  - destruct (f a), (f b); try reflexivity. apply perm_swap.
  - etransitivity; eassumption.
Qed.
Lemma filter_flat_map {X Y} (f : Y -> bool) (g : X -> list Y) l : filter f (flat_map g l) = flat_map (fun s => filter f (g s)) l.
Proof. induction l as [|s l IH]; [reflexivity|]. cbn. rewrite filter_app, IH. reflexivity. Qed.
Lemma sort_out {X} (f : nat -> X -> bool) n l : (forall o, In o l -> exists b, b < n /\ forall s, s < n -> f s o = (s =? b)) ->
  Permutation (flat_map (fun s => filter (f s) l) (seq 0 n)) l.
Proof.
  induction l as [|o l IH]; intros H.
  - clear. generalize 0. induction n as [|n IH]; intros a; [reflexivity|]. cbn. apply IH.
  - destruct (H o (or_introl eq_refl)) as (b & Hb & Fb).
    transitivity (flat_map (fun s => (if s =? b then [o] else []) ++ filter (f s) l) (seq 0 n)).
    { apply flat_map_perm. intros s Hs. apply in_seq in Hs. cbn [filter]. rewrite Fb by lia. destruct (s =? b); reflexivity. }
    rewrite flat_map_split. rewrite IH by (intros o' Ho'; apply H; right; exact Ho').
    change (o :: l) with ([o] ++ l). apply Permutation_app_tail.
    rewrite <- (flat_map_seq_split _ b n 0) by lia. rewrite Nat.eqb_refl.
    replace (flat_map _ (seq 0 n)) with (@nil X); [reflexivity|]. symmetry. generalize 0. clear. induction n as [|n IH]; intros a; [reflexivity|]. cbn. destruct (a =? b); apply IH.
Qed.
Lemma nth_map_seq {X} (f : nat -> X) d r n : r < n -> nth r (map f (seq 0 n)) d = f r.
Proof. intros H. apply nth_error_nth with (d := d). apply nth_seq. exact H. Qed.

Lemma ideal_length {O} n nbrs (pay : nat -> list (list (list O)) -> nat -> list O) t r : length (ideal n nbrs pay t r) = t.
Proof. induction t as [|t IH]; [reflexivity|]. cbn. rewrite app_length, IH. cbn. lia. Qed.
Lemma ideal_nth {O} n nbrs (pay : nat -> list (list (list O)) -> nat -> list O) r i : forall t, i < t ->
  nth i (ideal n nbrs pay t r) [] = map (fun s => if in_dec Nat.eq_dec s (nbrs r) then pay s (ideal n nbrs pay i s) r else []) (seq 0 n).
Proof.
  induction t as [|t IH]; intros Hi; [lia|]. cbn [ideal]. destruct (Nat.eq_dec i t) as [->|N].
  - rewrite app_nth2; rewrite ideal_length; [|lia]. rewrite Nat.sub_diag. reflexivity.
  - rewrite app_nth1 by (rewrite ideal_length; lia). apply IH. lia.
Qed.

Section All.
Variable A : arith.
Context {O : Type}.
Notation kdtree := (kdtree A (O := O)).
Variable location : O -> num A * num A.
Variable key : O -> N.
Variable radius : O -> num A.
Variable rule : O -> list O -> O.
Variable p : nat.
Variables x y w h d dist : num A.
Variable tree : nat -> kdtree.
Variable born : nat -> list O.
Variable chs : nat -> nat -> nat -> nat.
Notation nbrs := (partners A tree).
Notation pay := (d_payload A location key radius rule p tree born chs).
Notation drun := (d_run A location key radius rule p tree born chs).
Notation halo_out := (halo_out A p).
Notation mail_out := (mail_out A location key radius rule p born chs).
Notation next := (moves_to A location radius rule).

(** Process [r] after [t] steps, when all exchanges did what they have to do. *)
Definition settled (t r : nat) : sched O * world O (pstate A (O := O)) := drun r t (ideal p nbrs pay (2 * t) r).

Lemma run_prefix r : forall t log log', (forall i, i < 2 * t -> nth i log [] = nth i log' []) -> drun r t log = drun r t log'.
Proof.
  induction t as [|t IH]; intros log log' H; [reflexivity|]. cbn [d_run]. rewrite (H (2 * t)), (H (2 * t + 1)) by lia. rewrite (IH log log'); [reflexivity|]. intros i Hi. apply H. lia.
Qed.
Lemma settled_at t r n : 2 * t <= n -> drun r t (ideal p nbrs pay n r) = settled t r.
Proof. intros H. apply run_prefix. intros i Hi. rewrite !ideal_nth by lia. reflexivity. Qed.

(** What its two exchanges return in step [t]. *)
Definition halo_in (t r : nat) : list (list O) :=
  map (fun s => if in_dec Nat.eq_dec s (nbrs r) then nth r (halo_out s (settled t s)) [] else []) (seq 0 p).
Definition mail_in (t r : nat) : list (list O) :=
  map (fun s => if in_dec Nat.eq_dec s (nbrs r) then nth r (mail_out s t (halo_in t s) (settled t s)) [] else []) (seq 0 p).

Lemma div2_even t : Nat.div2 (2 * t) = t /\ Nat.even (2 * t) = true.
Proof. split; [apply Nat.div2_double|]. rewrite Nat.even_mul. reflexivity. Qed.
Lemma div2_odd t : Nat.div2 (2 * t + 1) = t /\ Nat.even (2 * t + 1) = false.
Proof. split; [rewrite Nat.add_1_r; apply Nat.div2_succ_double|]. rewrite Nat.even_add, Nat.even_mul. reflexivity. Qed.

Lemma ideal_halo t r n : 2 * t < n -> nth (2 * t) (ideal p nbrs pay n r) [] = halo_in t r.
Proof.
  intros H. rewrite ideal_nth by exact H. apply map_ext. intros s. destruct (in_dec _ _ _); [|reflexivity].
  unfold d_payload. rewrite ideal_length. destruct (div2_even t) as [-> ->]. rewrite settled_at by lia. reflexivity.
Qed.
Lemma ideal_mail t r n : 2 * t + 1 < n -> nth (2 * t + 1) (ideal p nbrs pay n r) [] = mail_in t r.
Proof.
  intros H. rewrite ideal_nth by exact H. apply map_ext. intros s. destruct (in_dec _ _ _); [|reflexivity].
  unfold d_payload. rewrite ideal_length. destruct (div2_odd t) as [-> ->]. rewrite settled_at by lia. rewrite ideal_halo by lia. reflexivity.
Qed.
Lemma settled_step t r : settled (S t) r = d_next A location key radius rule p born chs r t (halo_in t r) (mail_in t r) (settled t r).
Proof.
  unfold settled at 1. cbn [d_run]. rewrite ideal_halo by lia. rewrite ideal_mail by lia. rewrite settled_at by lia. reflexivity.
Qed.

(** ** The invariant *)
Variable T : nat.
Hypothesis GS : good_size A w h d.
Hypothesis Hp : 2 <= p.
Hypothesis Made : forall r, r < p -> create_tree A p (Z.of_nat r) 0 x y w h d dist = Some (tree r).
Hypothesis Keys : NoDup (map key (everywhere p born)).
Hypothesis Home : forall r o, r < p -> In o (born r) -> in_field A w h d (location o) /\ lives_in A location p tree o = Some (Z.of_nat r).
Hypothesis Key : forall o l, key (rule o l) = key o.
Hypothesis Stays : forall o l, in_field A w h d (location o) -> in_field A w h d (location (rule o l)).
Hypothesis Near : forall o l r, r < p -> in_field A w h d (location o) -> lives_in A location p tree o = Some (Z.of_nat r) ->
  exists b, b < p /\ lives_in A location p tree (rule o l) = Some (Z.of_nat b) /\ (b = r \/ In (Z.of_nat b) (k_neighbor_trees (tree r))).
Notation all_ := (N.of_nat (length (everywhere p born))).
Hypothesis Few : (all_ * N.of_nat (T + 1) < 2 ^ 32)%N.
Hypothesis Steps : (N.of_nat T < 2 ^ 64)%N.
Notation bs := (k_subtrees (tree 0)).
Notation here := (lives_at A location p tree).
Notation pop t := (fun r => queued (fst (settled t r))).

Lemma subs r : r < p -> k_subtrees (tree r) = bs.
Proof.
  intros Hr. pose proof (Made r Hr) as E1. assert (H0 : 0 < p) by lia. pose proof (Made 0 H0) as E2.
  destruct (create_tree_eq A (O := O) p r x y w h d dist Hp Hr) as (l & br & kr & E & _ & _ & Cr & Sb & _).
  destruct (create_tree_eq A (O := O) p 0 x y w h d dist Hp H0) as (l' & br' & kr' & E' & _ & _ & Cr' & Sb' & _).
  rewrite E1 in Cr. rewrite E2 in Cr'. congruence.
Qed.
Lemma net : network p nbrs.
Proof.
  pose proof (C53_kdtree_network A O p x y w h d dist Hp) as N.
  assert (E : forall r, r < p -> tree_neighbors A O p x y w h d dist r = nbrs r).
  { intros r Hr. unfold tree_neighbors, partners. rewrite Made by exact Hr. reflexivity. }
  intros r Hr. destruct (N r Hr) as (N1 & N2 & N3 & N4). rewrite E in N1, N2, N3, N4 by exact Hr.
  split; [exact N1|]. split; [exact N2|]. split; [exact N3|]. intros s Hs. specialize (N4 s Hs). rewrite Forall_forall in N2. rewrite E in N4 by (apply N2; exact Hs). exact N4.
Qed.
Lemma nbr_range r b : r < p -> In b (k_neighbor_trees (tree r)) -> (0 <= b < Z.of_nat p)%Z.
Proof.
  intros Hr Hb. destruct (fresh_tree A (O := O) p r x y w h d dist GS Hp Hr) as (k & C & _ & _ & _ & _ & _ & _ & _ & _ & _ & _ & _ & F).
  rewrite Made in C by exact Hr. injection C as <-. rewrite Forall_forall in F. exact (F b Hb).
Qed.
Lemma nbr_Z r b : r < p -> In (Z.of_nat b) (k_neighbor_trees (tree r)) <-> In b (nbrs r).
Proof.
  intros Hr. unfold partners. rewrite in_map_iff. split.
  - intros H. exists (Z.of_nat b). split; [apply Nat2Z.id|exact H].
  - intros (z & E & H). pose proof (nbr_range r z Hr H). replace (Z.of_nat b) with z by lia. exact H.
Qed.
Lemma nbr_bool r s : r < p -> existsb (Z.eqb (Z.of_nat s)) (k_neighbor_trees (tree r)) = if in_dec Nat.eq_dec s (nbrs r) then true else false.
Proof.
  intros Hr. destruct (in_dec Nat.eq_dec s (nbrs r)) as [H|H].
  - apply existsb_exists. exists (Z.of_nat s). split; [apply nbr_Z; assumption|apply Z.eqb_refl].
  - destruct (existsb _ _) eqn:X; [|reflexivity]. apply existsb_exists in X. destruct X as (z & Hz & E). apply Z.eqb_eq in E. subst z. apply nbr_Z in Hz; [contradiction|exact Hr].
Qed.

Definition inv (t : nat) : Prop :=
  (forall r, r < p -> pinv A location key p r w h d bs (tree r) (N.of_nat t) (all_ * N.of_nat (t + 1)) (fst (settled t r)) (w_st (snd (settled t r)))) /\
  Permutation (map key (everywhere p (pop t))) (map key (everywhere p born)).

Lemma near r : r < p -> forall o l, in_field A w h d (location o) -> block_by_location A p bs (location o) = Some (Z.of_nat r) ->
  exists b, b < p /\ block_by_location A p bs (location (rule o l)) = Some (Z.of_nat b) /\ (b = r \/ In (Z.of_nat b) (k_neighbor_trees (tree r))).
Proof. intros Hr o l Hi Hw. exact (Near o l r Hr Hi Hw). Qed.

Lemma pinv_mono r n B B' sc s : (B <= B')%N -> pinv A location key p r w h d bs (tree r) n B sc s -> pinv A location key p r w h d bs (tree r) n B' sc s.
Proof. intros H (I1 & I2 & I3 & I4 & I5 & I6 & I7). split; [exact I1|]. split; [exact I2|]. split; [exact I3|]. split; [exact I4|]. split; [exact I5|]. split; [lia|exact I7]. Qed.
Lemma minv_mono r n B B' sc s : (B <= B')%N -> minv A location key p r w h d bs (tree r) n B sc s -> minv A location key p r w h d bs (tree r) n B' sc s.
Proof. intros H (I1 & I2 & I3 & I4 & I5 & I6 & I7). split; [exact I1|]. split; [exact I2|]. split; [exact I3|]. split; [exact I4|]. split; [exact I5|]. split; [lia|exact I7]. Qed.

Lemma born_part r : r < p -> exists l1 l2, everywhere p born = l1 ++ born r ++ l2.
Proof.
  intros Hr. unfold everywhere. exists (flat_map born (seq 0 r)), (flat_map born (seq (S r) (p - S r))).
  replace (seq 0 p) with (seq 0 r ++ [r] ++ seq (S r) (p - S r)).
  - rewrite !flat_map_app. cbn. rewrite app_nil_r. reflexivity.
  - replace p with (r + (1 + (p - S r))) at 2 by lia. rewrite seq_app. cbn [seq app Nat.add]. reflexivity.
Qed.
Lemma NoDup_part {X} (l1 l2 l3 : list X) : NoDup (l1 ++ l2 ++ l3) -> NoDup l2.
Proof.
  induction l1 as [|a l1 IH]; cbn; [|intros H; inversion H; auto]. intros H. induction l2 as [|b l2 IH]; [constructor|]. cbn in H. inversion H as [|? ? N H']; subst. constructor; [|auto].
  intros Z. apply N. apply in_app_iff. auto.
Qed.

Lemma inv_start : inv 0.
Proof.
  assert (X : forall r, r < p -> pinv A location key p r w h d bs (tree r) 0 (all_ * 1) (fst (settled 0 r)) (w_st (snd (settled 0 r))) /\ queued (fst (settled 0 r)) = born r).
  { intros r Hr. destruct (born_part r Hr) as (l1 & l2 & E).
    assert (L : length (everywhere p born) = length l1 + (length (born r) + length l2)) by (rewrite E, !app_length; lia).
    destruct (start_inv A location key radius rule p r x y w h d dist GS Hp Hr bs (tree r) (Made r Hr) (subs r Hr) Key Stays (near r Hr) (born r) [] []) as [I Q].
    - apply Forall_forall. intros o Ho. exact (Home r o Hr Ho).
    - rewrite E, !map_app in Keys. exact (NoDup_part _ _ _ Keys).
    - nia.
    - split; [|exact Q]. eapply pinv_mono; [|exact I]. lia. }
  split.
  - intros r Hr. exact (proj1 (X r Hr)).
  - apply Permutation_map. unfold everywhere. apply flat_map_perm. intros r Hr. apply in_seq in Hr. destruct (X r) as [_ ->]; [lia|]. reflexivity.
Qed.

(** ** One step of all processes *)
Lemma halo_slots t s q : inv t -> s < p -> q < p -> Permutation (nth q (halo_out s (settled t s)) []) (filter (in_halo A location tree s q) (pop t s)).
Proof.
  intros [I _] Hs Hq. specialize (I s Hs). destruct (settled t s) as [sc wd] eqn:Es. cbn [fst snd] in I.
  destruct (found_epoch A location key p s x y w h d dist GS Hp Hs bs (tree s) (Made s Hs) _ _ sc wd I) as (E & k & Ef & FE & PE & He).
  unfold DistModel.halo_out. unfold found in Ef. rewrite Ef. cbn [ps_tree]. rewrite (epoch_halo A p s x y w h d dist GS Hp Hs (tree s) (Made s Hs) k E [] He). cbn [slots].
  rewrite nth_map_seq by exact Hq. rewrite (halo_slot A location p s x y w h d dist GS Hp Hs (tree s) (Made s Hs) E q FE).
  rewrite (filter_perm _ _ _ PE). reflexivity.
Qed.
Lemma halo_all t r : inv t -> r < p -> Permutation (concat (halo_in t r)) (halo A location p tree (pop t) r).
Proof.
  intros I Hr. unfold halo_in, halo. rewrite <- flat_map_concat_map. apply flat_map_perm. intros s Hs. apply in_seq in Hs. rewrite nbr_bool by exact Hr.
  destruct (in_dec _ _ _); [|reflexivity]. apply halo_slots; [exact I|lia|exact Hr].
Qed.
Lemma pop_good t r o : inv t -> r < p -> In o (pop t r) -> in_field A w h d (location o) /\ lives_in A location p tree o = Some (Z.of_nat r).
Proof.
  intros [I _] Hr Ho. destruct (I r Hr) as (_ & _ & _ & _ & _ & _ & G & _). rewrite Forall_forall in G. exact (G o Ho).
Qed.
Lemma halo_field t r : inv t -> r < p -> Forall (fun o => in_field A w h d (location o)) (concat (halo_in t r)).
Proof.
  intros I Hr. apply Forall_forall. intros o Ho. eapply Permutation_in in Ho; [|apply halo_all; assumption]. unfold halo in Ho. apply in_flat_map in Ho.
  destruct Ho as (s & Hs & Ho). apply in_seq in Hs. destruct (existsb _ _); [|destruct Ho]. apply filter_In in Ho. destruct Ho as [Ho _]. apply (pop_good t s o I); [lia|exact Ho].
Qed.

(** The process in the middle of step [t]. *)
Definition middle (t r : nat) : sched O * world O (pstate A (O := O)) :=
  mid_step (d_user A location key radius rule p r (born r) (halo_in t r) []) (chs r t) (fst (settled t r)) (snd (settled t r)).
Notation moved t := (fun r => queued (fst (middle t r))).

Lemma middle_inv t r : inv t -> r < p -> exists K, tree_shows A location w h d K (pop t r ++ halo A location p tree (pop t) r) /\
  minv A location key p r w h d bs (tree r) (N.of_nat t) (all_ * N.of_nat (t + 1)) (fst (middle t r)) (w_st (snd (middle t r))) /\
  Permutation (moved t r) (map (next K) (pop t r)).
Proof.
  intros I Hr. pose proof (proj1 I r Hr) as Ir.
  destruct (mid_inv A location key radius rule p r x y w h d dist GS Hp Hr bs (tree r) (Made r Hr) (subs r Hr) Key Stays (near r Hr) (born r) (halo_in t r) [] (chs r t) _ _ _ _ Ir (halo_field t r I Hr)) as (K & Sh & M & P).
  exists K. split; [|split; [exact M|exact P]]. intros l Hl. destruct (Sh l Hl) as (b & E1 & E2). exists b. split; [exact E1|]. rewrite E2. apply filter_perm. apply Permutation_app_head. apply halo_all; assumption.
Qed.
Lemma moved_reached t r : inv t -> r < p -> Forall (reached A location p r w h d bs (tree r)) (moved t r).
Proof. intros I Hr. destruct (middle_inv t r I Hr) as (K & _ & (_ & _ & _ & _ & _ & _ & F & _) & _). exact F. Qed.

Lemma mail_slots t s q : inv t -> s < p -> q < p ->
  nth q (mail_out s t (halo_in t s) (settled t s)) [] = if in_dec Nat.eq_dec q (nbrs s) then (if q =? s then [] else filter (here q) (moved t s)) else [].
Proof.
  intros I Hs Hq. unfold DistModel.mail_out. fold (middle t s). destruct (middle_inv t s I Hs) as (K & _ & (_ & _ & _ & _ & _ & _ & Fr & _ & E & C & FC & He) & _).
  rewrite (epoch_mail A p s x y w h d dist GS Hp Hs (tree s) (Made s Hs) _ _ _ [] He). cbn [slots]. rewrite nth_map_seq by exact Hq. rewrite nbr_bool by exact Hs.
  destruct (in_dec _ _ _); [|reflexivity]. rewrite addressed_app, addressed_cpy. cbn [app].
  destruct (inserted_put A location key radius rule p s w h d Hp Hs bs (tree s) Key Stays (near s Hs) _ Fr) as (_ & _ & X). apply X. exact Hq.
Qed.

(** Who is here afterwards: all agents that have moved here. *)
Lemma gather t r : inv t -> r < p ->
  Permutation (filter (here r) (moved t r) ++ concat (mail_in t r)) (filter (here r) (everywhere p (moved t))).
Proof.
  intros I Hr. unfold everywhere. rewrite filter_flat_map. rewrite <- (flat_map_seq_split _ r p 0) by lia. apply Permutation_app_head.
  unfold mail_in. rewrite <- flat_map_concat_map. apply flat_map_perm. intros s Hs. apply in_seq in Hs.
  destruct (Nat.eqb_spec s r) as [->|N].
  - destruct (in_dec Nat.eq_dec r (nbrs r)) as [Z|_]; [|reflexivity]. destruct (net r Hr) as (_ & _ & Ns & _). contradiction.
  - destruct (in_dec Nat.eq_dec s (nbrs r)) as [Z|Z].
    + rewrite mail_slots by (try exact I; lia). destruct (net r Hr) as (_ & _ & _ & Sy). destruct (in_dec Nat.eq_dec r (nbrs s)) as [_|Z']; [|destruct (Z' (Sy s Z))].
      destruct (Nat.eqb_spec r s); [lia|reflexivity].
    + replace (filter (here r) (moved t s)) with (@nil O); [reflexivity|]. symmetry.
      assert (Hs' : s < p) by lia. pose proof (moved_reached t s I Hs') as F. induction F as [|o l (Hi & b & Hb & E & Nb) F IH]; [reflexivity|]. cbn [filter].
      unfold lives_at at 1, lives_in. rewrite E. destruct (Z.eqb_spec (Z.of_nat b) (Z.of_nat r)) as [e|e]; [|exact IH].
      exfalso. assert (b = r) by lia. subst b. destruct Nb as [|Nb]; [lia|]. apply nbr_Z in Nb; [|exact Hs']. apply Z. destruct (net s Hs') as (_ & _ & _ & Sy). apply Sy. exact Nb.
Qed.

Lemma moved_keys t : inv t -> Permutation (map key (everywhere p (moved t))) (map key (everywhere p born)).
Proof.
  intros I. rewrite <- (proj2 I). unfold everywhere. rewrite !flat_map_concat_map, !concat_map, !map_map, <- !flat_map_concat_map. apply flat_map_perm. intros r Hr. apply in_seq in Hr.
  destruct (middle_inv t r I ltac:(lia)) as (K & _ & _ & P). rewrite P, map_map. erewrite map_ext; [reflexivity|]. intros o. apply Key.
Qed.

Lemma step_all t : t < T -> inv t -> inv (S t) /\
  forall r, r < p -> Permutation (pop (S t) r) (filter (here r) (everywhere p (moved t))).
Proof.
  intros Ht I. pose proof (moved_keys t I) as MK.
  assert (LA : length (everywhere p (moved t)) = length (everywhere p born)).
  { apply Permutation_length in MK. rewrite !map_length in MK. exact MK. }
  assert (NA : NoDup (map key (everywhere p (moved t)))) by (eapply Permutation_NoDup; [symmetry; exact MK|exact Keys]).
  assert (X : forall r, r < p -> pinv A location key p r w h d bs (tree r) (N.of_nat (S t)) (all_ * N.of_nat (S t + 1)) (fst (settled (S t) r)) (w_st (snd (settled (S t) r))) /\
    Permutation (pop (S t) r) (filter (here r) (everywhere p (moved t)))).
  { intros r Hr. pose proof (gather t r I Hr) as G. destruct (middle_inv t r I Hr) as (K & _ & M & _).
    assert (LM : length (concat (mail_in t r)) <= length (everywhere p born)).
    { apply Permutation_length in G. rewrite app_length in G. rewrite <- LA.
      assert (Z : forall (f : O -> bool) l, length (filter f l) <= length l) by (clear; intros f; induction l as [|a l IH]; cbn; [lia|]; destruct (f a); cbn; lia).
      specialize (Z (here r) (everywhere p (moved t))). lia. }
    destruct (finish_inv A location key radius rule p r x y w h d dist GS Hp Hr bs (tree r) (Made r Hr) (subs r Hr) Key Stays (near r Hr) (born r) (halo_in t r) (mail_in t r)
      (N.of_nat t) (all_ * N.of_nat (t + 1)) (fst (middle t r)) (snd (middle t r)) M) as [I' Q].
    - lia.
    - apply Forall_forall. intros o Ho. assert (Hf : In o (filter (here r) (everywhere p (moved t)))) by (eapply Permutation_in; [exact G|]; apply in_app_iff; right; exact Ho).
      apply filter_In in Hf. destruct Hf as [Hf Hh]. unfold everywhere in Hf. apply in_flat_map in Hf. destruct Hf as (s & Hs & Hf). apply in_seq in Hs. assert (Hs' : s < p) by lia.
      pose proof (moved_reached t s I Hs') as F. rewrite Forall_forall in F. destruct (F o Hf) as (Hi & b & Hb & E & _). split; [exact Hi|].
      unfold lives_at, lives_in in Hh. rewrite E in *. apply Z.eqb_eq in Hh. congruence.
    - eapply Permutation_NoDup; [apply Permutation_map; symmetry; exact G|]. clear - NA. induction (everywhere p (moved t)) as [|o l IH]; [constructor|]. cbn [map filter] in *. inversion NA as [|? ? N NA']; subst.
      destruct (here r o); [|auto]. cbn [map]. constructor; [|auto]. intros Z. apply N. apply in_map_iff in Z. destruct Z as (o' & E & Ho'). apply filter_In in Ho'. rewrite <- E. apply in_map. apply Ho'.
    - nia.
    - assert (E : settled (S t) r = finish_step (d_user A location key radius rule p r (born r) (halo_in t r) (mail_in t r)) (fst (middle t r)) (snd (middle t r))).
      { rewrite settled_step. unfold d_next. rewrite step_mid, mid_mail. reflexivity. }
      rewrite <- E in I', Q. split.
      + replace (N.of_nat (S t)) with (N.of_nat t + 1)%N by lia. eapply pinv_mono; [|exact I']. nia.
      + rewrite Q. exact G. }
  split; [split|].
  - intros r Hr. exact (proj1 (X r Hr)).
  - rewrite <- MK. apply Permutation_map. transitivity (flat_map (fun r => filter (here r) (everywhere p (moved t))) (seq 0 p)).
    + unfold everywhere at 1. apply flat_map_perm. intros r Hr. apply in_seq in Hr. apply X. lia.
    + apply sort_out. intros o Hf. unfold everywhere in Hf. apply in_flat_map in Hf. destruct Hf as (s & Hs & Hf). apply in_seq in Hs. assert (Hs' : s < p) by lia.
      pose proof (moved_reached t s I Hs') as F. rewrite Forall_forall in F. destruct (F o Hf) as (Hi & b & Hb & E & _). exists b. split; [exact Hb|]. intros q Hq. unfold lives_at, lives_in. rewrite E.
      destruct (Z.eqb_spec (Z.of_nat b) (Z.of_nat q)), (Nat.eqb_spec q b); try lia; reflexivity.
  - intros r Hr. exact (proj2 (X r Hr)).
Qed.

Lemma inv_always : forall t, t <= T -> inv t.
Proof. induction t as [|t IH]; intros Ht; [apply inv_start|]. apply step_all; [lia|]. apply IH. lia. Qed.

Lemma views t : inv t -> exists K, (forall r, r < p -> tree_shows A location w h d (K r) (pop t r ++ halo A location p tree (pop t) r)) /\
  forall r, r < p -> Permutation (moved t r) (map (next (K r)) (pop t r)).
Proof.
  intros I. assert (X : forall n, n <= p -> exists K, forall r, r < n -> tree_shows A location w h d (K r) (pop t r ++ halo A location p tree (pop t) r) /\ Permutation (moved t r) (map (next (K r)) (pop t r))).
  { induction n as [|n IH]; intros Hn; [exists tree; intros r Hr; lia|]. destruct IH as [K HK]; [lia|]. destruct (middle_inv t n I ltac:(lia)) as (Kn & S1 & _ & S2).
    exists (fun r => if r =? n then Kn else K r). intros r Hr. destruct (Nat.eqb_spec r n) as [->|]; [auto|]. apply HK. lia. }
  destruct (X p (le_n _)) as [K HK]. exists K. split; intros r Hr; apply HK; exact Hr.
Qed.
End All.
