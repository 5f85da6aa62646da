(** * Network: preferential attachment *)
From Coq Require Import List Bool NArith Arith Lia Permutation.
From Verif Require Import DashModel NetModel NetSpec NetProofs NetRef NetRun NetBASpec.
Import ListNotations.

Section BA.
Context {O L W : Type}.
Variable eqo : O -> O -> bool.
Variable E : equivalence eqo.
Variable d : bool.
Variable choose : nat -> list (O * N * nat) -> nat -> list (O * N * nat).
Variable C : choose_ok choose.
Variable node_set : list O.
Variable m : nat.

Local Notation opts := (edge_options L W).
Local Notation agraph := (agraph O L W).
Local Notation net := (net O L W).
Local Notation simulates := (simulates (L := L) (W := W) eqo d).

Lemma weighted_S i pairs : weighted node_set (S i) pairs = weighted node_set i pairs ++
  match nth_error node_set i with Some x => [(x, N.of_nat (degree i pairs), i)] | None => [] end.
Proof. unfold weighted. rewrite seq_S, flat_map_app. cbn [flat_map]. rewrite app_nil_r. reflexivity. Qed.
Lemma weighted_length i pairs : (i <= length node_set)%nat -> length (weighted node_set i pairs) = i.
Proof.
  induction i as [|i IH]; intros H; [reflexivity|]. rewrite weighted_S, app_length, IH by lia.
  destruct (nth_error node_set i) eqn:F; [cbn [length]; lia|]. apply nth_error_None in F. lia.
Qed.
Lemma weighted_nth i pairs k : (i <= length node_set)%nat -> (k < i)%nat ->
  exists x, nth_error node_set k = Some x /\ nth_error (weighted node_set i pairs) k = Some (x, N.of_nat (degree k pairs), k).
Proof.
  induction i as [|i IH]; intros H Hk; [lia|]. rewrite weighted_S. destruct (Nat.eq_dec k i) as [->|Hne].
  - destruct (nth_error node_set i) as [x|] eqn:F; [|apply nth_error_None in F; lia]. exists x. split; [reflexivity|].
    rewrite nth_error_app2; rewrite weighted_length by lia; [|lia]. rewrite Nat.sub_diag. reflexivity.
  - destruct (IH) as (x & H1 & H2); [lia|lia|]. exists x. split; [exact H1|]. rewrite nth_error_app1; [exact H2|]. rewrite weighted_length; lia.
Qed.
Lemma weighted_in i pairs c : (i <= length node_set)%nat -> In c (weighted node_set i pairs) ->
  exists k x, (k < i)%nat /\ nth_error node_set k = Some x /\ c = (x, N.of_nat (degree k pairs), k).
Proof.
  intros H Hc. apply In_nth_error in Hc. destruct Hc as [k Hk].
  assert (Hl : (k < i)%nat). { rewrite <- (weighted_length i pairs H). apply nth_error_Some. rewrite Hk. discriminate. }
  destruct (weighted_nth i pairs k H Hl) as (x & H1 & H2). exists k, x. split; [exact Hl|]. split; [exact H1|]. congruence.
Qed.
Lemma weighted_nodup i pairs : (i <= length node_set)%nat -> NoDup (weighted node_set i pairs).
Proof.
  intros H. apply NoDup_nth_error. intros a b Ha F. rewrite weighted_length in Ha by exact H.
  destruct (weighted_nth i pairs a H Ha) as (x & _ & H1). rewrite H1 in F. symmetry in F.
  assert (Hb : (b < i)%nat). { rewrite <- (weighted_length i pairs H). apply nth_error_Some. rewrite F. discriminate. }
  destruct (weighted_nth i pairs b H Hb) as (y & _ & H2). rewrite H2 in F. congruence.
Qed.

(** [bump] adds one per occurrence. *)
Lemma nth_ext_ {X} (l l' : list X) : length l = length l' -> (forall k, (k < length l)%nat -> nth_error l k = nth_error l' k) -> l = l'.
Proof.
  revert l'. induction l as [|x l IH]; intros [|y l'] HL H; try discriminate; [reflexivity|]. f_equal.
  - specialize (H 0%nat). cbn in H. assert (Some x = Some y) by (apply H; lia). congruence.
  - apply IH; [injection HL as HL; exact HL|]. intros k Hk. apply (H (S k)). cbn [length]. lia.
Qed.
Lemma bump_nth ps : forall (l : list (O * N * nat)) k,
  length (bump ps l) = length l /\
  nth_error (bump ps l) k = option_map (fun c => let '(x, w, q) := c in (x, w + N.of_nat (length (filter (Nat.eqb k) ps)), q)%N) (nth_error l k).
Proof.
  induction ps as [|p ps IH]; intros l k.
  - cbn. split; [reflexivity|]. destruct (nth_error l k) as [[[x w] q]|]; [|reflexivity]. cbn. rewrite N.add_0_r. reflexivity.
  - cbn [bump]. destruct (nth_error l p) as [[[x w] q]|] eqn:F.
    + assert (Hp : (p < length l)%nat) by (apply nth_error_Some; rewrite F; discriminate).
      set (l' := firstn p l ++ (x, (w + 1)%N, q) :: skipn (S p) l). destruct (IH l' k) as [I1 I2].
      assert (LL : length l' = length l). { unfold l'. rewrite app_length. cbn [length]. rewrite firstn_length, skipn_length. lia. }
      split; [congruence|]. rewrite I2. cbn [filter]. unfold l'. destruct (Nat.lt_trichotomy k p) as [H|[->|H]].
      * rewrite nth_error_app1 by (rewrite firstn_length; lia).
        assert (NF : forall (l0 : list (O * N * nat)) n j, (j < n)%nat -> nth_error (firstn n l0) j = nth_error l0 j).
        { clear. induction l0 as [|z l0 IH]; intros n j H; [destruct n, j; reflexivity|]. destruct n; [lia|]. destruct j; [reflexivity|]. cbn. apply IH. lia. }
        rewrite NF by lia. assert (Nat.eqb k p = false) as -> by (apply Nat.eqb_neq; lia). reflexivity.
      * rewrite nth_error_app2 by (rewrite firstn_length; lia). rewrite firstn_length, Nat.min_l, Nat.sub_diag by lia. cbn [nth_error option_map].
        rewrite F, Nat.eqb_refl. cbn [option_map length]. do 2 f_equal. f_equal. lia.
      * rewrite nth_error_app2 by (rewrite firstn_length; lia). rewrite firstn_length, Nat.min_l by lia.
        destruct (k - p)%nat as [|r] eqn:R; [lia|]. cbn [nth_error].
        assert (NS : forall (l0 : list (O * N * nat)) n j, nth_error (skipn n l0) j = nth_error l0 (n + j)).
        { clear. induction l0 as [|z l0 IH]; intros n j; [destruct n, j; reflexivity|]. destruct n; [reflexivity|]. cbn [skipn plus nth_error]. apply IH. }
        rewrite NS. replace (S p + r)%nat with k by lia. assert (Nat.eqb k p = false) as -> by (apply Nat.eqb_neq; lia). reflexivity.
    + destruct (IH l k) as [I1 I2]. split; [exact I1|]. rewrite I2. cbn [filter]. destruct (Nat.eqb k p) eqn:K; [|reflexivity].
      apply Nat.eqb_eq in K. subst k. rewrite F. reflexivity.
Qed.

Lemma degree_app k a b : degree k (a ++ b) = (degree k a + degree k b)%nat.
Proof. unfold degree. rewrite !filter_app, !app_length. lia. Qed.
Lemma degree_new k i ps : (forall p, In p ps -> (p < i)%nat) ->
  degree k (map (fun p => (i, p)) ps) = ((if Nat.eqb i k then length ps else 0) + length (filter (Nat.eqb k) ps))%nat.
Proof.
  intros H. unfold degree. induction ps as [|p ps IH]; cbn [map filter fst snd length]; [destruct (Nat.eqb i k); reflexivity|].
  assert (H' : forall q, In q ps -> (q < i)%nat) by (intros q Hq; apply H; right; exact Hq). specialize (IH H').
  rewrite (Nat.eqb_sym k p). destruct (Nat.eqb i k), (Nat.eqb p k); cbn [length] in *; lia.
Qed.
(** The bookkeeping of the loop: weights are degrees. *)
Lemma bump_weighted i pairs cs : (S i <= length node_set)%nat -> incl cs (weighted node_set i pairs) ->
  forall node, nth_error node_set i = Some node -> degree i pairs = 0%nat ->
  bump (map snd cs) (weighted node_set i pairs) ++ [(node, N.of_nat (length cs), i)] =
  weighted node_set (S i) (pairs ++ map (fun c => (i, snd c)) cs).
Proof.
  intros H HC node Hn H0. set (ps := map snd cs).
  assert (HP : forall p, In p ps -> (p < i)%nat).
  { intros p Hp. apply in_map_iff in Hp. destruct Hp as (c & <- & Hc). destruct (weighted_in i pairs c ltac:(lia) (HC c Hc)) as (k & x & Hk & _ & ->). exact Hk. }
  assert (MP : map (fun c : O * N * nat => (i, snd c)) cs = map (fun p => (i, p)) ps) by (unfold ps; rewrite map_map; reflexivity).
  rewrite MP, weighted_S, Hn. assert (HL : length cs = length ps) by (unfold ps; symmetry; apply map_length).
  f_equal.
  - pose proof (bump_nth ps (weighted node_set i pairs) 0%nat) as [LB _]. rewrite weighted_length in LB by lia.
    apply nth_ext_; [rewrite LB, weighted_length; lia|]. intros k Hk. rewrite LB in Hk.
    destruct (bump_nth ps (weighted node_set i pairs) k) as [_ ->].
    destruct (weighted_nth i pairs k) as (x & X1 & ->); [lia|lia|]. cbn [option_map].
    destruct (weighted_nth i (pairs ++ map (fun p => (i, p)) ps) k) as (y & Y1 & ->); [lia|lia|].
    rewrite X1 in Y1. injection Y1 as <-. do 3 f_equal. rewrite degree_app, degree_new by exact HP.
    assert (Nat.eqb i k = false) as -> by (apply Nat.eqb_neq; lia). lia.
  - do 3 f_equal. rewrite degree_app, H0, degree_new by exact HP. rewrite Nat.eqb_refl, HL.
    assert (filter (Nat.eqb i) ps = []) as ->. { apply filter_none. intros p Hp. apply Nat.eqb_neq. specialize (HP p Hp). lia. }
    cbn [length]. lia.
Qed.

Lemma attached_lt e : (2 + e <= length node_set)%nat -> forall p, In p (attached choose node_set m e) -> (fst p < 2 + e /\ snd p < 2 + e)%nat.
Proof.
  induction e as [|e IH]; intros H p Hp.
  - destruct Hp as [<-|[]]. cbn. lia.
  - cbn [attached] in Hp. apply in_app_or in Hp. destruct Hp as [Hp|Hp]; [destruct (IH ltac:(lia) p Hp); lia|].
    apply in_map_iff in Hp. destruct Hp as (c & <- & Hc). cbn [fst snd].
    destruct (C (2 + e)%nat (weighted node_set (2 + e) (attached choose node_set m e)) (Nat.min (2 + e) m)) as (_ & _ & CI).
    { apply weighted_nodup. lia. } { rewrite weighted_length; lia. }
    apply CI, weighted_in in Hc; [|lia]. destruct Hc as (k & x & Hk & _ & ->). cbn [snd]. lia.
Qed.
Lemma degree_zero i pairs : (forall p, In p pairs -> (fst p < i /\ snd p < i)%nat) -> degree i pairs = 0%nat.
Proof.
  intros H. unfold degree. rewrite !filter_none; [reflexivity| |]; intros p Hp; apply Nat.eqb_neq; destruct (H p Hp); lia.
Qed.

(** ** The loop *)
Variable idn : nat -> N.
Definition as_edges (pairs : list (nat * nat)) : list (N * N * opts) := map (fun p => (idn (fst p), idn (snd p), Simple)) pairs.
Definition linked (a : agraph) (pairs : list (nat * nat)) (b : agraph) : Prop :=
  nodes b = nodes a /\ edges b = as_edges pairs.

Lemma ba_link_ref g p a pairs b node i cs : simulates g (AState p b) -> linked a pairs b ->
  id_in eqo node a = Some (idn i) -> (forall c, In c cs -> id_in eqo (fst (fst c)) a = Some (idn (snd c))) ->
  exists b', simulates (ba_link eqo g node cs) (AState p b') /\ linked a (pairs ++ map (fun c => (i, snd c)) cs) b'.
Proof.
  revert g pairs b. induction cs as [|c cs IH]; intros g pairs b S HL Hn Hc.
  - exists b. cbn. rewrite app_nil_r. split; assumption.
  - unfold ba_link. cbn [fold_left]. fold (ba_link eqo (fst (add_edge eqo g node (fst (fst c)) Simple)) node cs).
    destruct S as (Hd & Rp & Op & R & H). cbn [pub cur] in *.
    destruct (add_edge_ref eqo E d g b node (fst (fst c)) Simple Hd R H) as (R1 & O1 & N1 & D1 & _).
    destruct HL as [HL1 HL2].
    assert (IDB : forall u, id_in eqo u b = id_in eqo u a) by (intros u; unfold id_in; rewrite HL1; reflexivity).
    destruct (IH (fst (add_edge eqo g node (fst (fst c)) Simple)) (pairs ++ [(i, snd c)]) (a_add_edge eqo d node (fst (fst c)) Simple b)) as (b' & S' & L').
    { unfold NetRun.simulates. cbn [pub cur]. rewrite N1, D1. auto. }
    { unfold a_add_edge. rewrite !IDB, Hn, (Hc c (or_introl eq_refl)). split; cbn [nodes edges]; [exact HL1|]. rewrite HL2. unfold as_edges. rewrite map_app. reflexivity. }
    { exact Hn. } { intros c' Hc'. apply Hc. right. exact Hc'. }
    exists b'. split; [exact S'|]. rewrite <- app_assoc in L'. exact L'.
Qed.
Lemma ba_loop_ref p a n : (n <= length node_set)%nat -> (forall k x, (k < n)%nat -> nth_error node_set k = Some x -> id_in eqo x a = Some (idn k)) ->
  forall todo e g b, (2 + e + todo = n)%nat -> simulates g (AState p b) -> linked a (attached choose node_set m e) b ->
  exists g' b', ba_loop eqo choose m node_set todo (2 + e) (weighted node_set (2 + e) (attached choose node_set m e)) g = Some g' /\
    simulates g' (AState p b') /\ linked a (attached choose node_set m (e + todo)) b'.
Proof.
  intros Hn Hid. induction todo as [|todo IH]; intros e g b HS HSim HL.
  - exists g, b. rewrite Nat.add_0_r. split; [reflexivity|]. split; assumption.
  - cbn [ba_loop]. set (pairs := attached choose node_set m e) in *. set (i := (2 + e)%nat) in *.
    destruct (nth_error node_set i) as [node|] eqn:F; [|apply nth_error_None in F; lia].
    rewrite weighted_length by lia.
    assert (AM : (if Nat.ltb i m then i else m) = Nat.min i m). { destruct (Nat.ltb i m) eqn:B; [apply Nat.ltb_lt in B|apply Nat.ltb_ge in B]; lia. }
    rewrite AM. destruct (C i (weighted node_set i pairs) (Nat.min i m)) as (C1 & C2 & C3).
    { apply weighted_nodup. lia. } { rewrite weighted_length; lia. }
    set (cs := choose i (weighted node_set i pairs) (Nat.min i m)) in *.
    assert (D0 : degree i pairs = 0%nat) by (apply degree_zero; apply attached_lt; lia).
    rewrite <- C1, (bump_weighted i pairs cs ltac:(lia) C3 node F D0).
    destruct (ba_link_ref g p a pairs b node i cs HSim HL (Hid i node ltac:(lia) F)) as (b' & S' & L').
    { intros c Hc. apply C3, weighted_in in Hc; [|lia]. destruct Hc as (k & x & Hk & Hx & ->). cbn [fst snd]. apply Hid; [lia|exact Hx]. }
    assert (AT : pairs ++ map (fun c => (i, snd c)) cs = attached choose node_set m (S e)) by reflexivity.
    rewrite AT in *. replace (e + S todo)%nat with (S e + todo)%nat by lia.
    apply (IH (S e) (ba_link eqo g node cs) b'); [lia|exact S'|exact L'].
Qed.
Lemma ba_ref g s : simulates g s -> (2 <= length (nodes (cur s)) <= length node_set)%nat ->
  (forall k x, (k < length (nodes (cur s)))%nat -> nth_error node_set k = Some x -> id_in eqo x (cur s) = Some (idn k)) ->
  exists g' b, preferential_attachment eqo choose g node_set m = Some g' /\ simulates g' (AState b b) /\
    nodes b = nodes (cur s) /\ edges b = as_edges (attached choose node_set m (length (nodes (cur s)) - 2)).
Proof.
  intros S [H2 Hn] Hid. unfold preferential_attachment.
  pose proof S as S0. destruct S as (Hd & Rp & Op & R & H).
  assert (LI : length (i2n (nw g)) = length (nodes (cur s))).
  { apply Permutation_length, NoDup_Permutation.
    - apply (NoDup_map_inv fst). apply (proj2 (kuniq_nodes _)), (r_ui _ _ _ _ R).
    - apply (NoDup_map_inv fst), (ok_ids _ _ _ H).
    - intros [k x]. exact (in_nodes_it eqo d g (cur s) (fun l => l) R H (fun l => Permutation_refl l) k x). }
  rewrite LI. destruct node_set as [|na [|nb ns]] eqn:NS; cbn [length] in Hn; try lia.
  pose (s0 := AState (pub s) (AGraph (nodes (cur s)) [] [] : agraph)).
  assert (S1 : simulates (remove_all_edges g) s0).
  { destruct (call_ref eqo E d g s NRemoveAllEdges S0 I) as (g' & r & E1 & _ & S1). injection E1 as <- <-. exact S1. }
  assert (N2 : (2 <= length (nodes (cur s)))%nat) by exact H2.
  pose proof (Hid 0%nat na ltac:(lia) eq_refl) as I0. pose proof (Hid 1%nat nb ltac:(lia) eq_refl) as I1.
  destruct S1 as (Hd1 & Rp1 & Op1 & R1 & H1). cbn [pub cur s0] in *.
  destruct (add_edge_ref eqo E d (remove_all_edges g) (cur s0) na nb Simple Hd1 R1 H1) as (R2 & O2 & N3 & D2 & _).
  set (g1 := fst (add_edge eqo (remove_all_edges g) na nb Simple)) in *. set (b1 := a_add_edge eqo d na nb Simple (cur s0)) in *.
  assert (SS : simulates g1 (AState (pub s) b1)).
  { unfold NetRun.simulates. cbn [pub cur]. rewrite N3, D2. auto. }
  assert (LK : linked (cur s) [(0%nat, 1%nat)] b1).
  { unfold b1, a_add_edge, s0. unfold id_in. cbn [cur nodes]. unfold id_in in I0, I1. rewrite I0, I1. split; reflexivity. }
  rewrite <- NS in *.
  destruct (ba_loop_ref (pub s) (cur s) (length (nodes (cur s)))) with (todo := (length (nodes (cur s)) - 2)%nat) (e := 0%nat) (g := g1) (b := b1)
    as (g' & b' & E1 & S2 & L2).
  { rewrite NS. cbn [length]. lia. } { exact Hid. } { lia. } { exact SS. } { exact LK. }
  assert (WT : weighted node_set (2 + 0) (attached choose node_set m 0) = [(na, 1%N, 0%nat); (nb, 1%N, 1%nat)]) by (rewrite NS; reflexivity).
  rewrite WT in E1. cbn [Nat.add] in E1. rewrite E1. cbn [option_map]. exists (net_update g'), b'. split; [reflexivity|].
  destruct S2 as (Hd2 & Rp2 & Op2 & R3 & H3). cbn [pub cur] in *. split.
  - unfold NetRun.simulates, net_update. cbn [pub cur nw nr direct]. auto.
  - destruct L2 as [L2 L3]. cbn [Nat.add] in L3. split; assumption.
Qed.
End BA.
