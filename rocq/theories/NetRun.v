(** * Network: loops, remove_node and histories refine the abstract graph *)
From Coq Require Import List Bool NArith Arith Lia Permutation.
From Verif Require Import DashModel NetModel NetSpec NetProofs NetRef.
Import ListNotations.
Local Open Scope N_scope.

Lemma drop_or {X} (f g : X -> bool) l : drop (fun x => f x || g x) l = drop g (drop f l).
Proof.
  unfold drop. induction l as [|x l IH]; [reflexivity|]. cbn [filter]. destruct (f x); cbn [orb negb]; [exact IH|].
  cbn [filter]. destruct (g x); cbn [negb]; [exact IH|]. rewrite IH. reflexivity.
Qed.
Lemma filter_or_perm {X} (f g : X -> bool) l :
  Permutation (filter (fun x => f x || g x) l) (filter f l ++ filter g (drop f l)).
Proof.
  unfold drop. induction l as [|x l IH]; [constructor|]. cbn [filter]. destruct (f x); cbn [orb negb app].
  - constructor. exact IH.
  - cbn [filter]. destruct (g x); [|exact IH]. apply Permutation_cons_app. exact IH.
Qed.
Lemma drop_ext {X} (f g : X -> bool) l : (forall x, In x l -> f x = g x) -> drop f l = drop g l.
Proof. intros H. apply filter_ext_in. intros x Hx. rewrite (H x Hx). reflexivity. Qed.
Lemma drop_none {X} (f : X -> bool) l : (forall x, In x l -> f x = false) -> drop f l = l.
Proof. intros H. apply filter_all. intros x Hx. rewrite (H x Hx). reflexivity. Qed.
Lemma in_drop {X} (f : X -> bool) l x : In x (drop f l) -> In x l.
Proof. intros H. apply filter_In in H. apply H. Qed.
Lemma filter_one {X} (f : X -> bool) l : (length (filter f l) <= 1)%nat ->
  filter f l = match find f l with Some x => [x] | None => [] end.
Proof.
  induction l as [|x l IH]; [reflexivity|]. cbn [filter find]. destruct (f x); [|exact IH]. cbn [length].
  destruct (filter f l); [reflexivity|cbn [length]; lia].
Qed.
Lemma filter_filter_le {X} (f g : X -> bool) l : (length (filter f (filter g l)) <= length (filter f l))%nat.
Proof.
  induction l as [|x l IH]; [reflexivity|]. cbn [filter]. destruct (g x); cbn [filter]; destruct (f x); cbn [length]; lia.
Qed.

Section Run.
Context {O L W : Type}.
Variable eqo : O -> O -> bool.
Variable E : equivalence eqo.
Variable d : bool.

Local Notation edge := (edge L W).
Local Notation opts := (edge_options L W).
Local Notation graph := (graph O L W).
Local Notation agraph := (agraph O L W).
Local Notation net := (net O L W).
Local Notation lkN := (lk N.eqb).
Local Notation rep := (rep eqo d).
Local Notation ok := (ok eqo d).
Local Notation id_in := (@id_in O L W eqo).

(** ** remove_outgoing_edges and remove_incoming_edges *)
Definition dir_edges (flip : bool) (i : N) : N * N * opts -> bool := if flip then leaves d i else enters d i.
Definition dir_shown (flip : bool) (i k : N) (o : opts) : edge := if flip then shown i k o else shown k i o.
Definition hits (flip : bool) (p : agraph) (i : N) (l : list (N * O)) (e : N * N * opts) : bool :=
  existsb (fun q => match id_in (snd q) p with Some _ => true | None => false end && negb (fst q =? i) &&
                    (dir_edges flip i e && (the_other i e =? fst q))) l.

Lemma dir_between (flip : bool) i k (e : N * N * opts) : k <> i ->
  (if flip then between d i k e else between d k i e) = dir_edges flip i e && (the_other i e =? k).
Proof.
  intros Hk. destruct e as [[x y] o]. unfold dir_edges. destruct flip; unfold between, leaves, enters, the_other.
  - destruct (x =? i) eqn:A; cbn [andb negb orb].
    + apply N.eqb_eq in A. subst. rewrite (proj2 (N.eqb_neq i k)) by congruence. rewrite !andb_false_r. cbn [andb].
      rewrite !orb_false_r. destruct (y =? k) eqn:B; [|rewrite andb_false_r; reflexivity].
      apply N.eqb_eq in B. subst. rewrite (proj2 (N.eqb_neq k i) Hk). reflexivity.
    + rewrite andb_true_r. destruct (y =? i), (x =? k), d; reflexivity.
  - destruct (y =? i) eqn:A; cbn [andb negb orb].
    + apply N.eqb_eq in A. subst. destruct (x =? i) eqn:C; cbn [andb negb orb].
      * rewrite (proj2 (N.eqb_neq i k)) by congruence. rewrite !andb_false_r. cbn [andb orb].
        apply N.eqb_eq in C. subst. rewrite (proj2 (N.eqb_neq i k)) by congruence. reflexivity.
      * rewrite andb_true_r, andb_false_r. cbn [andb]. rewrite orb_false_r. reflexivity.
    + rewrite andb_false_r, andb_true_r. cbn [orb]. destruct (x =? i), (y =? k), d; reflexivity.
Qed.

Lemma remove_loop_ref (flip : bool) g p a u i : direct g = d -> rep (nr g) p -> ok p -> rep (nw g) a -> ok a ->
  id_in u p = Some i -> is_listed i a = true ->
  forall l, (forall k x, In (k, x) l -> k <> i -> id_in x p = None \/ (id_in x p = Some k /\ is_listed k a = true)) ->
  (forall k, (length (filter (fun e => dir_edges flip i e && (the_other i e =? k)%N) (edges a)) <= 1)%nat) ->
  exists g' rs, remove_loop eqo flip g u i l = Some (g', rs) /\
    rep (nw g') (with_edges a (drop (hits flip p i l) (edges a))) /\ ok (with_edges a (drop (hits flip p i l) (edges a))) /\
    nr g' = nr g /\ direct g' = direct g /\
    Permutation rs (map (fun e => dir_shown flip i (the_other i e) (snd e)) (filter (hits flip p i l) (edges a))).
Proof.
  intros Hd Rp Op R H Hu Hi l. revert g a Hd Rp R H Hi. induction l as [|[k x] l IH]; intros g a Hd Rp R H Hi Hl Hc.
  - exists g, []. cbn [remove_loop]. split; [reflexivity|]. unfold hits. cbn [existsb].
    rewrite drop_none by reflexivity. rewrite with_edges_id. split; [exact R|]. split; [exact H|]. split; [reflexivity|].
    split; [reflexivity|]. rewrite filter_none by reflexivity. constructor.
  - cbn [remove_loop]. pose (q := fun e => match id_in x p with Some _ => true | None => false end && negb (k =? i) && (dir_edges flip i e && (the_other i e =? k))).
    assert (HC : forall e, hits flip p i ((k, x) :: l) e = q e || hits flip p i l e) by reflexivity.
    assert (Hl' : forall k x, In (k, x) l -> k <> i -> id_in x p = None \/ (id_in x p = Some k /\ is_listed k a = true)).
    { intros k' x' F. apply Hl. right. exact F. }
    assert (SKIP : (forall e, q e = false) ->
      drop (hits flip p i ((k, x) :: l)) (edges a) = drop (hits flip p i l) (edges a) /\
      filter (hits flip p i ((k, x) :: l)) (edges a) = filter (hits flip p i l) (edges a)).
    { intros F. split; [apply drop_ext|apply filter_ext]; intros e; intros; rewrite HC, F; reflexivity. }
    destruct (k =? i) eqn:A.
    + destruct SKIP as [S1 S2].
      { intros e. unfold q. cbn [negb]. rewrite andb_false_r. reflexivity. }
      rewrite S1, S2. apply IH; assumption.
    + apply N.eqb_neq in A. destruct (Hl k x (or_introl eq_refl) A) as [Hx|[Hx Hk]].
      * assert (HR : (if flip then remove_edge eqo g u x else remove_edge eqo g x u) = Some (g, None)).
        { destruct flip; apply (remove_edge_none eqo d g p); auto. }
        rewrite HR. destruct SKIP as [S1 S2].
        { intros e. unfold q. rewrite Hx. reflexivity. }
        rewrite S1, S2. destruct (IH g a Hd Rp R H Hi Hl' Hc) as (g' & rs & E1 & F). rewrite E1. exists g', rs. split; [reflexivity|exact F].
      * set (pr := fun e : N * N * opts => dir_edges flip i e && (the_other i e =? k)).
        assert (Q : forall e, q e = pr e).
        { intros e. unfold q. rewrite Hx. cbn [negb andb]. reflexivity. }
        assert (HR : exists g1, (if flip then remove_edge eqo g u x else remove_edge eqo g x u) =
                   Some (g1, option_map (fun e => dir_shown flip i k (snd e)) (find pr (edges a))) /\
                   rep (nw g1) (with_edges a (drop pr (edges a))) /\ ok (with_edges a (drop pr (edges a))) /\ nr g1 = nr g /\ direct g1 = direct g).
        { pose proof (fun e => dir_between flip i k e A) as DB. fold pr in DB. destruct flip.
          - destruct (remove_edge_ref eqo d g p a u x i k Hd Rp R H Hu Hx Hi) as (g1 & E1 & R1 & O1 & F1).
            { right. unfold count_between. erewrite filter_ext; [|exact DB]. apply Hc. }
            unfold a_remove_edge in R1, O1. rewrite (without_first_cong _ pr) in R1, O1 by (intros e _; apply DB).
            rewrite (without_first_drop pr) in R1, O1 by apply Hc. rewrite (find_cong _ pr) in E1 by (intros e _; apply DB).
            exists g1. split; [exact E1|]. split; [exact R1|]. split; [exact O1|exact F1].
          - destruct (remove_edge_ref eqo d g p a x u k i Hd Rp R H Hx Hu Hk) as (g1 & E1 & R1 & O1 & F1).
            { right. unfold count_between. erewrite filter_ext; [|exact DB]. apply Hc. }
            unfold a_remove_edge in R1, O1. rewrite (without_first_cong _ pr) in R1, O1 by (intros e _; apply DB).
            rewrite (without_first_drop pr) in R1, O1 by apply Hc. rewrite (find_cong _ pr) in E1 by (intros e _; apply DB).
            exists g1. split; [exact E1|]. split; [exact R1|]. split; [exact O1|exact F1]. }
        destruct HR as (g1 & -> & R1 & O1 & N1 & D1).
        destruct (IH g1 (with_edges a (drop pr (edges a)))) as (g' & rs & E2 & R2 & O2 & N2 & D2 & P2).
        { congruence. } { rewrite N1. exact Rp. } { exact R1. } { exact O1. } { exact Hi. } { exact Hl'. }
        { intros k'. cbn [with_edges edges]. unfold drop. eapply Nat.le_trans; [apply filter_filter_le|apply Hc]. }
        rewrite E2. cbn [option_map fst snd]. cbn [with_edges edges nodes listed] in R2, O2, P2.
        assert (DD : drop (hits flip p i ((k, x) :: l)) (edges a) = drop (hits flip p i l) (drop pr (edges a))).
        { rewrite <- drop_or. apply drop_ext. intros e _. rewrite HC, Q. reflexivity. }
        rewrite DD. eexists. eexists. split; [reflexivity|]. split; [exact R2|]. split; [exact O2|]. split; [congruence|]. split; [congruence|].
        rewrite (filter_ext _ (fun e => pr e || hits flip p i l e)) by (intros e; rewrite HC, Q; reflexivity).
        eapply Permutation_trans; [|apply Permutation_map, Permutation_sym, filter_or_perm].
        rewrite map_app. rewrite (filter_one pr (edges a)) by apply Hc. destruct (find pr (edges a)) as [e|] eqn:F; cbn [option_map map app].
        -- apply find_some in F. destruct F as [_ F]. unfold pr in F. apply andb_prop in F. destruct F as [_ F]. apply N.eqb_eq in F.
           rewrite F. constructor. exact P2.
        -- exact P2.
Qed.

Lemma in_nodes_it g (a : agraph) (it : list (N * O) -> list (N * O)) : rep (nw g) a -> ok a -> (forall l, Permutation (it l) l) ->
  forall k x, In (k, x) (it (i2n (nw g))) <-> In (k, x) (nodes a).
Proof.
  intros R H P k x. transitivity (In (k, x) (i2n (nw g))).
  - split; apply Permutation_in; [|apply Permutation_sym]; apply P.
  - rewrite <- (object_in_iff eqo d _ _ _ H), <- (r_obj _ _ _ _ R). split.
    + apply lk_in_some; [exact Neq|apply (r_ui _ _ _ _ R)].
    + intros F. apply lk_some_in in F. destruct F as (k' & F1 & F2). apply N.eqb_eq in F2. subst. exact F1.
Qed.

Lemma remove_all_of_ref flip g p a u it : direct g = d -> rep (nr g) p -> ok p -> rep (nw g) a -> ok a ->
  (forall l, Permutation (it l) l) ->
  (forall i, id_in u p = Some i -> id_in u a = Some i /\ removable eqo (AState p a) i (dir_edges flip i)) ->
  match id_in u p with
  | None => remove_all_of eqo flip g u it = Some (g, None)
  | Some i =>
      exists g' rs, remove_all_of eqo flip g u it = Some (g', Some rs) /\
        rep (nw g') (with_edges a (drop (dir_edges flip i) (edges a))) /\ ok (with_edges a (drop (dir_edges flip i) (edges a))) /\
        nr g' = nr g /\ direct g' = direct g /\
        Permutation rs (map (fun e => dir_shown flip i (the_other i e) (snd e)) (filter (dir_edges flip i) (edges a)))
  end.
Proof.
  intros Hd Rp Op R H P G. unfold remove_all_of, id_of.
  change (option_map snd (hm_find eqo u (n2i (nr g)))) with (lk eqo u (n2i (nr g))).
  rewrite (r_id _ _ _ _ Rp). destruct (id_in u p) as [i|] eqn:Hu; [|reflexivity].
  destruct (G i eq_refl) as [Ha [G1 [G2 [G3 G4]]]]. cbn [pub cur] in *.
  pose proof (in_nodes_it g a it R H P) as HI.
  assert (Hi : is_listed i a = true).
  { apply (id_in_iff eqo E d) in Ha; [|exact H]. destruct Ha as (x & H1 & H2). apply (G2 i x H1).
    rewrite (id_in_lk eqo), <- (lk_cong eqo E u x _ H2), <- (id_in_lk eqo), Hu. discriminate. }
  destruct (remove_loop_ref flip g p a u i Hd Rp Op R H Hu Hi (it (i2n (nw g)))) as (g' & rs & E1 & R1 & O1 & N1 & D1 & P1).
  { intros k x F _. apply HI in F. destruct (id_in x p) as [k'|] eqn:Hx; [right|left; reflexivity]. split.
    - f_equal. apply (G1 x); [exact Hx|]. apply (id_in_self eqo E d); assumption.
    - apply (G2 k x F). rewrite Hx. discriminate. }
  { exact G4. }
  assert (HH : forall e, In e (edges a) -> hits flip p i (it (i2n (nw g))) e = dir_edges flip i e).
  { intros e He. unfold hits. destruct (dir_edges flip i e) eqn:F; cbn [andb].
    - assert (KO : In (the_other i e) (map fst (nodes a)) /\ the_other i e <> i).
      { destruct e as [[x y] o]. destruct (ok_ends _ _ _ H _ _ _ He) as [K1 K2]. unfold the_other. destruct (x =? i) eqn:A.
        - split; [exact K2|]. apply N.eqb_eq in A. subst. intros ->. unfold dir_edges in F. destruct flip; unfold leaves, enters in F;
            rewrite N.eqb_refl in F; cbn [negb andb orb] in F; rewrite !andb_false_r in F; discriminate.
        - split; [exact K1|]. apply N.eqb_neq. exact A. }
      destruct KO as [K1 K2]. apply in_map_iff in K1. destruct K1 as ([k x] & K1 & K3). cbn [fst] in K1. subst k.
      apply existsb_exists. exists (the_other i e, x). split; [apply HI; exact K3|]. cbn [fst snd].
      pose proof (G3 e x He F K3) as K4. destruct (id_in x p); [|contradiction]. rewrite (proj2 (N.eqb_neq _ _) K2), N.eqb_refl. reflexivity.
    - destruct (existsb _ _) eqn:X; [|reflexivity]. apply existsb_exists in X. destruct X as (z & _ & X). rewrite andb_false_r in X. discriminate. }
  rewrite (drop_ext _ _ _ HH) in R1, O1. rewrite (filter_ext_in _ _ _ HH) in P1. rewrite E1. cbn [option_map fst snd].
  exists g', rs. repeat (split; [assumption || reflexivity|]). exact P1.
Qed.

(** ** remove_node, on the lists of edges *)
Definition no_to (i : N) : list edge -> list edge := filter (fun e => negb (e_v e =? i)).

(** Only the lists change. *)
Record frame (g g' : net) : Prop := Frame {
  f_n : n2i (nw g') = n2i (nw g);
  f_i : i2n (nw g') = i2n (nw g);
  f_r : nr g' = nr g;
  f_d : direct g' = direct g;
  f_u : kuniq N.eqb (adj (nw g)) -> kuniq N.eqb (adj (nw g'))
}.
Lemma frame_refl g : frame g g.
Proof. constructor; trivial. Qed.
Lemma frame_trans g g1 g2 : frame g g1 -> frame g1 g2 -> frame g g2.
Proof. intros [] []. constructor; try congruence. auto. Qed.

Lemma out_directed g p u i l : direct g = true -> rep (nr g) p -> id_in u p = Some i -> lkN i (adj (nw g)) <> None ->
  exists g' rs, remove_loop eqo true g u i l = Some (g', rs) /\ frame g g' /\
    forall k, k <> i -> lkN k (adj (nw g')) = lkN k (adj (nw g)).
Proof.
  revert g. induction l as [|[k x] l IH]; intros g Hd Rp Hu Hi.
  - exists g, []. split; [reflexivity|]. split; [apply frame_refl|reflexivity].
  - cbn [remove_loop]. destruct (k =? i); [apply IH; assumption|].
    assert (HR : exists g1 r, remove_edge eqo g u x = Some (g1, r) /\ frame g g1 /\ lkN i (adj (nw g1)) <> None /\
                 forall k, k <> i -> lkN k (adj (nw g1)) = lkN k (adj (nw g))).
    { destruct (id_in x p) as [j|] eqn:Hx.
      - rewrite (remove_edge_unfold eqo d g p u x i j Rp Hu Hx), Hd. destruct (lkN i (adj (nw g))) as [es|] eqn:Hes; [|contradiction].
        destruct (find (joins i j) es) as [e|].
        + eexists. eexists. split; [reflexivity|]. unfold set_w. split; [|cbn [nw adj]; split].
          * constructor; cbn [nw nr direct n2i i2n adj]; try reflexivity; try congruence. apply kuniq_modify.
          * rewrite (lk_modify _ Neq), Hes, N.eqb_refl. discriminate.
          * intros k' Hk'. rewrite (lk_modify _ Neq), (proj2 (N.eqb_neq _ _) Hk'). reflexivity.
        + exists g, None. split; [reflexivity|]. split; [apply frame_refl|]. split; [congruence|reflexivity].
      - exists g, None. split; [apply (remove_edge_none eqo d g p); auto|]. split; [apply frame_refl|]. split; [exact Hi|reflexivity]. }
    destruct HR as (g1 & r & E1 & F1 & I1 & K1). rewrite E1.
    destruct (IH g1) as (g' & rs & E2 & F2 & K2).
    { rewrite (f_d _ _ F1). exact Hd. } { rewrite (f_r _ _ F1). exact Rp. } { exact Hu. } { exact I1. }
    rewrite E2. eexists. eexists. split; [reflexivity|]. split; [eapply frame_trans; eassumption|]. intros k' Hk'. rewrite K2, K1 by exact Hk'. reflexivity.
Qed.

Lemma no_to_none i es : (forall e, In e es -> e_v e <> i) -> no_to i es = es.
Proof. intros H. apply filter_all. intros e He. rewrite (proj2 (N.eqb_neq _ _) (H e He)). reflexivity. Qed.

Definition published_in (p : agraph) (l : list (N * O)) (k : N) : bool :=
  existsb (fun q => (fst q =? k) && match id_in (snd q) p with Some _ => true | None => false end) l.

Lemma in_loop g p u i : rep (nr g) p -> id_in u p = Some i ->
  forall l, (forall k x, In (k, x) l -> k <> i -> id_in x p = None \/ (id_in x p = Some k /\ lkN k (adj (nw g)) <> None)) ->
  (forall k es, k <> i -> lkN k (adj (nw g)) = Some es -> (forall e, In e es -> e_u e = k) /\
     ((direct g = true /\ length (filter (fun e => (e_v e =? i)%N) es) <= 1)%nat \/ (forall e, In e es -> e_v e <> i))) ->
  exists g' rs, remove_loop eqo false g u i l = Some (g', rs) /\ frame g g' /\
    lkN i (adj (nw g')) = lkN i (adj (nw g)) /\
    forall k, k <> i -> lkN k (adj (nw g')) = if published_in p l k then option_map (no_to i) (lkN k (adj (nw g))) else lkN k (adj (nw g)).
Proof.
  intros Rp Hu l. revert g Rp. induction l as [|[k x] l IH]; intros g Rp Hl Hc.
  - exists g, []. split; [reflexivity|]. split; [apply frame_refl|]. split; reflexivity.
  - cbn [remove_loop].
    assert (PC : forall k', published_in p ((k, x) :: l) k' = ((k =? k') && match id_in x p with Some _ => true | None => false end) || published_in p l k') by reflexivity.
    destruct (k =? i) eqn:A.
    + destruct (IH g Rp) as (g' & rs & E1 & F1 & I1 & K1); [intros k' x' F; apply Hl; right; exact F|exact Hc|].
      rewrite E1. exists g', rs. split; [reflexivity|]. split; [exact F1|]. split; [exact I1|]. intros k' Hk'. rewrite PC.
      apply N.eqb_eq in A. subst k. rewrite (proj2 (N.eqb_neq i k')) by congruence. apply K1. exact Hk'.
    + apply N.eqb_neq in A. destruct (Hl k x (or_introl eq_refl) A) as [Hx|[Hx Hk]].
      * rewrite (remove_edge_none eqo d g p x u Rp (or_introl Hx)).
        destruct (IH g Rp) as (g' & rs & E1 & F1 & I1 & K1); [intros k' x' F; apply Hl; right; exact F|exact Hc|].
        rewrite E1. eexists. eexists. split; [reflexivity|]. split; [exact F1|]. split; [exact I1|]. intros k' Hk'.
        rewrite PC, Hx, andb_false_r. apply K1. exact Hk'.
      * assert (HR : exists g1 r, remove_edge eqo g x u = Some (g1, r) /\ frame g g1 /\
                     forall k', lkN k' (adj (nw g1)) = if k' =? k then option_map (no_to i) (lkN k' (adj (nw g))) else lkN k' (adj (nw g))).
        { rewrite (remove_edge_unfold eqo d g p x u k i Rp Hx Hu). destruct (lkN k (adj (nw g))) as [es|] eqn:Hes; [|contradiction].
          destruct (Hc k es A Hes) as [C1 C2].
          rewrite (find_cong (joins k i) (fun e => e_v e =? i)) by (intros e He; apply joins_src, C1, He).
          destruct (find (fun e => e_v e =? i) es) as [e|] eqn:F.
          - destruct C2 as [[C2 C3]|C2].
            2:{ apply find_some in F. destruct F as [F1 F2]. apply N.eqb_eq in F2. exfalso. exact (C2 e F1 F2). }
            rewrite C2. eexists. eexists. split; [reflexivity|]. unfold set_w. split.
            + constructor; cbn [nw nr direct n2i i2n adj]; try reflexivity; try congruence. apply kuniq_modify.
            + intros k'. cbn [nw adj]. rewrite (lk_modify _ Neq). destruct (k' =? k) eqn:B; [|reflexivity].
              apply N.eqb_eq in B. subst k'. rewrite Hes. cbn [option_map]. f_equal.
              rewrite (without_first_cong (joins k i) (fun e => e_v e =? i)) by (intros e' He'; apply joins_src, C1, He').
              rewrite without_first_drop by exact C3. reflexivity.
          - exists g, None. split; [reflexivity|]. split; [apply frame_refl|]. intros k'. destruct (k' =? k) eqn:B; [|reflexivity].
            apply N.eqb_eq in B. subst k'. rewrite Hes. cbn [option_map]. rewrite no_to_none; [reflexivity|].
            intros e He. apply N.eqb_neq. exact (find_none _ _ F e He). }
        destruct HR as (g1 & r & E1 & F1 & K1). rewrite E1.
        destruct (IH g1) as (g' & rs & E2 & F2 & I2 & K2).
        { rewrite (f_r _ _ F1). exact Rp. }
        { intros k' x' F Hk'. destruct (Hl k' x' (or_intror F) Hk') as [G|[G1 G2]]; [left; exact G|right]. split; [exact G1|].
          rewrite K1. destruct (k' =? k); [|exact G2]. destruct (lkN k' (adj (nw g))); [discriminate|contradiction]. }
        { intros k' es Hk' F. rewrite K1 in F. rewrite (f_d _ _ F1). destruct (k' =? k) eqn:B.
          - destruct (lkN k' (adj (nw g))) as [es0|] eqn:G; [|discriminate]. injection F as <-.
            destruct (Hc k' es0 Hk' G) as [C1 C2]. split.
            + intros e He. apply filter_In in He. apply C1, He.
            + right. intros e He. apply filter_In in He. destruct He as [_ He]. apply negb_true_iff, N.eqb_neq in He. exact He.
          - exact (Hc k' es Hk' F). }
        rewrite E2. eexists. eexists. split; [reflexivity|]. split; [eapply frame_trans; eassumption|]. split.
        { cbn [fst]. rewrite I2, K1, (proj2 (N.eqb_neq i k)) by congruence. reflexivity. }
        intros k' Hk'. cbn [fst]. rewrite K2, K1, PC, Hx by exact Hk'. rewrite andb_true_r, (N.eqb_sym k k'). destruct (k' =? k); cbn [orb]; [|reflexivity].
        destruct (lkN k' (adj (nw g))) as [es|]; cbn [option_map]; destruct (published_in p l k'); try reflexivity.
        f_equal. apply no_to_none. intros e He. apply filter_In in He. destruct He as [_ He]. apply negb_true_iff, N.eqb_neq in He. exact He.
Qed.

Lemma without_first_sub {X} (f g : X -> bool) l : (forall x, f x = true -> g x = false) -> filter g (without_first f l) = filter g l.
Proof.
  intros H. induction l as [|x l IH]; [reflexivity|]. cbn [without_first filter]. destruct (f x) eqn:F.
  - rewrite (H x F). reflexivity.
  - cbn [filter]. rewrite IH. reflexivity.
Qed.

(** Undirected: [es0] is the list of [u] before the loop; the others mention [i] only if
    [es0] mentions them. *)
Lemma out_undirected p u i (A0 : N -> option (list edge)) es0 : id_in u p = Some i ->
  (forall k es, k <> i -> A0 k = Some es -> (forall e, In e es -> e_u e = k) /\
     ((exists e, In e es /\ e_v e = i) -> exists e, In e es0 /\ e_v e = k)) ->
  (forall e, In e es0 -> e_u e = i) ->
  (forall e, In e es0 -> e_v e <> i -> A0 (e_v e) <> None) ->
  forall l done g, direct g = false -> rep (nr g) p ->
  (forall k x, In (k, x) l -> k <> i -> id_in x p = None \/ id_in x p = Some k) ->
  (forall k, k <> i -> lkN k (adj (nw g)) = if published_in p done k then option_map (no_to i) (A0 k) else A0 k) ->
  (exists es, lkN i (adj (nw g)) = Some es /\ (forall e, In e es -> In e es0) /\
     forall k, k <> i -> published_in p done k = false -> filter (fun e => e_v e =? k) es = filter (fun e => e_v e =? k) es0) ->
  exists g' rs, remove_loop eqo true g u i l = Some (g', rs) /\ frame g g' /\
    forall k, k <> i -> lkN k (adj (nw g')) = if published_in p (done ++ l) k then option_map (no_to i) (A0 k) else A0 k.
Proof.
  intros Hu HA H0 H0' l. induction l as [|[k x] l IH]; intros done g Hd Rp Hl HK HI.
  - exists g, []. split; [reflexivity|]. split; [apply frame_refl|]. intros k Hk. rewrite app_nil_r. apply HK. exact Hk.
  - cbn [remove_loop].
    assert (Hl' : forall k x, In (k, x) l -> k <> i -> id_in x p = None \/ id_in x p = Some k) by (intros k' x' F; apply Hl; right; exact F).
    assert (PD : forall k', published_in p (done ++ [(k, x)]) k' = published_in p done k' || ((k =? k') && match id_in x p with Some _ => true | None => false end)).
    { intros k'. unfold published_in. rewrite existsb_app. cbn [existsb fst snd]. rewrite orb_false_r. reflexivity. }
    assert (AP : done ++ (k, x) :: l = (done ++ [(k, x)]) ++ l) by (rewrite <- app_assoc; reflexivity). rewrite AP.
    destruct (k =? i) eqn:A.
    { apply N.eqb_eq in A. subst k. apply IH; try assumption.
      - intros k' Hk'. rewrite PD, (proj2 (N.eqb_neq i k')) by congruence. cbn [andb]. rewrite orb_false_r. apply HK. exact Hk'.
      - destruct HI as (es & I1 & I2 & I3). exists es. split; [exact I1|]. split; [exact I2|]. intros k' Hk' F. apply I3; [exact Hk'|].
        rewrite PD in F. apply orb_false_iff in F. apply F. }
    apply N.eqb_neq in A. destruct (Hl k x (or_introl eq_refl) A) as [Hx|Hx].
    { rewrite (remove_edge_none eqo d g p u x Rp (or_intror Hx)).
      destruct (IH (done ++ [(k, x)]) g) as (g' & rs & E1 & F1 & K1); try assumption.
      - intros k' Hk'. rewrite PD, Hx, andb_false_r, orb_false_r. apply HK. exact Hk'.
      - destruct HI as (es & I1 & I2 & I3). exists es. split; [exact I1|]. split; [exact I2|]. intros k' Hk' F. apply I3; [exact Hk'|].
        rewrite PD in F. apply orb_false_iff in F. apply F.
      - rewrite E1. eexists. eexists. split; [reflexivity|]. split; [exact F1|exact K1]. }
    assert (HR : exists g1 r, remove_edge eqo g u x = Some (g1, r) /\ frame g g1 /\
       (forall k', k' <> i -> lkN k' (adj (nw g1)) = if published_in p (done ++ [(k, x)]) k' then option_map (no_to i) (A0 k') else A0 k') /\
       (exists es, lkN i (adj (nw g1)) = Some es /\ (forall e, In e es -> In e es0) /\
         forall k', k' <> i -> published_in p (done ++ [(k, x)]) k' = false -> filter (fun e => e_v e =? k') es = filter (fun e => e_v e =? k') es0)).
    { destruct HI as (es & I1 & I2 & I3). rewrite (remove_edge_unfold eqo d g p u x i k Rp Hu Hx), I1, Hd.
      assert (J : forall e, In e es -> joins i k e = (e_v e =? k)) by (intros e He; apply joins_src, H0, I2, He).
      assert (PD' : forall k', published_in p (done ++ [(k, x)]) k' = published_in p done k' || (k' =? k)).
      { intros k'. rewrite PD, Hx, andb_true_r, (N.eqb_sym k k'). reflexivity. }
      assert (NN : forall es1, no_to i (no_to i es1) = no_to i es1).
      { intros es1. apply no_to_none. intros e He. apply filter_In in He. destruct He as [_ He]. apply negb_true_iff, N.eqb_neq in He. exact He. }
      rewrite (find_cong _ _ _ J). destruct (find (fun e => e_v e =? k) es) as [e|] eqn:F.
      - cbv zeta. rewrite (lk_modify _ Neq), (proj2 (N.eqb_neq k i) A).
        apply find_some in F. destruct F as [F1 F2]. apply N.eqb_eq in F2.
        pose proof (H0' e (I2 e F1)) as AK. rewrite F2 in AK. specialize (AK A).
        destruct (A0 k) as [ak|] eqn:Ak; [|contradiction].
        assert (LK : exists z, lkN k (adj (nw g)) = Some z /\ (z = ak \/ z = no_to i ak)).
        { rewrite (HK k A), Ak. destruct (published_in p done k); cbn [option_map]; eexists; (split; [reflexivity|]); auto. }
        destruct LK as (z & LK & Z). rewrite LK. eexists. eexists. split; [reflexivity|]. unfold set_w.
        split; [|split; [|exists (without_first (joins i k) es); split; [|split]]]; cbn [nw adj].
        + constructor; cbn [nw nr direct n2i i2n adj]; try reflexivity; try congruence. intros U. apply kuniq_modify, kuniq_modify, U.
        + intros k' Hk'. rewrite !(lk_modify _ Neq), PD', (proj2 (N.eqb_neq k' i) Hk'). destruct (k' =? k) eqn:B.
          * apply N.eqb_eq in B. subst k'. rewrite LK, Ak, orb_true_r. cbn [option_map]. f_equal.
            destruct (HA k ak A Ak) as [C1 _].
            transitivity (no_to i z).
            -- unfold drop, no_to. apply filter_ext_in. intros e' He'. f_equal. apply joins_dst. apply C1.
               destruct Z as [->| ->]; [exact He'|]. apply filter_In in He'. apply He'.
            -- destruct Z as [->| ->]; [reflexivity|apply NN].
          * rewrite orb_false_r. apply HK. exact Hk'.
        + rewrite !(lk_modify _ Neq), (proj2 (N.eqb_neq i k)) by congruence. rewrite N.eqb_refl, I1. reflexivity.
        + intros e' He'. apply I2. exact (in_without_first _ _ _ He').
        + intros k' Hk' G. rewrite PD' in G. apply orb_false_iff in G. destruct G as [G1 G2].
          rewrite (without_first_cong _ _ _ J), without_first_sub; [apply I3; assumption|].
          intros e' X. apply N.eqb_eq in X. rewrite X, N.eqb_sym. exact G2.
      - exists g, None. split; [reflexivity|]. split; [apply frame_refl|]. split.
        + intros k' Hk'. rewrite PD', (HK k' Hk'). destruct (k' =? k) eqn:B; [|rewrite orb_false_r; reflexivity].
          apply N.eqb_eq in B. subst k'. rewrite orb_true_r. destruct (published_in p done k) eqn:PK; [reflexivity|].
          destruct (A0 k) as [ak|] eqn:Ak; [|reflexivity]. cbn [option_map]. f_equal. symmetry. apply no_to_none. intros e He Hv.
          destruct (HA k ak A Ak) as [_ C2]. destruct (C2 (ex_intro _ e (conj He Hv))) as (e' & X1 & X2).
          assert (X3 : In e' (filter (fun e => e_v e =? k) es0)) by (apply filter_In; split; [exact X1|apply N.eqb_eq; exact X2]).
          rewrite <- (I3 k A PK) in X3. apply find_none_filter in F. rewrite F in X3. destruct X3.
        + exists es. split; [exact I1|]. split; [exact I2|]. intros k' Hk' G. apply I3; [exact Hk'|]. rewrite PD' in G. apply orb_false_iff in G. apply G. }
    destruct HR as (g1 & r & E1 & F1 & K1 & I1). rewrite E1.
    destruct (IH (done ++ [(k, x)]) g1) as (g' & rs & E2 & F2 & K2); try assumption.
    { rewrite (f_d _ _ F1). exact Hd. } { rewrite (f_r _ _ F1). exact Rp. }
    rewrite E2. eexists. eexists. split; [reflexivity|]. split; [eapply frame_trans; eassumption|exact K2].
Qed.

(** ** remove_node *)
Lemma inc_to k i e (a : agraph) : k <> i -> In e (incident d k a) -> e_v e = i ->
  exists x, In x (edges a) /\ touches i x = true /\ the_other i x = k /\ enters d i x = true.
Proof.
  intros Hk H Hv. apply in_flat_map in H. destruct H as ([[x y] o] & H1 & H2). unfold seen_from in H2. apply in_app_or in H2.
  exists (x, y, o). split; [exact H1|]. unfold touches, the_other, enters. destruct H2 as [H2|H2].
  - destruct (x =? k) eqn:A; [|destruct H2]. destruct H2 as [<-|[]]. cbn [shown e_v] in Hv. apply N.eqb_eq in A. subst.
    rewrite (proj2 (N.eqb_neq k i) Hk), N.eqb_refl. repeat split; reflexivity.
  - destruct (negb d && (y =? k)) eqn:A; [|destruct H2]. destruct H2 as [<-|[]]. cbn [shown e_v] in Hv. apply andb_prop in A.
    destruct A as [A B]. apply N.eqb_eq in B. subst. rewrite A, (proj2 (N.eqb_neq k i) Hk), N.eqb_refl. repeat split; reflexivity.
Qed.
Lemma seen_no_to i k e : k <> i -> no_to i (seen_from (L := L) (W := W) d k e) = if touches i e then [] else seen_from d k e.
Proof.
  intros Hk. destruct e as [[x y] o]. unfold seen_from, touches, no_to. rewrite filter_app.
  destruct (x =? k) eqn:A; destruct (negb d && (y =? k)) eqn:B; cbn [filter app shown e_v].
  - apply N.eqb_eq in A. apply andb_prop in B. destruct B as [_ B]. apply N.eqb_eq in B. subst.
    rewrite (proj2 (N.eqb_neq k i) Hk). reflexivity.
  - apply N.eqb_eq in A. subst. rewrite (proj2 (N.eqb_neq k i) Hk). cbn [orb]. destruct (y =? i); reflexivity.
  - apply andb_prop in B. destruct B as [_ B]. apply N.eqb_eq in B. subst.
    rewrite (proj2 (N.eqb_neq k i) Hk), orb_false_r. destruct (x =? i); reflexivity.
  - destruct ((x =? i) || (y =? i)); reflexivity.
Qed.
Lemma inc_no_to i k (l : list (N * N * opts)) : k <> i ->
  flat_map (seen_from d k) (drop (touches i) l) = no_to i (flat_map (seen_from d k) l).
Proof.
  intros Hk. unfold drop. induction l as [|e l IH]; [reflexivity|]. cbn [filter flat_map]. unfold no_to in *. rewrite filter_app.
  fold (no_to i (seen_from d k e)). rewrite (seen_no_to i k e Hk), <- IH. destruct (touches i e); reflexivity.
Qed.
Lemma is_listed_drop i k (a : agraph) : is_listed k (a_remove_node i a) = negb (k =? i) && is_listed k a.
Proof.
  unfold is_listed, a_remove_node, drop. cbn [listed]. induction (listed a) as [|x l IH]; cbn [filter existsb]; [rewrite andb_false_r; reflexivity|].
  destruct (i =? x) eqn:A; cbn [negb existsb]; rewrite IH; [|destruct (k =? i) eqn:B; cbn [negb andb]].
  - apply N.eqb_eq in A. subst. destruct (k =? x); cbn [negb andb orb]; reflexivity.
  - apply N.eqb_eq in B. subst. rewrite A. reflexivity.
  - reflexivity.
Qed.
Lemma fop_filter {X} (R : X -> X -> Prop) {Y} (f : Y -> X) (c : Y -> bool) l : ForallOrdPairs R (map f l) -> ForallOrdPairs R (map f (filter c l)).
Proof.
  induction l as [|y l IH]; intros H; [exact H|]. cbn [map filter] in *. inversion H as [|x m H1 H2]; subst. destruct (c y); [|apply IH; exact H2].
  cbn [map]. constructor; [|apply IH; exact H2]. apply Forall_forall. rewrite Forall_forall in H1. intros z Hz. apply H1.
  apply in_map_iff in Hz. destruct Hz as (z' & <- & Hz). apply filter_In in Hz. apply in_map, Hz.
Qed.
Lemma nodup_filter {Y} (f : Y -> N) (c : Y -> bool) l : NoDup (map f l) -> NoDup (map f (filter c l)).
Proof.
  induction l as [|y l IH]; intros H; [exact H|]. cbn [map filter] in *. inversion H as [|x m H1 H2]; subst. destruct (c y); [|apply IH; exact H2].
  cbn [map]. constructor; [|apply IH; exact H2]. intros F. apply H1. apply in_map_iff in F. destruct F as (z' & F1 & F2).
  apply filter_In in F2. rewrite <- F1. apply in_map, F2.
Qed.
Lemma nodes_drop i (a : agraph) k : In k (map fst (nodes (a_remove_node i a))) <-> k <> i /\ In k (map fst (nodes a)).
Proof.
  unfold a_remove_node, drop. cbn [nodes]. rewrite !in_map_iff. split.
  - intros (p & <- & H). apply filter_In in H. destruct H as [H1 H2]. apply negb_true_iff, N.eqb_neq in H2. split; [exact H2|]. exists p. split; [reflexivity|exact H1].
  - intros [H1 (p & <- & H2)]. exists p. split; [reflexivity|]. apply filter_In. split; [exact H2|]. apply negb_true_iff, N.eqb_neq. exact H1.
Qed.
Lemma ok_remove_node i (a : agraph) : ok a -> ok (a_remove_node i a).
Proof.
  intros H.
  assert (ED : forall x y o, In (x, y, o) (edges (a_remove_node i a)) -> In (x, y, o) (edges a) /\ x <> i /\ y <> i).
  { intros x y o F. apply filter_In in F. destruct F as [F1 F2]. split; [exact F1|]. unfold touches in F2. apply negb_true_iff, orb_false_iff in F2.
    destruct F2 as [F2 F3]. split; apply N.eqb_neq; assumption. }
  constructor.
  - apply nodup_filter, (ok_ids _ _ _ H).
  - apply fop_filter, (ok_objs _ _ _ H).
  - intros x y o F. apply ED in F. destruct F as (F & F1 & F2). rewrite !nodes_drop. destruct (ok_ends _ _ _ H _ _ _ F). repeat split; assumption.
  - intros x y o F. apply ED in F. destruct F as (F & F1 & F2). rewrite is_listed_drop, (ok_src _ _ _ H _ _ _ F), (proj2 (N.eqb_neq _ _) F1). reflexivity.
  - intros x y o F Hd. apply ED in F. destruct F as (F & F1 & F2). rewrite is_listed_drop, (ok_dst _ _ _ H _ _ _ F Hd), (proj2 (N.eqb_neq _ _) F2). reflexivity.
  - intros k F. rewrite is_listed_drop in F. apply andb_prop in F. destruct F as [F1 F2]. apply nodes_drop. split.
    + apply negb_true_iff, N.eqb_neq in F1. exact F1.
    + apply (ok_listed _ _ _ H). exact F2.
Qed.
Lemma length_drop_id i (l : list (N * O)) : NoDup (map fst l) -> In i (map fst l) -> length (drop (fun p => fst p =? i) l) = pred (length l).
Proof.
  unfold drop. induction l as [|p l IH]; [intros _ []|]. cbn [map filter]. intros H F. inversion H as [|x m H1 H2]; subst.
  destruct (fst p =? i) eqn:A; cbn [negb].
  - apply N.eqb_eq in A. subst. rewrite filter_all; [reflexivity|]. intros q Hq. apply negb_true_iff, N.eqb_neq. intros G. apply H1. rewrite <- G. apply in_map. exact Hq.
  - cbn [length pred]. destruct F as [F|F]; [apply N.eqb_neq in A; congruence|]. rewrite (IH H2 F). destruct l; [destruct F|reflexivity].
Qed.

(** The two loops of [remove_node], for any lists of nodes that contain the neighbours. *)
Definition after_loops (g2 : net) (u : O) (i : N) : graph :=
  Graph (fst (hm_remove eqo u (n2i (nw (drop_list g2 i))))) (fst (hm_remove N.eqb i (i2n (nw (drop_list g2 i))))) (adj (nw (drop_list g2 i))).
Lemma remove_node_lists g p a u i l1 l2 : direct g = d -> rep (nr g) p -> rep (nw g) a -> ok a ->
  id_in u a = Some i -> id_in u p = Some i -> is_listed i a = true ->
  (d = true -> forall k, (length (filter (fun e => enters d i e && (the_other i e =? k)%N) (edges a)) <= 1)%nat) ->
  (forall l, l = l1 \/ l = l2 ->
     (forall k x, In (k, x) l -> k <> i -> id_in x p = None \/ (id_in x p = Some k /\ is_listed k a = true)) /\
     (forall k e, k <> i -> In e (incident d k a) -> e_v e = i -> published_in p l k = true)) ->
  exists g1 rs g2 rs2, remove_loop eqo true g u i l1 = Some (g1, rs) /\
    remove_loop eqo false (drop_list g1 i) u i l2 = Some (g2, rs2) /\
    i2n (nw g1) = i2n (nw g) /\ nr g1 = nr g /\ n2i (nw g2) = n2i (nw g) /\ i2n (nw g2) = i2n (nw g) /\
    nr g2 = nr g /\ direct g2 = direct g /\
    rep (after_loops g2 u i) (a_remove_node i a) /\ ok (a_remove_node i a).
Proof.
  intros Hd Rp R H Ha Hp Hi G4 LL.
  assert (AI : lkN i (adj (nw g)) = Some (incident d i a)) by (rewrite (r_adj _ _ _ _ R), Hi; reflexivity).
  destruct (LL l1 (or_introl eq_refl)) as [IDS1 PUB1]. destruct (LL l2 (or_intror eq_refl)) as [IDS2 PUB2]. clear LL.
  (* outgoing *)
  assert (PH1 : exists g1 rs, remove_loop eqo true g u i l1 = Some (g1, rs) /\ frame g g1 /\
     forall k, k <> i -> exists es', lkN k (adj (nw g1)) = es' /\
       (is_listed k a = false -> es' = None) /\
       (is_listed k a = true -> exists es, es' = Some es /\ (forall e, In e es -> e_u e = k) /\ no_to i es = no_to i (incident d k a) /\
          ((d = true /\ es = incident d k a) \/ (forall e, In e es -> e_v e <> i)))).
  { assert (D : d = true \/ d = false) by (destruct d; auto). destruct D as [D|D].
    - destruct (out_directed g p u i l1) as (g1 & rs & E1 & F1 & K1); [congruence|exact Rp|exact Hp|rewrite AI; discriminate|].
      exists g1, rs. split; [exact E1|]. split; [exact F1|]. intros k Hk. rewrite (K1 k Hk), (r_adj _ _ _ _ R). eexists. split; [reflexivity|].
      split; intros ->; [reflexivity|]. exists (incident d k a). split; [reflexivity|]. split; [intros e; apply incident_src|]. split; [reflexivity|].
      left. split; [exact D|reflexivity].
    - destruct (out_undirected p u i (fun k => lkN k (adj (nw g))) (incident d i a) Hp) with (l := l1) (done := @nil (N * O)) (g := g)
        as (g1 & rs & E1 & F1 & K1).
      + intros k es Hk F. rewrite (r_adj _ _ _ _ R) in F. destruct (is_listed k a); [|discriminate]. injection F as <-. split; [intros e; apply incident_src|].
        intros (e & He & Hv). destruct (inc_to k i e a Hk He Hv) as ([[x y] o] & X1 & X2 & X3 & X4).
        unfold touches, the_other in *. destruct (x =? i) eqn:A.
        * apply N.eqb_eq in A. rewrite A, X3 in X1. exists (shown i k o). split; [|reflexivity]. apply in_flat_map. exists (i, k, o). split; [exact X1|].
          unfold seen_from. rewrite N.eqb_refl. left. reflexivity.
        * cbn [orb] in X2. apply N.eqb_eq in X2. rewrite X2, X3 in X1. rewrite X3 in A. exists (shown i k o). split; [|reflexivity]. apply in_flat_map. exists (k, i, o). split; [exact X1|].
          unfold seen_from. rewrite A, D, N.eqb_refl. left. reflexivity.
      + intros e. apply incident_src.
      + intros e He Hv. rewrite (r_adj _ _ _ _ R). apply in_flat_map in He. destruct He as ([[x y] o] & X1 & X2). unfold seen_from in X2. apply in_app_or in X2.
        destruct X2 as [X2|X2].
        * destruct (x =? i); [|destruct X2]. destruct X2 as [<-|[]]. cbn [shown e_v]. rewrite (ok_dst _ _ _ H _ _ _ X1 D). discriminate.
        * destruct (negb d && (y =? i)); [|destruct X2]. destruct X2 as [<-|[]]. cbn [shown e_v]. rewrite (ok_src _ _ _ H _ _ _ X1). discriminate.
      + congruence.
      + exact Rp.
      + intros k x F K. destruct (IDS1 k x F K) as [F'|[F' _]]; auto.
      + intros k Hk. reflexivity.
      + exists (incident d i a). split; [exact AI|]. split; [trivial|reflexivity].
      + exists g1, rs. split; [exact E1|]. split; [exact F1|]. intros k Hk. rewrite (K1 k Hk), (r_adj _ _ _ _ R). cbn [app]. eexists. split; [reflexivity|].
        split; intros F; rewrite F; [destruct (published_in p l1 k); reflexivity|]. cbn [option_map].
        assert (NT : forall es e, In e (no_to i es) -> e_v e <> i).
        { intros es e He. apply filter_In in He. destruct He as [_ He]. apply negb_true_iff, N.eqb_neq in He. exact He. }
        destruct (published_in p l1 k) eqn:PK.
        * eexists. split; [reflexivity|]. split; [intros e He; apply filter_In in He; exact (incident_src d k a e (proj1 He))|]. split; [|right; apply NT].
          apply no_to_none. apply NT.
        * eexists. split; [reflexivity|]. split; [intros e; apply incident_src|]. split; [reflexivity|]. right. intros e He Hv.
          rewrite (PUB1 k e Hk He Hv) in PK. discriminate. }
  destruct PH1 as (g1 & rs & E1 & F1 & K1). set (g1' := drop_list g1 i).
  assert (U1 : kuniq N.eqb (adj (nw g1))) by (apply (f_u _ _ F1), (r_ua _ _ _ _ R)).
  assert (K1' : forall k, lkN k (adj (nw g1')) = if k =? i then None else lkN k (adj (nw g1))).
  { intros k. unfold g1', drop_list, set_w. cbn [nw adj]. apply (lk_remove _ Neq). exact U1. }
  destruct (in_loop g1' p u i) with (l := l2) as (g2 & rs2 & E2 & F2 & I3 & K2).
  - unfold g1', drop_list, set_w. cbn [nr]. rewrite (f_r _ _ F1). exact Rp.
  - exact Hp.
  - intros k x F Hk. destruct (IDS2 k x F Hk) as [F'|[F' F'']]; [left; exact F'|right]. split; [exact F'|].
    rewrite K1', (proj2 (N.eqb_neq _ _) Hk). destruct (K1 k Hk) as (es' & -> & _ & X). destruct (X F'') as (es & -> & _). discriminate.
  - intros k es Hk F. rewrite K1', (proj2 (N.eqb_neq _ _) Hk) in F. destruct (K1 k Hk) as (es' & X0 & X1 & X2). rewrite X0 in F.
    destruct (is_listed k a) eqn:Lk; [|rewrite (X1 eq_refl) in F; discriminate].
    destruct (X2 eq_refl) as (es'' & Y1 & Y2 & Y3 & Y4). rewrite F in Y1. injection Y1 as <-. split; [exact Y2|].
    destruct Y4 as [[D Y4]|Y4]; [left|right; exact Y4]. split.
    + unfold g1', drop_list, set_w. cbn [direct]. rewrite (f_d _ _ F1). congruence.
    + rewrite Y4. unfold incident. rewrite inc_count by (left; exact D). specialize (G4 D k). rewrite D in G4. rewrite D.
      erewrite filter_ext; [exact G4|]. intros e. pose proof (dir_between false i k e Hk) as DB. unfold dir_edges in DB. rewrite D in DB. exact DB.
  -
    assert (FN : n2i (nw g2) = n2i (nw g)) by (rewrite (f_n _ _ F2); unfold g1', drop_list, set_w; cbn [nw n2i]; apply (f_n _ _ F1)).
    assert (FI : i2n (nw g2) = i2n (nw g)) by (rewrite (f_i _ _ F2); unfold g1', drop_list, set_w; cbn [nw i2n]; apply (f_i _ _ F1)).
    assert (U2 : kuniq N.eqb (adj (nw g2))).
    { apply (f_u _ _ F2). unfold g1', drop_list, set_w. cbn [nw adj]. apply kuniq_remove. exact U1. }
    pose proof (ok_remove_node i a H) as OK'.
    exists g1, rs, g2, rs2. split; [exact E1|]. split; [exact E2|]. split; [apply (f_i _ _ F1)|]. split; [apply (f_r _ _ F1)|].
    split; [exact FN|]. split; [exact FI|].
    split; [rewrite (f_r _ _ F2); unfold g1', drop_list, set_w; cbn [nr]; apply (f_r _ _ F1)|].
    split; [rewrite (f_d _ _ F2); unfold g1', drop_list, set_w; cbn [direct]; apply (f_d _ _ F1)|].
    split; [|exact OK'].
    unfold after_loops, drop_list, set_w. cbn [nw nr direct n2i i2n adj]. rewrite FN, FI.
    + constructor; cbn [n2i i2n adj].
      * apply kuniq_remove, (r_un _ _ _ _ R).
      * apply kuniq_remove, (r_ui _ _ _ _ R).
      * apply kuniq_remove, U2.
      * rewrite length_remove, (r_id _ _ _ _ R), Ha, (r_len _ _ _ _ R). unfold a_remove_node. cbn [nodes].
        rewrite length_drop_id; [reflexivity|apply (ok_ids _ _ _ H)|exact (id_in_known eqo E d u i a H Ha)].
      * intros k. rewrite (lk_remove _ Neq) by apply (r_ui _ _ _ _ R). rewrite (r_obj _ _ _ _ R).
        destruct (object_in k (a_remove_node i a)) as [x|] eqn:B.
        -- apply (object_in_iff eqo d) in B; [|exact OK']. unfold a_remove_node in B. cbn [nodes] in B. apply filter_In in B. destruct B as [B1 B2].
           cbn [fst] in B2. apply negb_true_iff in B2. rewrite B2. apply (object_in_iff eqo d); assumption.
        -- destruct (k =? i) eqn:C; [reflexivity|]. destruct (object_in k a) as [x|] eqn:C2; [|reflexivity]. exfalso.
           apply (object_in_iff eqo d) in C2; [|exact H]. apply object_in_none in B. apply B. apply nodes_drop.
           split; [apply N.eqb_neq; exact C|exact (in_map fst _ _ C2)].
      * intros x. rewrite (lk_remove _ E) by apply (r_un _ _ _ _ R). rewrite (r_id _ _ _ _ R).
        destruct (id_in x (a_remove_node i a)) as [k|] eqn:B.
        -- apply (id_in_iff eqo E d) in B; [|exact OK']. destruct B as (y & B1 & B2). unfold a_remove_node in B1. cbn [nodes] in B1. apply filter_In in B1.
           destruct B1 as [B1 B3]. cbn [fst] in B3. apply negb_true_iff, N.eqb_neq in B3.
           assert (B4 : id_in x a = Some k) by (apply (id_in_iff eqo E d); [exact H|exists y; split; assumption]).
           destruct (eqo x u) eqn:C; [|exact B4]. exfalso. apply B3.
           assert (X : id_in x a = id_in u a) by (rewrite !(id_in_lk eqo); apply lk_cong; assumption). congruence.
        -- destruct (eqo x u) eqn:C; [reflexivity|]. destruct (id_in x a) as [k|] eqn:B2; [|reflexivity]. exfalso.
           apply (id_in_iff eqo E d) in B2; [|exact H]. destruct B2 as (y & B2 & B3).
           assert (k <> i).
           { intros KI. rewrite KI in B2. apply (id_in_iff eqo E d) in Ha; [|exact H]. destruct Ha as (z & Z1 & Z2).
             assert (y = z).
             { apply (object_in_iff eqo d) in B2; [|exact H]. apply (object_in_iff eqo d) in Z1; [|exact H]. congruence. }
             subst z. rewrite (eq_trans_ _ E x y u B3 (eq_sym_ _ E _ _ Z2)) in C. discriminate. }
           assert (X : id_in x (a_remove_node i a) = Some k).
           { apply (id_in_iff eqo E d); [exact OK'|]. exists y. split; [|exact B3]. unfold a_remove_node. cbn [nodes]. apply filter_In.
             split; [exact B2|]. cbn [fst]. apply negb_true_iff, N.eqb_neq. assumption. }
           congruence.
      * intros k. rewrite (lk_remove _ Neq) by exact U2. rewrite is_listed_drop. destruct (k =? i) eqn:A; cbn [negb andb]; [reflexivity|].
        apply N.eqb_neq in A. rewrite (K2 k A), K1', (proj2 (N.eqb_neq _ _) A). destruct (K1 k A) as (es' & -> & X1 & X2).
        unfold incident. cbn [a_remove_node edges]. rewrite (inc_no_to i k _ A). fold (incident d k a).
        destruct (is_listed k a) eqn:Lk.
        -- destruct (X2 eq_refl) as (es & -> & Y2 & Y3 & Y4). rewrite <- Y3. cbn [option_map].
           destruct (published_in p l2 k) eqn:PK; [reflexivity|]. f_equal. symmetry. apply no_to_none. intros e He Hv.
           destruct Y4 as [[_ Y4]|Y4]; [|exact (Y4 e He Hv)]. subst es. rewrite (PUB2 k e A He Hv) in PK. discriminate.
        -- rewrite (X1 eq_refl). destruct (published_in p l2 k); reflexivity.
Qed.

Lemma remove_node_ref g p a u i it it' : direct g = d -> rep (nr g) p -> ok p -> rep (nw g) a -> ok a ->
  (forall l, Permutation (it l) l) -> (forall l, Permutation (it' l) l) ->
  id_in u a = Some i -> id_in u p = Some i ->
  removable eqo (AState p a) i (if d then enters d i else fun _ => false) ->
  (forall e x, In e (edges a) -> touches i e = true -> In (the_other i e, x) (nodes a) -> id_in x p <> None) ->
  exists g', remove_node eqo g u it it' = Some (g', true) /\ rep (nw g') (a_remove_node i a) /\ ok (a_remove_node i a) /\
    nr g' = nr g /\ direct g' = direct g.
Proof.
  intros Hd Rp Op R H P P' Ha Hp [G1 [G2 [_ G4]]] G5. cbn [pub cur] in *.
  assert (Hi : is_listed i a = true).
  { pose proof Ha as Hx. apply (id_in_iff eqo E d) in Hx; [|exact H]. destruct Hx as (x & H1 & H2). apply (G2 i x H1).
    rewrite (id_in_lk eqo), <- (lk_cong eqo E u x _ H2), <- (id_in_lk eqo), Hp. discriminate. }
  assert (PUB : forall l, (forall k x, In (k, x) l <-> In (k, x) (nodes a)) -> forall k e, k <> i -> In e (incident d k a) -> e_v e = i -> published_in p l k = true).
  { intros l Hl k e Hk He Hv. destruct (inc_to k i e a Hk He Hv) as (x & X1 & X2 & X3 & X4).
    assert (In k (map fst (nodes a))) as X5.
    { destruct x as [[y z] o]. destruct (ok_ends _ _ _ H _ _ _ X1) as [Y1 Y2]. unfold the_other in X3. destruct (y =? i); subst; assumption. }
    apply in_map_iff in X5. destruct X5 as ([k' ob] & X5 & X6). cbn [fst] in X5. subst k'. rewrite <- X3 in X6.
    pose proof (G5 x ob X1 X2 X6) as X7. rewrite X3 in X6. unfold published_in. apply existsb_exists. exists (k, ob). split; [apply Hl; exact X6|].
    cbn [fst snd]. rewrite N.eqb_refl. destruct (id_in ob p); [reflexivity|contradiction]. }
  assert (IDS : forall k x, In (k, x) (nodes a) -> id_in x p = None \/ (id_in x p = Some k /\ is_listed k a = true)).
  { intros k x F. destruct (id_in x p) as [k'|] eqn:Hx; [right|left; reflexivity]. split.
    - f_equal. apply (G1 x); [exact Hx|]. apply (id_in_self eqo E d); assumption.
    - apply (G2 k x F). rewrite Hx. discriminate. }
  pose proof (in_nodes_it g a it R H P) as I1. pose proof (in_nodes_it g a it' R H P') as I2.
  destruct (remove_node_lists g p a u i (it (i2n (nw g))) (it' (i2n (nw g))) Hd Rp R H Ha Hp Hi)
    as (g1 & rs & g2 & rs2 & E1 & E2 & FI & FR & FN2 & FI2 & FR2 & FD2 & R2 & OK2).
  { intros D k. specialize (G4 k). rewrite D in G4 |- *. exact G4. }
  { intros l [-> | ->].
    - split; [intros k x F _; apply IDS, I1, F|exact (PUB _ I1)].
    - split; [intros k x F _; apply IDS, I2, F|exact (PUB _ I2)]. }
  unfold remove_node, remove_outgoing_edges, remove_incoming_edges, remove_all_of, id_of.
  change (option_map snd (hm_find eqo u (n2i (nw g)))) with (lk eqo u (n2i (nw g))).
  change (option_map snd (hm_find eqo u (n2i (nr g)))) with (lk eqo u (n2i (nr g))).
  rewrite (r_id _ _ _ _ R), (r_id _ _ _ _ Rp), Ha, Hp, E1. cbn [option_map fst snd].
  change (n2i (nr (drop_list g1 i))) with (n2i (nr g1)). rewrite FR.
  change (option_map snd (hm_find eqo u (n2i (nr g)))) with (lk eqo u (n2i (nr g))). rewrite (r_id _ _ _ _ Rp), Hp.
  change (i2n (nw (drop_list g1 i))) with (i2n (nw g1)). rewrite FI, E2. cbn [option_map fst snd].
  eexists. split; [reflexivity|]. split; [exact R2|]. split; [exact OK2|]. split; [exact FR2|exact FD2].
Qed.

(** ** update_node *)
Lemma update_node_ref (g : net) (a : agraph) u : rep (nw g) a -> ok a ->
  rep (nw (update_node eqo g u)) (a_update_node eqo u a) /\ ok (a_update_node eqo u a) /\
  nr (update_node eqo g u) = nr g /\ direct (update_node eqo g u) = direct g.
Proof.
  intros R H. unfold update_node, id_of.
  change (option_map snd (hm_find eqo u (n2i (nw g)))) with (lk eqo u (n2i (nw g))). rewrite (r_id _ _ _ _ R).
  assert (MF : map fst (nodes (a_update_node eqo u a)) = map fst (nodes a)).
  { unfold a_update_node. cbn [nodes]. rewrite map_map. apply map_ext. intros q. destruct (eqo u (snd q)); reflexivity. }
  assert (OB : ForallOrdPairs (fun x y => eqo x y = false) (map snd (nodes (a_update_node eqo u a)))).
  { unfold a_update_node. cbn [nodes]. pose proof (ok_objs _ _ _ H) as U. revert U. clear MF. induction (nodes a) as [|q l IH]; intros U; [exact U|]. cbn [map] in *.
    inversion U as [|x m U1 U2]; subst. constructor; [|apply IH; exact U2]. rewrite Forall_forall in *. intros z Hz. apply in_map_iff in Hz.
    destruct Hz as (q' & <- & Hz). apply in_map_iff in Hz. destruct Hz as (q'' & <- & Hz). specialize (U1 (snd q'') (in_map snd _ _ Hz)).
    destruct (eqo u (snd q)) eqn:A; destruct (eqo u (snd q'')) eqn:B; cbn [snd]; trivial.
    - rewrite (eq_trans_ _ E (snd q) u (snd q'')) in U1; [discriminate|apply (eq_sym_ _ E); exact A|exact B].
    - rewrite (eqk_sym eqo E), (eqk_cong eqo E u (snd q'') (snd q) B), (eqk_sym eqo E). exact U1. }
  assert (ID : forall x, id_in x (a_update_node eqo u a) = id_in x a).
  { intros x. unfold NetSpec.id_in, a_update_node. cbn [nodes]. clear MF. induction (nodes a) as [|q l IH]; [reflexivity|]. cbn [map find].
    assert (S : eqo x (snd (if eqo u (snd q) then (fst q, u) else q)) = eqo x (snd q)).
    { destruct (eqo u (snd q)) eqn:A; cbn [snd]; [|reflexivity]. rewrite (eqk_sym eqo E x u), (eqk_cong eqo E u (snd q) x A). apply (eqk_sym eqo E). }
    rewrite S. destruct (eqo x (snd q)); [|exact IH]. destruct (eqo u (snd q)); reflexivity. }
  assert (OK' : ok (a_update_node eqo u a)).
  { constructor; try rewrite MF; [apply (ok_ids _ _ _ H)|exact OB| |apply (ok_src _ _ _ H)|apply (ok_dst _ _ _ H)|].
    - intros x y o F. rewrite ?MF. exact (ok_ends _ _ _ H x y o F).
    - intros i F. rewrite ?MF. exact (ok_listed _ _ _ H i F). }
  assert (OJ : forall i, object_in i (a_update_node eqo u a) = option_map (fun x => if eqo u x then u else x) (object_in i a)).
  { intros i. unfold object_in, a_update_node. cbn [nodes]. clear MF OK' ID. induction (nodes a) as [|q l IH]; [reflexivity|]. cbn [map find].
    assert (S : fst (if eqo u (snd q) then (fst q, u) else q) = fst q) by (destruct (eqo u (snd q)); reflexivity).
    rewrite S. destruct (fst q =? i); [|exact IH]. cbn [option_map]. destruct (eqo u (snd q)); reflexivity. }
  assert (LE : length (nodes (a_update_node eqo u a)) = length (nodes a)) by (unfold a_update_node; cbn [nodes]; apply map_length).
  destruct (id_in u a) as [i|] eqn:Hu.
  - unfold set_w. cbn [nw nr direct]. split; [|split; [exact OK'|split; reflexivity]].
    constructor; cbn [n2i i2n adj]; [apply (r_un _ _ _ _ R)|apply kuniq_modify, (r_ui _ _ _ _ R)|apply (r_ua _ _ _ _ R)| | | |apply (r_adj _ _ _ _ R)].
    + rewrite LE. apply (r_len _ _ _ _ R).
    + intros k. rewrite (lk_modify _ Neq), (r_obj _ _ _ _ R), OJ.
      pose proof Hu as Hx. apply (id_in_iff eqo E d) in Hx; [|exact H]. destruct Hx as (x & H1 & H2). apply (object_in_iff eqo d) in H1; [|exact H].
      destruct (k =? i) eqn:A.
      * apply N.eqb_eq in A. subst k. rewrite H1. cbn [option_map]. rewrite H2. reflexivity.
      * destruct (object_in k a) as [y|] eqn:Y; [|reflexivity]. cbn [option_map]. destruct (eqo u y) eqn:B; [|reflexivity]. exfalso.
        apply (object_in_iff eqo d) in Y; [|exact H].
        assert (id_in u a = Some k) by (apply (id_in_iff eqo E d); [exact H|exists y; split; assumption]).
        apply N.eqb_neq in A. congruence.
    + intros x. rewrite ID. apply (r_id _ _ _ _ R).
  - assert (S : a_update_node eqo u a = a).
    { unfold a_update_node. destruct a as [ns es ls]. cbn [nodes edges listed] in *. f_equal. clear -Hu. unfold NetSpec.id_in in Hu. cbn [nodes] in Hu.
      induction ns as [|q l IH]; [reflexivity|]. cbn [find map] in *. destruct (eqo u (snd q)); [discriminate|]. rewrite (IH Hu). reflexivity. }
    rewrite S. split; [exact R|]. split; [exact H|]. split; reflexivity.
Qed.

(** ** All calls *)
Definition simulates (g : net) (s : astate O L W) : Prop :=
  direct g = d /\ rep (nr g) (pub s) /\ ok (pub s) /\ rep (nw g) (cur s) /\ ok (cur s).

Lemma new_simulates : simulates (net_new d) a_new.
Proof.
  split; [reflexivity|]. split; [apply rep_nil|]. split; [apply ok_nil|]. split; [apply rep_nil|apply ok_nil].
Qed.

Lemma sim_intro g s : direct g = d -> rep (nr g) (pub s) -> ok (pub s) -> rep (nw g) (cur s) -> ok (cur s) -> simulates g s.
Proof. unfold simulates. auto. Qed.

Lemma call_ref g s c : simulates g s -> a_good eqo d s c ->
  exists g' r, net_call eqo g c = Some (g', r) /\ a_answer eqo d s c r /\ simulates g' (a_next eqo d s c).
Proof.
  intros (Hd & Rp & Op & R & H) G. destruct c as [u|u v o|u v| |u it|u it|u it it'|u| | |u v|u|i|u]; cbn [net_call a_good a_answer a_next] in *.
  - destruct G as (G1 & G2 & G3). destruct (add_node_ref eqo E d g (cur s) u R H G1 G2 G3) as (R1 & O1 & N1 & D1).
    eexists. eexists. split; [reflexivity|]. split; [reflexivity|]. unfold simulates. cbn [pub cur]. rewrite N1, D1. auto.
  - destruct (add_edge_ref eqo E d g (cur s) u v o Hd R H) as (R1 & O1 & N1 & D1 & A1). destruct (add_edge eqo g u v o) as [g' r]. cbn [fst snd] in *.
    eexists. eexists. split; [reflexivity|]. split.
    + rewrite A1. destruct (id_in u (cur s)); [|reflexivity]. destruct (id_in v (cur s)); reflexivity.
    + unfold simulates. cbn [pub cur]. rewrite N1, D1. auto.
  - destruct (id_in u (pub s)) as [i|] eqn:Hu.
    2:{ rewrite (remove_edge_none eqo d g (pub s) u v Rp (or_introl Hu)). eexists. eexists. split; [reflexivity|]. split; [reflexivity|]. apply sim_intro; assumption. }
    destruct (id_in v (pub s)) as [j|] eqn:Hv.
    2:{ rewrite (remove_edge_none eqo d g (pub s) u v Rp (or_intror Hv)). eexists. eexists. split; [reflexivity|]. split; [reflexivity|]. apply sim_intro; assumption. }
    destruct (G i j eq_refl eq_refl) as (G1 & G2 & G3 & G4).
    destruct (remove_edge_ref eqo d g (pub s) (cur s) u v i j Hd Rp R H Hu Hv G3 G4) as (g' & E1 & R1 & O1 & N1 & D1).
    rewrite E1. eexists. eexists. split; [reflexivity|]. split; [reflexivity|]. unfold simulates. cbn [pub cur fst]. rewrite N1, D1. auto.
  - eexists. eexists. split; [reflexivity|]. split; [reflexivity|]. unfold simulates, remove_all_edges, set_w. cbn [pub cur nw nr direct]. split; [exact Hd|]. split; [exact Rp|]. split; [exact Op|]. split.
    + constructor; cbn [n2i i2n adj]; [apply (r_un _ _ _ _ R)|apply (r_ui _ _ _ _ R)|constructor|apply (r_len _ _ _ _ R)|apply (r_obj _ _ _ _ R)|apply (r_id _ _ _ _ R)|reflexivity].
    + constructor; cbn [nodes edges listed]; [apply (ok_ids _ _ _ H)|apply (ok_objs _ _ _ H)|intros x y o []|intros x y o []|intros x y o []|discriminate].
  - destruct G as [P G]. pose proof (remove_all_of_ref false g (pub s) (cur s) u it Hd Rp Op R H P G) as F. unfold remove_incoming_edges.
    destruct (id_in u (pub s)) as [i|].
    + destruct F as (g' & rs & -> & R1 & O1 & N1 & D1 & P1). eexists. eexists. split; [reflexivity|]. split; [exists rs; split; [reflexivity|exact P1]|].
      unfold simulates. cbn [pub cur fst]. rewrite N1, D1. auto.
    + rewrite F. eexists. eexists. split; [reflexivity|]. split; [reflexivity|]. apply sim_intro; assumption.
  - destruct G as [P G]. pose proof (remove_all_of_ref true g (pub s) (cur s) u it Hd Rp Op R H P G) as F. unfold remove_outgoing_edges.
    destruct (id_in u (pub s)) as [i|].
    + destruct F as (g' & rs & -> & R1 & O1 & N1 & D1 & P1). eexists. eexists. split; [reflexivity|]. split; [exists rs; split; [reflexivity|exact P1]|].
      unfold simulates. cbn [pub cur fst]. rewrite N1, D1. auto.
    + rewrite F. eexists. eexists. split; [reflexivity|]. split; [reflexivity|]. apply sim_intro; assumption.
  - destruct G as (P & P' & G). destruct (id_in u (cur s)) as [i|] eqn:Hu.
    + destruct (G i eq_refl) as (G1 & G2 & G3). destruct s as [p a]. cbn [pub cur] in *.
      destruct (remove_node_ref g p a u i it it' Hd Rp Op R H P P' Hu G1 G2 G3) as (g' & -> & R1 & O1 & N1 & D1).
      eexists. eexists. split; [reflexivity|]. split; [reflexivity|]. unfold simulates. cbn [pub cur fst]. rewrite N1, D1. auto.
    + unfold remove_node, id_of. change (option_map snd (hm_find eqo u (n2i (nw g)))) with (lk eqo u (n2i (nw g))).
      rewrite (r_id _ _ _ _ R), Hu. eexists. eexists. split; [reflexivity|]. split; [reflexivity|]. apply sim_intro; assumption.
  - destruct (update_node_ref g (cur s) u R H) as (R1 & O1 & N1 & D1). eexists. eexists. split; [reflexivity|]. split; [reflexivity|].
    unfold simulates. cbn [pub cur]. rewrite N1, D1. auto.
  - eexists. eexists. split; [reflexivity|]. split; [reflexivity|]. unfold simulates, net_update. cbn [pub cur nw nr direct]. auto.
  - eexists. eexists. split; [reflexivity|]. split; [reflexivity|]. unfold simulates, net_update. cbn [pub cur nw nr direct]. auto.
  - rewrite (get_edge_ref eqo E d g (pub s) u v Hd Rp Op). eexists. eexists. split; [reflexivity|]. split; [reflexivity|]. apply sim_intro; assumption.
  - eexists. eexists. split; [reflexivity|]. split.
    + f_equal. unfold get_edges, id_of. change (option_map snd (hm_find eqo u (n2i (nr g)))) with (lk eqo u (n2i (nr g))).
      rewrite (r_id _ _ _ _ Rp). destruct (id_in u (pub s)) as [i|]; [|reflexivity]. apply (r_adj _ _ _ _ Rp).
    + apply sim_intro; assumption.
  - eexists. eexists. split; [reflexivity|]. split; [f_equal; apply (r_obj _ _ _ _ Rp)|apply sim_intro; assumption].
  - eexists. eexists. split; [reflexivity|]. split; [f_equal; apply (r_id _ _ _ _ Rp)|apply sim_intro; assumption].
Qed.

Lemma run_ref cs : forall g s, simulates g s -> a_good_run eqo d s cs ->
  exists g' rs, net_run eqo g cs = Some (g', rs) /\ a_answers eqo d s cs rs /\ simulates g' (a_run eqo d s cs).
Proof.
  induction cs as [|c cs IH]; intros g s S G.
  - exists g, []. split; [reflexivity|]. split; [exact I|exact S].
  - cbn [a_good_run net_run a_run] in *. destruct G as [G1 G2]. destruct (call_ref g s c S G1) as (g1 & r & E1 & A1 & S1). rewrite E1.
    destruct (IH g1 _ S1 G2) as (g' & rs & E2 & A2 & S2). rewrite E2. exists g', (r :: rs). split; [reflexivity|]. split; [split; assumption|exact S2].
Qed.
End Run.
