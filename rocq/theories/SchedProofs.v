(** * Proofs about the sequential scheduler *)
From Coq Require Import List Bool ZArith NArith Arith Lia Permutation.
From Coq Require Import ZifyBool ZifyNat ZifyN.
From Verif Require Import F32 F32Facts SchedModel SchedSpec.
Import ListNotations.
Local Open Scope N_scope.

(** ** Priority order *)

Lemma prio_cmp_Gt_iff p q :
  f32_is_nan (p_time p) = false -> f32_is_nan (p_time q) = false ->
  prio_cmp p q = Gt <->
  klt (fkey (p_time p)) (fkey (p_time q)) \/
  (fkey (p_time p) = fkey (p_time q) /\ (p_ord p < p_ord q)%Z).
Proof.
  intros Np Nq. unfold prio_cmp.
  destruct (fltb (p_time p) (p_time q)) eqn:L.
  { apply fltb_iff in L. intuition. }
  apply fltb_false_iff in L; auto.
  destruct (fgtb (p_time p) (p_time q)) eqn:G.
  { apply fgtb_iff in G. destruct G as (_ & _ & G). split; [discriminate|].
    intros [H|[H _]]; [tauto|]. rewrite H in G. destruct (klt_irrefl _ G). }
  apply fgtb_false_iff in G; auto.
  destruct (klt_total (fkey (p_time p)) (fkey (p_time q))) as [H|[H|H]]; try tauto.
  destruct (p_ord p <? p_ord q)%Z eqn:O1; [split; [intros _; right; split; [exact H|lia]|reflexivity]|].
  destruct (p_ord p >? p_ord q)%Z eqn:O2;
    (split; [discriminate|intros [K|[_ K]]; [tauto|lia]]).
Qed.

Lemma prio_cmp_Lt_iff p q :
  f32_is_nan (p_time p) = false -> f32_is_nan (p_time q) = false ->
  prio_cmp p q = Lt <->
  klt (fkey (p_time q)) (fkey (p_time p)) \/
  (fkey (p_time p) = fkey (p_time q) /\ (p_ord q < p_ord p)%Z).
Proof.
  intros Np Nq. unfold prio_cmp.
  destruct (fltb (p_time p) (p_time q)) eqn:L.
  { apply fltb_iff in L. destruct L as (_ & _ & L). split; [discriminate|].
    intros [H|[H _]]; [destruct (klt_asym _ _ L H)|]. rewrite H in L. destruct (klt_irrefl _ L). }
  apply fltb_false_iff in L; auto.
  destruct (fgtb (p_time p) (p_time q)) eqn:G.
  { apply fgtb_iff in G. intuition. }
  apply fgtb_false_iff in G; auto.
  destruct (klt_total (fkey (p_time p)) (fkey (p_time q))) as [H|[H|H]]; try tauto.
  destruct (p_ord p <? p_ord q)%Z eqn:O1;
    [split; [discriminate|intros [K|[_ K]]; [tauto|lia]]|].
  destruct (p_ord p >? p_ord q)%Z eqn:O2;
    [split; [intros _; right; split; [exact H|lia]|reflexivity]|
     split; [discriminate|intros [K|[_ K]]; [tauto|lia]]].
Qed.

Lemma prio_cmp_Eq_iff p q :
  f32_is_nan (p_time p) = false -> f32_is_nan (p_time q) = false ->
  prio_cmp p q = Eq <->
  fkey (p_time p) = fkey (p_time q) /\ p_ord p = p_ord q.
Proof.
  intros Np Nq.
  pose proof (prio_cmp_Gt_iff p q Np Nq) as HG.
  pose proof (prio_cmp_Lt_iff p q Np Nq) as HL.
  destruct (klt_total (fkey (p_time p)) (fkey (p_time q))) as [H|[H|H]].
  - assert (prio_cmp p q = Gt) as -> by tauto. split; [discriminate|].
    intros [K _]. rewrite K in H. destruct (klt_irrefl _ H).
  - destruct (Z.lt_trichotomy (p_ord p) (p_ord q)) as [O|[O|O]].
    + assert (prio_cmp p q = Gt) as -> by tauto. split; [discriminate|lia].
    + split; [tauto|]. intros _.
      destruct (prio_cmp p q) eqn:E; [reflexivity| |].
      * destruct HL as [HL _]. destruct (HL eq_refl) as [K|[_ K]]; [|lia].
        rewrite H in K. destruct (klt_irrefl _ K).
      * destruct HG as [HG _]. destruct (HG eq_refl) as [K|[_ K]]; [|lia].
        rewrite H in K. destruct (klt_irrefl _ K).
    + assert (prio_cmp p q = Lt) as -> by (apply HL; auto). split; [discriminate|lia].
  - assert (prio_cmp p q = Lt) as -> by tauto. split; [discriminate|].
    intros [K _]. rewrite K in H. destruct (klt_irrefl _ H).
Qed.

Lemma prio_eqb_iff p q :
  f32_is_nan (p_time p) = false -> f32_is_nan (p_time q) = false ->
  prio_eqb p q = true <-> prio_cmp p q = Eq.
Proof.
  intros Np Nq. rewrite prio_cmp_Eq_iff by auto. unfold prio_eqb.
  rewrite andb_true_iff, feqb_iff, Z.eqb_eq. tauto.
Qed.

(** Not strictly greater: a total preorder. *)
Definition not_above (p q : priority) : Prop := prio_cmp p q <> Gt.

Lemma not_above_trans p q r :
  f32_is_nan (p_time p) = false -> f32_is_nan (p_time q) = false ->
  f32_is_nan (p_time r) = false ->
  not_above p q -> not_above q r -> not_above p r.
Proof.
  unfold not_above. intros Np Nq Nr.
  rewrite !prio_cmp_Gt_iff by auto.
  intros H1 H2 H3.
  destruct (klt_total (fkey (p_time p)) (fkey (p_time q))) as [K1|[K1|K1]];
  destruct (klt_total (fkey (p_time q)) (fkey (p_time r))) as [K2|[K2|K2]]; try tauto.
  - rewrite <- K2, <- K1 in *.
    destruct H3 as [H3|[_ H3]]; [destruct (klt_irrefl _ H3)|].
    destruct (Z.lt_ge_cases (p_ord p) (p_ord q)); [tauto|].
    destruct (Z.lt_ge_cases (p_ord q) (p_ord r)); [tauto|lia].
  - rewrite K1 in *. destruct H3 as [H3|[H3 _]].
    + destruct (klt_asym _ _ K2 H3).
    + rewrite H3 in K2. destruct (klt_irrefl _ K2).
  - rewrite <- K2 in *. destruct H3 as [H3|[H3 _]].
    + destruct (klt_asym _ _ K1 H3).
    + rewrite H3 in K1. destruct (klt_irrefl _ K1).
  - destruct H3 as [H3|[H3 _]].
    + destruct (klt_asym _ _ K1). eapply klt_trans; eauto.
    + rewrite <- H3 in K2. destruct (klt_asym _ _ K1 K2).
Qed.

Lemma not_above_total p q :
  f32_is_nan (p_time p) = false -> f32_is_nan (p_time q) = false ->
  not_above p q \/ not_above q p.
Proof.
  unfold not_above. intros Np Nq. rewrite !prio_cmp_Gt_iff by auto.
  destruct (klt_total (fkey (p_time p)) (fkey (p_time q))) as [K1|[K1|K1]].
  - right. intros [H|[H _]]; [destruct (klt_asym _ _ K1 H)|].
    rewrite H in K1. destruct (klt_irrefl _ K1).
  - rewrite K1. destruct (Z.le_ge_cases (p_ord p) (p_ord q)).
    + right. intros [H0|[_ H0]]; [destruct (klt_irrefl _ H0)|lia].
    + left. intros [H0|[_ H0]]; [destruct (klt_irrefl _ H0)|lia].
  - left. intros [H|[H _]]; [destruct (klt_asym _ _ K1 H)|].
    rewrite H in K1. destruct (klt_irrefl _ K1).
Qed.

Section Proofs.
Context {A S : Type}.
Implicit Types (q : list (event A)) (e : event A) (u : user A S).

(** ** Queue operations *)

Lemma pq_push_fresh (a : agentimpl A) p q :
  ~ In (ai_id a) (map ev_id q) -> pq_push a p q = (q ++ [(a, p)], None).
Proof.
  induction q as [|[b pb] q IH]; cbn; intros H; [reflexivity|].
  destruct (N.eqb_spec (ai_id b) (ai_id a)) as [E|E]; [tauto|].
  rewrite IH by tauto. reflexivity.
Qed.

Lemma pq_push_present (a : agentimpl A) p q :
  In (ai_id a) (map ev_id q) ->
  exists l b pb r, q = l ++ (b, pb) :: r /\ ai_id b = ai_id a /\
    ~ In (ai_id a) (map ev_id l) /\
    pq_push a p q = (l ++ (b, p) :: r, Some pb).
Proof.
  induction q as [|[b pb] q IH]; cbn; intros H; [tauto|].
  destruct (N.eqb_spec (ai_id b) (ai_id a)) as [E|E].
  - exists [], b, pb, q. cbn. tauto.
  - destruct IH as (l & b' & pb' & r & -> & Hid & Hn & Hp); [tauto|].
    rewrite Hp. exists ((b, pb) :: l), b', pb', r. cbn. repeat split; auto.
    unfold ev_id at 1; cbn. tauto.
Qed.

Lemma pq_push_ids (a : agentimpl A) p q :
  (In (ai_id a) (map ev_id q) /\ map ev_id (fst (pq_push a p q)) = map ev_id q
   /\ snd (pq_push a p q) <> None) \/
  (~ In (ai_id a) (map ev_id q) /\
   map ev_id (fst (pq_push a p q)) = map ev_id q ++ [ai_id a]
   /\ snd (pq_push a p q) = None).
Proof.
  destruct (in_dec N.eq_dec (ai_id a) (map ev_id q)) as [H|H].
  - left. split; [exact H|].
    destruct (pq_push_present a p q H) as (l & b & pb & r & -> & Hid & Hn & ->).
    cbn. rewrite !map_app. cbn. split; [reflexivity|discriminate].
  - right. rewrite pq_push_fresh by exact H. cbn. rewrite map_app. auto.
Qed.

Lemma NoDup_app_one {X} (l : list X) x : NoDup l -> ~ In x l -> NoDup (l ++ [x]).
Proof.
  intros Hl Hx. apply (Permutation_NoDup (l := x :: l)).
  - apply Permutation_cons_append.
  - constructor; assumption.
Qed.

Lemma pq_push_unique (a : agentimpl A) p q :
  unique_ids q -> unique_ids (fst (pq_push a p q)).
Proof.
  unfold unique_ids. intros H.
  destruct (pq_push_ids a p q) as [(_ & -> & _)|(Hn & -> & _)]; [exact H|].
  apply NoDup_app_one; assumption.
Qed.

Lemma pq_remove_filter id q :
  unique_ids q ->
  fst (pq_remove id q) = filter (fun e => negb (ev_id e =? id)) q /\
  (snd (pq_remove id q) = None <-> ~ In id (map ev_id q)).
Proof.
  unfold unique_ids. induction q as [|e q IH]; cbn; intros H.
  - split; [reflexivity|tauto].
  - inversion H as [|? ? Hn Hd]; subst. specialize (IH Hd).
    destruct (N.eqb_spec (ev_id e) id) as [E|E]; cbn.
    + split; [|split; [discriminate|tauto]].
      subst id. clear IH Hd H.
      induction q as [|e' q IH]; cbn; [reflexivity|].
      cbn in Hn. destruct (N.eqb_spec (ev_id e') (ev_id e)); [tauto|].
      cbn. f_equal. apply IH. tauto.
    + destruct (pq_remove id q) as [q' r]; cbn in *.
      destruct IH as [-> IH]. split; [reflexivity|]. rewrite IH. tauto.
Qed.

Lemma filter_map_ids (f : N -> bool) q :
  map ev_id (filter (fun e => f (ev_id e)) q) = filter f (map ev_id q).
Proof.
  induction q as [|e q IH]; cbn; [reflexivity|].
  destruct (f (ev_id e)); cbn; rewrite IH; reflexivity.
Qed.

Lemma pq_remove_unique id q : unique_ids q -> unique_ids (fst (pq_remove id q)).
Proof.
  intros H. rewrite (proj1 (pq_remove_filter id q H)). unfold unique_ids in *.
  rewrite (filter_map_ids (fun i => negb (i =? id))). apply NoDup_filter. exact H.
Qed.

Lemma pq_remove_perm e q :
  unique_ids q -> In e q -> Permutation q (e :: fst (pq_remove (ev_id e) q)).
Proof.
  unfold unique_ids. induction q as [|x q IH]; cbn; intros Hd H; [tauto|].
  inversion Hd as [|? ? Hn Hd']; subst.
  destruct (N.eqb_spec (ev_id x) (ev_id e)) as [E|E].
  - destruct H as [<-|H]; [apply Permutation_refl|].
    exfalso. apply Hn. rewrite E. apply in_map. exact H.
  - destruct H as [<-|H]; [congruence|].
    specialize (IH Hd' H). destruct (pq_remove (ev_id e) q) as [q' r]; cbn in *.
    rewrite IH. apply perm_swap.
Qed.

(** The first maximal elements exist when no time is NaN. *)
Lemma max_exists q :
  no_nan q -> q <> [] ->
  exists e, In e q /\ forall e', In e' q -> not_above (snd e') (snd e).
Proof.
  intros Hn Hq. induction q as [|e q IH]; [congruence|].
  destruct q as [|e2 q].
  { exists e. split; [left; reflexivity|]. intros e' [<-|[]].
    destruct (not_above_total (snd e) (snd e)); auto; apply Hn; left; reflexivity. }
  destruct IH as (m & Hm & Hmax).
  { intros x Hx. apply Hn. right. exact Hx. }
  { discriminate. }
  assert (Nm : f32_is_nan (p_time (snd m)) = false) by (apply Hn; right; exact Hm).
  assert (Ne : f32_is_nan (p_time (snd e)) = false) by (apply Hn; left; reflexivity).
  destruct (not_above_total (snd e) (snd m) Ne Nm) as [H|H].
  - exists m. split; [right; exact Hm|].
    intros e' [<-|He']; [exact H|apply Hmax; exact He'].
  - exists e. split; [left; reflexivity|].
    intros e' [<-|He'].
    + destruct (not_above_total (snd e) (snd e) Ne Ne); assumption.
    + assert (Nx : f32_is_nan (p_time (snd e')) = false) by (apply Hn; right; exact He').
      eapply not_above_trans with (q := snd m); auto.
Qed.

Lemma maxima_spec q e :
  In e (maxima q) <-> In e q /\ forall e', In e' q -> not_above (snd e') (snd e).
Proof.
  unfold maxima. rewrite filter_In, forallb_forall. unfold not_above.
  split; intros [H1 H2]; (split; [exact H1|]); intros x Hx; specialize (H2 x Hx);
    destruct (prio_cmp (snd x) (snd e)); congruence.
Qed.

Lemma pq_peek_none c q : pq_peek c q = None <-> q = [].
Proof.
  unfold pq_peek. split.
  - destruct q as [|e q]; [reflexivity|]. intros H. exfalso.
    destruct (maxima (e :: q)) as [|m ms] eqn:E.
    + apply nth_error_None in H.
      pose proof (Nat.mod_upper_bound c (length (e :: q))). cbn in *. lia.
    + apply nth_error_None in H.
      pose proof (Nat.mod_upper_bound c (length (m :: ms))). cbn in *. lia.
  - intros ->. cbn. destruct c; reflexivity.
Qed.

Lemma pq_peek_In c q e : pq_peek c q = Some e -> In e q.
Proof.
  unfold pq_peek. intros H. apply nth_error_In in H.
  destruct (maxima q) as [|m ms] eqn:E; [exact H|].
  rewrite <- E in H. apply maxima_spec in H. tauto.
Qed.

Lemma pq_peek_max c q e :
  no_nan q -> pq_peek c q = Some e ->
  In e q /\ forall e', In e' q -> not_above (snd e') (snd e).
Proof.
  intros Hn H. pose proof (pq_peek_In c q e H) as Hin.
  unfold pq_peek in H. apply nth_error_In in H.
  destruct (maxima q) as [|m ms] eqn:E.
  - exfalso. assert (q <> []) as Hq by (destruct q; [destruct Hin|discriminate]).
    destruct (max_exists q Hn Hq) as (x & Hx). apply maxima_spec in Hx.
    rewrite E in Hx. destruct Hx.
  - rewrite <- E in H. apply maxima_spec in H. exact H.
Qed.

(** ** The popping loop *)

Lemma no_nan_perm q q' : Permutation q q' -> no_nan q -> no_nan q'.
Proof. intros P H e He. apply H. eapply Permutation_in; [symmetry; exact P|exact He]. Qed.

Lemma unique_ids_perm q q' : Permutation q q' -> unique_ids q -> unique_ids q'.
Proof. intros P H. eapply Permutation_NoDup; [apply Permutation_map; exact P|exact H]. Qed.

Lemma pop_due_spec now : forall fuel ch i q due rest,
  unique_ids q -> no_nan q -> f32_is_nan now = false ->
  (forall e, In e q -> ~ klt (fkey (ev_time e)) (fkey now)) ->
  (length q <= fuel)%nat ->
  pop_due fuel ch i now q = (due, rest) ->
  Permutation q (due ++ rest) /\
  (forall e, In e due -> fkey (ev_time e) = fkey now) /\
  (forall e, In e rest -> klt (fkey now) (fkey (ev_time e))) /\
  ord_sorted due.
Proof.
  induction fuel as [|fuel IH]; intros ch i q due rest Hu Hn Hnow Hmin Hlen H.
  { destruct q; [|cbn in Hlen; lia]. cbn in H. inversion H; subst. cbn.
    repeat split; intros; tauto || auto. }
  cbn [pop_due] in H.
  destruct (pq_peek (ch i) q) as [e|] eqn:P.
  2:{ apply pq_peek_none in P. subst q. inversion H; subst. cbn.
      repeat split; intros; tauto || auto. }
  destruct (pq_peek_max _ _ _ Hn P) as [Hin Hmax].
  assert (Ne : f32_is_nan (ev_time e) = false) by (apply Hn; exact Hin).
  destruct (fgtb (ev_time e) now) eqn:G.
  - inversion H; subst. cbn. repeat split; try tauto; auto.
    intros x Hx. apply fgtb_iff in G. destruct G as (_ & _ & G).
    specialize (Hmax x Hx).
    assert (Nx : f32_is_nan (ev_time x) = false) by (apply Hn; exact Hx).
    unfold not_above in Hmax. rewrite prio_cmp_Gt_iff in Hmax by auto.
    change (p_time (snd x)) with (ev_time x) in Hmax.
    change (p_time (snd e)) with (ev_time e) in Hmax.
    destruct (klt_total (fkey (ev_time x)) (fkey (ev_time e))) as [K|[K|K]].
    + tauto.
    + rewrite K. exact G.
    + eapply klt_trans; eauto.
  - pose proof (pq_remove_perm e q Hu Hin) as Perm.
    destruct (pop_due fuel ch (Datatypes.S i) now (fst (pq_remove (ev_id e) q)))
      as [es q'] eqn:R.
    inversion H; subst due rest.
    assert (Hn' : no_nan (fst (pq_remove (ev_id e) q))).
    { intros x Hx. apply Hn. eapply Permutation_in; [symmetry; exact Perm|right; exact Hx]. }
    eapply IH in R; eauto.
    + destruct R as (P1 & Hd & Hr & Hs).
      assert (Ek : fkey (ev_time e) = fkey now).
      { apply fgtb_false_iff in G; auto. specialize (Hmin e Hin).
        destruct (klt_total (fkey (ev_time e)) (fkey now)) as [K|[K|K]]; tauto. }
      repeat split.
      * rewrite Perm. cbn. constructor. exact P1.
      * intros x [<-|Hx]; auto.
      * exact Hr.
      * intros x Hx.
        assert (Hxq : In x q).
        { eapply Permutation_in; [symmetry; exact Perm|]. right.
          eapply Permutation_in; [symmetry; exact P1|]. apply in_or_app. left. exact Hx. }
        specialize (Hmax x Hxq). unfold not_above in Hmax.
        assert (Nx : f32_is_nan (ev_time x) = false) by (apply Hn; exact Hxq).
        rewrite prio_cmp_Gt_iff in Hmax by auto.
        change (p_time (snd x)) with (ev_time x) in Hmax.
        change (p_time (snd e)) with (ev_time e) in Hmax.
        specialize (Hd x Hx). unfold ev_ord.
        destruct (Z.le_gt_cases (p_ord (snd e)) (p_ord (snd x))); [assumption|].
        exfalso. apply Hmax. right. split; [congruence|lia].
      * exact Hs.
    + apply pq_remove_unique. exact Hu.
    + intros x Hx. apply Hmin. eapply Permutation_in; [symmetry; exact Perm|right; exact Hx].
    + apply Permutation_length in Perm. cbn in Perm. lia.
Qed.

(** ** Running the popped events *)

Lemma run_item_turn u sc (w : world A S) e sc' w' :
  run_item u sc w e = (sc', w') ->
  exists b, turn u e (w_st w) b (w_st w') /\
    s_step sc' = s_step sc /\ s_time sc' = s_time sc /\ s_ids sc' = s_ids sc /\
    s_events sc' = match b with
                   | None => s_events sc
                   | Some b => fst (pq_push (fst b) (snd b) (s_events sc))
                   end /\
    (forall b', b = Some b' -> ev_id b' = ev_id e) /\
    w_trace w' = w_trace w ++ calls_of e ++
      (if ai_rep (fst e)
       then [CAgentStopped (ev_id e) (match b with None => true | Some _ => false end)]
       else []).
Proof.
  destruct e as [[id ag rep] [t o]]. unfold run_item, call_agent, call_stopped; cbn.
  destruct (a_before u ag (w_st w)) as [ag1 s1] eqn:E1; cbn.
  destruct (a_step u ag1 s1) as [ag2 s2] eqn:E2; cbn.
  destruct (a_after u ag2 s2) as [ag3 s3] eqn:E3; cbn.
  destruct rep.
  - destruct (a_stopped u ag3 s3) as [stop [ag4 s4]] eqn:E4; cbn.
    destruct stop; intros H; inversion H; subst; clear H; cbn.
    + exists None. split; [econstructor; eauto|]. repeat split; try discriminate.
      unfold calls_of; cbn. rewrite <- !app_assoc. reflexivity.
    + eexists (Some _). split; [eapply turn_again; eauto|]. cbn.
      repeat split; try reflexivity.
      * intros b' Hb. inversion Hb; subst. reflexivity.
      * unfold calls_of; cbn. rewrite <- !app_assoc. reflexivity.
  - intros H; inversion H; subst; clear H; cbn.
    exists None. split; [econstructor; eauto|]. repeat split; try discriminate.
    unfold calls_of; cbn. rewrite <- !app_assoc. reflexivity.
Qed.

(** The calls of a list of turns, with the answers of [is_stopped]: [backs] tells which
    agents came back. *)
Inductive stopped_calls : list (event A) -> list (event A) -> list (call A) -> Prop :=
| sc_nil : stopped_calls [] [] []
| sc_once e es backs tr :
    ai_rep (fst e) = false -> stopped_calls es backs tr ->
    stopped_calls (e :: es) backs (calls_of e ++ tr)
| sc_stop e es backs tr :
    ai_rep (fst e) = true -> stopped_calls es backs tr ->
    stopped_calls (e :: es) backs (calls_of e ++ CAgentStopped (ev_id e) true :: tr)
| sc_again e b es backs tr :
    ai_rep (fst e) = true -> ev_id b = ev_id e -> stopped_calls es backs tr ->
    stopped_calls (e :: es) (b :: backs)
      (calls_of e ++ CAgentStopped (ev_id e) false :: tr).

Lemma turn_rep u e s b s' :
  turn u e s (Some b) s' -> ai_rep (fst e) = true /\ ai_rep (fst b) = true.
Proof. intros H. inversion H; subst; auto. Qed.

Lemma run_items_turns u : forall es sc (w : world A S) sc' w',
  unique_ids (es ++ s_events sc) ->
  run_items u sc w es = (sc', w') ->
  exists backs tr, turns u es (w_st w) backs (w_st w') /\
    s_step sc' = s_step sc /\ s_time sc' = s_time sc /\ s_ids sc' = s_ids sc /\
    s_events sc' = s_events sc ++ backs /\
    unique_ids (s_events sc') /\
    stopped_calls es backs tr /\
    w_trace w' = w_trace w ++ tr.
Proof.
  induction es as [|e es IH]; intros sc w sc' w' Hu H; cbn [run_items] in H.
  - inversion H; subst. exists [], []. rewrite !app_nil_r.
    repeat split; auto; constructor.
  - destruct (run_item u sc w e) as [sc1 w1] eqn:E.
    apply run_item_turn in E.
    destruct E as (b & Ht & Hst & Htm & Hids & Hev & Hb & Htr).
    unfold unique_ids in Hu. rewrite map_app in Hu. cbn in Hu.
    inversion Hu as [|? ? Hn Hd]; subst.
    destruct b as [b|].
    + specialize (Hb b eq_refl).
      rewrite pq_push_fresh in Hev.
      2:{ change (ai_id (fst b)) with (ev_id b). rewrite Hb.
          intros K. apply Hn. apply in_or_app. right. exact K. }
      cbn [fst] in Hev. assert (s_events sc1 = s_events sc ++ [b]) as Hev'
        by (rewrite Hev; destruct b; reflexivity).
      apply IH in H.
      2:{ unfold unique_ids. rewrite Hev', !map_app. cbn. rewrite app_assoc.
          apply NoDup_app_one; [exact Hd|]. rewrite Hb. exact Hn. }
      destruct H as (backs & tr & Hts & Hst' & Htm' & Hids' & Hev2 & Hu2 & Hsc & Htr2).
      destruct (turn_rep _ _ _ _ _ Ht) as [Hrep _].
      exists (b :: backs), (calls_of e ++ CAgentStopped (ev_id e) false :: tr).
      rewrite Hrep in Htr.
      repeat split; try congruence.
      * eapply turns_back; eauto.
      * rewrite Hev2, Hev', <- app_assoc. reflexivity.
      * constructor; assumption.
      * rewrite Htr2, Htr. rewrite <- !app_assoc. cbn. reflexivity.
    + apply IH in H.
      2:{ unfold unique_ids. rewrite Hev, map_app. exact Hd. }
      destruct H as (backs & tr & Hts & Hst' & Htm' & Hids' & Hev2 & Hu2 & Hsc & Htr2).
      destruct (ai_rep (fst e)) eqn:Hrep.
      * exists backs, (calls_of e ++ CAgentStopped (ev_id e) true :: tr).
        repeat split; try congruence.
        -- eapply turns_gone; eauto.
        -- constructor; assumption.
        -- rewrite Htr2, Htr. rewrite <- !app_assoc. cbn. reflexivity.
      * exists backs, (calls_of e ++ tr).
        repeat split; try congruence.
        -- eapply turns_gone; eauto.
        -- constructor; assumption.
        -- rewrite Htr2, Htr. rewrite <- !app_assoc. cbn. reflexivity.
Qed.

End Proofs.

(** ** C07 *)
Lemma priority_order p q r :
  f32_is_nan (p_time p) = false -> f32_is_nan (p_time q) = false ->
  f32_is_nan (p_time r) = false ->
  prio_cmp q p = CompOpp (prio_cmp p q) /\
  (prio_cmp p q = Eq <-> prio_eqb p q = true) /\
  (prio_cmp p q <> Gt -> prio_cmp q r <> Gt -> prio_cmp p r <> Gt) /\
  (prio_cmp p q = Gt -> prio_cmp q r = Gt -> prio_cmp p r = Gt) /\
  (prio_cmp p q = Eq -> prio_cmp p r = prio_cmp q r) /\
  (fltb (p_time p) (p_time q) = true -> prio_cmp p q = Gt) /\
  (feqb (p_time p) (p_time q) = true -> (p_ord p < p_ord q)%Z -> prio_cmp p q = Gt).
Proof.
  intros Np Nq Nr. split; [|split; [|split; [|split; [|split; [|split]]]]].
  - destruct (prio_cmp p q) eqn:E; cbn.
    + apply prio_cmp_Eq_iff in E; auto. apply prio_cmp_Eq_iff; auto. intuition congruence.
    + apply prio_cmp_Lt_iff in E; auto. apply prio_cmp_Gt_iff; auto. intuition congruence.
    + apply prio_cmp_Gt_iff in E; auto. apply prio_cmp_Lt_iff; auto. intuition congruence.
  - rewrite prio_eqb_iff by auto. tauto.
  - apply not_above_trans; auto.
  - rewrite !prio_cmp_Gt_iff by auto. intros [H|[H H']] [K|[K K']].
    + left. eapply klt_trans; eauto.
    + left. rewrite <- K. exact H.
    + left. rewrite H. exact K.
    + right. split; [congruence|lia].
  - intros E. apply prio_cmp_Eq_iff in E; auto. destruct E as [E1 E2].
    destruct (prio_cmp q r) eqn:K.
    + apply prio_cmp_Eq_iff in K; auto. apply prio_cmp_Eq_iff; auto. rewrite E1, E2. exact K.
    + apply prio_cmp_Lt_iff in K; auto. apply prio_cmp_Lt_iff; auto. rewrite E1, E2. exact K.
    + apply prio_cmp_Gt_iff in K; auto. apply prio_cmp_Gt_iff; auto. rewrite E1, E2. exact K.
  - rewrite fltb_iff, prio_cmp_Gt_iff by auto. tauto.
  - rewrite feqb_iff, prio_cmp_Gt_iff by auto. tauto.
Qed.

(** ** C08 *)
Lemma filter_length_all {X} (f : X -> bool) l :
  (forall x, In x l -> f x = true) -> filter f l = l.
Proof.
  induction l as [|x l IH]; cbn; intros H; [reflexivity|].
  rewrite (H x) by auto. f_equal. apply IH. auto.
Qed.

Lemma dequeue_exact {A} (sc : sched A) id :
  unique_ids (s_events sc) ->
  let (sc', b) := dequeue sc id in
  (b = true <-> exists e, In e (s_events sc) /\ ev_id e = id) /\
  (forall e, In e (s_events sc') <-> In e (s_events sc) /\ ev_id e <> id) /\
  (length (s_events sc) = length (s_events sc') + if b then 1 else 0)%nat /\
  unique_ids (s_events sc') /\
  s_step sc' = s_step sc /\ s_time sc' = s_time sc /\ s_ids sc' = s_ids sc.
Proof.
  intros Hu. unfold dequeue.
  destruct (pq_remove_filter id (s_events sc) Hu) as [F1 F2].
  pose proof (pq_remove_unique id _ Hu) as Hu'.
  assert (Hex : (exists e, In e (s_events sc) /\ ev_id e = id) <-> In id (map ev_id (s_events sc))).
  { rewrite in_map_iff. firstorder. }
  assert (Hlen : (length (s_events sc) = length (fst (pq_remove id (s_events sc))) +
     if match snd (pq_remove id (s_events sc)) with Some _ => true | None => false end then 1 else 0)%nat).
  { clear. induction (s_events sc) as [|e q IH]; cbn; [reflexivity|].
    destruct (ev_id e =? id); cbn; [lia|].
    destruct (pq_remove id q) as [q' r]. cbn in *. lia. }
  destruct (pq_remove id (s_events sc)) as [q' r]. cbn in F1, F2, Hu', Hlen. cbn [s_events s_step s_time s_ids].
  split; [|split; [|split; [exact Hlen|split; [exact Hu'|auto]]]].
  - rewrite Hex. destruct r as [e|].
    + split; [|reflexivity]. intros _.
      destruct (in_dec N.eq_dec id (map ev_id (s_events sc))) as [K|K]; [exact K|].
      apply F2 in K. discriminate.
    + split; [discriminate|]. intros K. destruct F2 as [F2 _]. destruct (F2 eq_refl K).
  - intros e. rewrite F1, filter_In. destruct (N.eqb_spec (ev_id e) id); cbn; intuition.
Qed.
