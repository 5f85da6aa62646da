(** * Proofs that the order of independent agents does not matter *)
From Coq Require Import List Bool ZArith NArith Arith Lia Permutation RelationClasses.
From Verif Require Import F32 F32Facts SchedModel SchedSpec SchedProofs SchedStep SimModel
  ParModel ParSpec ParProofs OrderSpec.
Import ListNotations.

Section Proofs.
Context {A S K : Type}.
Implicit Types (q : list (event A)) (e : event A) (u : user A S).

(** ** Turns in terms of [life] *)

Definition back_of (e : event A) (o : option A) : option (event A) :=
  match o with
  | None => None
  | Some a => Some (AI (ev_id e) a true, Prio (fadd (ev_time e) f1) (ev_ord e))
  end.

Lemma turn_life u e s b s' :
  turn u e s b s' <->
  b = back_of e (fst (life u (ai_rep (fst e)) (ai_agent (fst e)) s)) /\
  s' = snd (life u (ai_rep (fst e)) (ai_agent (fst e)) s).
Proof.
  split.
  - intros T. inversion T; subst; unfold life; cbn [fst ai_rep ai_agent snd];
      rewrite H, H0, H1; try rewrite H2; auto.
  - intros [-> ->]. destruct e as [[id ag rep] [t o]]. cbn [fst ai_rep ai_agent].
    unfold life, back_of, ev_id, ev_time, ev_ord. cbn [fst snd ai_id p_time p_ord].
    destruct (a_before u ag s) as [a1 s1] eqn:E1.
    destruct (a_step u a1 s1) as [a2 s2] eqn:E2.
    destruct (a_after u a2 s2) as [a3 s3] eqn:E3.
    destruct rep.
    + destruct (a_stopped u a3 s3) as [stop [a4 s4]] eqn:E4. destruct stop; cbn [fst snd].
      * econstructor; eauto.
      * econstructor; eauto.
    + cbn [fst snd]. econstructor; eauto.
Qed.

(** The turns of a list as a function. *)
Fixpoint lives u (l : list (event A)) (s : S) : list (event A) * S :=
  match l with
  | [] => ([], s)
  | e :: l' =>
      let x := life u (ai_rep (fst e)) (ai_agent (fst e)) s in
      let y := lives u l' (snd x) in
      (match back_of e (fst x) with None => fst y | Some b => b :: fst y end, snd y)
  end.

Lemma turns_lives u l : forall s backs s',
  turns u l s backs s' -> lives u l s = (backs, s').
Proof.
  induction l as [|e l IH]; intros s backs s' T;
    inversion T as [|? ? ? ? ? ? T1 T2|? ? ? ? ? ? ? T1 T2]; subst; [reflexivity| |];
    apply turn_life in T1; destruct T1 as [T1 ->]; cbn; apply IH in T2; rewrite T2;
    rewrite <- T1; reflexivity.
Qed.

(** ** Permuting independent turns *)

Section Independent.
Variables (u : user A S) (key : A -> K) (same : S -> S -> Prop).
Hypothesis Ind : independent u key same.
Local Instance Eqv : Equivalence same := ind_equiv _ _ _ Ind.

Notation ekey := (fun e : event A => key (ai_agent (fst e))).

Lemma lives_same l : forall s s', same s s' ->
  fst (lives u l s) = fst (lives u l s') /\ same (snd (lives u l s)) (snd (lives u l s')).
Proof.
  induction l as [|e l IH]; intros s s' H; cbn [lives]; [auto|].
  cbn zeta. destruct (ind_same _ _ _ Ind (ai_rep (fst e)) (ai_agent (fst e)) s s' H) as [E1 E2].
  destruct (IH _ _ E2) as [E3 E4]. cbn [fst snd]. rewrite E1, E3. auto.
Qed.

Lemma lives_perm l l' : Permutation l l' -> NoDup (map ekey l) ->
  forall s s', same s s' ->
  Permutation (fst (lives u l s)) (fst (lives u l' s')) /\
  same (snd (lives u l s)) (snd (lives u l' s')).
Proof.
  induction 1 as [|e l l' P IH|e f l|l l' l'' P1 IH1 P2 IH2]; intros N s s' H.
  - cbn. auto.
  - cbn [map] in N. inversion N; subst. cbn [lives]. cbn zeta.
    destruct (ind_same _ _ _ Ind (ai_rep (fst e)) (ai_agent (fst e)) s s' H) as [E1 E2].
    destruct (IH H3 _ _ E2) as [E3 E4]. cbn [fst snd]. rewrite E1.
    split; [|exact E4]. destruct (back_of e _); [constructor|]; exact E3.
  - cbn [map] in N. inversion N as [|? ? N1 N2]; subst.
    assert (D : key (ai_agent (fst e)) <> key (ai_agent (fst f))).
    { intros D. apply N1. left. cbn. congruence. }
    cbn [lives]. cbn zeta. cbn [fst snd].
    set (re := ai_rep (fst e)). set (ae := ai_agent (fst e)).
    set (rf := ai_rep (fst f)). set (af := ai_agent (fst f)).
    fold ae af in D.
    destruct (ind_same _ _ _ Ind re ae s s' H) as [E1 E2].
    destruct (ind_same _ _ _ Ind rf af s s' H) as [F1 F2].
    pose proof (ind_other _ _ _ Ind re rf ae af s D) as O1.
    pose proof (ind_other _ _ _ Ind rf re af ae s' (not_eq_sym D)) as O2.
    pose proof (ind_comm _ _ _ Ind re rf ae af s D) as C.
    assert (C' : same (snd (life u re ae (snd (life u rf af s))))
                      (snd (life u rf af (snd (life u re ae s'))))).
    { transitivity (snd (life u rf af (snd (life u re ae s)))); [exact C|].
      apply (ind_same _ _ _ Ind rf af _ _ E2). }
    destruct (lives_same l _ _ C') as [G1 G2].
    rewrite O1, O2, G1, E1, F1. split; [|exact G2].
    destruct (back_of e _), (back_of f _); try reflexivity. apply perm_swap.
  - destruct (IH1 N s s' H) as [P3 S3].
    assert (N' : NoDup (map ekey l')) by (eapply Permutation_NoDup; [apply Permutation_map; exact P1|exact N]).
    destruct (IH2 N' s' s' ltac:(reflexivity)) as [P4 S4].
    split; [etransitivity; eauto|]. transitivity (snd (lives u l' s')); assumption.
Qed.

(** ** The queue and the schedule API on permuted queues *)

Lemma push_perm (a : agentimpl A) p q q' :
  unique_ids q -> Permutation q q' ->
  Permutation (fst (pq_push a p q)) (fst (pq_push a p q')) /\
  snd (pq_push a p q) = snd (pq_push a p q').
Proof.
  intros U P. pose proof (unique_ids_perm _ _ P U) as U'.
  destruct (in_dec N.eq_dec (ai_id a) (map ev_id q)) as [I|I].
  - assert (I' : In (ai_id a) (map ev_id q')) by (eapply Permutation_in; [apply Permutation_map; exact P|exact I]).
    destruct (pq_push_present a p q I) as (l & b & pb & r & -> & Hid & Hn & ->).
    destruct (pq_push_present a p q' I') as (l' & b' & pb' & r' & -> & Hid' & Hn' & ->).
    cbn [fst snd].
    assert (E : (b, pb) = (b', pb')).
    { assert (In (b, pb) (l' ++ (b', pb') :: r')) by (eapply Permutation_in; [exact P|]; apply in_elt).
      assert (In (b', pb') (l' ++ (b', pb') :: r')) by apply in_elt.
      assert (Inj : forall x y, In x (l' ++ (b', pb') :: r') -> In y (l' ++ (b', pb') :: r') -> ev_id x = ev_id y -> x = y).
      { clear -U'. unfold unique_ids in U'. induction (l' ++ (b', pb') :: r') as [|z q IH]; [intros ? ? []|].
        cbn in U'. inversion U' as [|? ? U1 U2]; subst. intros x y [->|X] [->|Y] Exy; auto.
        - destruct U1. rewrite Exy. apply in_map. exact Y.
        - destruct U1. rewrite <- Exy. apply in_map. exact X. }
      apply Inj; auto. unfold ev_id. cbn. congruence. }
    inversion E; subst b' pb'. split; [|reflexivity].
    apply Permutation_app_inv in P.
    transitivity ((b, p) :: l ++ r); [symmetry; apply Permutation_middle|].
    transitivity ((b, p) :: l' ++ r'); [constructor; exact P|apply Permutation_middle].
  - assert (I' : ~ In (ai_id a) (map ev_id q')).
    { intros I'. apply I. eapply Permutation_in; [apply Permutation_map; symmetry; exact P|exact I']. }
    rewrite !pq_push_fresh by assumption. cbn [fst snd]. split; [|reflexivity].
    apply Permutation_app_tail. exact P.
Qed.

Lemma filter_perm {X} (f : X -> bool) l l' : Permutation l l' -> Permutation (filter f l) (filter f l').
Proof.
  induction 1 as [|x l l' P IH|x y l|l l' l'' P1 IH1 P2 IH2]; cbn; try reflexivity.
  - destruct (f x); [constructor|]; exact IH.
  - destruct (f x), (f y); try reflexivity. apply perm_swap.
  - etransitivity; eauto.
Qed.

Lemma remove_perm id q q' :
  unique_ids q -> Permutation q q' ->
  Permutation (fst (pq_remove id q)) (fst (pq_remove id q')) /\
  (snd (pq_remove id q) = None <-> snd (pq_remove id q') = None).
Proof.
  intros U P. pose proof (unique_ids_perm _ _ P U) as U'.
  destruct (pq_remove_filter id q U) as [-> ->]. destruct (pq_remove_filter id q' U') as [-> ->].
  split; [apply filter_perm; exact P|]. apply not_iff_compat.
  split; apply Permutation_in; apply Permutation_map; [|symmetry]; exact P.
Qed.

Lemma do_op_same (sc sc' : sched A) o :
  unique_ids (s_events sc) -> sched_same sc sc' ->
  sched_same (fst (do_op sc o)) (fst (do_op sc' o)) /\
  answer_same (snd (do_op sc o)) (snd (do_op sc' o)).
Proof.
  intros U (E1 & E2 & E3 & E4). destruct sc as [n t q i], sc' as [n' t' q' i'].
  cbn [s_step s_time s_events s_ids] in *. subst n' i'.
  destruct o; cbn [do_op].
  - destruct (push_perm a (Prio t0 o) q q' U E4) as [P _].
    split; [|reflexivity]. unfold schedule_once, sched_same; cbn; auto.
  - unfold schedule_repeating; cbn [s_ids s_events s_step s_time].
    destruct (push_perm (AI i ag true) (Prio t0 o) q q' U E4) as [P R].
    destruct (pq_push _ _ q) as [q1 r1], (pq_push _ _ q') as [q2 r2]. cbn [fst snd] in *. subst r2.
    split; [unfold sched_same; cbn; auto|reflexivity].
  - unfold distributed_schedule_repeating; cbn [s_ids s_events s_step s_time].
    destruct (push_perm (AI i ag true) (Prio t0 o) q q' U E4) as [P R].
    destruct (pq_push _ _ q) as [q1 r1], (pq_push _ _ q') as [q2 r2]. cbn [fst snd] in *. subst r2.
    split; [unfold sched_same; cbn; auto|reflexivity].
  - unfold dequeue; cbn [s_ids s_events s_step s_time].
    destruct (remove_perm id q q' U E4) as [P R].
    destruct (pq_remove id q) as [q1 [r1|]], (pq_remove id q') as [q2 [r2|]]; cbn [fst snd] in *;
      (split; [unfold sched_same; cbn; auto|]); try reflexivity; exfalso; destruct R as [R1 R2];
      [specialize (R2 eq_refl)|specialize (R1 eq_refl)]; discriminate.
  - split; [unfold sched_same; cbn; auto|]. cbn. unfold get_all_events. cbn. apply Permutation_map. exact E4.
  - split; [unfold sched_same; cbn; auto|reflexivity].
  - split; [unfold sched_same; cbn; auto|]. cbn. exact E3.
Qed.

Lemma run_hprog_same {X} (ok : sop A -> Prop) (RX : X -> X -> Prop) p p' :
  hook_same ok answer_same RX p p' -> forall sc sc',
  unique_ids (s_events sc) -> sched_same sc sc' ->
  sched_same (fst (fst (run_hprog p sc))) (fst (fst (run_hprog p' sc'))) /\
  RX (snd (fst (run_hprog p sc))) (snd (fst (run_hprog p' sc'))).
Proof.
  induction 1 as [x x' Hx|o k k' Ho Hk IH]; intros sc sc' U E; cbn [run_hprog].
  - cbn. auto.
  - destruct (do_op_same sc sc' o U E) as [E1 R1]. pose proof (do_op_unique sc o U) as U1.
    destruct (do_op sc o) as [sc1 r1], (do_op sc' o) as [sc1' r1']. cbn [fst snd] in *.
    specialize (IH r1 r1' R1 sc1 sc1' U1 E1).
    destruct (run_hprog (k r1) sc1) as [[a b] c], (run_hprog (k' r1') sc1') as [[a' b'] c'].
    cbn [fst snd] in *. exact IH.
Qed.

(** ** One step *)

Lemma st0_same (sc sc' : sched A) (w w' : world A S) :
  s_step sc = s_step sc' -> same (w_st w) (w_st w') -> same (st0 u sc w) (st0 u sc' w').
Proof.
  intros E H. unfold st0. rewrite <- E. destruct (N.eqb _ _); [|exact H]. apply (ind_update _ _ _ Ind). exact H.
Qed.

Lemma feqb_trans a b c : feqb a b = true -> feqb b c = true -> feqb a c = true.
Proof. rewrite !feqb_iff. intros (X1 & X2 & X3) (Y1 & Y2 & Y3). repeat split; auto. congruence. Qed.

(** Equal content from a set of events: the earliest ones and the rest. *)
Lemma split_perm q q' run wait run' wait' :
  unique_ids q -> Permutation q q' ->
  (forall e, In e run <-> minimal q e) -> (forall e, In e run' <-> minimal q' e) ->
  Permutation q (run ++ wait) -> Permutation q' (run' ++ wait') ->
  Permutation run run' /\ Permutation wait wait'.
Proof.
  intros U P M M' Q Q'.
  assert (R : Permutation run run').
  { apply NoDup_Permutation.
    - apply unique_NoDup. eapply unique_app_l. eapply unique_ids_perm; [exact Q|exact U].
    - apply unique_NoDup. eapply unique_app_l. eapply unique_ids_perm; [exact Q'|]. eapply unique_ids_perm; eauto.
    - intros e. rewrite M, M'. unfold minimal.
      split; intros [I J]; (split; [eapply Permutation_in; [|exact I]; auto; symmetry; auto|]);
        intros e' I'; apply J; eapply Permutation_in; [|exact I'| |exact I']; auto; symmetry; auto. }
  split; [exact R|]. apply (Permutation_app_inv_l run).
  rewrite <- Q, P, Q'. apply Permutation_app_tail. symmetry. exact R.
Qed.

Lemma map_key_perm q q' : Permutation q q' -> NoDup (map ekey q) -> NoDup (map ekey q').
Proof. intros P. apply Permutation_NoDup. apply Permutation_map. exact P. Qed.

Lemma run_distinct q run wait : Permutation q (run ++ wait) -> NoDup (map ekey q) -> NoDup (map ekey run).
Proof.
  intros P N. apply (map_key_perm _ _ P) in N. rewrite map_app in N.
  clear -N. induction (map ekey run) as [|x l IH]; cbn in N; [constructor|].
  inversion N; subst. constructor; [|apply IH; assumption]. intros I. apply H1. apply in_or_app. auto.
Qed.

Lemma step_same (Hk : step_hooks (fun _ => True) answer_same u same) ch ch' sc sc' (w w' : world A S) :
  unique_ids (s_events sc) -> sched_same sc sc' -> same (w_st w) (w_st w') ->
  distinct_agents key (queue_before u sc w) ->
  sched_same (fst (step u ch sc w)) (fst (step u ch' sc' w')) /\
  same (w_st (snd (step u ch sc w))) (w_st (snd (step u ch' sc' w'))).
Proof.
  intros U E Hs [D Nn].
  assert (U' : unique_ids (s_events sc')) by (eapply unique_ids_perm; [apply E|exact U]).
  pose proof (st0_same sc sc' w w' (proj1 E) Hs) as H0.
  destruct (Hk _ _ H0) as [Hb _].
  destruct (run_hprog_same _ _ _ _ Hb sc sc' U E) as [E1 S1].
  unfold queue_before in D, Nn. fold (st0 u sc w) in D, Nn.
  destruct (run_hprog (u_before u (st0 u sc w)) sc) as [[sc1 s1] log1] eqn:B1.
  destruct (run_hprog (u_before u (st0 u sc' w')) sc') as [[sc1' s1'] log1'] eqn:B1'.
  cbn [fst snd] in *.
  pose proof (run_hprog_unique _ _ _ _ _ B1 U) as U1.
  destruct E1 as (K1 & K2 & K3 & K4).
  pose proof (no_nan_perm _ _ K4 Nn) as Nn'.
  destruct (step u ch sc w) as [x y] eqn:F. destruct (step u ch' sc' w') as [x' y'] eqn:F'.
  apply step_anatomy in F; [|exact U]. apply step_anatomy in F'; [|exact U'].
  destruct F as (sc2 & s2 & l2 & due & rest & backs & s3 & tr & now & sc3 & s4 & l4 & G1 & G2 & G3 & G4 & G5 & G6 & G7 & _ & G8 & G9 & G10 & _).
  destruct F' as (sc2' & s2' & l2' & due' & rest' & backs' & s3' & tr' & now' & sc3' & s4' & l4' & G1' & G2' & G3' & G4' & G5' & G6' & G7' & _ & G8' & G9' & G10' & _).
  rewrite B1 in G1. rewrite B1' in G1'. inversion G1; subst sc2 s2 l2. inversion G1'; subst sc2' s2' l2'. clear G1 G1'.
  (* who runs, and the new time *)
  assert (R : Permutation due due' /\ Permutation rest rest' /\ (now = now' \/ feqb now now' = true)).
  { destruct (s_events sc1) as [|e1 q1] eqn:Q1.
    - apply Permutation_nil in K4. rewrite K4 in *.
      apply Permutation_nil in G3. apply app_eq_nil in G3. destruct G3 as [-> ->].
      apply Permutation_nil in G3'. apply app_eq_nil in G3'. destruct G3' as [-> ->].
      rewrite G4, G4' by reflexivity. auto.
    - assert (Ne : s_events sc1 <> []) by congruence. rewrite <- Q1 in *.
      assert (Ne' : s_events sc1' <> []).
      { intros Z. rewrite Z in K4. symmetry in K4. apply Permutation_nil in K4. congruence. }
      destruct (G5 Ne) as (e0 & P & T & Pd). destruct (G5' Ne') as (e0' & P' & T' & Pd').
      destruct (due_minimal _ _ _ _ _ _ _ G2 Nn P T Pd) as (M & _ & _).
      destruct (due_minimal _ _ _ _ _ _ _ G2' Nn' P' T' Pd') as (M' & _ & _).
      destruct (split_perm _ _ _ _ _ _ G2 K4 M M' G3 G3') as [R1 R2].
      split; [exact R1|]. split; [exact R2|]. right. subst now now'.
      destruct (pq_peek_max _ _ _ Nn P) as [I X]. destruct (pq_peek_max _ _ _ Nn' P') as [I' X'].
      assert (J : In e0 (s_events sc1')) by (eapply Permutation_in; eauto).
      assert (J' : In e0' (s_events sc1)) by (eapply Permutation_in; [symmetry; exact K4|exact I']).
      specialize (X _ J'). specialize (X' _ J). unfold not_above in X, X'.
      assert (N1 : f32_is_nan (p_time (snd e0)) = false) by (apply Nn; assumption).
      assert (N2 : f32_is_nan (p_time (snd e0')) = false) by (apply Nn; assumption).
      rewrite (prio_cmp_Gt_iff _ _ N2 N1) in X. rewrite (prio_cmp_Gt_iff _ _ N1 N2) in X'.
      apply feqb_iff. split; [apply Nn; auto|]. split; [apply Nn; auto|].
      unfold ev_time. destruct (klt_total (fkey (p_time (snd e0))) (fkey (p_time (snd e0')))) as [Z|[Z|Z]]; [|exact Z|];
        [destruct X'|destruct X]; auto. }
  destruct R as (R1 & R2 & R3).
  apply turns_lives in G6. apply turns_lives in G6'.
  destruct (lives_perm _ _ R1 (run_distinct _ _ _ G3 D) s1 s1' S1) as [L1 L2].
  rewrite G6, G6' in L1, L2. cbn [fst snd] in L1, L2.
  destruct (Hk _ _ L2) as [_ Ha].
  assert (E2 : sched_same (Sched (s_step sc1) now (rest ++ backs) (s_ids sc1))
                          (Sched (s_step sc1') now' (rest' ++ backs') (s_ids sc1'))).
  { repeat split; cbn; auto. apply Permutation_app; assumption. }
  destruct (run_hprog_same _ _ _ _ Ha (Sched (s_step sc1) now (rest ++ backs) (s_ids sc1)) _ G7 E2) as [E3 S3].
  rewrite G8, G8' in E3, S3. cbn [fst snd] in E3, S3 |- *.
  destruct E3 as (H1 & H2 & H3 & H4). subst x x'. rewrite G10, G10'.
  split.
  - repeat split; cbn [s_step s_ids s_time s_events]; auto. f_equal. apply E.
  - rewrite <- (proj1 E). apply (ind_update _ _ _ Ind). exact S3.
Qed.

Lemma step_unique ch sc (w : world A S) :
  unique_ids (s_events sc) -> unique_ids (s_events (fst (step u ch sc w))).
Proof.
  intros U. destruct (step u ch sc w) as [x y] eqn:F. apply step_anatomy in F; [|exact U].
  destruct F as (sc2 & s2 & l2 & due & rest & backs & s3 & tr & now & sc3 & s4 & l4 & G1 & G2 & G3 & G4 & G5 & G6 & G7 & _ & G8 & -> & _).
  cbn. eapply run_hprog_unique; [exact G8|exact G7].
Qed.

Lemma steps_same (Hk : step_hooks (fun _ => True) answer_same u same) : forall chs chs' sc sc' (w w' : world A S),
  length chs = length chs' ->
  unique_ids (s_events sc) -> sched_same sc sc' -> same (w_st w) (w_st w') ->
  along u (distinct_agents key) chs sc w ->
  let c := after_steps u chs sc w in let c' := after_steps u chs' sc' w' in
  sched_same (fst c) (fst c') /\ same (w_st (snd c)) (w_st (snd c')).
Proof.
  unfold after_steps. induction chs as [|ch chs IH]; intros [|ch' chs'] sc sc' w w' L U E Hs Al; try discriminate.
  - cbn. auto.
  - destruct Al as [D Al]. destruct (step_same Hk ch ch' sc sc' w w' U E Hs D) as [E1 S1].
    injection L as L. cbn [map acts fold_left act fst snd].
    pose proof (step_unique ch sc w U) as U1.
    specialize (IH chs' _ _ _ _ L U1 E1 S1 Al). cbn zeta in IH. unfold acts in IH.
    rewrite <- !surjective_pairing in IH. exact IH.
Qed.

(** ** [simulate!] *)

Lemma call_end_same (He : sim_hooks u same) sc sc' (w w' : world A S) :
  unique_ids (s_events sc) -> sched_same sc sc' -> same (w_st w) (w_st w') ->
  let x := call_end u sc w in let x' := call_end u sc' w' in
  fst x = fst x' /\ sched_same (fst (snd x)) (fst (snd x')) /\
  same (w_st (snd (snd x))) (w_st (snd (snd x'))) /\ unique_ids (s_events (fst (snd x))).
Proof.
  intros U E Hs. destruct (He _ _ Hs) as [_ H].
  destruct (run_hprog_same _ _ _ _ H sc sc' U E) as [E1 S1]. unfold call_end.
  destruct (run_hprog (u_end u (w_st w)) sc) as [[a [b s]] l] eqn:R.
  destruct (run_hprog (u_end u (w_st w')) sc') as [[a' [b' s']] l'].
  cbn in *. destruct S1 as [S1 S2]. cbn in *. repeat split; auto; try apply E1.
  eapply run_hprog_unique; eauto.
Qed.

Lemma sim_loop_same (Hk : step_hooks (fun _ => True) answer_same u same) (He : sim_hooks u same) chs chs' :
  forall n i i' sc sc' (w w' : world A S),
  unique_ids (s_events sc) -> sched_same sc sc' -> same (w_st w) (w_st w') ->
  loop_along u (distinct_agents key) chs i n sc w ->
  sched_same (fst (sim_loop u chs i n sc w)) (fst (sim_loop u chs' i' n sc' w')) /\
  same (w_st (snd (sim_loop u chs i n sc w))) (w_st (snd (sim_loop u chs' i' n sc' w'))).
Proof.
  induction n as [|n IH]; intros i i' sc sc' w w' U E Hs Al; cbn [sim_loop]; [auto|].
  destruct Al as [D Al].
  destruct (step_same Hk (chs i) (chs' i') sc sc' w w' U E Hs D) as [E1 S1].
  pose proof (step_unique (chs i) sc w U) as U1.
  destruct (step u (chs i) sc w) as [sc1 w1], (step u (chs' i') sc' w') as [sc1' w1']. cbn [fst snd] in *.
  destruct (call_end_same He sc1 sc1' w1 w1' U1 E1 S1) as (B & E2 & S2 & U2).
  destruct (call_end u sc1 w1) as [b [sc2 w2]], (call_end u sc1' w1') as [b' [sc2' w2']]. cbn [fst snd] in *. subst b'.
  destruct b; [cbn; auto|]. apply IH; auto.
Qed.

Lemma sim_reps_same (Hk : step_hooks (fun _ => True) answer_same u same) (He : sim_hooks u same) chs chs' n :
  forall reps r (w w' : world A S), same (w_st w) (w_st w') ->
  reps_along u (distinct_agents key) chs r reps n w ->
  fst (sim_reps u chs r reps n w) = fst (sim_reps u chs' r reps n w') /\
  same (w_st (snd (sim_reps u chs r reps n w))) (w_st (snd (sim_reps u chs' r reps n w'))).
Proof.
  induction reps as [|reps IH]; intros r w w' Hs Al; cbn [sim_reps]; [auto|].
  destruct Al as [A1 A2]. unfold sim_rep in *.
  assert (U0 : unique_ids (s_events (@sched_new A))) by constructor.
  assert (E0 : sched_same (@sched_new A) sched_new) by (repeat split; auto).
  destruct (He _ _ Hs) as [H _].
  destruct (run_hprog_same _ _ _ _ H _ _ U0 E0) as [E1 S1]. unfold call_init in *.
  pose proof (fun a b c R => run_hprog_unique (u_init u (w_st w)) sched_new a b c R U0) as U1.
  destruct (run_hprog (u_init u (w_st w)) sched_new) as [[a b] l].
  destruct (run_hprog (u_init u (w_st w')) sched_new) as [[a' b'] l']. cbn [fst snd] in *.
  specialize (U1 _ _ _ eq_refl).
  match type of A1 with loop_along _ _ _ _ _ _ ?W => set (w1 := W) in * end.
  match goal with |- context [sim_loop u (chs' r) 0 n a' ?W] => set (w1' := W) end.
  destruct (sim_loop_same Hk He (chs r) (chs' r) n 0 0 a a' w1 w1' U1 E1 S1 A1) as [E2 S2].
  destruct (sim_loop u (chs r) 0 n a w1) as [sc2 w2], (sim_loop u (chs' r) 0 n a' w1') as [sc2' w2']. cbn [fst snd] in *.
  destruct (IH (Datatypes.S r) w2 w2' S2 A2) as [L1 L2].
  destruct (sim_reps u chs (Datatypes.S r) reps n w2) as [l1 v1], (sim_reps u chs' (Datatypes.S r) reps n w2') as [l1' v1'].
  cbn [fst snd] in *. rewrite L1. split; [|exact L2]. f_equal. apply E2.
Qed.

(** ** The parallel build *)

Lemma par_do_op_same (sc sc' : sched A) o :
  both_builds o -> unique_ids (s_events sc) -> sched_same sc sc' ->
  sched_same (fst (par_do_op sc o)) (fst (do_op sc' o)) /\
  answer_par (snd (par_do_op sc o)) (snd (do_op sc' o)).
Proof.
  intros Ok U E. destruct (do_op_same sc sc' o U E) as [E1 R1].
  destruct o; try destruct Ok; cbn [par_do_op do_op] in *.
  - split; [exact E1|exact R1].
  - destruct (schedule_repeating sc ag t o) as [x b], (schedule_repeating sc' ag t o) as [x' b'].
    cbn [fst snd] in *. split; [exact E1|exact I].
  - split; [exact E1|exact R1].
  - split; [exact E1|exact R1].
  - split; [exact E1|exact R1].
Qed.

Lemma par_run_same {X} (RX : X -> X -> Prop) (p p' : hprog A X) :
  hook_same both_builds answer_par RX p p' -> forall sc sc',
  unique_ids (s_events sc) -> sched_same sc sc' ->
  sched_same (fst (fst (par_run_hprog p sc))) (fst (fst (run_hprog p' sc'))) /\
  RX (snd (fst (par_run_hprog p sc))) (snd (fst (run_hprog p' sc'))).
Proof.
  induction 1 as [x x' Hx|o k k' Ho Hk IH]; intros sc sc' U E; cbn [run_hprog par_run_hprog].
  - cbn. auto.
  - destruct (par_do_op_same sc sc' o Ho U E) as [E1 R1]. pose proof (par_do_op_unique sc o U) as U1.
    destruct (par_do_op sc o) as [sc1 r1], (do_op sc' o) as [sc1' r1']. cbn [fst snd] in *.
    specialize (IH r1 r1' R1 sc1 sc1' U1 E1).
    destruct (par_run_hprog (k r1) sc1) as [[a b] c], (run_hprog (k' r1') sc1') as [[a' b'] c'].
    cbn [fst snd] in *. exact IH.
Qed.

Lemma par_step_same (Hk : step_hooks both_builds answer_par u same) n ch inter ch' sc sc' sc2 (w w' w2 : world A S) :
  unique_ids (s_events sc) -> sched_same sc sc' -> same (w_st w) (w_st w') ->
  distinct_agents key (queue_before u sc' w') -> one_time (queue_before u sc' w') ->
  par_step u n ch inter sc w = PDone sc2 w2 ->
  unique_ids (s_events sc2) /\
  sched_same sc2 (fst (step u ch' sc' w')) /\ same (w_st w2) (w_st (snd (step u ch' sc' w'))).
Proof.
  intros U E Hs [D Nn'] O1 F.
  assert (U' : unique_ids (s_events sc')) by (eapply unique_ids_perm; [apply E|exact U]).
  pose proof (st0_same sc sc' w w' (proj1 E) Hs) as H0.
  destruct (Hk _ _ H0) as [Hb _].
  destruct (par_run_same _ _ _ Hb sc sc' U E) as [E1 S1].
  unfold queue_before in D, Nn', O1. fold (st0 u sc' w') in D, Nn', O1.
  destruct (par_step_runs_all u n ch inter sc w sc2 w2 U F) as
    (sc1 & s1 & l1 & popped & run & backs & s2 & now & sc3 & s3 & l3 & G1 & _ & G2 & _ & G3 & G4 & G5 & G6 & G7 & G8 & G9 & _).
  fold (st0 u sc w) in G1. rewrite G1 in E1, S1.
  destruct (run_hprog (u_before u (st0 u sc' w')) sc') as [[sc1' s1'] log1'] eqn:B1'.
  cbn [fst snd] in *.
  pose proof (proj1 (par_run_hprog_unique _ _ _ _ _ G1) U) as U1.
  destruct E1 as (K1 & K2 & K3 & K4).
  assert (Nn : no_nan (s_events sc1)) by (eapply no_nan_perm; [symmetry; exact K4|exact Nn']).
  destruct (G3 Nn) as (e0 & I0 & T0 & M0). clear G3.
  destruct (step u ch' sc' w') as [x' y'] eqn:F'. apply step_anatomy in F'; [|exact U'].
  destruct F' as (sc2' & s2' & l2' & due' & rest' & backs' & s3' & tr' & now' & sc3' & s4' & l4' & G1' & G2' & G3' & G4' & G5' & G6' & G7' & _ & G8' & G9' & G10' & _).
  rewrite B1' in G1'. inversion G1'; subst sc2' s2' l2'. clear G1'.
  assert (Ne' : s_events sc1' <> []).
  { intros Z. rewrite Z in K4. symmetry in K4. apply Permutation_nil in K4. rewrite K4 in I0. destruct I0. }
  destruct (G5' Ne') as (e0' & P' & T' & Pd').
  destruct (due_minimal _ _ _ _ _ _ _ G2' Nn' P' T' Pd') as (M' & M2' & _).
  assert (All : forall e, In e (s_events sc1') -> minimal (s_events sc1') e).
  { intros e He. split; [exact He|]. intros e' He'. specialize (O1 e e' He He').
    apply feqb_iff in O1. apply fleb_iff. intuition. }
  assert (Rn : rest' = []).
  { destruct rest' as [|e r]; [reflexivity|]. exfalso. destruct (M2' e) as [Z _].
    destruct (Z (or_introl eq_refl)) as [Z1 Z2]. apply Z2. apply All. exact Z1. }
  subst rest'. rewrite app_nil_r in G3'. cbn [app] in *.
  assert (R1 : Permutation run due').
  { rewrite <- (proj1 G4), <- G2, K4. exact G3'. }
  assert (Rd : NoDup (map ekey run)).
  { eapply map_key_perm; [symmetry; exact R1|]. eapply map_key_perm; [exact G3'|exact D]. }
  assert (Hn : feqb now now' = true).
  { subst now now'. apply O1; [eapply Permutation_in; [exact K4|exact I0]|].
    eapply pq_peek_In. exact P'. }
  apply turns_lives in G5. apply turns_lives in G6'.
  destruct (lives_perm _ _ R1 Rd s1 s1' S1) as [L1 L2].
  rewrite G5, G6' in L1, L2. cbn [fst snd] in L1, L2.
  destruct (Hk _ _ L2) as [_ Ha].
  assert (Ks : s_step sc1' = s_step sc').
  { pose proof (run_hprog_const _ _ _ _ _ B1') as [Z _]. exact Z. }
  assert (E2 : sched_same (Sched (s_step sc) now backs (s_ids sc1))
                          (Sched (s_step sc1') now' backs' (s_ids sc1'))).
  { repeat split; cbn; auto. rewrite Ks. apply E. }
  destruct (par_run_same _ _ _ Ha (Sched (s_step sc) now backs (s_ids sc1)) _ G6 E2) as [E3 S3].
  pose proof (proj1 (par_run_hprog_unique _ _ _ _ _ G7) G6) as U3.
  rewrite G7, G8' in E3, S3. cbn [fst snd] in E3, S3 |- *.
  destruct E3 as (H1 & H2 & H3 & H4). subst sc2 x'. rewrite G9, G10'. cbn [s_events].
  split; [exact U3|]. split.
  - repeat split; cbn [s_step s_ids s_time s_events]; auto. f_equal. apply E.
  - rewrite <- (proj1 E). apply (ind_update _ _ _ Ind). exact S3.
Qed.

Lemma par_steps_same (Hk : step_hooks both_builds answer_par u same) n : forall l chs sc sc' sc2 (w w' w2 : world A S),
  length l = length chs ->
  unique_ids (s_events sc) -> sched_same sc sc' -> same (w_st w) (w_st w') ->
  along u (fun q => distinct_agents key q /\ one_time q) chs sc' w' ->
  par_steps u n l sc w = Some (sc2, w2) ->
  let c := after_steps u chs sc' w' in
  sched_same sc2 (fst c) /\ same (w_st w2) (w_st (snd c)).
Proof.
  unfold after_steps. induction l as [|[ch inter] l IH]; intros [|ch' chs] sc sc' sc2 w w' w2 L U E Hs Al F; try discriminate.
  - cbn in *. inversion F; subst. auto.
  - destruct Al as [[D O1] Al]. cbn [par_steps] in F.
    destruct (par_step u n ch inter sc w) as [| | |sc1 w1] eqn:F1; try discriminate.
    destruct (par_step_same Hk n ch inter ch' sc sc' sc1 w w' w1 U E Hs D O1 F1) as (U1 & E1 & S1).
    injection L as L. cbn [map acts fold_left act fst snd].
    specialize (IH chs _ _ sc2 _ _ w2 L U1 E1 S1 Al F). cbn zeta in IH. unfold acts in IH.
    rewrite <- !surjective_pairing in IH. exact IH.
Qed.

End Independent.
End Proofs.
