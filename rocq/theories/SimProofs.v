(** * Proofs about the simulation loops *)
From Coq Require Import List Bool ZArith NArith Arith Lia.
From Coq Require Import ZifyBool ZifyNat ZifyN.
From Verif Require Import F32 SchedModel SchedSpec SchedProofs SchedStep SchedHist SimModel SimSpec.
Import ListNotations.
Local Open Scope N_scope.

Section Proofs.
Context {A S : Type}.
Implicit Types (u : user A S).

Lemma call_end_facts u sc (w : world A S) b sc' w' :
  call_end u sc w = (b, (sc', w')) ->
  (unique_ids (s_events sc) -> unique_ids (s_events sc')) /\ s_step sc' = s_step sc /\
  engine_calls (w_trace w') = engine_calls (w_trace w) ++ [CEnd b].
Proof.
  unfold call_end. destruct (run_hprog (u_end u (w_st w)) sc) as [[sc1 [b1 s1]] log] eqn:E.
  intros H. inversion H; subst; clear H. split; [|split].
  - eapply run_hprog_unique; eauto.
  - eapply run_hprog_const; eauto.
  - cbn [w_trace]. rewrite engine_calls_app. f_equal. rewrite engine_calls_cons.
    cbn [is_api negb]. rewrite engine_calls_api. reflexivity.
Qed.

Lemma sim_loop_calls u chs : forall n i sc (w : world A S) sc' w',
  unique_ids (s_events sc) -> s_step sc + N.of_nat n < u64_mod ->
  sim_loop u chs i n sc w = (sc', w') ->
  exists steps,
    good_run n steps /\
    s_step sc' = s_step sc + N.of_nat (length steps) /\
    engine_calls (w_trace w') = engine_calls (w_trace w) ++
      (match steps with [] => [] | _ => if s_step sc =? 0 then [CUpdate 0] else [] end) ++
      loop_calls (s_step sc) steps.
Proof.
  induction n as [|n IH]; intros i sc w sc' w' Hu Hlt E; cbn in E.
  - inversion E; subst. exists []. cbn. split.
    + split; [cbn; lia|]. split; [|intros H; exfalso; cbn in H; lia]. intros pre r b post H. destruct pre; discriminate.
    + split; [lia|]. rewrite app_nil_r. reflexivity.
  - destruct (step u (chs i) sc w) as [sc1 w1] eqn:Es.
    pose proof (act_unique u (ActStep (chs i)) (sc, w) Hu) as Hu1. cbn in Hu1.
    rewrite Es in Hu1. cbn in Hu1.
    apply step_block_calls in Es; [|exact Hu|lia]. destruct Es as (K1 & r & K2).
    destruct (call_end u sc1 w1) as [b [sc2 w2]] eqn:Ee.
    apply call_end_facts in Ee. destruct Ee as (Hu2 & K3 & K4). specialize (Hu2 Hu1).
    destruct b.
    + inversion E; subst. exists [(r, true)]. split; [|split].
      * split; [cbn; lia|]. split.
        -- intros pre r' b post H Hp. destruct pre as [|x pre].
           ++ inversion H; subst. congruence.
           ++ destruct pre; discriminate.
        -- intros _. exists [], r. reflexivity.
      * cbn [length]. lia.
      * cbn [loop_calls]. rewrite K4, K2, <- !app_assoc. reflexivity.
    + apply IH in E; [|exact Hu2|lia]. destruct E as (steps & (G1 & G2 & G3) & E1 & E2).
      exists ((r, false) :: steps). split; [|split].
      * split; [cbn; lia|]. split.
        -- intros pre r' b post H Hp. destruct pre as [|x pre].
           ++ inversion H; subst. reflexivity.
           ++ inversion H; subst. eapply G2; eauto.
        -- intros H. cbn [length] in H. destruct G3 as (pre & r' & ->); [lia|].
           exists ((r, false) :: pre), r'. reflexivity.
      * cbn [length]. lia.
      * rewrite E2, K4, K2. cbn [loop_calls]. rewrite <- !app_assoc. f_equal. f_equal.
        rewrite K3, K1. cbn [app].
        replace (s_step sc + 1 =? 0) with false by lia.
        destruct steps; reflexivity.
Qed.

Lemma sim_rep_calls u chs n (w : world A S) sc w' :
  N.of_nat n < u64_mod ->
  sim_rep u chs n w = (sc, w') ->
  exists steps, good_run n steps /\ s_step sc = N.of_nat (length steps) /\
    engine_calls (w_trace w') = engine_calls (w_trace w) ++ rep_calls steps.
Proof.
  intros Hlt E. unfold sim_rep, call_init in E.
  destruct (run_hprog (u_init u (w_st w)) sched_new) as [[sc0 s0] log] eqn:Ei.
  pose proof (run_hprog_unique _ _ _ _ _ Ei (NoDup_nil _)) as Hu.
  pose proof (run_hprog_const _ _ _ _ _ Ei) as [K0 _]. cbn in K0.
  apply sim_loop_calls in E; [|exact Hu|lia]. destruct E as (steps & G & E1 & E2).
  exists steps. split; [exact G|]. split; [lia|].
  rewrite E2. cbn [w_trace]. rewrite engine_calls_app, <- app_assoc. f_equal.
  rewrite engine_calls_cons. cbn [is_api negb]. rewrite engine_calls_api, K0.
  unfold rep_calls. destruct steps; reflexivity.
Qed.

Lemma sim_reps_calls u chs n : N.of_nat n < u64_mod ->
  forall reps r (w : world A S) l w',
  sim_reps u chs r reps n w = (l, w') ->
  exists runs, length runs = reps /\ Forall (good_run n) runs /\
    l = map (fun steps => N.of_nat (length steps)) runs /\
    engine_calls (w_trace w') = engine_calls (w_trace w) ++ flat_map rep_calls runs.
Proof.
  intros Hlt. induction reps as [|reps IH]; intros r w l w' E; cbn in E.
  - inversion E; subst. exists []. cbn. rewrite app_nil_r. auto.
  - destruct (sim_rep u (chs r) n w) as [sc w1] eqn:Er.
    destruct (sim_reps u chs (Datatypes.S r) reps n w1) as [l2 w2] eqn:Es.
    inversion E; subst; clear E.
    apply sim_rep_calls in Er; [|exact Hlt]. destruct Er as (steps & G & K1 & K2).
    apply IH in Es. destruct Es as (runs & L & F & K3 & K4).
    exists (steps :: runs). cbn. rewrite K1, K3, K4, K2, <- app_assoc.
    split; [congruence|]. auto.
Qed.

(** Splitting the repetitions: the state is handed on. *)
Lemma sim_reps_split u chs n : forall a b r (w : world A S),
  sim_reps u chs r (a + b) n w =
  let (l1, w1) := sim_reps u chs r a n w in
  let (l2, w2) := sim_reps u chs (r + a) b n w1 in (l1 ++ l2, w2).
Proof.
  induction a as [|a IH]; intros b r w; cbn.
  - rewrite Nat.add_0_r. destruct (sim_reps u chs r b n w). reflexivity.
  - destruct (sim_rep u (chs r) n w) as [sc w1]. rewrite IH.
    replace (r + Datatypes.S a)%nat with (Datatypes.S r + a)%nat by lia.
    destruct (sim_reps u chs (Datatypes.S r) a n w1) as [l1 w2]. cbn.
    destruct (sim_reps u chs (Datatypes.S (r + a)) b n w2) as [l2 w3]. reflexivity.
Qed.

End Proofs.

Lemma simulate_calls {A S} (u : user A S) chs n reps s l w' :
  N.of_nat n < 18446744073709551616 ->
  simulate u chs n reps s = (l, w') ->
  exists runs, length runs = reps /\ Forall (good_run n) runs /\
    l = map (fun steps => N.of_nat (length steps)) runs /\
    engine_calls (w_trace w') = flat_map rep_calls runs.
Proof. intros Hlt E. exact (sim_reps_calls u chs n Hlt reps O (World s []) l w' E). Qed.
