(** * Proofs about the calls made by [simulate!] in the parallel build *)
From Coq Require Import List Bool ZArith NArith Arith Lia.
From Verif Require Import F32 SchedModel SchedSpec SchedProofs ParModel ParProofs SchedStep PStageModel PStageSpec.
Import ListNotations.
Local Open Scope nat_scope.

Section Loop.
Context {A S : Type}.
Variable u : user A S.

Lemma state_app (l l' : list (call A)) : state_calls (l ++ l') = state_calls l ++ state_calls l'.
Proof. apply filter_app. Qed.
Lemma state_api l : state_calls (api l : list (call A)) = [].
Proof. induction l as [|x l IH]; [reflexivity|exact IH]. Qed.

Lemma hprog_step {X} (p : hprog A X) : forall sc, s_step (fst (fst (par_run_hprog p sc))) = s_step sc.
Proof.
  induction p as [x|o k IH]; intros sc; cbn [par_run_hprog]; [reflexivity|].
  pose proof (par_do_op_step sc o) as E. destruct (par_do_op sc o) as [sc' r]. cbn in E.
  specialize (IH r sc'). destruct (par_run_hprog (k r) sc') as [[a b] c]. cbn in *. congruence.
Qed.

Lemma micro_keeps t (c c' : config A S) : micro u t c = Some c' ->
  s_step (c_sc c') = s_step (c_sc c) /\ state_calls (w_trace (c_w c')) = state_calls (w_trace (c_w c)).
Proof.
  unfold micro. destruct (nth_error (c_threads c) t) as [th|]; [|discriminate].
  destruct (t_pc th) as [|e|e|e|e|e|e| |].
  - destruct (t_rest th); [discriminate|]. destruct (c_lockS c); [discriminate|]. intros [= <-]. auto.
  - unfold call_agent. destruct (a_before u _ _) as [a s]. intros [= <-]. cbn [c_sc c_w w_trace]. rewrite state_app. exact (conj eq_refl (app_nil_r _)).
  - unfold call_agent. destruct (a_step u _ _) as [a s]. intros [= <-]. cbn [c_sc c_w w_trace]. rewrite state_app. exact (conj eq_refl (app_nil_r _)).
  - unfold call_agent. destruct (a_after u _ _) as [a s]. intros [= <-]. cbn [c_sc c_w w_trace]. rewrite state_app. exact (conj eq_refl (app_nil_r _)).
  - destruct (ai_rep (fst e)); [|intros [= <-]; auto]. unfold call_stopped. destruct (a_stopped u _ _) as [b [a s]]. intros [= <-]. cbn [c_sc c_w w_trace]. rewrite state_app. exact (conj eq_refl (app_nil_r _)).
  - destruct (c_lockQ c); [discriminate|]. intros [= <-]. auto.
  - intros [= <-]. auto.
  - intros [= <-]. auto.
  - intros [= <-]. auto.
Qed.
Lemma exec_keeps inter : forall c : config A S,
  s_step (c_sc (exec u inter c)) = s_step (c_sc c) /\ state_calls (w_trace (c_w (exec u inter c))) = state_calls (w_trace (c_w c)).
Proof.
  induction inter as [|t inter IH]; intros c; cbn [exec]; [auto|].
  destruct (micro u t c) as [c'|] eqn:E; [|apply IH]. destruct (IH c') as [-> ->]. exact (micro_keeps t c c' E).
Qed.

Lemma step_calls_ok threads ch inter sc w : (s_step sc + 1 < 18446744073709551616)%N ->
  match par_step u threads ch inter sc w with
  | PExit w' => state_calls (w_trace w') = state_calls (w_trace w) ++ step_start (s_step sc)
  | PDone sc' w' => s_step sc' = (s_step sc + 1)%N /\
      state_calls (w_trace w') = state_calls (w_trace w) ++ step_start (s_step sc) ++ [CStateAfter; CUpdate (s_step sc + 1)]
  | _ => True
  end.
Proof.
  intros Bn. unfold par_step. set (w0 := if N.eqb (s_step sc) 0 then _ else w).
  assert (T0 : state_calls (w_trace w0) = state_calls (w_trace w) ++ (if (s_step sc =? 0)%N then [CUpdate 0] else [])).
  { unfold w0. destruct (N.eqb_spec (s_step sc) 0) as [->|_]; [|rewrite app_nil_r; reflexivity]. unfold call_update. cbn [w_trace]. rewrite state_app. reflexivity. }
  pose proof (hprog_step (u_before u (w_st w0)) sc) as H1. destruct (par_run_hprog (u_before u (w_st w0)) sc) as [[sc1 s1] log1]. cbn [fst] in H1.
  assert (T1 : state_calls (w_trace w0 ++ CStateBefore :: api log1) = state_calls (w_trace w) ++ step_start (s_step sc)).
  { rewrite state_app, T0. unfold step_start. cbn [state_calls filter]. fold (state_calls (api log1 : list (call A))). rewrite state_api, <- app_assoc. reflexivity. }
  destruct (pq_peek (ch 0) (s_events sc1)) as [e|]; [|exact T1].
  destruct threads as [|th]; [exact I|].
  set (c0 := start _ _ _). destruct (exec_keeps inter c0) as [X1 X2].
  destruct (finished (exec u inter c0)); [|exact I].
  pose proof (hprog_step (u_after u (w_st (c_w (exec u inter c0)))) (c_sc (exec u inter c0))) as H3.
  destruct (par_run_hprog _ (c_sc (exec u inter c0))) as [[sc3 s3] log3]. cbn [fst] in H3.
  assert (E3 : s_step sc3 = s_step sc) by (rewrite H3, X1; cbn; exact H1).
  rewrite E3, u64_succ_small by exact Bn. cbn [s_step]. split; [reflexivity|].
  cbn [call_update w_trace]. rewrite !state_app, X2. cbn [c0 start c_w w_trace]. rewrite T1.
  cbn [state_calls filter]. fold (state_calls (api log3 : list (call A))). rewrite state_api, <- !app_assoc. reflexivity.
Qed.

Lemma end_calls_ok sc w : let '(b, (sc', w')) := par_end u sc w in
  s_step sc' = s_step sc /\ state_calls (w_trace w') = state_calls (w_trace w) ++ [CEnd b].
Proof.
  unfold par_end. pose proof (hprog_step (u_end u (w_st w)) sc) as H. destruct (par_run_hprog _ sc) as [[sc' r] log]. cbn [fst] in H.
  split; [exact H|]. cbn [w_trace]. rewrite state_app. cbn [state_calls filter]. fold (state_calls (api log : list (call A))). rewrite state_api. reflexivity.
Qed.
Lemma init_calls_ok w : s_step (fst (par_init u w)) = 0%N /\ state_calls (w_trace (snd (par_init u w))) = state_calls (w_trace w) ++ [CInit].
Proof.
  unfold par_init. pose proof (hprog_step (u_init u (w_st w)) sched_new) as H. destruct (par_run_hprog _ sched_new) as [[sc' r] log]. cbn [fst snd] in *.
  split; [exact H|]. cbn [w_trace]. rewrite state_app. cbn [state_calls filter]. fold (state_calls (api log : list (call A))). rewrite state_api. reflexivity.
Qed.

Lemma loop_calls_ok threads os : forall n i sc w, (s_step sc + N.of_nat n < 18446744073709551616)%N ->
  match par_sim_loop u threads os i n sc w with
  | SimDone w' => exists bs, ended_well n bs /\ state_calls (w_trace w') = state_calls (w_trace w) ++ steps_calls (s_step sc) bs
  | SimExit w' => exists k, k < n /\
      state_calls (w_trace w') = state_calls (w_trace w) ++ steps_calls (s_step sc) (repeat false k) ++ step_start (s_step sc + N.of_nat k)
  | _ => True
  end.
Proof.
  induction n as [|n IH]; intros i sc w Bn; cbn [par_sim_loop].
  - exists []. split; [left; reflexivity|]. cbn. rewrite app_nil_r. reflexivity.
  - pose proof (step_calls_ok threads (fst (os i)) (snd (os i)) sc w ltac:(lia)) as X.
    destruct (par_step u threads (fst (os i)) (snd (os i)) sc w) as [w1| |?|sc1 w1]; try exact I.
    + exists 0. split; [lia|]. cbn [repeat steps_calls app]. rewrite N.add_0_r. exact X.
    + destruct X as [X1 X2]. pose proof (end_calls_ok sc1 w1) as Y. destruct (par_end u sc1 w1) as [b [sc2 w2]]. destruct Y as [Y1 Y2].
      rewrite X2, <- !app_assoc in Y2. destruct b.
      * exists [true]. split; [right; exists 0; split; [lia|reflexivity]|]. rewrite Y2. cbn [steps_calls app]. reflexivity.
      * assert (Y3 : s_step sc2 = (s_step sc + 1)%N) by congruence.
        specialize (IH (Datatypes.S i) sc2 w2 ltac:(lia)). destruct (par_sim_loop u threads os (Datatypes.S i) n sc2 w2) as [w3|w3| |]; try exact I.
        -- destruct IH as (bs & Eb & IH). exists (false :: bs). split.
           ++ destruct Eb as [->|(k & Hk & ->)]; [left; reflexivity|right; exists (Datatypes.S k); split; [lia|reflexivity]].
           ++ rewrite IH, Y2, Y3. cbn [steps_calls]. rewrite <- !app_assoc. reflexivity.
        -- destruct IH as (k & Hk & IH). exists (Datatypes.S k). split; [lia|]. rewrite IH, Y2, Y3. cbn [repeat steps_calls].
           rewrite <- !app_assoc. replace (s_step sc + 1 + N.of_nat k)%N with (s_step sc + N.of_nat (Datatypes.S k))%N by lia. reflexivity.
Qed.

Lemma reps_calls_ok threads os n : (N.of_nat n < 18446744073709551616)%N -> forall reps r w,
  match par_sim_reps u threads os r reps n w with
  | SimDone w' => exists l, length l = reps /\ Forall (ended_well n) l /\ state_calls (w_trace w') = state_calls (w_trace w) ++ reps_calls l
  | SimExit w' => exists l k, length l < reps /\ Forall (ended_well n) l /\ k < n /\
      state_calls (w_trace w') = state_calls (w_trace w) ++ reps_calls l ++ CInit :: steps_calls 0 (repeat false k) ++ step_start (N.of_nat k)
  | _ => True
  end.
Proof.
  intros Bn. induction reps as [|reps IH]; intros r w; cbn [par_sim_reps].
  - exists []. split; [reflexivity|]. split; [constructor|]. cbn. rewrite app_nil_r. reflexivity.
  - destruct (init_calls_ok w) as [H1 H2]. destruct (par_init u w) as [sc w1]. cbn [fst snd] in *.
    pose proof (loop_calls_ok threads (os r) n 0 sc w1 ltac:(lia)) as X. rewrite H1, H2 in X.
    destruct (par_sim_loop u threads (os r) 0 n sc w1) as [w2|w2| |]; try exact I.
    + destruct X as (bs & Eb & X). specialize (IH (Datatypes.S r) w2). destruct (par_sim_reps u threads os (Datatypes.S r) reps n w2) as [w3|w3| |]; try exact I.
      * destruct IH as (l & Hl & Fl & IH). exists (bs :: l). split; [cbn; lia|]. split; [constructor; assumption|].
        rewrite IH, X. unfold reps_calls. cbn [flat_map]. rewrite <- !app_assoc. reflexivity.
      * destruct IH as (l & k & Hl & Fl & Hk & IH). exists (bs :: l), k. split; [cbn; lia|]. split; [constructor; assumption|]. split; [exact Hk|].
        rewrite IH, X. unfold reps_calls. cbn [flat_map]. rewrite <- !app_assoc. reflexivity.
    + destruct X as (k & Hk & X). exists [], k. split; [cbn; lia|]. split; [constructor|]. split; [exact Hk|].
      rewrite X. cbn [reps_calls flat_map app]. rewrite N.add_0_l, <- app_assoc. reflexivity.
Qed.
End Loop.
