(** * Property theorems: [check_reproducibility!] (C84) *)
From Coq Require Import List Bool Arith ZArith NArith Lia.
From Verif Require Import F32 SchedModel SimModel ReproModel.
Import ListNotations.
Local Open Scope nat_scope.

Section Proofs.
Context {A S : Type}.
(** The observed calls do not influence an execution. *)
Lemma step_state (u : user A S) ch sc w t : let r1 := step u ch sc w in let r2 := step u ch sc (World (w_st w) t) in
  fst r1 = fst r2 /\ w_st (snd r1) = w_st (snd r2).
Proof.
  cbv zeta. assert (AG : forall f tag a (w : world A S) t, fst (call_agent f tag a w) = fst (call_agent f tag a (World (w_st w) t)) /\
      w_st (snd (call_agent f tag a w)) = w_st (snd (call_agent f tag a (World (w_st w) t)))).
  { intros. unfold call_agent. cbn. destruct (f _ _). split; reflexivity. }
  assert (IT : forall sc (w : world A S) e t, fst (run_item u sc w e) = fst (run_item u sc (World (w_st w) t) e) /\
      w_st (snd (run_item u sc w e)) = w_st (snd (run_item u sc (World (w_st w) t) e))).
  { intros. unfold run_item, call_agent, call_stopped. cbn. destruct (a_before u _ _) as [x1 s1]. cbn. destruct (a_step u _ _) as [x2 s2]. cbn. destruct (a_after u _ _) as [x3 s3]. cbn.
    destruct (ai_rep _); [|split; reflexivity]. destruct (a_stopped u _ _) as [[|] [x4 s4]]; split; reflexivity. }
  assert (ITS : forall es sc (w : world A S) t, fst (run_items u sc w es) = fst (run_items u sc (World (w_st w) t) es) /\
      w_st (snd (run_items u sc w es)) = w_st (snd (run_items u sc (World (w_st w) t) es))).
  { induction es as [|e es IH]; intros sc0 w0 t0; [split; reflexivity|]. cbn. destruct (IT sc0 w0 e t0) as [E1 E2].
    destruct (run_item u sc0 w0 e) as [sc1 w1]. destruct (run_item u sc0 (World (w_st w0) t0) e) as [sc2 [s2 t2]]. cbn in E1, E2. subst. apply IH. }
  assert (FI : forall sc (w : world A S) t, fst (finish_step u sc w) = fst (finish_step u sc (World (w_st w) t)) /\
      w_st (snd (finish_step u sc w)) = w_st (snd (finish_step u sc (World (w_st w) t)))).
  { intros. unfold finish_step, call_after. cbn. destruct (run_hprog _ _) as [[a b] c]. split; reflexivity. }
  unfold step.
  set (w0 := if (s_step sc =? 0)%N then call_update u (s_step sc) w else w).
  set (w0' := if (s_step sc =? 0)%N then call_update u (s_step sc) (World (w_st w) t) else World (w_st w) t).
  assert (E0 : w_st w0 = w_st w0') by (subst w0 w0'; destruct (_ =? _)%N; reflexivity). clearbody w0 w0'.
  unfold call_before. rewrite E0. destruct (run_hprog (u_before u (w_st w0')) sc) as [[sc1 s1] log1].
  set (w1 := World s1 (w_trace w0 ++ CStateBefore :: api log1)). set (w1' := World s1 (w_trace w0' ++ CStateBefore :: api log1)).
  destruct (pq_peek _ _) as [e0|].
  - destruct (pop_due _ _ _ _ _) as [due rest]. destruct (ITS due (Sched (s_step sc1) (ev_time e0) rest (s_ids sc1)) w1 (w_trace w1')) as [X Y].
    change (World (w_st w1) (w_trace w1')) with w1' in X, Y.
    destruct (run_items u _ w1 due) as [sc3 w3]. destruct (run_items u _ w1' due) as [sc4 [s4 t4]]. cbn in X, Y. subst. apply FI.
  - exact (FI sc1 w1 (w_trace w1')).
Qed.
Lemma exec_state (u : user A S) chs n : forall i sc w t, fst (exec_loop u chs i n sc w) = fst (exec_loop u chs i n sc (World (w_st w) t)) /\
  w_st (snd (exec_loop u chs i n sc w)) = w_st (snd (exec_loop u chs i n sc (World (w_st w) t))).
Proof.
  induction n as [|n IH]; intros i sc w t; [split; reflexivity|]. cbn [exec_loop]. destruct (step_state u (chs i) sc w t) as [E1 E2].
  destruct (step u (chs i) sc w) as [sc1 w1]. destruct (step u (chs i) sc (World (w_st w) t)) as [sc2 w2]. cbn in E1, E2. subst sc2.
  unfold call_end. rewrite <- E2. destruct (run_hprog (u_end u (w_st w1)) sc1) as [[sc3 [b s3]] log]. destruct b; [split; reflexivity|].
  destruct (IH (Datatypes.S i) sc3 (World s3 (w_trace w1 ++ CEnd false :: api log)) (w_trace w2 ++ CEnd false :: api log)) as [X Y]. cbn [w_st] in X, Y.
  destruct (exec_loop u chs (Datatypes.S i) n sc3 (World s3 (w_trace w1 ++ _))) as [l1 w3]. destruct (exec_loop u chs (Datatypes.S i) n sc3 (World s3 (w_trace w2 ++ _))) as [l2 w4].
  cbn in X, Y |- *. split; congruence.
Qed.
Lemma execution_state (u : user A S) chs n s t t' : fst (execution u chs n (World s t)) = fst (execution u chs n (World s t')).
Proof.
  unfold execution, call_init. cbn. destruct (run_hprog (u_init u s) sched_new) as [[sc s1] log].
  destruct (exec_state u chs n 0 sc (World s1 (t ++ CInit :: api log)) (t' ++ CInit :: api log)) as [X _]. cbn [w_st] in X.
  destruct (exec_loop u chs 0 n sc (World s1 (t ++ _))). destruct (exec_loop u chs 0 n sc (World s1 (t' ++ _))). cbn in X |- *. congruence.
Qed.
Lemma compare_refl ty listed equals (e : list (list A)) : (forall a, equals a a = true) -> compare_runs ty listed equals e e = Some true.
Proof.
  intros R. induction e as [|x e IH]; [reflexivity|]. cbn. rewrite Nat.eqb_refl. replace (same_agents ty listed equals x x) with true; [exact IH|]. symmetry.
  apply forallb_forall. intros [a b] H. assert (a = b) as ->. { clear - H. induction x as [|y x IH]; [destruct H|]. destruct H as [H|H]; [congruence|exact (IH H)]. }
  apply forallb_forall. intros t _. cbn. destruct (_ && _); [apply R|reflexivity].
Qed.
Lemma compare_inv ty listed equals : forall e1 e2 : list (list A), compare_runs ty listed equals e1 e2 = Some true ->
  forall i x, nth_error e1 i = Some x -> exists y, nth_error e2 i = Some y /\ length x = length y /\
    forall j a b, nth_error x j = Some a -> nth_error y j = Some b -> In (ty a) listed -> ty b = ty a -> equals a b = true.
Proof.
  induction e1 as [|x e1 IH]; intros [|y e2] H i z E; try (destruct i; discriminate); try discriminate.
  cbn in H. destruct (length x =? length y) eqn:L; [|discriminate]. apply Nat.eqb_eq in L. destruct (same_agents ty listed equals x y) eqn:SA; [|discriminate].
  destruct i as [|i]; [|exact (IH e2 H i z E)]. cbn in E. injection E as <-. exists y. split; [reflexivity|]. split; [exact L|].
  intros j a b Ha Hb Il T. unfold same_agents in SA. rewrite forallb_forall in SA. specialize (SA (a, b)).
  assert (C : In (a, b) (combine x y)). { clear - Ha Hb. revert y j Ha Hb. induction x as [|a' x IH]; intros [|b' y] [|j] Ha Hb; try discriminate; cbn in *; [left; congruence|right; eauto]. }
  specialize (SA C). rewrite forallb_forall in SA. specialize (SA _ Il). cbn in SA. rewrite T, Nat.eqb_refl in SA. exact SA.
Qed.
End Proofs.

(** ** C84: the verdict of [check_reproducibility!] *)

(** A model whose [reset] brings back the state the check started with is always found
    reproducible, and the check does not panic. *)
Theorem C84_complete : forall A S (u : user A S) reset chs n ty listed equals s,
  (forall a, equals a a = true) ->
  reset (w_st (snd (execution u chs n (World s [])))) = s ->
  check_repro u reset chs n ty listed equals s = Some true.
Proof.
  intros A S u reset chs n ty listed equals s R E. unfold check_repro. destruct (execution u chs n (World s [])) as [e1 w1] eqn:X. cbn in E. rewrite E.
  pose proof (execution_state u chs n s [] (w_trace w1)) as Y. rewrite X in Y. destruct (execution u chs n (World s (w_trace w1))) as [e2 w2]. cbn in Y. subst. apply compare_refl, R.
Qed.
Print Assumptions C84_complete.

(** When the executions are found equal, at every step of the first one the second has as
    many agents, and the agents at the same place are equal.  Partial: only if both have
    the same type, given to the macro. *)
Theorem C84_sound_partial : forall A S (u : user A S) reset chs n ty listed equals s,
  check_repro u reset chs n ty listed equals s = Some true ->
  let (e1, w1) := execution u chs n (World s []) in
  let (e2, _) := execution u chs n (World (reset (w_st w1)) (w_trace w1)) in
  forall i x, nth_error e1 i = Some x -> exists y, nth_error e2 i = Some y /\ length x = length y /\
    forall j a b, nth_error x j = Some a -> nth_error y j = Some b -> In (ty a) listed -> ty b = ty a -> equals a b = true.
Proof.
  intros A S u reset chs n ty listed equals s H. unfold check_repro in H. destruct (execution u chs n (World s [])) as [e1 w1].
  destruct (execution u chs n (World (reset (w_st w1)) (w_trace w1))) as [e2 w2]. exact (compare_inv ty listed equals e1 e2 H).
Qed.
Print Assumptions C84_sound_partial.

(** What is compared: the agents scheduled after [init] and after each step, up to the
    step after which [end_condition] holds. *)
Inductive recorded {A S} (u : user A S) (chs : nat -> nat -> nat) (n : nat) : nat -> sched A -> world A S -> list (list A) -> Prop :=
| rec_all i sc w : i = n -> recorded u chs n i sc w []
| rec_end i sc w sc1 w1 r : i < n -> step u (chs i) sc w = (sc1, w1) -> call_end u sc1 w1 = (true, r) ->
    recorded u chs n i sc w [get_all_events sc1]
| rec_step i sc w sc1 w1 sc2 w2 l : i < n -> step u (chs i) sc w = (sc1, w1) -> call_end u sc1 w1 = (false, (sc2, w2)) ->
    recorded u chs n (Datatypes.S i) sc2 w2 l -> recorded u chs n i sc w (get_all_events sc1 :: l).
Theorem C84_recorded : forall A S (u : user A S) chs n w,
  exists sc w1 l, call_init u sched_new w = (sc, w1) /\ recorded u chs n 0 sc w1 l /\
    fst (execution u chs n w) = get_all_events sc :: l /\ w_st (snd (execution u chs n w)) = w_st (snd (sim_rep u chs n w)).
Proof.
  intros A S u chs n w. unfold execution, sim_rep. destruct (call_init u sched_new w) as [sc w1]. exists sc, w1.
  assert (G : forall k i sc w, i + k = n -> recorded u chs n i sc w (fst (exec_loop u chs i k sc w)) /\
    snd (exec_loop u chs i k sc w) = snd (sim_loop u chs i k sc w)).
  { induction k as [|k IH]; intros i sc0 w0 E; [split; [apply rec_all; lia|reflexivity]|]. cbn.
    destruct (step u (chs i) sc0 w0) as [sc2 w2] eqn:Es. destruct (call_end u sc2 w2) as [b [sc3 w3]] eqn:Ec.
    destruct b; [split; [cbn; apply (rec_end u chs n i sc0 w0 sc2 w2 (sc3, w3)); [lia|assumption|assumption]|reflexivity]|].
    destruct (IH (Datatypes.S i) sc3 w3 ltac:(lia)) as [X Y]. destruct (exec_loop u chs (Datatypes.S i) k sc3 w3) as [l w4]. cbn in *. split; [|exact Y].
    apply (rec_step u chs n i sc0 w0 sc2 w2 sc3 w3 l); [lia|assumption|assumption|exact X]. }
  destruct (G n 0 sc w1 eq_refl) as [X Y]. destruct (exec_loop u chs 0 n sc w1) as [l w2]. exists l. cbn in *. repeat split; [exact X|congruence].
Qed.
Print Assumptions C84_recorded.

(** One agent that holds the state's number and never changes; state 1 ends after a step. *)
Definition repro_demo : user nat nat :=
  User (fun s => HCall (OpRepeating s f0 0) (fun _ => HRet s)) (fun _ s => s) (fun s => HRet s) (fun s => HRet s) (fun s => HRet (s =? 1, s))
       (fun a s => (a, s)) (fun a s => (a, s)) (fun a s => (a, s)) (fun a s => (false, (a, s))).

(** Executions with different agents (of different types) and different lengths are found
    equal: the agents of one execution are 1, those of the other are 2. *)
Theorem C84_sound_refuted : exists e1 e2 w1 w2,
  execution repro_demo (fun _ _ => 0) 3 (World 1 []) = (e1, w1) /\
  execution repro_demo (fun _ _ => 0) 3 (World 2 (w_trace w1)) = (e2, w2) /\
  e1 = [[1]; [1]] /\ e2 = [[2]; [2]; [2]; [2]] /\
  check_repro repro_demo (fun _ => 2) (fun _ _ => 0) 3 (fun a => a) [1; 2] Nat.eqb 1 = Some true.
Proof. eexists _, _, _, _. split; [vm_compute; reflexivity|]. split; [vm_compute; reflexivity|]. split; [reflexivity|]. split; [reflexivity|]. vm_compute. reflexivity. Qed.
Print Assumptions C84_sound_refuted.

(** When the second execution is shorter the check panics instead of giving a verdict. *)
Theorem C84_shorter_refuted : check_repro repro_demo (fun _ => 1) (fun _ _ => 0) 3 (fun _ => 0) [1] Nat.eqb 2 = None.
Proof. vm_compute. reflexivity. Qed.
Print Assumptions C84_shorter_refuted.

Example C84_concrete : w_st (snd (execution repro_demo (fun _ _ => 0) 3 (World 2 []))) = 2 /\
  check_repro repro_demo (fun s => s) (fun _ _ => 0) 3 (fun _ => 0) [0] Nat.eqb 2 = Some true /\
  check_repro repro_demo (fun _ => 5) (fun _ _ => 0) 3 (fun _ => 0) [0] Nat.eqb 2 = Some false.
Proof. vm_compute. auto. Qed.
