(** * Property theorems: panics of hooks in histories of the parallel build (C134) *)
From Coq Require Import List Bool ZArith NArith Arith Lia Permutation.
From Verif Require Import F32 F32Facts SchedModel SchedSpec SchedProofs SchedStep SchedTime SchedExamples
  Merge ParModel ParSpec ParProofs ParHistModel FaultModel FaultSpec FaultProofs HookModel HookSpec HookProps HookHistModel.
Import ListNotations.

Section Proofs.
Context {A S : Type}.
Implicit Types (hu : huser A S) (sc : sched A) (w : world A S).
Definition pkeeps sc w (sc' : sched A) (w' : world A S) : Prop :=
  (unique_ids (s_events sc) -> unique_ids (s_events sc')) /\
  exists new, w_trace w' = w_trace w ++ new /\
    (unique_ids (s_events sc) -> forall id, ~ In (CAgentStopped id true) new -> repeats id sc -> repeats id sc').
Lemma pkeeps_trans sc1 w1 sc2 w2 sc3 w3 : pkeeps sc1 w1 sc2 w2 -> pkeeps sc2 w2 sc3 w3 -> pkeeps sc1 w1 sc3 w3.
Proof.
  intros (U1 & n1 & T1 & K1) (U2 & n2 & T2 & K2). split; [auto|]. exists (n1 ++ n2). split; [rewrite T2, T1, app_assoc; reflexivity|].
  intros U id N R. apply (K2 (U1 U)); [|apply (K1 U); [|exact R]]; intros X; apply N; apply in_or_app; auto.
Qed.
Lemma pkeeps_refl sc w : pkeeps sc w sc w.
Proof. split; [auto|]. exists []. rewrite app_nil_r. auto. Qed.
Lemma pupdate_keeps hu n sc w w' p : hcall_update hu n w = (w', p) -> pkeeps sc w sc w'.
Proof. unfold hcall_update. destruct (h_update hu n (w_st w)). intros H. injection H as <- <-. split; [auto|]. exists [CUpdate n]. split; [reflexivity|auto]. Qed.
Lemma pop_keep id sc (o : sop A) : has id (s_events sc) -> has id (s_events (fst (par_do_op sc o))).
Proof.
  intros H. destruct o; cbn [par_do_op fst]; try exact H.
  - apply push_keep. exact H.
  - unfold schedule_repeating. pose proof (push_keep id (AI (s_ids sc) ag true) (Prio t o) (s_events sc) H) as K. destruct (pq_push _ _ _). exact K.
Qed.
Lemma prun_keep {X} id (p : hprog A X) : forall sc sc' x log, par_run_hprog p sc = (sc', x, log) -> has id (s_events sc) -> has id (s_events sc').
Proof.
  induction p as [x|o k IH]; intros sc sc' y log H Hs; cbn in H.
  - injection H as <- <- <-. exact Hs.
  - pose proof (pop_keep id sc o Hs) as K. destruct (par_do_op sc o) as [sc1 r]. cbn [fst] in K.
    destruct (par_run_hprog (k r) sc1) as [[sc2 z] l] eqn:E. injection H as <- <- <-. exact (IH _ _ _ _ _ E K).
Qed.
Lemma phook_keeps q tag sc w sc' w' p : hcall par_run_hprog q tag sc w = (sc', w', p) -> pkeeps sc w sc' w'.
Proof.
  unfold hcall. destruct (par_run_hprog q sc) as [[sc1 [s1 b]] log] eqn:E. intros H. injection H as <- <- <-. split.
  - exact (proj1 (par_run_hprog_unique _ _ _ _ _ E)).
  - exists (tag :: api log). split; [reflexivity|]. intros U id N R. exact (prun_keep id _ _ _ _ _ E R).
Qed.
Lemma pfinish_keeps hu sc w sc' w' f : hfinish hu par_run_hprog sc w = (sc', w', f) -> pkeeps sc w sc' w'.
Proof.
  unfold hfinish. destruct (hcall par_run_hprog (h_after hu (w_st w)) CStateAfter sc w) as [[sc1 w1] b] eqn:E. apply phook_keeps in E.
  destruct b; [intros H; injection H as <- <- <-; exact E|]. destruct (hcall_update hu _ w1) as [w2 p] eqn:U.
  intros H. injection H as <- <- <-. apply (pupdate_keeps _ _ sc1) in U. apply (pkeeps_trans _ _ _ _ _ _ E U).
Qed.
(** The threads of a step whose agents do not panic. *)
Lemma workers_keep fu n ch i inter sc w fc now : n <> O ->
  fc = fexec fu inter (fstart (Sched (s_step sc) now [] (s_ids sc)) w (batches n (pop_all (length (s_events sc)) ch i (s_events sc)))) ->
  finished (fc_conf fc) = true -> fc_poisonS fc = false -> pkeeps sc w (c_sc (fc_conf fc)) (c_w (fc_conf fc)).
Proof.
  intros N Efc Fin Po. set (sc2 := Sched (s_step sc) now [] (s_ids sc)) in *. set (l := pop_all _ _ _ _) in *.
  destruct (start_sound sc2 w (batches n l)) as [(H1 & H2 & H3)|B].
  2:{ destruct B as (_ & B & _). discriminate. }
  destruct (fexec_sim fu (u_of fu) inter (u_of_same fu) _ H1 H2 H3) as [(_ & E & _)|(B & _)].
  2:{ rewrite <- Efc in B. destruct B as (_ & B & _). congruence. }
  rewrite <- Efc in E. cbn [fstart fc_conf] in E.
  destruct (exec_serial (u_of fu) (batches n l) sc2 w inter) as (order & M & R); [rewrite <- E; exact Fin|]. rewrite <- E in R.
  assert (P : unique_ids (s_events sc) -> Permutation (s_events sc) order).
  { intros U. transitivity l; [apply pop_all_spec; [exact U|lia]|]. rewrite <- (merge_perm _ _ M). symmetry. apply (batches_perm_from n N l 0). }
  assert (D : unique_ids (s_events sc) -> unique_ids (order ++ s_events sc2)).
  { intros U. cbn [sc2 s_events]. rewrite app_nil_r. eapply unique_ids_perm; [exact (P U)|exact U]. }
  pose proof (run_items_prefix (u_of fu) order sc2 w) as Pre. rewrite R in Pre. destruct Pre as (new & T). cbn [snd] in T.
  split.
  - intros U. destruct (run_items_turns _ _ _ _ _ _ (D U) R) as (backs & tr & _ & _ & _ & _ & _ & U' & _). exact U'.
  - exists new. split; [exact T|]. intros U id Ns (e & Hi & He & Re).
    destruct (run_items_turns _ _ _ _ _ _ (D U) R) as (backs & tr & Ts & _ & _ & _ & Ev & _ & Sc & Tr).
    assert (tr = new) as -> by (rewrite T in Tr; apply app_inv_head in Tr; auto).
    subst id. destruct (stopped_back _ _ _ Sc e (Permutation_in e (P U) Hi) Re Ns) as (b & B1 & B2).
    exists b. rewrite Ev. split; [apply in_or_app; right; exact B1|]. split; [exact B2|exact (turns_rep _ _ _ _ _ Ts b B1)].
Qed.
Lemma pstep_keeps hu n ch inter sc w sc' w' f : hpar_step hu n ch inter sc w = HLeft sc' w' f -> pkeeps sc w sc' w'.
Proof.
  unfold hpar_step. destruct (hfirst hu sc w) as [w0 p0] eqn:E0.
  assert (K0 : pkeeps sc w sc w0).
  { unfold hfirst in E0. destruct (s_step sc =? 0)%N; [eapply pupdate_keeps; exact E0|injection E0 as <- <-; apply pkeeps_refl]. }
  destruct p0; [intros H; injection H as <- <- <-; exact K0|].
  destruct (hcall par_run_hprog (h_before hu (w_st w0)) CStateBefore sc w0) as [[sc1 w1] p1] eqn:E1. apply phook_keeps in E1.
  pose proof (pkeeps_trans _ _ _ _ _ _ K0 E1) as K1.
  destruct p1; [intros H; injection H as <- <- <-; exact K1|].
  destruct (pq_peek (ch 0) (s_events sc1)) as [e0|]; [|discriminate]. destruct n as [|n]; [discriminate|].
  destruct (finished _) eqn:Fin; [|discriminate]. destruct (fc_poisonS _) eqn:Po; [discriminate|].
  match goal with |- context[hfinish hu par_run_hprog ?a ?b] => destruct (hfinish hu par_run_hprog a b) as [[sc3 w3] g] eqn:E3 end.
  intros H. injection H as <- <- <-. apply pfinish_keeps in E3.
  eapply pkeeps_trans; [exact K1|]. eapply pkeeps_trans; [|exact E3].
  eapply workers_keep; [|reflexivity|exact Fin|exact Po]. discriminate.
Qed.
Lemma pacts_keep hu xs : forall sc w fs sc' w' fs', hpar_acts hu xs (sc, w, fs) = Some (sc', w', fs') -> pkeeps sc w sc' w'.
Proof.
  induction xs as [|x xs IH]; intros sc w fs sc' w' fs' H; cbn [hpar_acts] in H.
  - injection H as <- <- <-. apply pkeeps_refl.
  - destruct (hpar_act hu x (sc, w, fs)) as [[[sc1 w1] fs1]|] eqn:E; [|discriminate]. apply IH in H. eapply pkeeps_trans; [|exact H].
    unfold hpar_act in E. destruct x as [o|n ch inter].
    + pose proof (fun id => pop_keep id sc o) as OK. pose proof (par_do_op_unique sc o) as DU.
      destruct (par_do_op sc o) as [sc2 r]. injection E as <- <- <-. split; [exact DU|]. exists [CApi o r]. split; [reflexivity|].
      intros U id N R. apply OK. exact R.
    + destruct (hpar_step hu n ch inter sc w) as [| | | |sc2 w2 f] eqn:E2; try discriminate. injection E as <- <- <-. exact (pstep_keeps _ _ _ _ _ _ _ _ _ E2).
Qed.
End Proofs.

(** In every history of the parallel build - any calls, numbers of threads and
    interleavings, and any panics of hooks on the way - a repeating agent stays scheduled
    until it says that it is stopped. *)
Theorem C134_parallel_nobody_lost : forall A S (hu : huser A S) xs sc w fs sc' w' fs',
  unique_ids (s_events sc) -> hpar_acts hu xs (sc, w, fs) = Some (sc', w', fs') ->
  exists new, w_trace w' = w_trace w ++ new /\
    forall id, ~ In (CAgentStopped id true) new -> repeats id sc -> repeats id sc'.
Proof.
  intros A S hu xs sc w fs sc' w' fs' U H. destruct (pacts_keep hu xs _ _ _ _ _ _ H) as (_ & new & T & K). exists new. split; [exact T|]. exact (K U).
Qed.
Print Assumptions C134_parallel_nobody_lost.

(** [touchy] again: seven steps with two threads; all four hooks panic, the agent stays. *)
Example C134_parallel_history_concrete :
  exists sc w, hpar_acts touchy (PApi (OpRepeating 5%N f0 0) :: repeat (PStepping 2 ch0 (repeat 0%nat 9)) 7) (sched_new, World 0%N [], [])
               = Some (sc, w, [AtFirstUpdate; AtAfter; AtBefore; AtUpdate]) /\
    repeats 0 sc /\ ~ In (CAgentStopped 0 true) (w_trace w) /\ s_step sc = 4%N.
Proof.
  do 2 eexists. split; [vm_compute; reflexivity|]. split; [eexists; split; [left; reflexivity|split; reflexivity]|].
  split; [intros H; cbn in H; intuition discriminate|reflexivity].
Qed.
