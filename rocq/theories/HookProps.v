(** * Property theorems: panics of the hooks of the state (C134) *)
From Coq Require Import List Bool ZArith NArith Arith Lia Permutation.
From Verif Require Import F32 F32Facts SchedModel SchedSpec SchedProofs SchedStep SchedTime SchedExamples
  Merge ParModel ParSpec ParProofs FaultModel FaultSpec FaultProofs HookModel HookSpec.
Import ListNotations.

Section Proofs.
Context {A S : Type}.
Implicit Types (hu : huser A S) (sc : sched A) (w : world A S).

Lemma returning_run (p : hprog A (S * bool)) : forall sc sc' s b log,
  run_hprog p sc = (sc', (s, b), log) -> run_hprog (returning p) sc = (sc', s, log).
Proof.
  induction p as [x|o k IH]; intros sc sc' s b log H; cbn in *.
  - injection H as <- -> <-. reflexivity.
  - destruct (do_op sc o) as [sc1 r]. destruct (run_hprog (k r) sc1) as [[sc2 [s2 b2]] l2] eqn:E.
    injection H as <- <- <- <-. rewrite (IH _ _ _ _ _ _ E). reflexivity.
Qed.
Lemma returning_par_run (p : hprog A (S * bool)) : forall sc sc' s b log,
  par_run_hprog p sc = (sc', (s, b), log) -> par_run_hprog (returning p) sc = (sc', s, log).
Proof.
  induction p as [x|o k IH]; intros sc sc' s b log H; cbn in *.
  - injection H as <- -> <-. reflexivity.
  - destruct (par_do_op sc o) as [sc1 r]. destruct (par_run_hprog (k r) sc1) as [[sc2 [s2 b2]] l2] eqn:E.
    injection H as <- <- <- <-. rewrite (IH _ _ _ _ _ _ E). reflexivity.
Qed.

Lemma hupdate_calm hu n w w' p : hcall_update hu n w = (w', p) -> call_update (f_base (calm hu)) n w = w'.
Proof. unfold hcall_update, call_update. cbn. destruct (h_update hu n (w_st w)). intros H. injection H as <- <-. reflexivity. Qed.
Lemma hfirst_calm hu sc w w0 p : hfirst hu sc w = (w0, p) ->
  (if N.eqb (s_step sc) 0 then call_update (f_base (calm hu)) (s_step sc) w else w) = w0.
Proof. unfold hfirst. destruct (s_step sc =? 0)%N; [apply hupdate_calm|congruence]. Qed.
Lemma hbefore_calm hu sc w sc' w' p : hcall run_hprog (h_before hu (w_st w)) CStateBefore sc w = (sc', w', p) ->
  call_before (f_base (calm hu)) sc w = (sc', w').
Proof.
  unfold hcall, call_before. cbn. destruct (run_hprog (h_before hu (w_st w)) sc) as [[sc1 [s1 b]] log] eqn:E. intros H. injection H as <- <- <-.
  rewrite (returning_run _ _ _ _ _ _ E). reflexivity.
Qed.
Lemma frun_items_calm hu es : forall sc w, frun_items (calm hu) sc w es = frun_items (h_agents hu) sc w es.
Proof. induction es as [|e es IH]; intros sc w; cbn [frun_items]; [reflexivity|].
  change (frun_item (calm hu) sc w e) with (frun_item (h_agents hu) sc w e).
  destruct (frun_item (h_agents hu) sc w e) as [[sc' w'] [f|]]; [reflexivity|apply IH]. Qed.
Lemma fexec_calm hu inter : forall fc, fexec (calm hu) inter fc = fexec (h_agents hu) inter fc.
Proof. induction inter as [|t l IH]; intros fc; cbn [fexec]; [reflexivity|].
  change (fmicro (calm hu) t fc) with (fmicro (h_agents hu) t fc). destruct (fmicro (h_agents hu) t fc); apply IH. Qed.

Lemma run_step_const {X} (p : hprog A X) : forall sc sc' x log, run_hprog p sc = (sc', x, log) -> s_step sc' = s_step sc /\ s_time sc' = s_time sc.
Proof. intros sc sc' x log H. destruct (run_hprog_const _ _ _ _ _ H) as [H1 H2]. tauto. Qed.

(** The end of the step. *)
Definition ended hu sc w (sc' : sched A) (w' : world A S) (f : option hsite) (fin : sched A * world A S) : Prop :=
  match f with
  | None | Some AtUpdate => fin = (sc', w')
  | Some AtAfter => fin = (Sched (u64_succ (s_step sc')) (s_time sc') (s_events sc') (s_ids sc'),
                           call_update (f_base (calm hu)) (u64_succ (s_step sc')) w') /\ s_step sc' = s_step sc
  | _ => False
  end.
Lemma hfinish_calm hu sc w sc' w' f : hfinish hu run_hprog sc w = (sc', w', f) ->
  ended hu sc w sc' w' f (finish_step (f_base (calm hu)) sc w).
Proof.
  unfold hfinish, hcall, finish_step, call_after. destruct (run_hprog (h_after hu (w_st w)) sc) as [[sc1 [s1 b]] log] eqn:E.
  change (u_after (f_base (calm hu)) (w_st w)) with (returning (h_after hu (w_st w))).
  rewrite (returning_run _ _ _ _ _ _ E). destruct b.
  - intros H. injection H as <- <- <-. cbn [ended]. split; [reflexivity|]. apply (run_step_const _ _ _ _ _ E).
  - destruct (hcall_update hu _ _) as [w2 p] eqn:U. intros H. injection H as <- <- <-. rewrite (hupdate_calm _ _ _ _ _ U).
    destruct p; reflexivity.
Qed.
Lemma par_hfinish_calm hu sc w sc' w' f : hfinish hu par_run_hprog sc w = (sc', w', f) ->
  ended hu sc w sc' w' f
    (let '(sc3, s3, log3) := par_run_hprog (u_after (f_base (calm hu)) (w_st w)) sc in
     let w3 := World s3 (w_trace w ++ CStateAfter :: api log3) in
     let k := u64_succ (s_step sc3) in
     (Sched k (s_time sc3) (s_events sc3) (s_ids sc3), call_update (f_base (calm hu)) k w3)).
Proof.
  unfold hfinish, hcall. destruct (par_run_hprog (h_after hu (w_st w)) sc) as [[sc1 [s1 b]] log] eqn:E.
  change (u_after (f_base (calm hu)) (w_st w)) with (returning (h_after hu (w_st w))).
  rewrite (returning_par_run _ _ _ _ _ _ E). destruct b.
  - intros H. injection H as <- <- <-. cbn [ended]. split; [reflexivity|]. apply (par_hprog_step _ _ _ _ _ E).
  - destruct (hcall_update hu _ _) as [w2 p] eqn:U. intros H. injection H as <- <- <-. rewrite (hupdate_calm _ _ _ _ _ U).
    destruct p; reflexivity.
Qed.
Lemma frun_items_step fu es : forall sc w sc' w' o, @frun_items A S fu sc w es = (sc', w', o) -> s_step sc' = s_step sc.
Proof.
  induction es as [|e es IH]; intros sc w sc' w' o; cbn [frun_items].
  - intros H. injection H as <- <- <-. reflexivity.
  - destruct (frun_item fu sc w e) as [[sc1 w1] o1] eqn:E. assert (K : s_step sc1 = s_step sc).
    { unfold frun_item in E. repeat (match type of E with context [match ?x with _ => _ end] => destruct x end); injection E as <- <- <-; reflexivity. }
    destruct o1 as [f|]; [intros H; injection H as <- <- <-; exact K|]. intros H. rewrite (IH _ _ _ _ _ H). exact K.
Qed.

(** ** Nobody is lost *)
Definition has (id : N) (q : list (event A)) : Prop := exists e, In e q /\ ev_id e = id /\ ai_rep (fst e) = true.
Lemma push_keep id a p (q : list (event A)) : has id q -> has id (fst (pq_push a p q)).
Proof.
  intros (e & H & E & R). assert (K : exists e', In e' (fst (pq_push a p q)) /\ fst e' = fst e).
  { clear E R. induction q as [|[b pb] q IH]; [destruct H|]. cbn [pq_push]. destruct (ai_id b =? ai_id a)%N.
    - cbn [fst]. destruct H as [<-|H]; [exists (b, p); split; [left; reflexivity|reflexivity]|exists e; split; [right; exact H|reflexivity]].
    - destruct H as [<-|H].
      + exists (b, pb). destruct (pq_push a p q). split; [left; reflexivity|reflexivity].
      + destruct (IH H) as (e' & I1 & I2). exists e'. destruct (pq_push a p q). split; [right; exact I1|exact I2]. }
  destruct K as (e' & K1 & K2). exists e'. unfold ev_id. rewrite K2. auto.
Qed.
Lemma remove_keep id i (q : list (event A)) : i <> id -> has id q -> has id (fst (pq_remove i q)).
Proof.
  intros N (e & H & E & R). exists e. split; [|auto]. clear R. induction q as [|x q IH]; [destruct H|]. cbn [pq_remove].
  destruct (N.eqb_spec (ev_id x) i) as [Hx|Hx].
  - cbn [fst]. destruct H as [->|H]; [congruence|exact H].
  - destruct H as [->|H]; [destruct (pq_remove i q); left; reflexivity|]. specialize (IH H). destruct (pq_remove i q). right. exact IH.
Qed.
Lemma op_keep id sc o : o <> OpDequeue id -> has id (s_events sc) -> has id (s_events (fst (do_op sc o))).
Proof.
  intros N H. destruct o; cbn [do_op fst]; try exact H.
  - apply push_keep. exact H.
  - unfold schedule_repeating. pose proof (push_keep id (AI (s_ids sc) ag true) (Prio t o) (s_events sc) H) as K. destruct (pq_push _ _ _). exact K.
  - unfold distributed_schedule_repeating. pose proof (push_keep id (AI (s_ids sc) ag true) (Prio t o) (s_events sc) H) as K. destruct (pq_push _ _ _). exact K.
  - unfold dequeue. pose proof (remove_keep id id0 (s_events sc) ltac:(congruence) H) as K. destruct (pq_remove _ _). exact K.
Qed.
Lemma run_keep {X} id (p : hprog A X) : forall sc sc' x log, run_hprog p sc = (sc', x, log) ->
  (forall r, ~ In (CApi (OpDequeue id) r) (api log)) -> has id (s_events sc) -> has id (s_events sc').
Proof.
  induction p as [x|o k IH]; intros sc sc' y log H N Hs; cbn in H.
  - injection H as <- <- <-. exact Hs.
  - pose proof (op_keep id sc o) as K. destruct (do_op sc o) as [sc1 r]. cbn [fst] in K.
    destruct (run_hprog (k r) sc1) as [[sc2 z] l] eqn:E. injection H as <- <- <-.
    apply (IH _ _ _ _ _ E).
    + intros r' Hr. apply (N r'). right. exact Hr.
    + apply K; [|exact Hs]. intros ->. apply (N r). left. reflexivity.
Qed.

(** A program without panics that agrees with the agents. *)
Definition u_of (fu : fuser A S) : user A S :=
  let b := f_base fu in
  let g {R} (f : A -> S -> result A S R) (a : A) (s : S) : A * S := match f a s with Returns _ a' s' => (a', s') | Panics s' => (a, s') end in
  User (u_init b) (u_update b) (u_before b) (u_after b) (u_end b) (g (f_before fu)) (g (f_step fu)) (g (f_after fu))
    (fun a s => match f_stopped fu a s with Returns r a' s' => (r, (a', s')) | Panics s' => (true, (a, s')) end).
Lemma u_of_same fu : same_until_panic fu (u_of fu).
Proof. repeat split; intros a s r a' s' H; cbn; rewrite H; reflexivity. Qed.

Lemma turns_rep u es s backs s' : @turns A S u es s backs s' -> forall b, In b backs -> ai_rep (fst b) = true.
Proof.
  induction 1; intros x Hx; [destruct Hx|auto|]. destruct Hx as [<-|Hx]; [|auto]. exact (proj2 (turn_rep _ _ _ _ _ H)).
Qed.
Lemma stopped_back es backs tr : @stopped_calls A es backs tr -> forall e, In e es -> ai_rep (fst e) = true ->
  ~ In (CAgentStopped (ev_id e) true) tr -> exists b, In b backs /\ ev_id b = ev_id e.
Proof.
  induction 1; intros x Hx Rx Nx; [destruct Hx| | |].
  - destruct Hx as [<-|Hx]; [congruence|]. apply IHstopped_calls; auto. intros K. apply Nx. apply in_or_app. right. exact K.
  - destruct Hx as [<-|Hx]; [exfalso; apply Nx; apply in_or_app; right; left; reflexivity|].
    apply IHstopped_calls; auto. intros K. apply Nx. apply in_or_app. right. right. exact K.
  - destruct Hx as [<-|Hx]; [exists b; split; [left; reflexivity|assumption]|].
    destruct (IHstopped_calls x Hx Rx) as (b' & B1 & B2); [|exists b'; split; [right; exact B1|exact B2]].
    intros K. apply Nx. apply in_or_app. right. right. exact K.
Qed.
Lemma items_keep fu es sc w sc' w' : unique_ids (es ++ s_events sc) -> frun_items fu sc w es = (sc', w', None) ->
  unique_ids (s_events sc') /\ exists new, w_trace w' = w_trace w ++ new /\
  forall id, ~ In (CAgentStopped id true) new -> has id (es ++ s_events sc) -> has id (s_events sc').
Proof.
  intros U E. pose proof (frun_items_sim fu (u_of fu) es (u_of_same fu) sc w U) as H. rewrite E in H.
  destruct (run_items_turns _ _ _ _ _ _ U H) as (backs & tr & Ts & _ & _ & _ & Ev & U' & Sc & Tr).
  split; [exact U'|]. exists tr. split; [exact Tr|]. intros id N (e & Hi & He & R). rewrite Ev. apply in_app_or in Hi. destruct Hi as [Hi|Hi].
  - subst id. destruct (stopped_back _ _ _ Sc e Hi R N) as (b & B1 & B2). exists b. split; [apply in_or_app; right; exact B1|].
    split; [exact B2|]. exact (turns_rep _ _ _ _ _ Ts b B1).
  - exists e. split; [apply in_or_app; left; exact Hi|]. auto.
Qed.

(** What one part of a step keeps. *)
Definition keeps sc w (sc' : sched A) (w' : world A S) : Prop :=
  (unique_ids (s_events sc) -> unique_ids (s_events sc')) /\
  exists new, w_trace w' = w_trace w ++ new /\
    (unique_ids (s_events sc) -> forall id, not_ended id new -> repeats id sc -> repeats id sc').
Lemma keeps_trans sc1 w1 sc2 w2 sc3 w3 : keeps sc1 w1 sc2 w2 -> keeps sc2 w2 sc3 w3 -> keeps sc1 w1 sc3 w3.
Proof.
  intros (U1 & n1 & T1 & K1) (U2 & n2 & T2 & K2). split; [auto|]. exists (n1 ++ n2). split; [rewrite T2, T1, app_assoc; reflexivity|].
  intros U id [N1 N2] R. apply (K2 (U1 U)); [|apply (K1 U); [|exact R]]; (split; [intros X; apply N1|intros r X; apply (N2 r)]); apply in_or_app; auto.
Qed.
Lemma update_keeps hu n sc w w' p : hcall_update hu n w = (w', p) -> keeps sc w sc w'.
Proof. unfold hcall_update. destruct (h_update hu n (w_st w)). intros H. injection H as <- <-. split; [auto|]. exists [CUpdate n]. split; [reflexivity|auto]. Qed.
Lemma keeps_refl sc w : keeps sc w sc w.
Proof. split; [auto|]. exists []. rewrite app_nil_r. auto. Qed.
Lemma hook_keeps q tag sc w sc' w' p : hcall run_hprog q tag sc w = (sc', w', p) -> keeps sc w sc' w'.
Proof.
  unfold hcall. destruct (run_hprog q sc) as [[sc1 [s1 b]] log] eqn:E. intros H. injection H as <- <- <-. split.
  - intros U. eapply run_hprog_unique; eauto.
  - exists (tag :: api log). split; [reflexivity|]. intros U id [_ N] R. eapply run_keep; [exact E| |exact R]. intros r X. apply (N r). right. exact X.
Qed.
Lemma finish_keeps hu sc w sc' w' f : hfinish hu run_hprog sc w = (sc', w', f) -> keeps sc w sc' w'.
Proof.
  unfold hfinish. destruct (hcall run_hprog (h_after hu (w_st w)) CStateAfter sc w) as [[sc1 w1] b] eqn:E. apply hook_keeps in E.
  destruct b; [intros H; injection H as <- <- <-; exact E|]. destruct (hcall_update hu _ w1) as [w2 p] eqn:U.
  intros H. injection H as <- <- <-. apply (update_keeps _ _ sc1) in U. apply (keeps_trans _ _ _ _ _ _ E U).
Qed.
Lemma step_keeps hu ch sc w sc' w' f : hstep hu ch sc w = (sc', w', f) -> (forall x, f <> Some (AtAgent x)) -> keeps sc w sc' w'.
Proof.
  unfold hstep. destruct (hfirst hu sc w) as [w0 p0] eqn:E0.
  assert (K0 : keeps sc w sc w0).
  { unfold hfirst in E0. destruct (s_step sc =? 0)%N; [eapply update_keeps; exact E0|injection E0 as <- <-; apply keeps_refl]. }
  destruct p0; [intros H _; injection H as <- <- <-; exact K0|].
  destruct (hcall run_hprog (h_before hu (w_st w0)) CStateBefore sc w0) as [[sc1 w1] p1] eqn:E1. apply hook_keeps in E1.
  pose proof (keeps_trans _ _ _ _ _ _ K0 E1) as K1.
  destruct p1; [intros H _; injection H as <- <- <-; exact K1|].
  destruct (pq_peek (ch 0) (s_events sc1)) as [e0|] eqn:Pk.
  - destruct (pop_due _ _ _ _ _) as [due rest] eqn:Pd.
    destruct (frun_items _ _ w1 due) as [[sc2 w2] [x|]] eqn:E2.
    + intros H N. injection H as <- <- <-. destruct (N x eq_refl).
    + intros H _. apply finish_keeps in H. eapply keeps_trans; [exact K1|]. eapply keeps_trans; [|exact H].
      assert (D : unique_ids (s_events sc1) -> unique_ids (due ++ rest)).
      { intros U1. eapply unique_ids_perm; [eapply pop_due_perm; eauto|exact U1]. }
      assert (T : exists new, w_trace w2 = w_trace w1 ++ new).
      { clear -E2. revert E2. generalize (Sched (s_step sc1) (ev_time e0) rest (s_ids sc1)). intros s E2.
        pose proof (u_of_same (h_agents hu)) as Su. revert s w1 w2 E2. induction due as [|e due IH]; intros s w1 w2 E2; cbn [frun_items] in E2.
        - injection E2 as <- <-. exists []. rewrite app_nil_r. reflexivity.
        - pose proof (frun_item_sim (h_agents hu) _ s w1 e Su) as Hi. destruct (frun_item (h_agents hu) s w1 e) as [[s1 v1] [x|]]; [discriminate|].
          apply IH in E2. destruct E2 as (n2 & ->). pose proof (run_item_prefix (u_of (h_agents hu)) s w1 e) as P. rewrite Hi in P. destruct P as (n1 & P). cbn [snd] in P.
          rewrite P. exists (n1 ++ n2). rewrite app_assoc. reflexivity. }
      split.
      * intros U1. destruct (items_keep (h_agents hu) due (Sched (s_step sc1) (ev_time e0) rest (s_ids sc1)) w1 sc2 w2 (D U1) E2) as (U2 & _). exact U2.
      * destruct T as (new & T). exists new. split; [exact T|]. intros U1 id [N _] (e & Hi & He & R).
        destruct (items_keep (h_agents hu) due (Sched (s_step sc1) (ev_time e0) rest (s_ids sc1)) w1 sc2 w2 (D U1) E2) as (_ & new' & T' & K).
        assert (new' = new) as -> by (rewrite T in T'; apply app_inv_head in T'; auto).
        apply K; [exact N|]. exists e. split; [|auto]. cbn [s_events].
        eapply Permutation_in; [eapply pop_due_perm; [exact U1|exact Pd]|exact Hi].
  - intros H _. apply finish_keeps in H. apply (keeps_trans _ _ _ _ _ _ K1 H).
Qed.
Lemma acts_keep hu xs : forall sc w fs sc' w' fs', hacts hu xs (sc, w, fs) = (sc', w', fs') ->
  exists more, fs' = fs ++ more /\ (only_hooks more -> keeps sc w sc' w').
Proof.
  induction xs as [|x xs IH]; intros sc w fs sc' w' fs' H; cbn [hacts fold_left] in H.
  - injection H as <- <- <-. exists []. split; [rewrite app_nil_r; reflexivity|]. intros _. apply keeps_refl.
  - destruct (hact hu x (sc, w, fs)) as [[sc1 w1] fs1] eqn:E. apply IH in H. destruct H as (more & -> & K). unfold hact in E. destruct x as [o|ch].
    + pose proof (fun id => op_keep id sc o) as OK. pose proof (do_op_unique sc o) as DU.
      destruct (do_op sc o) as [sc2 r]. injection E as <- <- <-. exists more. split; [reflexivity|].
      intros O. eapply keeps_trans; [|apply K; exact O]. split; [exact DU|]. exists [CApi o r]. split; [reflexivity|].
      intros U id [_ N] R. apply OK; [|exact R]. intros ->. apply (N r). left. reflexivity.
    + destruct (hstep hu ch sc w) as [[sc2 w2] f] eqn:E2. injection E as <- <- <-.
      exists ((match f with Some f => [f] | None => [] end) ++ more). split; [rewrite app_assoc; reflexivity|].
      intros O. eapply keeps_trans; [|apply K; intros x X; apply (O x); apply in_or_app; right; exact X].
      eapply step_keeps; [exact E2|]. intros x ->. apply (O x). left. reflexivity.
Qed.
End Proofs.

(** Sequential build.  [fstep (calm hu)]: the step of the same program whose hooks return
    where those of [hu] panic.
    - No panic, or one of an agent: nothing else changes (C130).
    - [update(0)]: the schedule is untouched, no agent was called.
    - [before_step]: the schedule is what the calls of the hook made of it; no agent was
      called and the step is not counted.
    - [after_step]: all agents had their turn and are scheduled as they would be; the clock has
      moved on but the step is not counted.
    - The last [update]: the step is complete. *)
Theorem C134_step : forall A S (hu : huser A S) ch sc w,
  match hstep hu ch sc w with
  | (sc', w', None) => fstep (calm hu) ch sc w = (sc', w', None)
  | (sc', w', Some (AtAgent f)) => fstep (calm hu) ch sc w = (sc', w', Some f)
  | (sc', w', Some AtFirstUpdate) =>
      s_step sc = 0%N /\ sc' = sc /\ w_trace w' = w_trace w ++ [CUpdate 0]
  | (sc', w', Some AtBefore) =>
      s_step sc' = s_step sc /\ s_time sc' = s_time sc /\
      exists s0 log, run_hprog (returning (h_before hu s0)) sc = (sc', w_st w', log) /\
        s0 = (if (s_step sc =? 0)%N then fst (h_update hu 0 (w_st w)) else w_st w) /\
        w_trace w' = w_trace w ++ (if (s_step sc =? 0)%N then [CUpdate 0] else []) ++ CStateBefore :: api log
  | (sc', w', Some AtAfter) =>
      s_step sc' = s_step sc /\
      exists sc2 w2, fstep (calm hu) ch sc w = (sc2, w2, None) /\
        s_events sc' = s_events sc2 /\ s_time sc' = s_time sc2 /\ s_ids sc' = s_ids sc2 /\ s_step sc2 = u64_succ (s_step sc') /\
        w_trace w2 = w_trace w' ++ [CUpdate (s_step sc2)] /\ w_st w2 = fst (h_update hu (s_step sc2) (w_st w'))
  | (sc', w', Some AtUpdate) => fstep (calm hu) ch sc w = (sc', w', None)
  end.
Proof.
  intros A S hu ch sc w. unfold hstep, fstep. destruct (hfirst hu sc w) as [w0 p0] eqn:E0.
  rewrite (hfirst_calm _ _ _ _ _ E0).
  assert (F0 : w_st w0 = (if (s_step sc =? 0)%N then fst (h_update hu 0 (w_st w)) else w_st w) /\
               w_trace w0 = w_trace w ++ (if (s_step sc =? 0)%N then [CUpdate 0] else [])).
  { unfold hfirst, hcall_update in E0. destruct (N.eqb_spec (s_step sc) 0) as [H|H].
    - rewrite H in E0. destruct (h_update hu 0 (w_st w)) as [s q]. injection E0 as <- <-. auto.
    - injection E0 as <- <-. rewrite app_nil_r. auto. }
  destruct F0 as [F1 F2]. destruct p0.
  - assert (K : s_step sc = 0%N). { unfold hfirst in E0. destruct (N.eqb_spec (s_step sc) 0) as [H|H]; [exact H|discriminate]. }
    split; [exact K|]. split; [reflexivity|]. rewrite F2, K. reflexivity.
  - destruct (hcall run_hprog (h_before hu (w_st w0)) CStateBefore sc w0) as [[sc1 w1] p1] eqn:E1.
    rewrite (hbefore_calm _ _ _ _ _ _ E1). destruct p1.
    + unfold hcall in E1. destruct (run_hprog (h_before hu (w_st w0)) sc) as [[sc2 [s2 b]] log] eqn:R. injection E1 as <- <- ->.
      destruct (run_step_const _ _ _ _ _ R) as [C1 C2]. split; [exact C1|]. split; [exact C2|]. exists (w_st w0), log.
      split; [exact (returning_run _ _ _ _ _ _ R)|]. split; [exact F1|]. cbn [w_trace]. rewrite F2, <- app_assoc. reflexivity.
    + assert (C1 : s_step sc1 = s_step sc).
      { unfold hcall in E1. destruct (run_hprog (h_before hu (w_st w0)) sc) as [[sc2 [s2 b]] log] eqn:R. injection E1 as <- <- ->. apply (run_step_const _ _ _ _ _ R). }
      destruct (pq_peek (ch 0) (s_events sc1)) as [e0|].
      * destruct (pop_due _ _ _ _ _) as [due rest]. rewrite frun_items_calm.
        destruct (frun_items (h_agents hu) _ w1 due) as [[sc3 w3] [f|]] eqn:E3; [reflexivity|].
        apply frun_items_step in E3. cbn [s_step] in E3.
        destruct (hfinish hu run_hprog sc3 w3) as [[sc' w'] f] eqn:E4. apply hfinish_calm in E4. unfold ended in E4.
        destruct f as [[| |f| |]|]; try contradiction; try (rewrite E4; reflexivity).
        destruct E4 as [E4 E5]. split; [congruence|]. rewrite E4. do 2 eexists. split; [reflexivity|]. cbn. auto 10.
      * destruct (hfinish hu run_hprog sc1 w1) as [[sc' w'] f] eqn:E4. apply hfinish_calm in E4. unfold ended in E4.
        destruct f as [[| |f| |]|]; try contradiction; try (rewrite E4; reflexivity).
        destruct E4 as [E4 E5]. split; [congruence|]. rewrite E4. do 2 eexists. split; [reflexivity|]. cbn. auto 10.
Qed.
Print Assumptions C134_step.

(** A program that catches the panics of hooks and goes on, for as long as it likes, loses
    no repeating agent: one that was scheduled still is, unless it said that it is stopped
    or was dequeued. *)
Theorem C134_nobody_lost : forall A S (hu : huser A S) xs sc w fs sc' w' fs',
  unique_ids (s_events sc) -> hacts hu xs (sc, w, fs) = (sc', w', fs ++ fs') -> only_hooks fs' ->
  exists new, w_trace w' = w_trace w ++ new /\
    forall id, not_ended id new -> repeats id sc -> repeats id sc'.
Proof.
  intros A S hu xs sc w fs sc' w' fs' U H O. destruct (acts_keep hu xs _ _ _ _ _ _ H) as (more & E & K).
  apply app_inv_head in E. subst more. destruct (K O) as (_ & new & T & R). exists new. split; [exact T|]. exact (R U).
Qed.
Print Assumptions C134_nobody_lost.

(** Parallel build: the same, for every number of threads and interleaving. *)
Theorem C134_parallel : forall A S (hu : huser A S) n ch inter sc w,
  match hpar_step hu n ch inter sc w with
  | HExit w' => fpar_step (calm hu) n ch inter sc w = FExit w'
  | HNoThreads => fpar_step (calm hu) n ch inter sc w = FNoThreads
  | HRunning fc => fpar_step (calm hu) n ch inter sc w = FRunning fc
  | HAgentPanicked fc => fpar_step (calm hu) n ch inter sc w = FPanicked fc
  | HLeft sc' w' None => fpar_step (calm hu) n ch inter sc w = FDone sc' w'
  | HLeft sc' w' (Some (AtAgent f)) => False
  | HLeft sc' w' (Some AtFirstUpdate) =>
      s_step sc = 0%N /\ sc' = sc /\ w_trace w' = w_trace w ++ [CUpdate 0]
  | HLeft sc' w' (Some AtBefore) =>
      s_step sc' = s_step sc /\
      exists s0 log, par_run_hprog (returning (h_before hu s0)) sc = (sc', w_st w', log) /\
        s0 = (if (s_step sc =? 0)%N then fst (h_update hu 0 (w_st w)) else w_st w) /\
        w_trace w' = w_trace w ++ (if (s_step sc =? 0)%N then [CUpdate 0] else []) ++ CStateBefore :: api log
  | HLeft sc' w' (Some AtAfter) =>
      s_step sc' = s_step sc /\
      exists sc2 w2, fpar_step (calm hu) n ch inter sc w = FDone sc2 w2 /\
        s_events sc' = s_events sc2 /\ s_time sc' = s_time sc2 /\ s_ids sc' = s_ids sc2 /\ s_step sc2 = u64_succ (s_step sc') /\
        w_trace w2 = w_trace w' ++ [CUpdate (s_step sc2)] /\ w_st w2 = fst (h_update hu (s_step sc2) (w_st w'))
  | HLeft sc' w' (Some AtUpdate) => fpar_step (calm hu) n ch inter sc w = FDone sc' w'
  end.
Proof.
  intros A S hu n ch inter sc w. unfold hpar_step, fpar_step. destruct (hfirst hu sc w) as [w0 p0] eqn:E0.
  rewrite (hfirst_calm _ _ _ _ _ E0).
  assert (F0 : w_st w0 = (if (s_step sc =? 0)%N then fst (h_update hu 0 (w_st w)) else w_st w) /\
               w_trace w0 = w_trace w ++ (if (s_step sc =? 0)%N then [CUpdate 0] else [])).
  { unfold hfirst, hcall_update in E0. destruct (N.eqb_spec (s_step sc) 0) as [H|H].
    - rewrite H in E0. destruct (h_update hu 0 (w_st w)) as [s q]. injection E0 as <- <-. auto.
    - injection E0 as <- <-. rewrite app_nil_r. auto. }
  destruct F0 as [F1 F2]. destruct p0.
  - assert (K : s_step sc = 0%N). { unfold hfirst in E0. destruct (N.eqb_spec (s_step sc) 0) as [H|H]; [exact H|discriminate]. }
    split; [exact K|]. split; [reflexivity|]. rewrite F2, K. reflexivity.
  - unfold hcall at 1. destruct (par_run_hprog (h_before hu (w_st w0)) sc) as [[sc1 [s1 b]] log] eqn:R.
    change (u_before (f_base (calm hu)) (w_st w0)) with (returning (h_before hu (w_st w0))). rewrite (returning_par_run _ _ _ _ _ _ R).
    pose proof (par_hprog_step _ _ _ _ _ R) as C1. destruct b.
    + split; [exact C1|]. exists (w_st w0), log.
      split; [exact (returning_par_run _ _ _ _ _ _ R)|]. split; [exact F1|]. cbn [w_trace]. rewrite F2, <- app_assoc. reflexivity.
    + destruct (pq_peek (ch 0) (s_events sc1)) as [e0|]; [|reflexivity]. destruct n as [|m]; [reflexivity|].
      rewrite fexec_calm.
      set (bs := batches _ _). set (w1 := World s1 _). set (sc2 := Sched _ _ [] _).
      destruct (finished (fc_conf (fexec (h_agents hu) inter (fstart sc2 w1 bs)))); [|reflexivity].
      destruct (fc_poisonS (fexec (h_agents hu) inter (fstart sc2 w1 bs))); [reflexivity|].
      assert (St : s_step (c_sc (fc_conf (fexec (h_agents hu) inter (fstart sc2 w1 bs)))) = s_step sc).
      { destruct (books_exec (h_agents hu) (u_of (h_agents hu)) (w_trace w1) (s_step sc2) inter (u_of_same _) (fstart sc2 w1 bs)
          (start_sound _ _ _) (start_books sc2 w1 bs eq_refl)) as (B1 & _). rewrite B1. exact C1. }
      set (c := fc_conf _) in *.
      destruct (hfinish hu par_run_hprog (c_sc c) (c_w c)) as [[sc' w'] f] eqn:E4. apply par_hfinish_calm in E4. unfold ended in E4.
      destruct (par_run_hprog (u_after (f_base (calm hu)) (w_st (c_w c))) (c_sc c)) as [[sc3 s3] log3].
      destruct f as [[| |f| |]|]; try contradiction; try (injection E4 as <- <-; reflexivity).
      destruct E4 as [E4 E5]. split; [congruence|]. injection E4 as H1 H2 H3 H4 H5 H6. do 2 eexists. split; [reflexivity|].
      cbn [s_events s_time s_ids s_step w_trace w_st call_update].
      rewrite H1 in *. repeat split; auto.
Qed.
Print Assumptions C134_parallel.

(** Agents count the calls of their steps in the state; [update(0)] panics before any, [before_step] (which
    reads the clock first) when there were two, [after_step] after the first, the last
    [update] in step 2. *)
Definition touchy : huser N N :=
  HUser (FUser (User (fun s => HRet s) (fun _ s => s) (fun s => HRet s) (fun s => HRet s) (fun s => HRet (false, s))
           (fun a s => (a, s)) (fun a s => (a, s)) (fun a s => (a, s)) (fun a s => (false, (a, s))))
           (fun a s => Returns None a s) (fun a s => Returns tt a (s + 1)%N) (fun a s => Returns None a s) (fun a s => Returns false a s) (fun _ => true))
    (fun n s => if (n =? 0)%N then ((if s =? 0 then 10 else s)%N, (s =? 0)%N) else (s, (n =? 2)%N))
    (fun s => HCall OpReadTime (fun _ => HRet ((if s =? 12 then 22 else s)%N, (s =? 12)%N)))
    (fun s => HRet (s, (s =? 11)%N)).
(** Seven steps of one agent: all four hooks panic once, the agent is called in all steps
    but two, four steps are counted, and it is still scheduled. *)
Example C134_concrete :
  unique_ids (s_events (@sched_new N)) /\
  let '(sc, w, fs) := hacts touchy (ActApi (OpRepeating 5%N f0 0) :: map ActStep (repeat ch0 7)) (sched_new, World 0%N [], []) in
  fs = [AtFirstUpdate; AtAfter; AtBefore; AtUpdate] /\ only_hooks fs /\ not_ended 0 (w_trace w) /\ repeats 0 sc /\
  w_st w = 25%N /\ s_step sc = 4%N /\
  filter agent_call (w_trace w) = flat_map (fun _ => [CAgentBefore 0; CAgentStep 0; CAgentAfter 0; CAgentStopped 0 false]) (seq 0 5).
Proof.
  split; [constructor|].
  match goal with |- context [hacts ?a ?b ?c] => let v := eval vm_compute in (hacts a b c) in change (hacts a b c) with v end.
  cbv beta iota.
  split; [reflexivity|]. split; [intros f H; cbn in H; intuition discriminate|].
  split. { split; [|intros r]; intros H; cbn in H; intuition discriminate. }
  split. { eexists. split; [left; reflexivity|]. split; reflexivity. }
  repeat split; reflexivity.
Qed.
(** One step of the parallel build left by [after_step], and one by [before_step]. *)
Example C134_parallel_concrete :
  (exists sc' w', hpar_step touchy 2 ch0 (repeat 0%nat 9) (Sched 3 f0 [(AI 0 5%N true, Prio f0 0)] 1) (World 10%N []) = HLeft sc' w' (Some AtAfter) /\
     map ev_id (s_events sc') = [0%N] /\ s_step sc' = 3%N) /\
  (exists sc' w', hpar_step touchy 2 ch0 [] (Sched 3 f0 [(AI 0 5%N true, Prio f0 0)] 1) (World 12%N []) = HLeft sc' w' (Some AtBefore) /\
     w_st w' = 22%N).
Proof. split; do 2 eexists; (split; [vm_compute; reflexivity|]); vm_compute; auto. Qed.
