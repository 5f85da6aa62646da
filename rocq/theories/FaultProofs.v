(** * Proofs about agents that return agents or panic *)
From Coq Require Import List Bool ZArith NArith Arith Lia Permutation.
From Verif Require Import F32 F32Facts SchedModel SchedSpec SchedProofs SchedStep SchedTime Merge ParModel ParSpec ParProofs FaultModel FaultSpec.
Import ListNotations.

Section Fault.
Context {A S : Type}.
Implicit Types (fu : fuser A S) (u : user A S) (w : world A S) (sc : sched A).

(** ** Returned agents *)
Lemma fcall_forget {R} (f g : A -> S -> result A S R) tag a w : forget (f (ai_agent a) (w_st w)) = forget (g (ai_agent a) (w_st w)) ->
  match fcall f tag a w, fcall g tag a w with
  | (Some (_, a1), w1), (Some (_, a2), w2) => a1 = a2 /\ w1 = w2
  | (None, w1), (None, w2) => w1 = w2
  | _, _ => False
  end.
Proof. unfold fcall. destruct (f _ _), (g _ _); cbn; intros H; inversion H; auto. Qed.

Lemma frun_item_same fu fu' sc w e : same_but_offspring fu fu' -> frun_item fu sc w e = frun_item fu' sc w e.
Proof.
  intros (_ & Hb & Hs & Ha & Hp & _). unfold frun_item.
  pose proof (fcall_forget (f_before fu) (f_before fu') CAgentBefore (fst e) w (Hb _ _)) as B.
  destruct (fcall (f_before fu) _ _ _) as [[[? a1]|] w1], (fcall (f_before fu') _ _ _) as [[[? a1']|] w1']; try contradiction; [|congruence].
  destruct B as [<- <-].
  assert (E2 : fcall (f_step fu) CAgentStep a1 w1 = fcall (f_step fu') CAgentStep a1 w1) by (unfold fcall; rewrite Hs; reflexivity).
  rewrite <- E2. destruct (fcall (f_step fu) _ _ _) as [[[? a2]|] w2]; [|reflexivity].
  pose proof (fcall_forget (f_after fu) (f_after fu') CAgentAfter a2 w2 (Ha _ _)) as B.
  destruct (fcall (f_after fu) _ _ _) as [[[? a3]|] w3], (fcall (f_after fu') _ _ _) as [[[? a3']|] w3']; try contradiction; [|congruence].
  destruct B as [<- <-].
  assert (E4 : fcall_stopped fu a3 w3 = fcall_stopped fu' a3 w3) by (unfold fcall_stopped; rewrite Hp; reflexivity).
  rewrite E4. reflexivity.
Qed.

Lemma frun_items_same fu fu' es : same_but_offspring fu fu' -> forall sc w, frun_items fu sc w es = frun_items fu' sc w es.
Proof.
  intros H. induction es as [|e es IH]; intros sc w; cbn [frun_items]; [reflexivity|].
  rewrite (frun_item_same fu fu') by exact H. destruct (frun_item fu' sc w e) as [[sc' w'] [f|]]; auto.
Qed.

Lemma fstep_same fu fu' ch sc w : same_but_offspring fu fu' -> fstep fu ch sc w = fstep fu' ch sc w.
Proof.
  intros H. pose proof H as (B & _). unfold fstep. rewrite <- B.
  destruct (call_before (f_base fu) sc _) as [sc1 w1]. destruct (pq_peek _ _) as [e0|]; [|reflexivity].
  destruct (pop_due _ _ _ _ _) as [due rest]. rewrite (frun_items_same fu fu') by exact H. reflexivity.
Qed.

Lemma facts_same fu fu' xs : same_but_offspring fu fu' -> forall c, facts fu xs c = facts fu' xs c.
Proof.
  intros H. induction xs as [|x xs IH]; intros c; [reflexivity|]. cbn [facts fold_left].
  change (facts fu xs (fact fu x c) = facts fu' xs (fact fu' x c)). rewrite IH. f_equal.
  destruct c as [[sc w] fs]. destruct x as [o|ch]; cbn [fact]; [reflexivity|]. rewrite (fstep_same fu fu') by exact H. reflexivity.
Qed.

Lemma fmicro_same fu fu' t fc : same_but_offspring fu fu' -> fmicro fu t fc = fmicro fu' t fc.
Proof.
  intros (_ & Hb & Hs & Ha & Hp & Hc). unfold fmicro. destruct (nth_error _ t) as [th|]; [|reflexivity].
  destruct (t_pc th) as [|e|e|e|e|e|e| |]; try reflexivity.
  - pose proof (fcall_forget (f_before fu) (f_before fu') CAgentBefore (fst e) (c_w (fc_conf fc)) (Hb _ _)) as B.
    destruct (fcall (f_before fu) _ _ _) as [[[? a1]|] w1], (fcall (f_before fu') _ _ _) as [[[? a1']|] w1']; try contradiction; [|congruence].
    destruct B as [<- <-]. reflexivity.
  - unfold fcall. rewrite Hs. reflexivity.
  - pose proof (fcall_forget (f_after fu) (f_after fu') CAgentAfter (fst e) (c_w (fc_conf fc)) (Ha _ _)) as B.
    destruct (fcall (f_after fu) _ _ _) as [[[? a1]|] w1], (fcall (f_after fu') _ _ _) as [[[? a1']|] w1']; try contradiction; [|congruence].
    destruct B as [<- <-]. reflexivity.
  - unfold fcall_stopped. rewrite Hp. reflexivity.
  - rewrite Hc. reflexivity.
Qed.

Lemma fexec_same fu fu' inter : same_but_offspring fu fu' -> forall fc, fexec fu inter fc = fexec fu' inter fc.
Proof.
  intros H. induction inter as [|t inter IH]; intros fc; cbn [fexec]; [reflexivity|].
  rewrite (fmicro_same fu fu') by exact H. apply IH.
Qed.

Lemma fpar_step_same fu fu' n ch inter sc w : same_but_offspring fu fu' ->
  fpar_step fu n ch inter sc w = fpar_step fu' n ch inter sc w.
Proof.
  intros H. pose proof H as (B & _). unfold fpar_step. rewrite <- B.
  destruct (par_run_hprog _ _) as [[sc1 s1] log1]. destruct (pq_peek _ _); [|reflexivity].
  destruct n; [reflexivity|]. rewrite (fexec_same fu fu') by exact H. reflexivity.
Qed.

(** ** Sequential panics *)
Definition no_answers (tr : list (call A)) : Prop := forall id b, ~ In (CAgentStopped id b) tr.

Lemma fcall_total {R} (f : A -> S -> result A S R) (g : A -> S -> A * S) tag a w :
  (forall x s r x' s', f x s = Returns r x' s' -> g x s = (x', s')) ->
  match fcall f tag a w with
  | (Some (_, a1), w1) => call_agent g tag a w = (a1, w1)
  | (None, w1) => w_trace (snd (call_agent g tag a w)) = w_trace w1
  end /\ w_trace (snd (fcall f tag a w)) = w_trace w ++ [tag (ai_id a)].
Proof.
  intros H. unfold fcall, call_agent. destruct (f (ai_agent a) (w_st w)) as [r a' s'|s'] eqn:E.
  - rewrite (H _ _ _ _ _ E). split; reflexivity.
  - destruct (g _ _) as [? ?]. split; reflexivity.
Qed.

Lemma fcall_id {R} (f : A -> S -> result A S R) tag a w r a1 w1 :
  fcall f tag a w = (Some (r, a1), w1) -> ai_id a1 = ai_id a /\ ai_rep a1 = ai_rep a.
Proof. unfold fcall. destruct (f _ _); intros H; inversion H; subst; auto. Qed.

Lemma call_agent_trace (g : A -> S -> A * S) tag a w : w_trace (snd (call_agent g tag a w)) = w_trace w ++ [tag (ai_id a)].
Proof. unfold call_agent. destruct (g _ _). reflexivity. Qed.
Lemma call_stopped_trace u a w : exists b, w_trace (snd (snd (call_stopped u a w))) = w_trace w ++ [CAgentStopped (ai_id a) b].
Proof. unfold call_stopped. destruct (a_stopped _ _ _) as [b [? ?]]. exists b. reflexivity. Qed.

Definition prefix (l l' : list (call A)) : Prop := exists more, l' = l ++ more.
Lemma prefix_refl l : prefix l l. Proof. exists []. rewrite app_nil_r. reflexivity. Qed.
Lemma prefix_trans l1 l2 l3 : prefix l1 l2 -> prefix l2 l3 -> prefix l1 l3.
Proof. intros [a ->] [b ->]. exists (a ++ b). rewrite app_assoc. reflexivity. Qed.
Lemma prefix_app l m : prefix l (l ++ m). Proof. exists m. reflexivity. Qed.

Lemma run_item_prefix u sc w e : prefix (w_trace w) (w_trace (snd (run_item u sc w e))).
Proof.
  destruct (run_item u sc w e) as [sc' w'] eqn:E. apply run_item_turn in E.
  destruct E as (b & _ & _ & _ & _ & _ & _ & E). cbn [snd]. rewrite E. apply prefix_app.
Qed.

(** The rest of a turn only adds to the record. *)
Lemma tail_after u sc (a : agentimpl A) w (e : event A) :
  prefix (w_trace w) (w_trace (snd (
    if ai_rep a then
      let '(stop, (a4, w4)) := call_stopped u a w in
      if stop then (sc, w4) else (schedule_once sc a4 (fadd (ev_time e) f1) (ev_ord e), w4)
    else (sc, w)))).
Proof.
  destruct (ai_rep a); [|apply prefix_refl].
  destruct (call_stopped_trace u a w) as [b Hb]. destruct (call_stopped u a w) as [stop [a4 w4]]. cbn [snd] in Hb.
  destruct stop; cbn [snd]; rewrite Hb; apply prefix_app.
Qed.

Lemma frun_item_sim fu u sc w e : same_until_panic fu u ->
  match frun_item fu sc w e with
  | (sc', w', None) => run_item u sc w e = (sc', w')
  | (sc', w', Some f) =>
      sc' = sc /\ prefix (w_trace w') (w_trace (snd (run_item u sc w e))) /\ fst f = ev_id e /\ ends_with f (w_trace w') /\
      exists new, w_trace w' = w_trace w ++ new /\ no_answers new
  end.
Proof.
  intros (_ & _ & _ & Hb & Hs & Ha & Hp). unfold frun_item, run_item.
  destruct (fcall_total (f_before fu) (a_before u) CAgentBefore (fst e) w Hb) as [B T1].
  destruct (fcall (f_before fu) _ _ _) as [[[r1 a1]|] w1] eqn:E1; cbn [snd] in T1.
  2:{ split; [reflexivity|]. split.
      - destruct (call_agent (a_before u) CAgentBefore (fst e) w) as [x1 y1] eqn:C1. cbn [snd] in B.
        pose proof (call_agent_trace (a_step u) CAgentStep x1 y1) as T2. destruct (call_agent (a_step u) CAgentStep x1 y1) as [x2 y2]. cbn [snd] in T2.
        pose proof (call_agent_trace (a_after u) CAgentAfter x2 y2) as T3. destruct (call_agent (a_after u) CAgentAfter x2 y2) as [x3 y3]. cbn [snd] in T3.
        eapply prefix_trans; [|apply tail_after]. rewrite T3, T2, B, <- app_assoc. apply prefix_app.
      - split; [reflexivity|]. split; [exists (w_trace w); exact T1|]. exists [CAgentBefore (ai_id (fst e))]. split; [exact T1|].
        intros id b [K|[]]. discriminate. }
  rewrite B. destruct (fcall_id _ _ _ _ _ _ _ E1) as [I1 R1].
  destruct (fcall_total (f_step fu) (a_step u) CAgentStep a1 w1 Hs) as [B2 T2].
  destruct (fcall (f_step fu) _ _ _) as [[[r2 a2]|] w2] eqn:E2; cbn [snd] in T2.
  2:{ split; [reflexivity|]. split.
      - destruct (call_agent (a_step u) CAgentStep a1 w1) as [x2 y2]. cbn [snd] in B2.
        pose proof (call_agent_trace (a_after u) CAgentAfter x2 y2) as T3. destruct (call_agent (a_after u) CAgentAfter x2 y2) as [x3 y3]. cbn [snd] in T3.
        eapply prefix_trans; [|apply tail_after]. rewrite T3, B2. apply prefix_app.
      - split; [reflexivity|]. rewrite I1 in T2. split; [exists (w_trace w1); exact T2|]. eexists. split; [rewrite T2, T1, <- app_assoc; reflexivity|].
        intros id b [K|[K|[]]]; discriminate. }
  rewrite B2. destruct (fcall_id _ _ _ _ _ _ _ E2) as [I2 R2].
  destruct (fcall_total (f_after fu) (a_after u) CAgentAfter a2 w2 Ha) as [B3 T3].
  destruct (fcall (f_after fu) _ _ _) as [[[r3 a3]|] w3] eqn:E3; cbn [snd] in T3.
  2:{ split; [reflexivity|]. split.
      - destruct (call_agent (a_after u) CAgentAfter a2 w2) as [x3 y3]. cbn [snd] in B3.
        eapply prefix_trans; [|apply tail_after]. rewrite B3. apply prefix_refl.
      - split; [reflexivity|]. rewrite I2, I1 in T3. split; [exists (w_trace w2); exact T3|]. eexists. split; [rewrite T3, T2, T1, <- !app_assoc; reflexivity|].
        intros id b [K|[K|[K|[]]]]; discriminate. }
  rewrite B3. destruct (fcall_id _ _ _ _ _ _ _ E3) as [I3 R3].
  pose proof (tail_after u sc a3 w3 e) as TA.
  destruct (ai_rep a3) eqn:Rp; [|reflexivity].
  unfold fcall_stopped. unfold call_stopped in *. destruct (f_stopped fu (ai_agent a3) (w_st w3)) as [b a4 s4|s4] eqn:E4.
  - rewrite (Hp _ _ _ _ _ E4). destruct b; reflexivity.
  - split; [reflexivity|]. cbn [w_trace]. split; [exact TA|]. split; [reflexivity|].
    rewrite I2, I1 in T3. split; [exists (w_trace w2); exact T3|]. eexists. split; [rewrite T3, T2, T1, <- !app_assoc; reflexivity|].
    intros id b [K|[K|[K|[]]]]; discriminate.
Qed.

Lemma run_items_prefix u es : forall sc w, prefix (w_trace w) (w_trace (snd (run_items u sc w es))).
Proof.
  induction es as [|e es IH]; intros sc w; cbn [run_items]; [apply prefix_refl|].
  pose proof (run_item_prefix u sc w e) as P. destruct (run_item u sc w e) as [sc' w']. cbn [snd] in P.
  eapply prefix_trans; [exact P|apply IH].
Qed.

Lemma call_after_prefix u sc w : prefix (w_trace w) (w_trace (snd (call_after u sc w))).
Proof. unfold call_after. destruct (run_hprog _ _) as [[? ?] ?]. apply prefix_app. Qed.
Lemma finish_prefix u sc w : prefix (w_trace w) (w_trace (snd (finish_step u sc w))).
Proof.
  unfold finish_step. pose proof (call_after_prefix u sc w) as P. destruct (call_after u sc w) as [sc' w'].
  cbn [snd call_update w_trace] in *. eapply prefix_trans; [exact P|apply prefix_app].
Qed.

Lemma frun_items_sim fu u es : same_until_panic fu u -> forall sc w, unique_ids (es ++ s_events sc) ->
  match frun_items fu sc w es with
  | (sc', w', None) => run_items u sc w es = (sc', w')
  | (sc', w', Some f) =>
      prefix (w_trace w') (w_trace (snd (run_items u sc w es))) /\ In (fst f) (map ev_id es) /\ ends_with f (w_trace w') /\
      s_step sc' = s_step sc /\ s_time sc' = s_time sc /\ s_ids sc' = s_ids sc /\
      exists new, w_trace w' = w_trace w ++ new /\
      (forall id, In id (map ev_id (s_events sc')) <-> In id (map ev_id (s_events sc)) \/ goes_on new id)
  end.
Proof.
  intros H. induction es as [|e es IH]; intros sc w U; cbn [frun_items run_items]; [reflexivity|].
  pose proof (frun_item_sim fu u sc w e H) as Hi. destruct (frun_item fu sc w e) as [[sc1 w1] [f|]].
  - destruct Hi as (-> & P & F & En & new & T & NA). split; [|split; [|split; [exact En|]]].
    + destruct (run_item u sc w e) as [x y]. cbn [snd] in P. eapply prefix_trans; [exact P|apply run_items_prefix].
    + left. symmetry. exact F.
    + split; [reflexivity|]. split; [reflexivity|]. split; [reflexivity|]. exists new. split; [exact T|].
      intros id. unfold goes_on. specialize (NA id false). tauto.
  - rewrite Hi. apply run_item_turn in Hi. destruct Hi as (b & Ht & E1 & E2 & E3 & Ev & Eb & Tr).
    unfold unique_ids in U. cbn [app map] in U. rewrite map_app in U. apply NoDup_cons_iff in U. destruct U as [Nin U].
    assert (Ev' : s_events sc1 = s_events sc ++ match b with Some b => [b] | None => [] end).
    { rewrite Ev. destruct b as [b|]; [|rewrite app_nil_r; reflexivity]. specialize (Eb b eq_refl).
      rewrite pq_push_fresh; [destruct b; reflexivity|]. intros K. apply Nin. apply in_or_app. right.
      change (ai_id (fst b)) with (ev_id b) in K. rewrite Eb in K. exact K. }
    assert (U1 : unique_ids (es ++ s_events sc1)).
    { unfold unique_ids. rewrite Ev', !map_app. destruct b as [b|]; [|cbn; rewrite app_nil_r; exact U].
      cbn [map]. rewrite app_assoc. apply NoDup_app_one; [exact U|]. rewrite (Eb b eq_refl). exact Nin. }
    specialize (IH sc1 w1 U1). destruct (frun_items fu sc1 w1 es) as [[sc2 w2] [f|]]; [|exact IH].
    destruct IH as (P & F & En & F1 & F2 & F3 & new & T & Ids). split; [exact P|]. split; [right; exact F|].
    split; [exact En|]. split; [congruence|]. split; [congruence|]. split; [congruence|].
    eexists. split; [rewrite T, Tr, <- !app_assoc; reflexivity|]. intros id. rewrite Ids, Ev', map_app, in_app_iff.
    unfold goes_on. rewrite !in_app_iff.
    assert (K : In id (map ev_id (match b with Some b => [b] | None => [] end)) <->
      In (CAgentStopped id false) ((if ai_rep (fst e) then [CAgentStopped (ev_id e) match b with Some _ => false | None => true end] else []) : list (call A))).
    { destruct b as [b|].
      - rewrite (proj1 (turn_rep _ _ _ _ _ Ht)). cbn. rewrite (Eb b eq_refl). split.
        + intros [<-|[]]. left. reflexivity.
        + intros [K|[]]. injection K as <-. left. reflexivity.
      - cbn. destruct (ai_rep (fst e)); cbn; [|tauto]. split; [tauto|]. intros [K|[]]. discriminate. }
    rewrite K. cbn [calls_of In]. split; [tauto|].
    intros [X|[[X|[X|[X|[]]]]|[X|X]]]; try discriminate; tauto.
Qed.

Lemma same_calls fu u : same_until_panic fu u -> forall sc w,
  call_before (f_base fu) sc w = call_before u sc w /\ call_after (f_base fu) sc w = call_after u sc w /\
  finish_step (f_base fu) sc w = finish_step u sc w.
Proof.
  intros (Eu & Eb & Ea & _) sc w. unfold finish_step, call_after, call_before, call_update. rewrite Eu, Eb, Ea. auto.
Qed.

Lemma fstep_sim fu u ch sc w : same_until_panic fu u -> unique_ids (s_events sc) ->
  match fstep fu ch sc w with
  | (sc', w', None) => step u ch sc w = (sc', w')
  | (sc', w', Some f) =>
      prefix (w_trace w') (w_trace (snd (step u ch sc w))) /\ ends_with f (w_trace w') /\
      s_step sc' = s_step sc /\
      exists sc1 s1 log1 due rest new e0,
        run_hprog (u_before u (st0 u sc w)) sc = (sc1, s1, log1) /\ unique_ids (s_events sc1) /\
        pq_peek (ch O) (s_events sc1) = Some e0 /\ s_time sc' = ev_time e0 /\
        pop_due (length (s_events sc1)) ch O (ev_time e0) (s_events sc1) = (due, rest) /\
        In (fst f) (map ev_id due) /\
        w_trace w' = w_trace w ++ new /\
        (forall id, In id (map ev_id (s_events sc')) <-> In id (map ev_id rest) \/ goes_on new id)
  end.
Proof.
  intros H U. pose proof H as (Eu & Eb & Ea & _). unfold fstep, step.
  set (w0 := if (s_step sc =? 0)%N then call_update u (s_step sc) w else w).
  assert (W0 : (if (s_step sc =? 0)%N then call_update (f_base fu) (s_step sc) w else w) = w0)
    by (unfold w0, call_update; rewrite Eu; reflexivity). rewrite W0.
  rewrite (proj1 (same_calls fu u H sc w0)).
  assert (T0 : exists n0, w_trace w0 = w_trace w ++ n0 /\ no_answers n0).
  { unfold w0. destruct (s_step sc =? 0)%N; [exists [CUpdate (s_step sc)]|exists []]; cbn; rewrite ?app_nil_r;
      (split; [reflexivity|intros id b K]); [destruct K as [K|[]]; discriminate|destruct K]. }
  assert (S0 : w_st w0 = st0 u sc w).
  { unfold w0, st0, call_update. destruct (N.eqb_spec (s_step sc) 0) as [->|]; reflexivity. }
  destruct (run_hprog (u_before u (st0 u sc w)) sc) as [[sc1 s1] log1] eqn:E1.
  pose proof (run_hprog_unique _ _ _ _ _ E1 U) as U1. pose proof (run_hprog_const _ _ _ _ _ E1) as [C1 _].
  set (w1 := World s1 (w_trace w0 ++ CStateBefore :: api log1)).
  assert (CB : call_before u sc w0 = (sc1, w1)) by (unfold call_before; rewrite S0, E1; reflexivity).
  rewrite CB.
  destruct (pq_peek (ch O) (s_events sc1)) as [e0|] eqn:Pk.
  2:{ rewrite (proj2 (proj2 (same_calls fu u H sc1 w1))). destruct (finish_step u sc1 w1). reflexivity. }
  destruct (pop_due _ _ _ _ _) as [due rest] eqn:Pd.
  assert (U2 : unique_ids (due ++ rest)) by (eapply unique_ids_perm; [eapply pop_due_perm; eauto|exact U1]).
  pose proof (frun_items_sim fu u due H (Sched (s_step sc1) (ev_time e0) rest (s_ids sc1)) w1 U2) as Hr.
  destruct (frun_items fu _ w1 due) as [[sc2 w2] [f|]].
  - destruct Hr as (P & F & En & F1 & F2 & F3 & new & T & Ids). split; [|split; [exact En|split; [cbn in F1; congruence|]]].
    + destruct (run_items u _ w1 due) as [x y]. cbn [snd] in P. eapply prefix_trans; [exact P|apply finish_prefix].
    + destruct T0 as (n0 & T0 & NA0).
      exists sc1, s1, log1, due, rest, (n0 ++ CStateBefore :: api log1 ++ new), e0.
      split; [reflexivity|]. split; [exact U1|]. split; [exact Pk|]. split; [exact F2|]. split; [exact Pd|]. split; [exact F|]. split.
      * rewrite T. unfold w1. cbn [w_trace]. rewrite T0, <- !app_assoc. reflexivity.
      * intros id. rewrite Ids. cbn [s_events]. unfold goes_on. rewrite in_app_iff. cbn [In]. rewrite in_app_iff.
        specialize (NA0 id false). split; [tauto|]. intros [K|[K|[K|[K|K]]]]; try tauto; [discriminate|].
        exfalso. clear -K. unfold api in K. apply in_map_iff in K. destruct K as (x & K & _). discriminate.
  - rewrite Hr. rewrite (proj2 (proj2 (same_calls fu u H sc2 w2))). destruct (finish_step u sc2 w2). reflexivity.
Qed.

(** ** Parallel panics *)
(** No thread has panicked: the configuration is one of the panic-free machine. *)
Definition healthy (fc : fconfig A S) : Prop :=
  fc_faults fc = [] /\ fc_poisonS fc = false /\ fc_poisonQ fc = false /\ fc_dead fc = [].
(** One agent has panicked: all other threads wait before the state lock or have ended. *)
Definition broken (fc : fconfig A S) : Prop :=
  (exists f, fc_faults fc = [f] /\ ends_with f (w_trace (c_w (fc_conf fc)))) /\ fc_poisonS fc = true /\ c_lockS (fc_conf fc) = None /\
  forall t th, nth_error (c_threads (fc_conf fc)) t = Some th -> t_pc th = PNext.

(** The record so far contains the calls of the agent that holds the lock. *)
Definition recorded (c : config A S) : Prop :=
  forall t th, nth_error (c_threads c) t = Some th ->
  match t_pc th with
  | PCheck e => exists pre, w_trace (c_w c) = pre ++ [CAgentAfter (ev_id e)]
  | PLockQ e | PPush e => exists pre, w_trace (c_w c) = pre ++ [CAgentStopped (ev_id e) false]
  | _ => True
  end.

Lemma excl_step u t c c' : excl c -> micro u t c = Some c' -> excl c'.
Proof.
  intros Hx Hm.
  destruct (micro_holder u t c c' Hx Hm) as [(Hl & e & rest & Ht & ->)|(Hl & th & Ht & Hne)].
  - unfold excl in *. rewrite Hl in Hx. cbn. destruct Hx as [Hq Hall].
    exists (Thread (PBefore e) rest). split; [eapply upd_nth_same; exact Ht|].
    split; [discriminate|]. split; [exact Hq|].
    intros t' th' Hn Ht'. rewrite upd_nth_other in Ht' by congruence. eauto.
  - unfold excl in Hx. rewrite Hl in Hx. destruct Hx as (th0 & Ht0 & _ & Hq & Hoth).
    rewrite Ht in Ht0. inversion Ht0; subst th0.
    assert (Goal1 : forall lq sc w p,
      c' = Config (Some t) lq sc w (upd (c_threads c) t (Thread p (t_rest th))) ->
      p <> PNext -> lq = (if in_q p then Some t else None) -> excl c').
    { intros lq sc w p -> Hp Hlq. unfold excl. cbn. exists (Thread p (t_rest th)).
      split; [eapply upd_nth_same; exact Ht|]. split; [exact Hp|]. split; [exact Hlq|].
      intros t' th' Hne' Ht'. rewrite upd_nth_other in Ht' by congruence. eauto. }
    unfold micro in Hm. rewrite Ht in Hm.
    destruct (t_pc th) as [|e|e|e|e|e|e| |] eqn:Hpc; cbn [in_q] in Hq; rewrite ?Hl, ?Hq in Hm.
    + congruence.
    + destruct (call_agent _ _ _ _); inversion Hm; subst c'; eapply Goal1; [reflexivity|discriminate|reflexivity].
    + destruct (call_agent _ _ _ _); inversion Hm; subst c'; eapply Goal1; [reflexivity|discriminate|reflexivity].
    + destruct (call_agent _ _ _ _); inversion Hm; subst c'; eapply Goal1; [reflexivity|discriminate|reflexivity].
    + destruct (ai_rep (fst e)).
      * destruct (call_stopped _ _ _) as [stop [a w]]; inversion Hm; subst c';
          eapply Goal1; [reflexivity|destruct stop; discriminate|destruct stop; reflexivity].
      * inversion Hm; subst c'; eapply Goal1; [reflexivity|discriminate|reflexivity].
    + inversion Hm; subst c'; eapply Goal1; [reflexivity|discriminate|reflexivity].
    + inversion Hm; subst c'; eapply Goal1; [reflexivity|discriminate|reflexivity].
    + inversion Hm; subst c'; eapply Goal1; [reflexivity|discriminate|reflexivity].
    + inversion Hm; subst c'. unfold excl. cbn. split; [first [exact Hq|reflexivity]|].
      intros t' th' Ht'. destruct (Nat.eq_dec t t') as [<-|Hn].
      * rewrite (upd_nth_same _ _ _ _ Ht) in Ht'. inversion Ht'; reflexivity.
      * rewrite upd_nth_other in Ht' by exact Hn. eauto.
Qed.

(** ** The panicking machine follows the panic-free one until the panic *)
Lemma ok_eta (fc : fconfig A S) c' : healthy fc ->
  healthy (FConfig c' (fc_poisonS fc) (fc_poisonQ fc) (fc_faults fc) (fc_dead fc)).
Proof. unfold healthy. destruct fc; cbn. tauto. Qed.

(** What a step of a healthy machine leads to. *)
Definition next_to (u : user A S) (t : nat) (fc fc' : fconfig A S) : Prop :=
  (healthy fc' /\ micro u t (fc_conf fc) = Some (fc_conf fc')) \/
  (broken fc' /\ c_sc (fc_conf fc') = c_sc (fc_conf fc) /\
   exists c', (c' = fc_conf fc \/ micro u t (fc_conf fc) = Some c') /\ finished c' = false /\
     w_trace (c_w c') = w_trace (c_w (fc_conf fc'))).

Lemma die_broken t (fc : fconfig A S) w f (th : thread A) :
  healthy fc -> excl (fc_conf fc) -> nth_error (c_threads (fc_conf fc)) t = Some th -> t_pc th <> PNext ->
  ends_with f (w_trace w) -> broken (die t fc w [f]).
Proof.
  intros (Hf & HpS & HpQ & Hd) Hx Ht Hp He. unfold excl in Hx. destruct (c_lockS (fc_conf fc)) as [h|] eqn:Hl.
  2:{ destruct Hx as [_ Hall]. exfalso. eauto. }
  destruct Hx as (th0 & Ht0 & _ & Hq & Hoth).
  assert (h = t) as -> by (destruct (Nat.eq_dec h t) as [E|E]; [exact E|]; exfalso; apply Hp; eapply Hoth; [|exact Ht]; congruence).
  unfold broken, die. cbn [fc_faults fc_conf fc_poisonS c_lockS c_w c_threads]. rewrite Hf, Hl, Nat.eqb_refl, orb_true_r.
  split; [exists f; split; [reflexivity|exact He]|]. split; [reflexivity|]. split; [reflexivity|].
  intros t' th' Ht'. destruct (Nat.eq_dec t t') as [<-|Hn].
  - rewrite (upd_nth_same _ _ _ _ Ht) in Ht'. inversion Ht'. reflexivity.
  - rewrite upd_nth_other in Ht' by exact Hn. eapply Hoth; [|exact Ht']. congruence.
Qed.

Lemma not_finished (c : config A S) t th : nth_error (c_threads c) t = Some th -> t_pc th <> PNext -> finished c = false.
Proof.
  intros Ht Hp. destruct (finished c) eqn:F; [|reflexivity]. exfalso. apply Hp.
  unfold finished in F. rewrite forallb_forall in F. specialize (F th (nth_error_In _ _ Ht)).
  destruct (t_pc th); try discriminate. reflexivity.
Qed.

Lemma fmicro_sim fu u t fc fc' : same_until_panic fu u -> healthy fc -> excl (fc_conf fc) -> recorded (fc_conf fc) ->
  fmicro fu t fc = Some fc' -> next_to u t fc fc'.
Proof.
  intros (_ & _ & _ & Hb & Hs & Ha & Hp) HH Hx Hr Hm. pose proof HH as (Hf & HpS & HpQ & Hd).
  unfold fmicro in Hm. destruct (nth_error (c_threads (fc_conf fc)) t) as [th|] eqn:Ht; [|discriminate].
  pose proof (Hr t th Ht) as Rc.
  assert (OK : forall c', micro u t (fc_conf fc) = Some c' ->
    FConfig c' (fc_poisonS fc) (fc_poisonQ fc) (fc_faults fc) (fc_dead fc) = fc' -> next_to u t fc fc').
  { intros c' Hc <-. left. split; [apply ok_eta; exact HH|exact Hc]. }
  assert (BAD : forall w f c', t_pc th <> PNext -> die t fc w [f] = fc' -> ends_with f (w_trace w) ->
    (c' = fc_conf fc \/ micro u t (fc_conf fc) = Some c') ->
    (exists th', nth_error (c_threads c') t = Some th' /\ t_pc th' <> PNext) ->
    w_trace (c_w c') = w_trace w -> next_to u t fc fc').
  { intros w f c' Hn <- He Hc (th' & Ht' & Hn') Htr. right. split; [eapply die_broken; eauto|]. split; [reflexivity|].
    exists c'. split; [exact Hc|]. split; [eapply not_finished; eauto|exact Htr]. }
  destruct (t_pc th) as [|e|e|e|e|e|e| |] eqn:Hpc.
  - destruct (t_rest th) as [|e rest] eqn:Hre; [discriminate|]. destruct (c_lockS (fc_conf fc)) eqn:Hl; [discriminate|].
    rewrite HpS in Hm. injection Hm as Hm. rewrite <- HpS in Hm. eapply OK; [|exact Hm].
    unfold micro. rewrite Ht, Hpc, Hre, Hl. reflexivity.
  - destruct (fcall_total (f_before fu) (a_before u) CAgentBefore (fst e) (c_w (fc_conf fc)) Hb) as [B T].
    destruct (fcall (f_before fu) _ _ _) as [[[r a]|] w] eqn:E; injection Hm as Hm.
    + eapply OK; [|exact Hm]. unfold micro. rewrite Ht, Hpc, B. reflexivity.
    + destruct (call_agent (a_before u) CAgentBefore (fst e) (c_w (fc_conf fc))) as [a' w'] eqn:Ca. cbn [snd] in *.
      eapply BAD; [discriminate|exact Hm|eexists; exact T|right; unfold micro; rewrite Ht, Hpc, Ca; reflexivity| |exact B].
      cbn. eexists. split; [eapply upd_nth_same; exact Ht|discriminate].
  - destruct (fcall_total (f_step fu) (a_step u) CAgentStep (fst e) (c_w (fc_conf fc)) Hs) as [B T].
    destruct (fcall (f_step fu) _ _ _) as [[[r a]|] w] eqn:E; injection Hm as Hm.
    + eapply OK; [|exact Hm]. unfold micro. rewrite Ht, Hpc, B. reflexivity.
    + destruct (call_agent (a_step u) CAgentStep (fst e) (c_w (fc_conf fc))) as [a' w'] eqn:Ca. cbn [snd] in *.
      eapply BAD; [discriminate|exact Hm|eexists; exact T|right; unfold micro; rewrite Ht, Hpc, Ca; reflexivity| |exact B].
      cbn. eexists. split; [eapply upd_nth_same; exact Ht|discriminate].
  - destruct (fcall_total (f_after fu) (a_after u) CAgentAfter (fst e) (c_w (fc_conf fc)) Ha) as [B T].
    destruct (fcall (f_after fu) _ _ _) as [[[r a]|] w] eqn:E; injection Hm as Hm.
    + eapply OK; [|exact Hm]. unfold micro. rewrite Ht, Hpc, B. reflexivity.
    + destruct (call_agent (a_after u) CAgentAfter (fst e) (c_w (fc_conf fc))) as [a' w'] eqn:Ca. cbn [snd] in *.
      eapply BAD; [discriminate|exact Hm|eexists; exact T|right; unfold micro; rewrite Ht, Hpc, Ca; reflexivity| |exact B].
      cbn. eexists. split; [eapply upd_nth_same; exact Ht|discriminate].
  - destruct (ai_rep (fst e)) eqn:Rp.
    + unfold fcall_stopped in Hm. destruct (f_stopped fu (ai_agent (fst e)) (w_st (c_w (fc_conf fc)))) as [b a' s'|s'] eqn:E; injection Hm as Hm.
      * eapply OK; [|exact Hm]. unfold micro, call_stopped. rewrite Ht, Hpc, Rp, (Hp _ _ _ _ _ E). reflexivity.
      * eapply BAD with (c' := fc_conf fc); [discriminate|exact Hm|exact Rc|left; reflexivity| |reflexivity].
        exists th. split; [exact Ht|congruence].
    + injection Hm as Hm. eapply OK; [|exact Hm]. unfold micro. rewrite Ht, Hpc, Rp. reflexivity.
  - destruct (c_lockQ (fc_conf fc)) eqn:Hl; [discriminate|]. rewrite HpQ in Hm. injection Hm as Hm. rewrite <- HpQ in Hm.
    eapply OK; [|exact Hm]. unfold micro. rewrite Ht, Hpc, Hl. reflexivity.
  - destruct (f_clone fu _); injection Hm as Hm.
    + eapply OK; [|exact Hm]. unfold micro. rewrite Ht, Hpc. reflexivity.
    + eapply BAD with (c' := fc_conf fc); [discriminate|exact Hm|exact Rc|left; reflexivity| |reflexivity].
      exists th. split; [exact Ht|congruence].
  - injection Hm as Hm. eapply OK; [|exact Hm]. unfold micro. rewrite Ht, Hpc. reflexivity.
  - injection Hm as Hm. eapply OK; [|exact Hm]. unfold micro. rewrite Ht, Hpc. reflexivity.
Qed.

(** A healthy machine moves exactly when the panic-free one does. *)
Lemma fmicro_blocked fu u t fc : healthy fc -> fmicro fu t fc = None -> micro u t (fc_conf fc) = None.
Proof.
  intros (Hf & HpS & HpQ & Hd). unfold fmicro, micro. destruct (nth_error _ t) as [th|]; [|reflexivity].
  destruct (t_pc th) as [|e|e|e|e|e|e| |]; try discriminate.
  - destruct (t_rest th); [reflexivity|]. destruct (c_lockS _); [reflexivity|]. rewrite HpS. discriminate.
  - destruct (fcall _ _ _ _) as [[[? ?]|] ?]; discriminate.
  - destruct (fcall _ _ _ _) as [[[? ?]|] ?]; discriminate.
  - destruct (fcall _ _ _ _) as [[[? ?]|] ?]; discriminate.
  - destruct (ai_rep _); [|discriminate]. destruct (fcall_stopped _ _ _) as [[[? ?]|] ?]; discriminate.
  - destruct (c_lockQ _); [reflexivity|]. rewrite HpQ. discriminate.
  - destruct (f_clone _ _); discriminate.
Qed.

(** After the panic the record, the queue and the list of panics stay as they are. *)
Lemma broken_step fu t fc fc' : broken fc -> fmicro fu t fc = Some fc' ->
  broken fc' /\ fc_faults fc' = fc_faults fc /\ c_sc (fc_conf fc') = c_sc (fc_conf fc) /\ c_w (fc_conf fc') = c_w (fc_conf fc) /\
  weight (fc_conf fc') < weight (fc_conf fc).
Proof.
  intros ((f & Hf & He) & HpS & Hl & Hall) Hm. unfold fmicro in Hm.
  destruct (nth_error (c_threads (fc_conf fc)) t) as [th|] eqn:Ht; [|discriminate].
  rewrite (Hall t th Ht), Hl, HpS in Hm. destruct (t_rest th) as [|e rest] eqn:Hr; [discriminate|]. injection Hm as <-.
  unfold broken, die, weight. cbn [fc_faults fc_conf fc_poisonS c_lockS c_w c_sc c_threads]. rewrite Hl, HpS, app_nil_r. cbn [orb].
  split; [|split; [reflexivity|split; [reflexivity|split; [reflexivity|]]]].
  - split; [exists f; split; [exact Hf|exact He]|]. split; [reflexivity|]. split; [reflexivity|].
    intros t' th' Ht'. destruct (Nat.eq_dec t t') as [<-|Hn].
    + rewrite (upd_nth_same _ _ _ _ Ht) in Ht'. inversion Ht'. reflexivity.
    + rewrite upd_nth_other in Ht' by exact Hn. eauto.
  - pose proof (weight_upd _ _ _ (Thread PNext []) Ht) as W. unfold th_weight at 2 4 in W. rewrite Hr in W. cbn in W. lia.
Qed.

Lemma fexec_broken fu inter : forall fc, broken fc ->
  broken (fexec fu inter fc) /\ fc_faults (fexec fu inter fc) = fc_faults fc /\
  c_sc (fc_conf (fexec fu inter fc)) = c_sc (fc_conf fc) /\ c_w (fc_conf (fexec fu inter fc)) = c_w (fc_conf fc).
Proof.
  induction inter as [|t inter IH]; intros fc Hb; cbn [fexec]; [auto|].
  destruct (fmicro fu t fc) as [fc'|] eqn:Hm; [|apply IH; exact Hb].
  destruct (broken_step fu t fc fc' Hb Hm) as (Hb' & E1 & E2 & E3 & _).
  destruct (IH fc' Hb') as (K & K1 & K2 & K3). split; [exact K|]. split; [congruence|]. split; congruence.
Qed.

Lemma recorded_step u t c c' : excl c -> recorded c -> micro u t c = Some c' -> recorded c'.
Proof.
  intros Hx Hr Hm. destruct (micro_holder u t c c' Hx Hm) as [(Hl & e & rest & Ht & ->)|(Hl & th & Ht & Hne)].
  - intros t' th' Ht'. cbn in Ht'. unfold excl in Hx. rewrite Hl in Hx. destruct Hx as [_ Hall].
    destruct (Nat.eq_dec t t') as [<-|Hn].
    + rewrite (upd_nth_same _ _ _ _ Ht) in Ht'. inversion Ht'. exact I.
    + rewrite upd_nth_other in Ht' by exact Hn. rewrite (Hall t' th' Ht'). exact I.
  - unfold excl in Hx. rewrite Hl in Hx. destruct Hx as (th0 & Ht0 & _ & Hq & Hoth).
    rewrite Ht in Ht0. inversion Ht0; subst th0. pose proof (Hr t th Ht) as Rc.
    assert (G : forall ls lq sc w p,
      c' = Config ls lq sc w (upd (c_threads c) t (Thread p (t_rest th))) ->
      match p with
      | PCheck e => exists pre, w_trace w = pre ++ [CAgentAfter (ev_id e)]
      | PLockQ e | PPush e => exists pre, w_trace w = pre ++ [CAgentStopped (ev_id e) false]
      | _ => True
      end -> recorded c').
    { intros ls lq sc w p -> HP t' th' Ht'. cbn in Ht'. destruct (Nat.eq_dec t t') as [<-|Hn].
      - rewrite (upd_nth_same _ _ _ _ Ht) in Ht'. inversion Ht'. exact HP.
      - rewrite upd_nth_other in Ht' by exact Hn. rewrite (Hoth t' th' (not_eq_sym Hn) Ht'). exact I. }
    unfold micro in Hm. rewrite Ht in Hm.
    destruct (t_pc th) as [|e|e|e|e|e|e| |] eqn:Hpc; cbn [in_q] in Hq; rewrite ?Hl, ?Hq in Hm.
    + congruence.
    + destruct (call_agent _ _ _ _); inversion Hm; subst c'; eapply G; [reflexivity|exact I].
    + destruct (call_agent _ _ _ _); inversion Hm; subst c'; eapply G; [reflexivity|exact I].
    + pose proof (call_agent_trace (a_after u) CAgentAfter (fst e) (c_w c)) as T.
      destruct (call_agent (a_after u) CAgentAfter (fst e) (c_w c)) as [a w] eqn:Ca. inversion Hm; subst c'.
      eapply G; [reflexivity|]. cbn [snd] in T. exists (w_trace (c_w c)). rewrite T. f_equal. f_equal.
      unfold call_agent in Ca. destruct (a_after u _ _). inversion Ca. reflexivity.
    + destruct (ai_rep (fst e)).
      * unfold call_stopped in Hm. destruct (a_stopped u _ _) as [b [a s]]. inversion Hm; subst c'.
        eapply G; [reflexivity|]. destruct b; [exact I|]. exists (w_trace (c_w c)). reflexivity.
      * inversion Hm; subst c'; eapply G; [reflexivity|exact I].
    + inversion Hm; subst c'. eapply G; [reflexivity|exact Rc].
    + inversion Hm; subst c'; eapply G; [reflexivity|exact I].
    + inversion Hm; subst c'; eapply G; [reflexivity|exact I].
    + inversion Hm; subst c'; eapply G; [reflexivity|exact I].
Qed.

(** Every reachable configuration. *)
Lemma fexec_sim fu u inter : same_until_panic fu u -> forall fc, healthy fc -> excl (fc_conf fc) -> recorded (fc_conf fc) ->
  let fc' := fexec fu inter fc in
  (healthy fc' /\ fc_conf fc' = exec u inter (fc_conf fc) /\ excl (fc_conf fc')) \/
  (broken fc' /\ exists inter', finished (exec u inter' (fc_conf fc)) = false /\
     w_trace (c_w (exec u inter' (fc_conf fc))) = w_trace (c_w (fc_conf fc')) /\
     exists inter0, c_sc (exec u inter0 (fc_conf fc)) = c_sc (fc_conf fc')).
Proof.
  intros H. induction inter as [|t inter IH]; intros fc HH Hx Hr; cbn [fexec exec]; [left; auto|].
  destruct (fmicro fu t fc) as [fc1|] eqn:Hm.
  - destruct (fmicro_sim fu u t fc fc1 H HH Hx Hr Hm) as [[HH1 Hu]|(Hb & Hsc & c' & Hc & Hfin & Htr)].
    + rewrite Hu. destruct (IH fc1 HH1 (excl_step u t _ _ Hx Hu) (recorded_step u t _ _ Hx Hr Hu)) as [K|(K & inter' & K1 & K2 & inter0 & K3)]; [left; exact K|].
      right. split; [exact K|]. exists (t :: inter'). cbn [exec]. rewrite Hu. split; [exact K1|]. split; [exact K2|].
      exists (t :: inter0). cbn [exec]. rewrite Hu. exact K3.
    + right. destruct (fexec_broken fu inter fc1 Hb) as (K & _ & K2 & K3). split; [exact K|].
      destruct Hc as [->|Hc].
      * exists []. cbn [exec]. split; [exact Hfin|]. split; [congruence|]. exists []. cbn [exec]. congruence.
      * exists [t]. cbn [exec]. rewrite Hc. split; [exact Hfin|]. split; [congruence|]. exists []. cbn [exec]. congruence.
  - rewrite (fmicro_blocked fu u t fc HH Hm). apply IH; assumption.
Qed.

Lemma fexec_app fu l1 : forall l2 fc, fexec fu (l1 ++ l2) fc = fexec fu l2 (fexec fu l1 fc).
Proof. induction l1 as [|t l1 IH]; intros l2 fc; cbn; auto. Qed.

(** Progress. *)
Lemma broken_progress fu fc : broken fc -> finished (fc_conf fc) = false -> exists t fc', fmicro fu t fc = Some fc'.
Proof.
  intros (_ & HpS & Hl & Hall) Hf.
  assert (E : exists th, In th (c_threads (fc_conf fc)) /\ t_rest th <> []).
  { unfold finished in Hf.
    assert (K : ~ forall th, In th (c_threads (fc_conf fc)) -> t_rest th = []).
    { intros K. rewrite (proj2 (forallb_forall _ _)) in Hf; [discriminate|].
      intros th Hin. rewrite (K th Hin). apply In_nth_error in Hin. destruct Hin as [t Ht]. rewrite (Hall t th Ht). reflexivity. }
    clear -K. induction (c_threads (fc_conf fc)) as [|th l IH]; [exfalso; apply K; intros ? []|].
    destruct (t_rest th) as [|e r] eqn:E.
    - destruct IH as (th' & Hin & Hne); [intros H; apply K; intros th' [<-|Hin]; auto|]. exists th'. cbn. auto.
    - exists th. cbn. split; [auto|]. congruence. }
  destruct E as (th & Hin & Hne). apply In_nth_error in Hin. destruct Hin as [t Ht]. exists t.
  unfold fmicro. rewrite Ht, (Hall t th Ht), Hl, HpS. destruct (t_rest th); [congruence|]. eauto.
Qed.

Lemma fmicro_weight fu t fc fc' : fmicro fu t fc = Some fc' -> weight (fc_conf fc') < weight (fc_conf fc).
Proof.
  unfold fmicro, weight. intros Hm.
  destruct (nth_error (c_threads (fc_conf fc)) t) as [th|] eqn:Ht; [|discriminate].
  assert (G : forall th', th_weight th' < th_weight th ->
     list_sum (map th_weight (upd (c_threads (fc_conf fc)) t th')) < list_sum (map th_weight (c_threads (fc_conf fc)))).
  { intros th' Hlt. pose proof (weight_upd _ _ _ th' Ht). lia. }
  assert (D : forall w fs, 0 < th_weight th ->
     list_sum (map th_weight (c_threads (fc_conf (die t fc w fs)))) < list_sum (map th_weight (c_threads (fc_conf fc)))).
  { intros w fs Hp. unfold die. cbn [fc_conf c_threads]. apply G. exact Hp. }
  unfold th_weight at 1 2 in G. unfold th_weight at 1 in D. destruct th as [p rest]. cbn [t_pc t_rest] in *.
  destruct p as [|e|e|e|e|e|e| |].
  - destruct rest as [|e rest]; [discriminate|]. destruct (c_lockS _); [discriminate|]. destruct (fc_poisonS fc); injection Hm as <-.
    + apply D. cbn. lia.
    + cbn [fc_conf c_threads]. apply G. cbn. lia.
  - destruct (fcall _ _ _ _) as [[[? ?]|] ?]; injection Hm as <-; [cbn [fc_conf c_threads]; apply G|apply D]; cbn; lia.
  - destruct (fcall _ _ _ _) as [[[? ?]|] ?]; injection Hm as <-; [cbn [fc_conf c_threads]; apply G|apply D]; cbn; lia.
  - destruct (fcall _ _ _ _) as [[[? ?]|] ?]; injection Hm as <-; [cbn [fc_conf c_threads]; apply G|apply D]; cbn; lia.
  - destruct (ai_rep (fst e)).
    + destruct (fcall_stopped _ _ _) as [[[stop ?]|] ?]; injection Hm as <-; [cbn [fc_conf c_threads]; apply G; destruct stop|apply D]; cbn; lia.
    + injection Hm as <-. cbn [fc_conf c_threads]. apply G. cbn. lia.
  - destruct (c_lockQ _); [discriminate|]. destruct (fc_poisonQ fc); injection Hm as <-; [apply D|cbn [fc_conf c_threads]; apply G]; cbn; lia.
  - destruct (f_clone _ _); injection Hm as <-; [cbn [fc_conf c_threads]; apply G|apply D]; cbn; lia.
  - injection Hm as <-; cbn [fc_conf c_threads]; apply G; cbn; lia.
  - injection Hm as <-; cbn [fc_conf c_threads]; apply G; cbn; lia.
Qed.

(** Reachable configurations: before or after the panic. *)
Definition sound (fc : fconfig A S) : Prop :=
  (healthy fc /\ excl (fc_conf fc) /\ recorded (fc_conf fc)) \/ broken fc.

Lemma sound_step fu u t fc fc' : same_until_panic fu u -> sound fc -> fmicro fu t fc = Some fc' -> sound fc'.
Proof.
  intros H [(HH & Hx & Hr)|Hb] Hm; [|right; apply (broken_step fu t fc fc' Hb Hm)].
  destruct (fmicro_sim fu u t fc fc' H HH Hx Hr Hm) as [[HH1 Hu]|(Hb & _)]; [left|right; exact Hb].
  split; [exact HH1|]. split; [eapply excl_step; eauto|eapply recorded_step; eauto].
Qed.

Lemma sound_exec fu u inter : same_until_panic fu u -> forall fc, sound fc -> sound (fexec fu inter fc).
Proof.
  intros H. induction inter as [|t inter IH]; intros fc Hs; cbn [fexec]; [exact Hs|].
  destruct (fmicro fu t fc) as [fc'|] eqn:Hm; apply IH; [eapply sound_step; eauto|exact Hs].
Qed.

Lemma sound_progress fu u fc : sound fc -> finished (fc_conf fc) = false -> exists t fc', fmicro fu t fc = Some fc'.
Proof.
  intros [(HH & Hx & _)|Hb] F; [|apply broken_progress; assumption].
  destruct (micro_progress u _ Hx F) as (t & c' & Hu). exists t.
  destruct (fmicro fu t fc) as [fc'|] eqn:Hm; [eauto|]. rewrite (fmicro_blocked fu u t fc HH Hm) in Hu. discriminate.
Qed.

Lemma fcan_finish fu u : same_until_panic fu u -> forall n fc, weight (fc_conf fc) <= n -> sound fc ->
  exists more, length more <= n /\ finished (fc_conf (fexec fu more fc)) = true.
Proof.
  intros H. induction n as [|n IH]; intros fc Hw Hc;
    (destruct (finished (fc_conf fc)) eqn:F; [exists []; split; [cbn; lia|exact F]|]);
    destruct (sound_progress fu u fc Hc F) as (t & fc' & Hm); pose proof (fmicro_weight fu t fc fc' Hm) as W; [lia|].
  destruct (IH fc' ltac:(lia) (sound_step fu u t fc fc' H Hc Hm)) as (more & Hl & Hf).
  exists (t :: more). split; [cbn; lia|]. cbn [fexec]. rewrite Hm. exact Hf.
Qed.

Lemma start_sound sc w bs : sound (@fstart A S sc w bs).
Proof.
  left. split; [repeat split|]. split.
  - cbn. split; [reflexivity|]. intros t th Ht. rewrite nth_error_map in Ht. destruct (nth_error bs t); inversion Ht. reflexivity.
  - intros t th Ht. cbn in Ht. rewrite nth_error_map in Ht. destruct (nth_error bs t); inversion Ht. exact I.
Qed.
Lemma start_weight sc w bs : weight (fc_conf (@fstart A S sc w bs)) = 9 * length (concat bs).
Proof.
  unfold weight, fstart, start. cbn [fc_conf c_threads]. rewrite map_map. induction bs as [|b bs IH]; [reflexivity|].
  cbn [map concat]. rewrite app_length. change (list_sum ?l) with (fold_right Nat.add 0 l) in *. cbn [fold_right]. rewrite IH.
  unfold th_weight. cbn [t_pc t_rest pc_weight]. lia.
Qed.

(** ** The queue at a panic *)
Definition pend (p : pc A) : option N :=
  match p with PLockQ e | PPush e => Some (ev_id e) | _ => None end.
Definition pending (l : list (thread A)) (id : N) : Prop :=
  exists t th, nth_error l t = Some th /\ pend (t_pc th) = Some id.
Definition others (l : list (thread A)) (t : nat) (id : N) : Prop :=
  exists t' th, t' <> t /\ nth_error l t' = Some th /\ pend (t_pc th) = Some id.

Lemma pending_split l t th id : nth_error l t = Some th -> (pending l id <-> pend (t_pc th) = Some id \/ others l t id).
Proof.
  intros Ht. split.
  - intros (t' & th' & Ht' & Hp). destruct (Nat.eq_dec t' t) as [->|Hn]; [left; congruence|right; exists t', th'; auto].
  - intros [Hp|(t' & th' & _ & Ht' & Hp)]; [exists t, th; auto|exists t', th'; auto].
Qed.
Lemma pending_upd l t th p r id : nth_error l t = Some th -> (pending (upd l t (Thread p r)) id <-> pend p = Some id \/ others l t id).
Proof.
  intros Ht. rewrite (pending_split _ t (Thread p r) id) by (eapply upd_nth_same; exact Ht). cbn [t_pc].
  assert (E : others (upd l t (Thread p r)) t id <-> others l t id); [|rewrite E; reflexivity].
  split; intros (t' & th' & Hn & Ht' & Hp); exists t', th'; (split; [exact Hn|]); (split; [|exact Hp]);
    [rewrite upd_nth_other in Ht' by congruence|rewrite upd_nth_other by congruence]; exact Ht'.
Qed.

Lemma pq_push_ids a p (q : list (event A)) id : In id (map ev_id (fst (pq_push a p q))) <-> id = ai_id a \/ In id (map ev_id q).
Proof.
  induction q as [|[a' p'] q IH]; cbn; [unfold ev_id; cbn; intuition|].
  destruct (pq_push a p q) as [q' o] eqn:E. cbn in IH.
  destruct (N.eqb_spec (ai_id a') (ai_id a)) as [Hq|Hq]; cbn; unfold ev_id in *; cbn.
  - intuition congruence.
  - rewrite IH. intuition.
Qed.

Definition books (base : list (call A)) (k : N) (fc : fconfig A S) : Prop :=
  s_step (c_sc (fc_conf fc)) = k /\
  exists new, w_trace (c_w (fc_conf fc)) = base ++ new /\
  forall id, goes_on new id <->
    In id (map ev_id (s_events (c_sc (fc_conf fc)))) \/ pending (c_threads (fc_conf fc)) id \/ In (id, InClone) (fc_faults fc).

Lemma iff_mix (gn gn' ga q q' p p' o c c' : Prop) : (gn <-> q \/ (p \/ o) \/ c) ->
  ((gn' \/ q \/ p \/ c) <-> (q' \/ p' \/ c')) -> (ga <-> gn \/ gn') -> (ga <-> q' \/ (p' \/ o) \/ c').
Proof.
  intros H1 [H2 H4] H3. rewrite H3, H1. clear H3 H1. split.
  - clear H4. intros [[K|[[K|K]|K]]|K].
    + destruct (H2 (or_intror (or_introl K))) as [X|[X|X]]; auto.
    + destruct (H2 (or_intror (or_intror (or_introl K)))) as [X|[X|X]]; auto.
    + auto.
    + destruct (H2 (or_intror (or_intror (or_intror K)))) as [X|[X|X]]; auto.
    + destruct (H2 (or_introl K)) as [X|[X|X]]; auto.
  - clear H2. intros [K|[[K|K]|K]].
    + destruct (H4 (or_introl K)) as [X|[X|[X|X]]]; auto.
    + destruct (H4 (or_intror (or_introl K))) as [X|[X|[X|X]]]; auto.
    + auto.
    + destruct (H4 (or_intror (or_intror K))) as [X|[X|[X|X]]]; auto.
Qed.
Lemma no_id (id : N) : ~ None = Some id. Proof. discriminate. Qed.
Lemma not_clone (i id : N) (x : site) : x <> InClone -> ~ (i, x) = (id, InClone). Proof. congruence. Qed.

Lemma books_step fu base k t fc fc' : sound fc -> books base k fc -> fmicro fu t fc = Some fc' -> books base k fc'.
Proof.
  intros Hs (Hk & new & Htr & Hids) Hm. pose proof Hm as Hm0. unfold fmicro in Hm.
  destruct (nth_error (c_threads (fc_conf fc)) t) as [th|] eqn:Ht; [|discriminate].
  assert (G : forall p r sc w ls lq x y fs d new',
    s_step sc = k -> w_trace w = w_trace (c_w (fc_conf fc)) ++ new' ->
    (forall id, (goes_on new' id \/ In id (map ev_id (s_events (c_sc (fc_conf fc)))) \/ pend (t_pc th) = Some id \/ In (id, InClone) (fc_faults fc)) <->
       (In id (map ev_id (s_events sc)) \/ pend p = Some id \/ In (id, InClone) fs)) ->
    FConfig (Config ls lq sc w (upd (c_threads (fc_conf fc)) t (Thread p r))) x y fs d = fc' -> books base k fc').
  { intros p r sc w ls lq x y fs d new' Hk' Hw Hi <-. unfold books. cbn [fc_conf c_sc c_w c_threads fc_faults]. split; [exact Hk'|].
    exists (new ++ new'). split; [rewrite Hw, Htr, app_assoc; reflexivity|].
    intros id. rewrite (pending_upd _ t th) by exact Ht. specialize (Hids id). rewrite (pending_split _ t th) in Hids by exact Ht.
    specialize (Hi id). assert (Ga : goes_on (new ++ new') id <-> goes_on new id \/ goes_on new' id) by (unfold goes_on; apply in_app_iff).
    exact (iff_mix _ _ _ _ _ _ _ _ _ _ Hids Hi Ga). }
  assert (NN : forall id, ~ goes_on (A := A) [] id) by (intros id []).
  destruct (t_pc th) as [|e|e|e|e|e|e| |] eqn:Hpc; cbn [pend] in G.
  - destruct (t_rest th) as [|e rest]; [discriminate|]. destruct (c_lockS (fc_conf fc)); [discriminate|].
    destruct (fc_poisonS fc); injection Hm as Hm; unfold die in Hm; rewrite ?app_nil_r in Hm;
      eapply (G _ _ _ _ _ _ _ _ _ _ []); try exact Hm; try exact Hk; try (rewrite app_nil_r; reflexivity);
      intros id; specialize (NN id); pose proof (no_id id); cbn [pend]; tauto.
  - unfold fcall in Hm. destruct (f_before fu _ _) as [r a s|s]; injection Hm as Hm; unfold die in Hm;
      (eapply (G _ _ _ _ _ _ _ _ _ _ [CAgentBefore (ai_id (fst e))]); [| | |exact Hm]; [exact Hk|reflexivity|]);
      intros id; pose proof (no_id id); pose proof (not_clone (ev_id e) id InBefore ltac:(discriminate));
      assert (~ @CAgentBefore A (ai_id (fst e)) = CAgentStopped id false) by discriminate;
      unfold goes_on; cbn [pend In]; rewrite ?in_app_iff; cbn [In]; tauto.
  - unfold fcall in Hm. destruct (f_step fu _ _) as [r a s|s]; injection Hm as Hm; unfold die in Hm;
      (eapply (G _ _ _ _ _ _ _ _ _ _ [CAgentStep (ai_id (fst e))]); [| | |exact Hm]; [exact Hk|reflexivity|]);
      intros id; pose proof (no_id id); pose proof (not_clone (ev_id e) id InStep ltac:(discriminate));
      assert (~ @CAgentStep A (ai_id (fst e)) = CAgentStopped id false) by discriminate;
      unfold goes_on; cbn [pend In]; rewrite ?in_app_iff; cbn [In]; tauto.
  - unfold fcall in Hm. destruct (f_after fu _ _) as [r a s|s]; injection Hm as Hm; unfold die in Hm;
      (eapply (G _ _ _ _ _ _ _ _ _ _ [CAgentAfter (ai_id (fst e))]); [| | |exact Hm]; [exact Hk|reflexivity|]);
      intros id; pose proof (no_id id); pose proof (not_clone (ev_id e) id InAfter ltac:(discriminate));
      assert (~ @CAgentAfter A (ai_id (fst e)) = CAgentStopped id false) by discriminate;
      unfold goes_on; cbn [pend In]; rewrite ?in_app_iff; cbn [In]; tauto.
  - destruct (ai_rep (fst e)).
    + unfold fcall_stopped in Hm. destruct (f_stopped fu _ _) as [b a s|s]; injection Hm as Hm.
      * eapply (G _ _ _ _ _ _ _ _ _ _ [CAgentStopped (ai_id (fst e)) b]); [| | |exact Hm]; [exact Hk|reflexivity|].
        intros id. unfold goes_on. pose proof (no_id id). destruct b; cbn [pend In]; [assert (~ @CAgentStopped A (ai_id (fst e)) true = CAgentStopped id false) by discriminate; tauto|]. unfold ev_id. cbn [fst ai_id].
        assert (CAgentStopped (A := A) (ai_id (fst e)) false = CAgentStopped id false <-> Some (ai_id (fst e)) = Some id)
          by (split; intros K; injection K as ->; reflexivity). tauto.
      * unfold die in Hm. eapply (G _ _ _ _ _ _ _ _ _ _ []); [| | |exact Hm]; [exact Hk|cbn; rewrite app_nil_r; reflexivity|].
        intros id. specialize (NN id). pose proof (no_id id). pose proof (not_clone (ev_id e) id InStopped ltac:(discriminate)). cbn [pend]. rewrite in_app_iff. cbn [In]. tauto.
    + injection Hm as Hm. eapply (G _ _ _ _ _ _ _ _ _ _ []); [| | |exact Hm]; [exact Hk|rewrite app_nil_r; reflexivity|].
      intros id. specialize (NN id). pose proof (no_id id). cbn [pend]. tauto.
  - destruct (c_lockQ (fc_conf fc)); [discriminate|]. destruct (fc_poisonQ fc) eqn:Pq.
    + exfalso. destruct Hs as [((_ & _ & K & _) & _)|(_ & _ & _ & K)]; [congruence|]. specialize (K t th Ht). congruence.
    + injection Hm as Hm. eapply (G _ _ _ _ _ _ _ _ _ _ []); [| | |exact Hm]; [exact Hk|rewrite app_nil_r; reflexivity|].
      intros id. specialize (NN id). cbn [pend]. tauto.
  - destruct (f_clone fu _); injection Hm as Hm.
    + eapply (G _ _ _ _ _ _ _ _ _ _ []); [| | |exact Hm]; [|rewrite app_nil_r; reflexivity|].
      * rewrite <- Hk. unfold schedule_once. destruct (pq_push _ _ _). reflexivity.
      * intros id. specialize (NN id). pose proof (no_id id). cbn [pend].
        pose proof (pq_push_ids (fst e) (Prio (fadd (ev_time e) f1) (ev_ord e)) (s_events (c_sc (fc_conf fc))) id) as P.
        unfold schedule_once. destruct (pq_push _ _ _) as [q o]. cbn [fst s_events] in *. rewrite P. unfold ev_id at 2.
        assert (Some (ai_id (fst e)) = Some id <-> id = ai_id (fst e)) by (split; congruence). tauto.
    + unfold die in Hm. eapply (G _ _ _ _ _ _ _ _ _ _ []); [| | |exact Hm]; [exact Hk|rewrite app_nil_r; reflexivity|].
      intros id. specialize (NN id). pose proof (no_id id). cbn [pend]. rewrite in_app_iff. cbn [In].
      assert (Some (ev_id e) = Some id <-> (ev_id e, InClone) = (id, InClone)) by (split; congruence). tauto.
  - injection Hm as Hm. eapply (G _ _ _ _ _ _ _ _ _ _ []); [| | |exact Hm]; [exact Hk|rewrite app_nil_r; reflexivity|].
    intros id. specialize (NN id). pose proof (no_id id). cbn [pend]. tauto.
  - injection Hm as Hm. eapply (G _ _ _ _ _ _ _ _ _ _ []); [| | |exact Hm]; [exact Hk|rewrite app_nil_r; reflexivity|].
    intros id. specialize (NN id). pose proof (no_id id). cbn [pend]. tauto.
Qed.

Lemma books_exec fu u base k inter : same_until_panic fu u -> forall fc, sound fc -> books base k fc -> books base k (fexec fu inter fc).
Proof.
  intros H. induction inter as [|t inter IH]; intros fc Hs Hb; cbn [fexec]; [exact Hb|].
  destruct (fmicro fu t fc) as [fc'|] eqn:Hm; apply IH; [eapply sound_step; eauto|eapply books_step; eauto|exact Hs|exact Hb].
Qed.

Lemma start_books sc w bs : s_events sc = [] -> books (w_trace w) (s_step sc) (@fstart A S sc w bs).
Proof.
  intros He. split; [reflexivity|]. exists []. cbn. rewrite app_nil_r. split; [reflexivity|]. intros id. rewrite He. split; [intros []|].
  intros [[]|[(t & th & Ht & Hp)|[]]]. rewrite nth_error_map in Ht. destruct (nth_error bs t); inversion Ht; subst. discriminate.
Qed.

(** ** The whole parallel step *)
Lemma par_hprog_step {X} (p : hprog A X) : forall sc sc' x log, par_run_hprog p sc = (sc', x, log) -> s_step sc' = s_step sc.
Proof.
  induction p as [x|o k IH]; intros sc sc' x' log; cbn.
  - intros K; inversion K. reflexivity.
  - pose proof (par_do_op_step sc o) as E. destruct (par_do_op sc o) as [sc1 r]. cbn in E.
    destruct (par_run_hprog (k r) sc1) as [[sc2 y] lg] eqn:E2. intros K; inversion K; subst. rewrite (IH _ _ _ _ _ E2). exact E.
Qed.

(** What a parallel step is, given its before hook. *)
Lemma fpar_sim fu u n ch inter sc w : same_until_panic fu u ->
  match fpar_step fu n ch inter sc w with
  | FExit w' => par_step u n ch inter sc w = PExit w'
  | FNoThreads => par_step u n ch inter sc w = PPanic
  | FDone sc' w' => par_step u n ch inter sc w = PDone sc' w'
  | FRunning fc => fc_faults fc = [] -> par_step u n ch inter sc w = PRunning (fc_conf fc)
  | FPanicked fc => fc_faults fc <> []
  end /\
  (forall fc, fpar_step fu n ch inter sc w = FPanicked fc \/ (fpar_step fu n ch inter sc w = FRunning fc /\ fc_faults fc <> []) ->
    exists f new,
      fc_faults fc = [f] /\ ends_with f (w_trace (c_w (fc_conf fc))) /\
      (exists inter' c, par_step u n ch inter' sc w = PRunning c /\ w_trace (c_w c) = w_trace (c_w (fc_conf fc))) /\
      s_step (c_sc (fc_conf fc)) = s_step sc /\
      w_trace (c_w (fc_conf fc)) = w_trace w ++ new /\
      (forall id, goes_on new id <-> In id (map ev_id (s_events (c_sc (fc_conf fc)))) \/ f = (id, InClone)) /\
      forall more, exists fc', (fpar_step fu n ch (inter ++ more) sc w = FPanicked fc' \/ fpar_step fu n ch (inter ++ more) sc w = FRunning fc') /\
        fc_faults fc' = [f] /\ c_w (fc_conf fc') = c_w (fc_conf fc) /\ c_sc (fc_conf fc') = c_sc (fc_conf fc)) /\
  (forall fc, fpar_step fu n ch inter sc w = FRunning fc ->
    exists more, (exists sc' w', fpar_step fu n ch (inter ++ more) sc w = FDone sc' w') \/ (exists fc', fpar_step fu n ch (inter ++ more) sc w = FPanicked fc')).
Proof.
  intros H. pose proof H as (Eu & Eb & Ea & _). unfold fpar_step, par_step.
  set (w0 := if (s_step sc =? 0)%N then call_update u (s_step sc) w else w).
  assert (W0 : (if (s_step sc =? 0)%N then call_update (f_base fu) (s_step sc) w else w) = w0)
    by (unfold w0, call_update; rewrite Eu; reflexivity). rewrite W0, Eb, Ea.
  assert (T0 : exists n0, w_trace w0 = w_trace w ++ n0 /\ no_answers n0).
  { unfold w0. destruct (s_step sc =? 0)%N; [exists [CUpdate (s_step sc)]|exists []]; cbn; rewrite ?app_nil_r;
      (split; [reflexivity|intros id b K]); [destruct K as [K|[]]; discriminate|destruct K]. }
  destruct (par_run_hprog (u_before u (w_st w0)) sc) as [[sc1 s1] log1] eqn:E1.
  pose proof (par_hprog_step _ _ _ _ _ E1) as Hstep.
  set (w1 := World s1 (w_trace w0 ++ CStateBefore :: api log1)).
  destruct (pq_peek (ch O) (s_events sc1)) as [e0|].
  2:{ split; [reflexivity|]. split; [intros fc [K|[K _]]; discriminate|intros fc K; discriminate]. }
  destruct n as [|n].
  { split; [reflexivity|]. split; [intros fc [K|[K _]]; discriminate|intros fc K; discriminate]. }
  set (bs := batches (Datatypes.S n) (pop_all (length (s_events sc1)) ch 0 (s_events sc1))).
  set (sc2 := Sched (s_step sc1) (ev_time e0) [] (s_ids sc1)).
  pose proof (start_sound sc2 w1 bs) as Hst. pose proof Hst as [(HH & Hx & Hr)|Hb]; [|destruct Hb as ((f & K & _) & _); discriminate].
  change (start sc2 w1 bs) with (fc_conf (fstart sc2 w1 bs)).
  set (c0 := fstart sc2 w1 bs) in *.
  assert (FIN : forall inter fc, fc = fexec fu inter c0 -> broken fc ->
    (if finished (fc_conf fc) then if fc_poisonS fc then FPanicked fc else
       let '(sc3, s3, log3) := par_run_hprog (u_after u (w_st (c_w (fc_conf fc)))) (c_sc (fc_conf fc)) in
       FDone (Sched (u64_succ (s_step sc3)) (s_time sc3) (s_events sc3) (s_ids sc3))
         (call_update (f_base fu) (u64_succ (s_step sc3)) (World s3 (w_trace (c_w (fc_conf fc)) ++ CStateAfter :: api log3)))
     else FRunning fc) = (if finished (fc_conf fc) then FPanicked fc else FRunning fc)).
  { intros i fc _ (_ & P & _). rewrite P. reflexivity. }
  pose proof (fexec_sim fu u inter H c0 HH Hx Hr) as SIM. cbv zeta in SIM.
  pose proof (sound_exec fu u inter H c0 Hst) as SND.
  pose proof (books_exec fu u _ _ inter H c0 Hst (start_books sc2 w1 bs eq_refl)) as BK.
  set (fc := fexec fu inter c0) in *.
  split; [|split].
  - destruct SIM as [((Hf & HpS & HpQ & Hd) & Hc & _)|(Hb & _)].
    + rewrite HpS, <- Hc. destruct (finished (fc_conf fc)); [|intros _; reflexivity].
      destruct (par_run_hprog (u_after u _) _) as [[sc3 s3] log3]. unfold call_update. rewrite Eu. reflexivity.
    + rewrite (FIN inter fc eq_refl Hb). destruct Hb as ((f & Hf & _) & _).
      destruct (finished (fc_conf fc)); [rewrite Hf; discriminate|]. rewrite Hf. intros K. discriminate.
  - intros fcx Hfc.
    assert (Hb : broken fc /\ fcx = fc).
    { destruct SIM as [((Hf & HpS & HpQ & Hd) & Hc & _)|(Hb & _)].
      - exfalso. rewrite HpS in Hfc. destruct (finished (fc_conf fc)).
        + match type of Hfc with context [par_run_hprog ?a ?b] => destruct (par_run_hprog a b) as [[? ?] ?] end.
          destruct Hfc as [K|[K _]]; discriminate.
        + destruct Hfc as [K|[K K2]]; [discriminate|]. injection K as <-. congruence.
      - split; [exact Hb|]. rewrite (FIN inter fc eq_refl Hb) in Hfc. destruct (finished (fc_conf fc)); destruct Hfc as [K|[K _]]; congruence. }
    destruct Hb as [Hb ->]. destruct SIM as [((Hf & _) & _)|(_ & inter' & Hfin & Htr & _)]; [destruct Hb as ((f & K & _) & _); congruence|].
    pose proof Hb as ((f & Hf & He) & HpS & HlS & Hall).
    destruct BK as (Bk & new & Bt & Bi). destruct T0 as (n0 & T0 & NA0).
    exists f, (n0 ++ CStateBefore :: api log1 ++ new).
    split; [exact Hf|]. split; [exact He|]. split; [|split; [|split; [|split]]].
    + exists inter', (exec u inter' (fc_conf c0)). rewrite Hfin. split; [reflexivity|exact Htr].
    + rewrite Bk. exact Hstep.
    + rewrite Bt. unfold w1. cbn [w_trace]. rewrite T0, <- !app_assoc. reflexivity.
    + intros id. specialize (Bi id). rewrite Hf in Bi. cbn [In] in Bi.
      assert (NP : ~ pending (c_threads (fc_conf fc)) id) by (intros (t & th & Ht & Hp); rewrite (Hall t th Ht) in Hp; discriminate).
      assert (Ga : goes_on (n0 ++ CStateBefore :: api log1 ++ new) id <-> goes_on new id).
      { unfold goes_on. rewrite in_app_iff. cbn [In]. rewrite in_app_iff. specialize (NA0 id false). split; [|tauto].
        intros [K|[K|[K|K]]]; try tauto; [discriminate|]. exfalso. clear -K. unfold api in K. apply in_map_iff in K. destruct K as (x & K & _). discriminate. }
      tauto.
    + intros more. rewrite fexec_app. fold fc. destruct (fexec_broken fu more fc Hb) as (Hb' & F1 & F2 & F3).
      exists (fexec fu more fc). rewrite (FIN (inter ++ more) (fexec fu more fc)); [|rewrite fexec_app; reflexivity|exact Hb'].
      split; [destruct (finished (fc_conf (fexec fu more fc))); auto|]. split; [rewrite F1; exact Hf|]. split; [exact F3|exact F2].
  - intros fcx _. destruct (fcan_finish fu u H (weight (fc_conf fc)) fc (Nat.le_refl _) SND) as (more & _ & Hmore).
    exists more. rewrite fexec_app. fold fc. rewrite Hmore. destruct (fc_poisonS _); [right; eexists; reflexivity|].
    left. match goal with |- context [par_run_hprog ?a ?b] => destruct (par_run_hprog a b) as [[? ?] ?] end. do 2 eexists. reflexivity.
Qed.

(** ** What a panic leaves behind *)
Lemma fcall_none {R} (f : A -> S -> result A S R) tag a w w' : fcall f tag a w = (None, w') -> f (ai_agent a) (w_st w) = Panics (w_st w').
Proof. unfold fcall. destruct (f _ _); intros E; [discriminate|]. injection E as <-. reflexivity. Qed.
Lemma stopped_none fu a w w' : fcall_stopped fu a w = (None, w') -> f_stopped fu (ai_agent a) (w_st w) = Panics (w_st w').
Proof. unfold fcall_stopped. destruct (f_stopped _ _ _); intros E; [discriminate|]. injection E as <-. reflexivity. Qed.

Lemma frun_item_left fu sc w e sc' w' f : frun_item fu sc w e = (sc', w', Some f) -> panicked_in fu (snd f) (w_st w').
Proof.
  unfold frun_item. intros E.
  destruct (fcall (f_before fu) _ _ _) as [[[? a1]|] w1] eqn:E1; [|injection E as _ <- <-; do 2 eexists; exact (fcall_none _ _ _ _ _ E1)].
  destruct (fcall (f_step fu) _ _ _) as [[[? a2]|] w2] eqn:E2; [|injection E as _ <- <-; do 2 eexists; exact (fcall_none _ _ _ _ _ E2)].
  destruct (fcall (f_after fu) _ _ _) as [[[? a3]|] w3] eqn:E3; [|injection E as _ <- <-; do 2 eexists; exact (fcall_none _ _ _ _ _ E3)].
  destruct (ai_rep a3); [|discriminate].
  destruct (fcall_stopped fu a3 w3) as [[[stop a4]|] w4] eqn:E4; [destruct stop; discriminate|].
  injection E as _ <- <-. do 2 eexists. exact (stopped_none _ _ _ _ E4).
Qed.
Lemma frun_items_left fu es : forall sc w sc' w' f, frun_items fu sc w es = (sc', w', Some f) -> panicked_in fu (snd f) (w_st w').
Proof.
  induction es as [|e es IH]; intros sc w sc' w' f E; cbn [frun_items] in E; [discriminate|].
  destruct (frun_item fu sc w e) as [[sc1 w1] [f1|]] eqn:E1; [|eauto]. injection E as <- <- <-. eapply frun_item_left; eauto.
Qed.
Lemma fstep_left fu ch sc w sc' w' f : fstep fu ch sc w = (sc', w', Some f) -> panicked_in fu (snd f) (w_st w').
Proof.
  unfold fstep. intros E. destruct (call_before _ _ _) as [sc1 w1]. destruct (pq_peek _ _) as [e0|]; [|discriminate].
  destruct (pop_due _ _ _ _ _) as [due rest]. destruct (frun_items fu _ _ _) as [[sc2 w2] [f2|]] eqn:E2; [|discriminate].
  injection E as <- <- <-. eapply frun_items_left; eauto.
Qed.

Definition left_over fu (fc : fconfig A S) : Prop :=
  (forall f, In f (fc_faults fc) -> panicked_in fu (snd f) (w_st (c_w (fc_conf fc)))) /\
  (fc_faults fc <> [] -> c_lockS (fc_conf fc) = None /\ c_lockQ (fc_conf fc) = None) /\
  (fc_poisonQ fc = true <-> exists id, In (id, InClone) (fc_faults fc)).

Lemma left_over_step fu t fc fc' : sound fc -> left_over fu fc -> fmicro fu t fc = Some fc' -> left_over fu fc'.
Proof.
  intros Hs (L1 & L2 & L3) Hm. pose proof Hm as Hm0. unfold fmicro in Hm.
  destruct (nth_error (c_threads (fc_conf fc)) t) as [th|] eqn:Ht; [|discriminate].
  destruct Hs as [((Hf & HpS & HpQ & Hd) & Hx & _)|Hb].
  - assert (OK : forall c', FConfig c' (fc_poisonS fc) (fc_poisonQ fc) (fc_faults fc) (fc_dead fc) = fc' -> left_over fu fc').
    { intros c' <-. unfold left_over. cbn [fc_faults fc_poisonQ]. rewrite Hf in *. split; [intros f []|]. split; [congruence|exact L3]. }
    assert (BAD : forall w i x, t_pc th <> PNext -> die t fc w [(i, x)] = fc' -> panicked_in fu x (w_st w) ->
      (in_q (t_pc th) = true <-> x = InClone) -> left_over fu fc').
    { intros w i x Hn <- P Q. unfold excl in Hx. destruct (c_lockS (fc_conf fc)) as [h|] eqn:Hl; [|destruct Hx as [_ Hx]; elim Hn; eauto].
      destruct Hx as (th' & Ht' & _ & Hq & Ho). destruct (Nat.eq_dec t h) as [<-|N]; [|elim Hn; eauto]. replace th' with th in * by congruence.
      unfold left_over, die. cbn [fc_faults fc_conf fc_poisonQ c_w c_lockS c_lockQ]. rewrite Hf, HpQ, Hl, Hq. cbn [app orb]. rewrite Nat.eqb_refl.
      split; [intros f [<-|[]]; exact P|]. split; [intros _; split; [reflexivity|]; destruct (in_q (t_pc th)); [rewrite Nat.eqb_refl|]; reflexivity|].
      destruct (in_q (t_pc th)); [rewrite Nat.eqb_refl|].
      - split; [intros _; exists i; left; f_equal; apply Q; reflexivity|reflexivity].
      - split; [discriminate|]. intros (j & [K|[]]). injection K as _ ->. apply Q. reflexivity. }
    destruct (t_pc th) as [|e|e|e|e|e|e| |] eqn:Hpc.
    + destruct (t_rest th) as [|e rest]; [discriminate|]. destruct (c_lockS (fc_conf fc)); [discriminate|].
      rewrite HpS in Hm. injection Hm as Hm. rewrite <- HpS in Hm. eauto.
    + destruct (fcall (f_before fu) _ _ _) as [[[r a]|] w] eqn:E; injection Hm as Hm; [eauto|].
      eapply BAD; [discriminate|exact Hm|do 2 eexists; exact (fcall_none _ _ _ _ _ E)|split; discriminate].
    + destruct (fcall (f_step fu) _ _ _) as [[[r a]|] w] eqn:E; injection Hm as Hm; [eauto|].
      eapply BAD; [discriminate|exact Hm|do 2 eexists; exact (fcall_none _ _ _ _ _ E)|split; discriminate].
    + destruct (fcall (f_after fu) _ _ _) as [[[r a]|] w] eqn:E; injection Hm as Hm; [eauto|].
      eapply BAD; [discriminate|exact Hm|do 2 eexists; exact (fcall_none _ _ _ _ _ E)|split; discriminate].
    + destruct (ai_rep (fst e)); [|injection Hm as Hm; eauto].
      destruct (fcall_stopped fu _ _) as [[[b a]|] w] eqn:E; injection Hm as Hm; [eauto|].
      eapply BAD; [discriminate|exact Hm|do 2 eexists; exact (stopped_none _ _ _ _ E)|split; discriminate].
    + destruct (c_lockQ (fc_conf fc)); [discriminate|]. rewrite HpQ in Hm. injection Hm as Hm. rewrite <- HpQ in Hm. eauto.
    + destruct (f_clone fu _) eqn:E; injection Hm as Hm; [eauto|].
      eapply BAD; [discriminate|exact Hm|exists (ai_agent (fst e)), (w_st (c_w (fc_conf fc))); exact E|split; reflexivity].
    + injection Hm as Hm. eauto.
    + injection Hm as Hm. eauto.
  - pose proof (broken_step fu t fc fc' Hb Hm0) as (_ & F1 & _ & F3 & _).
    destruct Hb as ((f & Hf & _) & HpS & HlS & Hall). rewrite (Hall t th Ht) in Hm.
    destruct (t_rest th) as [|e rest]; [discriminate|]. rewrite HlS, HpS in Hm. injection Hm as Hm.
    assert (NE : fc_faults fc <> []) by (rewrite Hf; discriminate). destruct (L2 NE) as [_ L2'].
    unfold left_over. rewrite F1, F3. split; [exact L1|]. subst fc'. unfold die. cbn [fc_conf c_lockS c_lockQ fc_poisonQ].
    rewrite HlS, L2', orb_false_r. split; [auto|exact L3].
Qed.

Lemma left_over_exec fu u inter : same_until_panic fu u -> forall fc, sound fc -> left_over fu fc -> left_over fu (fexec fu inter fc).
Proof.
  intros H. induction inter as [|t inter IH]; intros fc Hs L; cbn [fexec]; [exact L|].
  destruct (fmicro fu t fc) as [fc'|] eqn:Hm; [|auto]. apply IH; [eapply sound_step; eauto|eapply left_over_step; eauto].
Qed.

Lemma fpar_left fu u n ch inter sc w fc : same_until_panic fu u ->
  fpar_step fu n ch inter sc w = FPanicked fc \/ (fpar_step fu n ch inter sc w = FRunning fc /\ fc_faults fc <> []) -> left_over fu fc.
Proof.
  intros H. unfold fpar_step. destruct (par_run_hprog (u_before _ _) sc) as [[sc1 s1] log1].
  destruct (pq_peek _ _) as [e0|]; [|intros [K|[K _]]; discriminate]. destruct n as [|n]; [intros [K|[K _]]; discriminate|].
  cbv zeta. match goal with |- context [fexec fu inter ?c] => set (c0 := c) end.
  assert (L : left_over fu (fexec fu inter c0)).
  { apply (left_over_exec fu u inter H); [apply start_sound|]. unfold left_over, c0, fstart. cbn [fc_faults fc_poisonQ].
    split; [intros f []|]. split; [congruence|]. split; [discriminate|intros (? & [])]. }
  destruct (finished _); [destruct (fc_poisonS _)|].
  - intros [K|[K _]]; [|discriminate]. injection K as <-. exact L.
  - destruct (par_run_hprog (u_after _ _) _) as [[? ?] ?]. intros [K|[K _]]; discriminate.
  - intros [K|[K _]]; [discriminate|]. injection K as <-. exact L.
Qed.

End Fault.
