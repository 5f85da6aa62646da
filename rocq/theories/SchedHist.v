(** * Proofs about histories of API calls and steps *)
From Coq Require Import List Bool ZArith NArith Arith Lia Permutation.
From Coq Require Import ZifyBool ZifyNat ZifyN.
From Verif Require Import F32 F32Facts SchedModel SchedSpec SchedProofs SchedStep.
Import ListNotations.
Local Open Scope N_scope.

Section Proofs.
Context {A S : Type}.
Implicit Types (q : list (event A)) (e : event A) (u : user A S).

Lemma act_unique u x c :
  unique_ids (s_events (fst c)) -> unique_ids (s_events (fst (act u x c))).
Proof.
  destruct c as [sc w]. intros H. destruct x as [o|ch]; cbn in *.
  - pose proof (do_op_unique sc o H) as K. destruct (do_op sc o). exact K.
  - destruct (step u ch sc w) as [sc' w'] eqn:E. apply step_anatomy in E; [|exact H].
    destruct E as (sc1 & s1 & log1 & due & rest & backs & s2 & tr & now & sc3 & s3 & log3 &
      Hb & Hu1 & Perm & Hnil & Hcons & Hts & Hu2 & Hsc & Ha & Hsc' & Hst & Htr).
    subst sc'. cbn. eapply run_hprog_unique; [exact Ha|exact Hu2].
Qed.

Lemma acts_unique u xs : forall c,
  unique_ids (s_events (fst c)) -> unique_ids (s_events (fst (acts u xs c))).
Proof.
  induction xs as [|x xs IH]; cbn; intros c H; [exact H|].
  apply IH. apply act_unique. exact H.
Qed.

(** ** C03 *)
Lemma engine_calls_cons c (l : list (call A)) :
  engine_calls (c :: l) = if negb (is_api c) then c :: engine_calls l else engine_calls l.
Proof. reflexivity. Qed.

Lemma step_block_calls u ch sc w sc' w' :
  unique_ids (s_events sc) -> s_step sc + 1 < u64_mod ->
  step u ch sc w = (sc', w') ->
  s_step sc' = s_step sc + 1 /\
  exists r, engine_calls (w_trace w') =
    engine_calls (w_trace w) ++ (if s_step sc =? 0 then [CUpdate 0] else []) ++
    step_block (s_step sc) r.
Proof.
  intros Hu Hlt E. apply step_anatomy in E; [|exact Hu].
  destruct E as (sc1 & s1 & log1 & due & rest & backs & s2 & tr & now & sc3 & s3 & log3 &
      Hb & Hu1 & Perm & Hnil & Hcons & Hts & Hu2 & Hsc & Ha & Hsc' & Hst & Htr).
  rewrite u64_succ_small in * by assumption.
  split; [subst sc'; reflexivity|].
  destruct (engine_calls_stopped _ _ _ Hsc) as (rs & Hrs & _).
  exists rs. rewrite Htr, 2!engine_calls_app. f_equal. f_equal.
  { destruct (s_step sc =? 0); reflexivity. }
  rewrite engine_calls_cons, !engine_calls_app, engine_calls_api, Hrs.
  rewrite engine_calls_cons, !engine_calls_app, engine_calls_api. reflexivity.
Qed.

Lemma acts_blocks u : forall xs c,
  unique_ids (s_events (fst c)) ->
  s_step (fst c) + N.of_nat (count_steps xs) < u64_mod ->
  s_step (fst (acts u xs c)) = s_step (fst c) + N.of_nat (count_steps xs) /\
  exists runs, length runs = count_steps xs /\
    engine_calls (w_trace (snd (acts u xs c))) =
    engine_calls (w_trace (snd c)) ++
    (if (count_steps xs =? 0)%nat then []
     else (if s_step (fst c) =? 0 then [CUpdate 0] else []) ++
          step_blocks (s_step (fst c)) runs).
Proof.
  induction xs as [|x xs IH]; intros [sc w] Hu Hlt.
  - cbn. split; [lia|]. exists []. rewrite app_nil_r. auto.
  - cbn [acts fold_left]. fold (acts u xs (act u x (sc, w))).
    pose proof (act_unique u x (sc, w) Hu) as Hu'.
    destruct x as [o|ch]; cbn [act fst snd] in *.
    + destruct (do_op sc o) as [sc1 r] eqn:E. cbn [fst snd] in *.
      pose proof (do_op_const sc o) as [Kc _]. rewrite E in Kc. cbn in Kc.
      change (count_steps (ActApi o :: xs)) with (count_steps xs) in *.
      destruct (IH (sc1, World (w_st w) (w_trace w ++ [CApi o r])) Hu') as (H1 & runs & H2 & H3).
      { cbn. rewrite Kc. exact Hlt. }
      cbn [fst snd w_trace] in *. rewrite Kc in *. split; [exact H1|].
      exists runs. split; [exact H2|]. rewrite H3, engine_calls_app. cbn.
      rewrite app_nil_r. reflexivity.
    + destruct (step u ch sc w) as [sc1 w1] eqn:E. cbn [fst snd] in *.
      assert (count_steps (ActStep ch :: xs) = Datatypes.S (count_steps xs)) as Ec by reflexivity.
      rewrite Ec in *.
      apply step_block_calls in E; [|exact Hu|lia]. destruct E as (Hs & r & Htr).
      destruct (IH (sc1, w1) Hu') as (H1 & runs & H2 & H3). { cbn. lia. }
      cbn [fst snd] in *. split; [lia|].
      exists (r :: runs). cbn [length]. split; [congruence|].
      rewrite H3, Htr. cbn [Nat.eqb]. rewrite <- !app_assoc. f_equal. f_equal.
      cbn [step_blocks]. f_equal. rewrite Hs.
      destruct (s_step sc + 1 =? 0) eqn:Z; [lia|].
      destruct (Nat.eqb_spec (count_steps xs) 0) as [K|K].
      * rewrite K in H2. destruct runs; [reflexivity|discriminate].
      * reflexivity.
Qed.

(** ** C04 *)

Definition once_free (tr : list (call A)) : Prop := existsb is_once tr = false.
Definition n_sched (tr : list (call A)) : N := N.of_nat (length (filter is_scheduling tr)).

Lemma live_after_app (a b : list (call A)) :
  live_after (a ++ b) = fold_left live_call b (live_after a).
Proof. apply fold_left_app. Qed.

Lemma n_sched_app (a b : list (call A)) : n_sched (a ++ b) = n_sched a + n_sched b.
Proof. unfold n_sched. rewrite filter_app, app_length. lia. Qed.

Lemma once_free_app (a b : list (call A)) : once_free (a ++ b) <-> once_free a /\ once_free b.
Proof. unfold once_free. rewrite existsb_app, orb_false_iff. tauto. Qed.

Lemma answers_ok_snoc (tr : list (call A)) c :
  answers_ok tr -> answer_ok (live_after tr) c -> answers_ok (tr ++ [c]).
Proof.
  intros H Hc pre c' post E.
  destruct post as [|x post] using rev_ind.
  - apply app_inj_tail in E. destruct E as [<- <-]. exact Hc.
  - clear IHpost. rewrite app_comm_cons, app_assoc in E. apply app_inj_tail in E.
    destruct E as [-> _]. eapply H. reflexivity.
Qed.

Lemma answers_ok_app (tr l : list (call A)) :
  answers_ok tr ->
  (forall pre c post, l = pre ++ c :: post -> answer_ok (live_after (tr ++ pre)) c) ->
  answers_ok (tr ++ l).
Proof.
  revert tr. induction l as [|c l IH]; intros tr H Hl.
  - rewrite app_nil_r. exact H.
  - replace (tr ++ c :: l) with ((tr ++ [c]) ++ l) by (rewrite <- app_assoc; reflexivity).
    apply IH.
    + apply answers_ok_snoc; [exact H|]. rewrite <- (app_nil_r tr). eapply Hl. reflexivity.
    + intros pre c' post E. rewrite <- app_assoc. cbn. eapply (Hl (c :: pre)). cbn. rewrite E.
      reflexivity.
Qed.

Record inv (tr : list (call A)) (sc : sched A) : Prop := {
  inv_next : l_next (live_after tr) = n_sched tr;
  inv_ids : s_ids sc = n_sched tr mod u32_mod;
  inv_unique : unique_ids (s_events sc);
  inv_live : forall id, In id (map ev_id (s_events sc)) <-> In id (l_live (live_after tr));
  inv_below : forall id, In id (l_live (live_after tr)) -> id < n_sched tr;
  inv_rep : forall e, In e (s_events sc) -> ai_rep (fst e) = true;
  inv_ans : answers_ok tr
}.

Lemma live_after_snoc (tr : list (call A)) c :
  live_after (tr ++ [c]) = live_call (live_after tr) c.
Proof. rewrite live_after_app. reflexivity. Qed.

Lemma existsb_eqb_In id l : existsb (N.eqb id) l = true <-> In id l.
Proof.
  rewrite existsb_exists. split.
  - intros (x & Hx & E). apply N.eqb_eq in E. congruence.
  - intros H. exists id. rewrite N.eqb_refl. auto.
Qed.

Lemma u32_mod_succ n : u32_succ (n mod u32_mod) = (n + 1) mod u32_mod.
Proof. unfold u32_succ. rewrite N.add_mod_idemp_l by discriminate. reflexivity. Qed.

Lemma u32_pred_succ n : n < u32_mod -> u32_pred (u32_succ n) = n.
Proof. unfold u32_pred, u32_succ, u32_mod. intros. lia. Qed.

(** One API call. *)
Lemma inv_op (tr : list (call A)) sc o sc' r :
  inv tr sc -> do_op sc o = (sc', r) ->
  once_free (tr ++ [CApi o r]) -> n_sched (tr ++ [CApi o r]) <= u32_mod ->
  inv (tr ++ [CApi o r]) sc'.
Proof.
  intros [I1 I2 I3 I4 I5 I6 I7] E Hof Hn.
  rewrite n_sched_app in Hn.
  pose proof (do_op_unique sc o I3) as Hu'. rewrite E in Hu'. cbn in Hu'.
  assert (Hsched : forall ag t ord,
    (s_ids sc = n_sched tr) ->
    n_sched tr < u32_mod ->
    pq_push (AI (s_ids sc) ag true) (Prio t ord) (s_events sc) =
      (s_events sc ++ [(AI (n_sched tr) ag true, Prio t ord)], None)).
  { intros ag t ord Hid Hlt. rewrite pq_push_fresh; [rewrite Hid; reflexivity|].
    cbn. rewrite Hid. intros K. apply I4 in K. apply I5 in K. lia. }
  destruct o as [a t ord|ag t ord|ag t ord|id| | |]; cbn in E.
  - apply once_free_app in Hof. destruct Hof as [_ Hof]. discriminate.
  - assert (Hs : forall r, n_sched [CApi (OpRepeating ag t ord) r] = 1) by reflexivity.
    rewrite Hs in Hn.
    assert (Hid : s_ids sc = n_sched tr) by (rewrite I2; apply N.mod_small; lia).
    unfold schedule_repeating in E. rewrite Hsched in E by (auto; lia). cbn in E.
    inversion E; subst; clear E.
    constructor; rewrite ?live_after_snoc, ?n_sched_app, ?Hs; cbn.
    + rewrite I1. reflexivity.
    + rewrite I2, u32_mod_succ. reflexivity.
    + exact Hu'.
    + intros id. rewrite map_app, in_app_iff, I4. cbn. rewrite I1. tauto.
    + intros id [K|K]; [rewrite I1 in K; lia|].
      apply I5 in K. lia.
    + intros e He. apply in_app_or in He. destruct He as [He|[<-|[]]]; auto.
    + apply answers_ok_snoc; [exact I7|]. reflexivity.
  - assert (Hs : forall r, n_sched [CApi (OpDistRepeating ag t ord) r] = 1) by reflexivity.
    rewrite Hs in Hn.
    assert (Hid : s_ids sc = n_sched tr) by (rewrite I2; apply N.mod_small; lia).
    unfold distributed_schedule_repeating in E. rewrite Hsched in E by (auto; lia). cbn in E.
    inversion E; subst; clear E.
    constructor; rewrite ?live_after_snoc, ?n_sched_app, ?Hs; cbn.
    + rewrite I1. reflexivity.
    + rewrite I2, u32_mod_succ. reflexivity.
    + exact Hu'.
    + intros id. rewrite map_app, in_app_iff, I4. cbn. rewrite I1. tauto.
    + intros id [K|K]; [rewrite I1 in K; lia|].
      apply I5 in K. lia.
    + intros e He. apply in_app_or in He. destruct He as [He|[<-|[]]]; auto.
    + apply answers_ok_snoc; [exact I7|]. cbn. rewrite I1. f_equal.
      rewrite Hid. apply u32_pred_succ. lia.
  - unfold dequeue in E.
    destruct (pq_remove_filter id (s_events sc) I3) as [F1 F2].
    destruct (pq_remove id (s_events sc)) as [q' ro]. cbn in F1, F2. inversion E; subst; clear E.
    assert (Hlive : forall i, In i (map ev_id (filter (fun e => negb (ev_id e =? id)) (s_events sc)))
                 <-> In i (filter (fun i => negb (i =? id)) (l_live (live_after tr)))).
    { intros i. rewrite (filter_map_ids (fun i => negb (i =? id))).
      rewrite !filter_In, I4. tauto. }
    assert (Hs : forall r, n_sched [CApi (OpDequeue id) r] = 0) by reflexivity.
    constructor; rewrite ?live_after_snoc, ?n_sched_app, ?Hs, ?N.add_0_r; cbn.
    + exact I1.
    + exact I2.
    + exact Hu'.
    + exact Hlive.
    + intros i Hi. apply filter_In in Hi. apply I5. tauto.
    + intros e He. apply filter_In in He. apply I6. tauto.
    + apply answers_ok_snoc; [exact I7|]. cbn. f_equal.
      destruct ro as [x|].
      * symmetry. apply existsb_eqb_In. apply I4.
        destruct (in_dec N.eq_dec id (map ev_id (s_events sc))) as [K|K]; [exact K|].
        apply F2 in K. discriminate.
      * symmetry. apply not_true_is_false. intros K. apply existsb_eqb_In in K.
        apply I4 in K. destruct F2 as [F2 _]. apply (F2 eq_refl). exact K.
  - inversion E; subst; clear E.
    assert (Hs : forall r, n_sched [CApi (@OpAllEvents A) r] = 0) by reflexivity.
    constructor; rewrite ?live_after_snoc, ?n_sched_app, ?Hs, ?N.add_0_r; cbn; auto.
    apply answers_ok_snoc; [exact I7|exact I].
  - inversion E; subst; clear E.
    assert (Hs : forall r, n_sched [CApi (@OpReadStep A) r] = 0) by reflexivity.
    constructor; rewrite ?live_after_snoc, ?n_sched_app, ?Hs, ?N.add_0_r; cbn; auto.
    apply answers_ok_snoc; [exact I7|exact I].
  - inversion E; subst; clear E.
    assert (Hs : forall r, n_sched [CApi (@OpReadTime A) r] = 0) by reflexivity.
    constructor; rewrite ?live_after_snoc, ?n_sched_app, ?Hs, ?N.add_0_r; cbn; auto.
    apply answers_ok_snoc; [exact I7|exact I].
Qed.

(** A hook. *)
Lemma inv_prog {X} (p : hprog A X) : forall tr sc sc' x log,
  inv tr sc -> run_hprog p sc = (sc', x, log) ->
  once_free (tr ++ api log) -> n_sched (tr ++ api log) <= u32_mod ->
  inv (tr ++ api log) sc'.
Proof.
  induction p as [x|o k IH]; intros tr sc sc' y log I E Hof Hn; cbn in E.
  - inversion E; subst. cbn. rewrite app_nil_r. exact I.
  - destruct (do_op sc o) as [sc1 r] eqn:Eo.
    destruct (run_hprog (k r) sc1) as [[sc2 z] l] eqn:Ek. inversion E; subst; clear E.
    cbn [api map fst snd] in *. fold (api l) in *.
    replace (tr ++ CApi o r :: api l) with ((tr ++ [CApi o r]) ++ api l) in *
      by (rewrite <- app_assoc; reflexivity).
    eapply IH; eauto.
    eapply inv_op; eauto.
    + apply once_free_app in Hof. tauto.
    + rewrite n_sched_app in Hn. lia.
Qed.

(** Calls that do not matter for the bookkeeping. *)
Lemma inv_other tr (c : call A) sc sc' :
  inv tr sc ->
  (forall st, live_call st c = st) -> (forall st, answer_ok st c) ->
  is_scheduling c = false ->
  s_events sc' = s_events sc -> s_ids sc' = s_ids sc ->
  inv (tr ++ [c]) sc'.
Proof.
  intros [I1 I2 I3 I4 I5 I6 I7] H1 H2 H3 He Hi.
  assert (Hn : n_sched (tr ++ [c]) = n_sched tr).
  { rewrite n_sched_app. unfold n_sched at 2. cbn. rewrite H3. cbn. lia. }
  constructor; rewrite ?live_after_snoc, ?Hn, ?H1, ?He, ?Hi; auto.
  apply answers_ok_snoc; auto.
Qed.

(** Turns. *)
Lemma live_calls_of e st : fold_left live_call (calls_of e) st = st.
Proof. reflexivity. Qed.

Lemma turns_live es backs tr :
  stopped_calls es backs tr ->
  forall st rest,
  (forall e, In e es -> ai_rep (fst e) = true) ->
  NoDup (map ev_id es ++ rest) ->
  (forall id, In id (map ev_id es ++ rest) <-> In id (l_live st)) ->
  l_next (fold_left live_call tr st) = l_next st /\
  (forall id, In id (rest ++ map ev_id backs) <-> In id (l_live (fold_left live_call tr st))) /\
  (forall id, In id (l_live (fold_left live_call tr st)) -> In id (l_live st)).
Proof.
  induction 1 as [|e es backs tr Hr Hs IH|e es backs tr Hr Hs IH|e b es backs tr Hr Hb Hs IH];
    intros st rest Hrep Hnd Hl.
  - cbn in *. rewrite app_nil_r. auto.
  - rewrite Hrep in Hr by (left; reflexivity). discriminate.
  - rewrite fold_left_app, live_calls_of. cbn [fold_left live_call].
    cbn [map app] in Hnd. inversion Hnd as [|? ? Hn Hd]; subst.
    destruct (IH (Live (l_next st) (filter (fun i => negb (i =? ev_id e)) (l_live st))) rest)
      as (K1 & K2 & K3).
    + intros x Hx. apply Hrep. right. exact Hx.
    + exact Hd.
    + intros id. cbn [l_live]. rewrite filter_In, <- Hl. cbn [map app In].
      destruct (N.eqb_spec id (ev_id e)) as [E|E]; cbn.
      * subst id. split; [tauto|]. intros [_ K]. discriminate.
      * split; [tauto|]. intros [[K|K] _]; [congruence|exact K].
    + split; [exact K1|]. split; [exact K2|].
      intros id K. apply K3 in K. cbn in K. apply filter_In in K. tauto.
  - rewrite fold_left_app, live_calls_of. cbn [fold_left live_call].
    cbn [map app] in Hnd. inversion Hnd as [|? ? Hn Hd]; subst.
    destruct (IH st (rest ++ [ev_id e])) as (K1 & K2 & K3).
    + intros x Hx. apply Hrep. right. exact Hx.
    + rewrite app_assoc. apply NoDup_app_one; assumption.
    + intros id. rewrite <- Hl. cbn [map app In]. rewrite !in_app_iff. cbn [In]. tauto.
    + split; [exact K1|]. split; [|exact K3].
      intros id. rewrite <- K2. cbn [map]. rewrite Hb. rewrite !in_app_iff. cbn [In].
      tauto.
Qed.

Lemma stopped_calls_quiet es backs (tr : list (call A)) :
  stopped_calls es backs tr ->
  filter is_scheduling tr = [] /\
  (forall c, In c tr -> forall st, answer_ok st c) .
Proof.
  induction 1 as [|e es backs tr Hr Hs [IH1 IH2]|e es backs tr Hr Hs [IH1 IH2]
                 |e b es backs tr Hr Hb Hs [IH1 IH2]]; cbn.
  - split; [reflexivity|tauto].
  - split; [exact IH1|]. intros c [<-|[<-|[<-|K]]]; cbn; auto.
  - split; [exact IH1|]. intros c [<-|[<-|[<-|[<-|K]]]]; cbn; auto.
  - split; [exact IH1|]. intros c [<-|[<-|[<-|[<-|K]]]]; cbn; auto.
Qed.

Lemma stopped_calls_backs es backs (tr : list (call A)) u s s' :
  turns u es s backs s' -> forall b, In b backs -> ai_rep (fst b) = true.
Proof.
  induction 1 as [|e es s s' backs s'' Ht Hts IH|e es b s s' backs s'' Ht Hts IH];
    intros x Hx; [destruct Hx|auto|].
  destruct Hx as [<-|Hx]; [apply turn_rep in Ht; tauto|auto].
Qed.

Lemma inv_step u ch tr sc w sc' w' :
  w_trace w = tr ->
  inv tr sc -> step u ch sc w = (sc', w') ->
  once_free (w_trace w') -> n_sched (w_trace w') <= u32_mod ->
  inv (w_trace w') sc'.
Proof.
  intros Htr0 I E Hof Hn. apply step_anatomy in E; [|apply I].
  destruct E as (sc1 & s1 & log1 & due & rest & backs & s2 & trr & now & sc3 & s3 & log3 &
      Hb & Hu1 & Perm & Hnil & Hcons & Hts & Hu2 & Hsc & Ha & Hsc' & Hst & Htr).
  rewrite Htr in Hof, Hn |- *. rewrite Htr0 in Hof, Hn |- *. clear Htr.
  set (pre := tr ++ (if s_step sc =? 0 then [CUpdate 0] else [])) in *.
  assert (I0 : inv pre sc).
  { unfold pre. destruct (s_step sc =? 0).
    - eapply inv_other; eauto; reflexivity.
    - rewrite app_nil_r. exact I. }
  rewrite app_assoc in Hof, Hn |- *. fold pre in Hof, Hn |- *.
  replace (pre ++ CStateBefore :: api log1 ++ trr ++
             CStateAfter :: api log3 ++ [CUpdate (u64_succ (s_step sc))])
    with (((((pre ++ [CStateBefore]) ++ api log1) ++ trr ++ [CStateAfter]) ++ api log3)
            ++ [CUpdate (u64_succ (s_step sc))]) in Hof, Hn |- *
    by (repeat (rewrite <- app_assoc; cbn [app]); reflexivity).
  rewrite once_free_app in Hof. destruct Hof as [Hof _].
  rewrite n_sched_app in Hn. assert (Hn1 := N.le_trans _ _ _ (N.le_add_r _ _) Hn). clear Hn.
  assert (Hof1 := Hof). rewrite once_free_app in Hof1. destruct Hof1 as [Hof1 _].
  assert (Hn2 := Hn1). rewrite n_sched_app in Hn2.
  assert (Hn3 := N.le_trans _ _ _ (N.le_add_r _ _) Hn2). clear Hn2.
  assert (Hof2 := Hof1). rewrite once_free_app in Hof2. destruct Hof2 as [Hof2 _].
  assert (Hn4 := Hn3). rewrite n_sched_app in Hn4.
  assert (Hn5 := N.le_trans _ _ _ (N.le_add_r _ _) Hn4). clear Hn4.
  assert (I1 : inv ((pre ++ [CStateBefore]) ++ api log1) sc1).
  { eapply inv_prog; [|exact Hb|exact Hof2|exact Hn5].
    eapply inv_other; eauto; reflexivity. }
  set (tr1 := (pre ++ [CStateBefore]) ++ api log1) in *.
  assert (I2 : inv (tr1 ++ trr ++ [CStateAfter])
                 (Sched (s_step sc1) now (rest ++ backs) (s_ids sc1))).
  { rewrite app_assoc. apply (inv_other _ _ (Sched (s_step sc1) now (rest ++ backs) (s_ids sc1)));
      try reflexivity.
    destruct I1 as [J1 J2 J3 J4 J5 J6 J7].
    destruct (stopped_calls_quiet _ _ _ Hsc) as [Q1 Q2].
    assert (Hns : n_sched (tr1 ++ trr) = n_sched tr1).
    { rewrite n_sched_app. unfold n_sched at 2. rewrite Q1. cbn. lia. }
    destruct (turns_live _ _ _ Hsc (live_after tr1) (map ev_id rest)) as (K1 & K2 & K3).
    { intros e He. apply J6. eapply Permutation_in; [symmetry; exact Perm|].
      apply in_or_app. auto. }
    { rewrite <- map_app. eapply unique_ids_perm; eauto. }
    { intros id. rewrite <- J4, <- map_app. split; intros K.
      - eapply Permutation_in; [apply Permutation_map; symmetry; exact Perm|exact K].
      - eapply Permutation_in; [apply Permutation_map; exact Perm|exact K]. }
    constructor; rewrite ?Hns, ?live_after_app; cbn [s_events s_ids].
    - congruence.
    - exact J2.
    - exact Hu2.
    - intros id. rewrite map_app. apply K2.
    - intros id K. apply J5. apply K3. exact K.
    - intros e He. apply in_app_or in He. destruct He as [He|He].
      + apply J6. eapply Permutation_in; [symmetry; exact Perm|]. apply in_or_app. auto.
      + eapply stopped_calls_backs; eauto.
    - apply answers_ok_app; [exact J7|]. intros p c post Epc. apply Q2. rewrite Epc.
      apply in_or_app. right. left. reflexivity. }
  assert (I3 : inv ((tr1 ++ trr ++ [CStateAfter]) ++ api log3) sc3).
  { eapply inv_prog; eauto. }
  subst sc'. eapply inv_other; [exact I3|reflexivity..].
Qed.

Lemma inv_acts u : forall xs sc w,
  inv (w_trace w) sc ->
  once_free (w_trace (snd (acts u xs (sc, w)))) ->
  n_sched (w_trace (snd (acts u xs (sc, w)))) <= u32_mod ->
  inv (w_trace (snd (acts u xs (sc, w)))) (fst (acts u xs (sc, w))).
Proof.
  assert (Hpre : forall xs sc w, exists l, w_trace (snd (acts u xs (sc, w))) = w_trace w ++ l /\ True).
  { induction xs as [|x xs IH]; intros sc w.
    - exists []. cbn. rewrite app_nil_r. auto.
    - cbn [acts fold_left]. fold (acts u xs (act u x (sc, w))).
      assert (exists l, w_trace (snd (act u x (sc, w))) = w_trace w ++ l) as [l Hl].
      { destruct x as [o|ch]; cbn.
        - destruct (do_op sc o); cbn. eexists; reflexivity.
        - unfold step, finish_step, call_after, call_before.
          set (w0 := if s_step sc =? 0 then call_update u (s_step sc) w else w).
          assert (exists l, w_trace w0 = w_trace w ++ l) as [l0 Hl0].
          { unfold w0. destruct (s_step sc =? 0); cbn; [eexists; reflexivity|]. exists []. rewrite app_nil_r. auto. }
          destruct (run_hprog (u_before u (w_st w0)) sc) as [[sc1 s1] log1].
          destruct (pq_peek (ch O) (s_events sc1)) as [e0|].
          + destruct (pop_due _ _ _ _ _) as [due rest].
            destruct (run_items u _ _ due) as [sc2 w2] eqn:R.
            assert (exists l, w_trace w2 = w_trace w0 ++ l) as [l2 Hl2].
            { assert (Hri : forall es sc w sc' w', run_items u sc w es = (sc', w') ->
                exists l, w_trace w' = w_trace w ++ l).
              { induction es as [|e es IHe]; cbn; intros sc0 w3 sc' w' Er.
                - inversion Er; subst. exists []. rewrite app_nil_r. auto.
                - destruct (run_item u sc0 w3 e) as [sc5 w5] eqn:Ei.
                  apply run_item_turn in Ei. destruct Ei as (b & _ & _ & _ & _ & _ & _ & Et).
                  apply IHe in Er. destruct Er as [l' Hl']. rewrite Hl', Et, <- app_assoc. eexists; reflexivity. }
              apply Hri in R. destruct R as [l' Hl']. cbn in Hl'.
              rewrite Hl', <- app_assoc. eexists; reflexivity. }
            destruct (run_hprog (u_after u (w_st w2)) sc2) as [[sc3 s3] log3]. cbn.
            rewrite Hl2, Hl0, <- !app_assoc. eexists; reflexivity.
          + cbn. destruct (run_hprog (u_after u s1) sc1) as [[sc3 s3] log3]. cbn.
            rewrite Hl0, <- !app_assoc. eexists; reflexivity. }
      destruct (act u x (sc, w)) as [sc1 w1]. cbn in Hl.
      destruct (IH sc1 w1) as [l' [Hl' _]]. rewrite Hl', Hl, <- app_assoc. eexists. split; [reflexivity|exact I]. }
  induction xs as [|x xs IH]; intros sc w Iv Hof Hn; [exact Iv|].
  cbn [acts fold_left] in *. fold (acts u xs (act u x (sc, w))) in *.
  destruct (act u x (sc, w)) as [sc1 w1] eqn:E. 
  destruct (Hpre xs sc1 w1) as (l & Hl & _).
  assert (Hof1 : once_free (w_trace w1)) by (rewrite Hl in Hof; apply once_free_app in Hof; tauto).
  assert (Hn1 : n_sched (w_trace w1) <= u32_mod) by (rewrite Hl, n_sched_app in Hn; lia).
  apply IH; auto. clear Hof Hn.
  destruct x as [o|ch]; cbn in E.
  - destruct (do_op sc o) as [sc2 r] eqn:Eo. inversion E; subst. cbn in *.
    eapply inv_op; eauto.
  - exact (inv_step u ch (w_trace w) sc w sc1 w1 eq_refl Iv E Hof1 Hn1).
Qed.

Lemma inv_fresh s : inv (w_trace (World s [] : world A S)) sched_new.
Proof.
  constructor; cbn; try reflexivity; try tauto.
  - constructor.
  - intros pre c post E. destruct pre; discriminate.
Qed.

(** The final form. *)
Lemma bookkeeping u xs s sc w :
  acts u xs (sched_new, World s []) = (sc, w) ->
  existsb is_once (w_trace w) = false ->
  N.of_nat (length (filter is_scheduling (w_trace w))) <= 4294967296 ->
  answers_ok (w_trace w) /\
  unique_ids (s_events sc) /\
  (forall id, In id (map ev_id (s_events sc)) <-> In id (l_live (live_after (w_trace w)))) /\
  (forall e, In e (s_events sc) -> ai_rep (fst e) = true).
Proof.
  intros E H1 H2. pose proof (inv_acts u xs sched_new (World s []) (inv_fresh s)) as H.
  rewrite E in H. cbn [fst snd] in H. destruct (H H1 H2). auto.
Qed.

End Proofs.
