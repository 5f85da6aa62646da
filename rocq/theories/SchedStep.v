(** * Proofs about [Schedule::step] *)
From Coq Require Import List Bool ZArith NArith Arith Lia Permutation.
From Coq Require Import ZifyBool ZifyNat ZifyN.
From Verif Require Import F32 F32Facts SchedModel SchedSpec SchedProofs.
Import ListNotations.
Local Open Scope N_scope.

Section Proofs.
Context {A S : Type}.
Implicit Types (q : list (event A)) (e : event A) (u : user A S).

(** ** Hooks keep the queue well formed *)

Lemma do_op_unique (sc : sched A) o :
  unique_ids (s_events sc) -> unique_ids (s_events (fst (do_op sc o))).
Proof.
  intros H. destruct o; cbn; try exact H.
  - apply pq_push_unique. exact H.
  - unfold schedule_repeating.
    pose proof (pq_push_unique (AI (s_ids sc) ag true) (Prio t o) _ H) as K.
    destruct (pq_push _ _ _) as [q r]. cbn in *. exact K.
  - unfold distributed_schedule_repeating.
    pose proof (pq_push_unique (AI (s_ids sc) ag true) (Prio t o) _ H) as K.
    destruct (pq_push _ _ _) as [q r]. cbn in *. exact K.
  - unfold dequeue. pose proof (pq_remove_unique id _ H) as K.
    destruct (pq_remove _ _) as [q r]. cbn in *. exact K.
Qed.

Lemma do_op_const (sc : sched A) o :
  s_step (fst (do_op sc o)) = s_step sc /\ s_time (fst (do_op sc o)) = s_time sc.
Proof.
  destruct o; cbn; auto.
  - unfold schedule_repeating. destruct (pq_push _ _ _); cbn; auto.
  - unfold distributed_schedule_repeating. destruct (pq_push _ _ _); cbn; auto.
  - unfold dequeue. destruct (pq_remove _ _); cbn; auto.
Qed.

Lemma run_hprog_unique {X} (p : hprog A X) : forall sc sc' x log,
  run_hprog p sc = (sc', x, log) -> unique_ids (s_events sc) -> unique_ids (s_events sc').
Proof.
  induction p as [x|o k IH]; intros sc sc' y log H Hu; cbn in H.
  - inversion H; subst. exact Hu.
  - pose proof (do_op_unique sc o Hu) as K. destruct (do_op sc o) as [sc1 r]. cbn in K.
    destruct (run_hprog (k r) sc1) as [[sc2 z] l] eqn:E. inversion H; subst.
    eapply IH; eauto.
Qed.

Lemma run_hprog_const {X} (p : hprog A X) : forall sc sc' x log,
  run_hprog p sc = (sc', x, log) -> s_step sc' = s_step sc /\ s_time sc' = s_time sc.
Proof.
  induction p as [x|o k IH]; intros sc sc' y log H; cbn in H.
  - inversion H; subst. auto.
  - pose proof (do_op_const sc o) as K. destruct (do_op sc o) as [sc1 r]. cbn in K.
    destruct (run_hprog (k r) sc1) as [[sc2 z] l] eqn:E. inversion H; subst.
    apply IH in E. intuition congruence.
Qed.

(** ** Anatomy of a step *)

Lemma pop_due_perm now : forall fuel ch i q due rest,
  unique_ids q -> pop_due fuel ch i now q = (due, rest) -> Permutation q (due ++ rest).
Proof.
  induction fuel as [|fuel IH]; intros ch i q due rest Hu H; cbn in H.
  { inversion H; subst. reflexivity. }
  destruct (pq_peek (ch i) q) as [e|] eqn:P; [|inversion H; subst; reflexivity].
  destruct (fgtb (ev_time e) now); [inversion H; subst; reflexivity|].
  pose proof (pq_remove_perm e q Hu (pq_peek_In _ _ _ P)) as Perm.
  destruct (pop_due fuel ch (Datatypes.S i) now _) as [es q'] eqn:R.
  inversion H; subst. rewrite Perm. cbn. constructor.
  eapply IH; eauto. apply pq_remove_unique. exact Hu.
Qed.

Definition st0 u (sc : sched A) (w : world A S) : S :=
  if s_step sc =? 0 then u_update u 0 (w_st w) else w_st w.

Lemma step_anatomy u ch sc w sc' w' :
  unique_ids (s_events sc) ->
  step u ch sc w = (sc', w') ->
  exists sc1 s1 log1 due rest backs s2 tr now sc3 s3 log3,
    run_hprog (u_before u (st0 u sc w)) sc = (sc1, s1, log1) /\
    unique_ids (s_events sc1) /\
    Permutation (s_events sc1) (due ++ rest) /\
    (s_events sc1 = [] -> now = s_time sc1) /\
    (s_events sc1 <> [] -> exists e0, pq_peek (ch O) (s_events sc1) = Some e0 /\
       now = ev_time e0 /\
       pop_due (length (s_events sc1)) ch O now (s_events sc1) = (due, rest)) /\
    turns u due s1 backs s2 /\
    unique_ids (rest ++ backs) /\
    stopped_calls due backs tr /\
    run_hprog (u_after u s2) (Sched (s_step sc1) now (rest ++ backs) (s_ids sc1))
      = (sc3, s3, log3) /\
    sc' = Sched (u64_succ (s_step sc)) (s_time sc3) (s_events sc3) (s_ids sc3) /\
    w_st w' = u_update u (u64_succ (s_step sc)) s3 /\
    w_trace w' = w_trace w ++
      (if s_step sc =? 0 then [CUpdate 0] else []) ++
      CStateBefore :: api log1 ++ tr ++
      CStateAfter :: api log3 ++ [CUpdate (u64_succ (s_step sc))].
Proof.
  intros Hu H. unfold step in H.
  set (w0 := if s_step sc =? 0 then call_update u (s_step sc) w else w) in H.
  assert (Hw0 : w_st w0 = st0 u sc w).
  { unfold w0, st0. destruct (N.eqb_spec (s_step sc) 0) as [E|E]; [rewrite E|]; reflexivity. }
  assert (Ht0 : w_trace w0 = w_trace w ++ (if s_step sc =? 0 then [CUpdate 0] else [])).
  { unfold w0. destruct (N.eqb_spec (s_step sc) 0) as [E|E]; [rewrite E; reflexivity|].
    rewrite app_nil_r. reflexivity. }
  unfold call_before in H. rewrite Hw0 in H.
  destruct (run_hprog (u_before u (st0 u sc w)) sc) as [[sc1 s1] log1] eqn:E1.
  pose proof (run_hprog_const _ _ _ _ _ E1) as [K1 _].
  pose proof (run_hprog_unique _ _ _ _ _ E1 Hu) as Hu1.
  destruct (pq_peek (ch O) (s_events sc1)) as [e0|] eqn:P.
  - destruct (pop_due (length (s_events sc1)) ch O (ev_time e0) (s_events sc1))
      as [due rest] eqn:Pd.
    pose proof (pop_due_perm _ _ _ _ _ _ _ Hu1 Pd) as Perm.
    set (sc2 := Sched (s_step sc1) (ev_time e0) rest (s_ids sc1)) in H.
    destruct (run_items u sc2 _ due) as [sc2' w2] eqn:R.
    apply run_items_turns in R.
    2:{ cbn. eapply unique_ids_perm; eauto. }
    destruct R as (backs & tr & Hts & Hst & Htm & Hids & Hev & Hu2 & Hsc & Htr).
    cbn in Hts, Hst, Htm, Hids, Hev, Htr.
    unfold finish_step, call_after in H.
    destruct (run_hprog (u_after u (w_st w2)) sc2') as [[sc3 s3] log3] eqn:E3.
    cbn in H. inversion H; subst sc' w'; clear H.
    pose proof (run_hprog_const _ _ _ _ _ E3) as [K3 _].
    assert (K : s_step sc3 = s_step sc) by congruence.
    exists sc1, s1, log1, due, rest, backs, (w_st w2), tr, (ev_time e0), sc3, s3, log3.
    split; [reflexivity|]. split; [exact Hu1|]. split; [exact Perm|].
    split. { intros Q. rewrite Q in P. apply pq_peek_In in P. destruct P. }
    split. { intros _. exists e0. auto. }
    split; [exact Hts|]. split; [rewrite <- Hev; exact Hu2|]. split; [exact Hsc|].
    split. { rewrite <- E3. f_equal. destruct sc2' as [a b c d]. cbn in *. congruence. }
    cbn. rewrite K. split; [reflexivity|]. split; [reflexivity|].
    rewrite Htr, Ht0; repeat (rewrite <- app_assoc; cbn [app]); reflexivity.
  - apply pq_peek_none in P.
    unfold finish_step, call_after in H. cbn in H.
    destruct (run_hprog (u_after u s1) sc1) as [[sc3 s3] log3] eqn:E3.
    cbn in H. inversion H; subst sc' w'; clear H.
    pose proof (run_hprog_const _ _ _ _ _ E3) as [K3 _].
    assert (K : s_step sc3 = s_step sc) by congruence.
    exists sc1, s1, log1, [], [], [], s1, [], (s_time sc1), sc3, s3, log3.
    rewrite P. cbn.
    split; [reflexivity|]. split; [constructor|]. split; [reflexivity|].
    split; [auto|]. split; [congruence|]. split; [constructor|].
    split; [constructor|]. split; [constructor|].
    split. { rewrite <- E3. f_equal. destruct sc1; cbn in *; congruence. }
    rewrite K. split; [reflexivity|]. split; [reflexivity|].
    rewrite Ht0; repeat (rewrite <- !app_assoc; cbn [app]); reflexivity.
Qed.

(** Who runs: the events of minimal time. *)
Definition minimal q e : Prop :=
  In e q /\ forall e', In e' q -> fleb (ev_time e) (ev_time e') = true.

Lemma due_minimal q c ch now due rest e0 :
  unique_ids q -> no_nan q ->
  pq_peek c q = Some e0 -> now = ev_time e0 ->
  pop_due (length q) ch O now q = (due, rest) ->
  (forall e, In e due <-> minimal q e) /\
  (forall e, In e rest <-> In e q /\ ~ minimal q e) /\ ord_sorted due.
Proof.
  intros Hu Hn P -> Pd.
  destruct (pq_peek_max _ _ _ Hn P) as [Hin Hmax].
  assert (Hmin : forall e, In e q -> ~ klt (fkey (ev_time e)) (fkey (ev_time e0))).
  { intros e He K. apply (Hmax e He). apply prio_cmp_Gt_iff; [apply Hn; auto..|].
    left. exact K. }
  apply pop_due_spec in Pd; auto.
  destruct Pd as (Perm & Hd & Hr & Hs).
  assert (D : forall e, In e q -> In e due <-> minimal q e).
  { intros e He. split.
    - intros Hdue. split; [exact He|]. intros e' He'.
      apply fleb_iff. split; [apply Hn; auto|]. split; [apply Hn; auto|].
      rewrite (Hd e Hdue).
      destruct (klt_total (fkey (ev_time e0)) (fkey (ev_time e'))) as [K|[K|K]]; auto.
      destruct (Hmin e' He' K).
    - intros [_ M]. specialize (M e0 Hin). apply fleb_iff in M.
      destruct M as (_ & _ & M).
      eapply Permutation_in in He; [|exact Perm]. apply in_app_or in He.
      destruct He as [He|He]; [exact He|]. specialize (Hr e He). exfalso.
      destruct M as [M|M].
      + destruct (klt_asym _ _ M Hr).
      + rewrite M in Hr. destruct (klt_irrefl _ Hr). }
  assert (Din : forall e, In e due -> In e q).
  { intros e He. eapply Permutation_in; [symmetry; exact Perm|]. apply in_or_app. auto. }
  repeat split; try assumption.
  - apply D; auto.
  - destruct (D e (Din e H)) as [D1 _]. apply D1. exact H.
  - intros [He M]. apply D; [exact He|]. split; assumption.
  - eapply Permutation_in; [symmetry; exact Perm|]. apply in_or_app. auto.
  - intros M.
    assert (He : In e q) by (eapply Permutation_in; [symmetry; exact Perm|apply in_or_app; auto]).
    apply D in M; [|exact He].
    specialize (Hd e M). specialize (Hr e H). rewrite Hd in Hr. destruct (klt_irrefl _ Hr).
  - intros [He M]. eapply Permutation_in in He; [|exact Perm]. apply in_app_or in He.
    destruct He as [He|He]; [|exact He]. exfalso. apply M. apply D; auto.
Qed.

Lemma unique_NoDup q : unique_ids q -> NoDup q.
Proof. apply NoDup_map_inv. Qed.

Lemma unique_app_l q q' : unique_ids (q ++ q') -> unique_ids q.
Proof.
  unfold unique_ids. rewrite map_app. induction (map ev_id q) as [|x l IH]; cbn; intros H.
  - constructor.
  - inversion H; subst. constructor; [|apply IH; assumption].
    intros K. match goal with H : ~ In _ _ |- _ => apply H end. apply in_or_app. auto.
Qed.

Lemma unique_app_r q q' : unique_ids (q ++ q') -> unique_ids q'.
Proof.
  unfold unique_ids. rewrite map_app. induction (map ev_id q) as [|x l IH]; cbn; intros H.
  - exact H.
  - inversion H; subst. apply IH. assumption.
Qed.

(** Forgetting API calls and stop answers. *)
Lemma turn_calls_app (a b : list (call A)) : turn_calls (a ++ b) = turn_calls a ++ turn_calls b.
Proof. apply filter_app. Qed.
Lemma turn_calls_cons c (l : list (call A)) :
  turn_calls (c :: l) =
  if negb (is_api c) && negb (is_stopped_q c) then c :: turn_calls l else turn_calls l.
Proof. reflexivity. Qed.
Lemma turn_calls_api (l : list (sop A * sres A)) : turn_calls (api l) = [].
Proof. induction l; cbn; auto. Qed.
Lemma turn_calls_stopped es backs (tr : list (call A)) :
  stopped_calls es backs tr -> turn_calls tr = flat_map calls_of es.
Proof.
  unfold turn_calls. induction 1; cbn; auto; rewrite IHstopped_calls; reflexivity.
Qed.

Lemma engine_calls_app (a b : list (call A)) :
  engine_calls (a ++ b) = engine_calls a ++ engine_calls b.
Proof. apply filter_app. Qed.
Lemma engine_calls_api (l : list (sop A * sres A)) : engine_calls (api l) = [].
Proof. induction l; cbn; auto. Qed.
Lemma engine_calls_stopped es backs (tr : list (call A)) :
  stopped_calls es backs tr ->
  exists rs, engine_calls tr = flat_map turn_block rs /\ map fst rs = map ev_id es.
Proof.
  unfold engine_calls.
  induction 1 as [|e es backs tr Hr _ (rs & IH & IH')|e es backs tr Hr _ (rs & IH & IH')
                  |e b es backs tr Hr Hb _ (rs & IH & IH')].
  - exists []. auto.
  - exists ((ev_id e, None) :: rs). cbn. rewrite IH, IH'. auto.
  - exists ((ev_id e, Some true) :: rs). cbn. rewrite IH, IH'. auto.
  - exists ((ev_id e, Some false) :: rs). cbn. rewrite IH, IH'. auto.
Qed.

Lemma u64_succ_small n : n + 1 < u64_mod -> u64_succ n = n + 1.
Proof. intros H. unfold u64_succ. apply N.mod_small. exact H. Qed.

(** ** C01 *)
Lemma step_runs_earliest u ch sc w sc1 s1 log1 :
  unique_ids (s_events sc) ->
  run_hprog (u_before u (if s_step sc =? 0 then u_update u 0 (w_st w) else w_st w)) sc
    = (sc1, s1, log1) ->
  no_nan (s_events sc1) ->
  exists run,
    NoDup run /\
    (forall e, In e run <->
       In e (s_events sc1) /\
       forall e', In e' (s_events sc1) -> fleb (ev_time e) (ev_time e') = true) /\
    ord_sorted run /\
    turn_calls (w_trace (snd (step u ch sc w))) =
      turn_calls (w_trace w) ++ (if s_step sc =? 0 then [CUpdate 0] else []) ++
      CStateBefore :: flat_map calls_of run ++
      [CStateAfter; CUpdate ((s_step sc + 1) mod 18446744073709551616)].
Proof.
  intros Hu Hb Hn. destruct (step u ch sc w) as [sc' w'] eqn:E.
  apply step_anatomy in E; [|exact Hu].
  destruct E as (sc1' & s1' & log1' & due & rest & backs & s2 & tr & now & sc3 & s3 & log3 &
                 Hb' & Hu1 & Perm & Hnil & Hcons & Hts & Hu2 & Hsc & Ha & _ & _ & Htr).
  unfold st0 in Hb'. rewrite Hb in Hb'. inversion Hb'; subst sc1' s1' log1'; clear Hb'.
  exists due. cbn [snd]. rewrite Htr.
  assert (D : (forall e, In e due <-> minimal (s_events sc1) e) /\ ord_sorted due).
  { destruct (s_events sc1) as [|e0 q] eqn:Q.
    - apply Permutation_nil in Perm. apply app_eq_nil in Perm. destruct Perm as [-> _].
      split; [|constructor]. intros e. unfold minimal. cbn. tauto.
    - rewrite <- Q in *. destruct Hcons as (e1 & P & Hnow & Pd); [congruence|].
      destruct (due_minimal _ _ _ _ _ _ _ Hu1 Hn P Hnow Pd) as (? & ? & ?). auto. }
  destruct D as [D Hs]. split.
  { apply unique_NoDup. eapply unique_app_l. eapply unique_ids_perm; eauto. }
  split; [exact D|]. split; [exact Hs|].
  rewrite 2!turn_calls_app. f_equal.
  f_equal.
  { destruct (s_step sc =? 0); reflexivity. }
  rewrite turn_calls_cons. cbn [is_api is_stopped_q negb andb]. f_equal.
  rewrite !turn_calls_app, turn_calls_api, (turn_calls_stopped _ _ _ Hsc). cbn [app].
  f_equal. rewrite turn_calls_cons. cbn [is_api is_stopped_q negb andb]. f_equal.
  rewrite turn_calls_app, turn_calls_api. reflexivity.
Qed.

(** ** C02 *)
Lemma step_requeues u ch sc w sc1 s1 log1 :
  unique_ids (s_events sc) ->
  run_hprog (u_before u (if s_step sc =? 0 then u_update u 0 (w_st w) else w_st w)) sc
    = (sc1, s1, log1) ->
  no_nan (s_events sc1) ->
  exists run waiting backs s2 q2 now sc3 s3 log3,
    (forall e, In e run <->
       In e (s_events sc1) /\
       forall e', In e' (s_events sc1) -> fleb (ev_time e) (ev_time e') = true) /\
    Permutation (s_events sc1) (run ++ waiting) /\
    ord_sorted run /\
    turns u run s1 backs s2 /\
    unique_ids q2 /\ Permutation q2 (waiting ++ backs) /\
    run_hprog (u_after u s2) (Sched (s_step sc) now q2 (s_ids sc1)) = (sc3, s3, log3) /\
    (forall e, In e run -> ev_time e = now \/ feqb (ev_time e) now = true) /\
    fst (step u ch sc w) =
      Sched ((s_step sc + 1) mod 18446744073709551616)
            (s_time sc3) (s_events sc3) (s_ids sc3) /\
    w_st (snd (step u ch sc w)) =
      u_update u ((s_step sc + 1) mod 18446744073709551616) s3.
Proof.
  intros Hu Hb Hn. destruct (step u ch sc w) as [sc' w'] eqn:E.
  apply step_anatomy in E; [|exact Hu].
  destruct E as (sc1' & s1' & log1' & due & rest & backs & s2 & tr & now & sc3 & s3 & log3 &
                 Hb' & Hu1 & Perm & Hnil & Hcons & Hts & Hu2 & Hsc & Ha & Hsc' & Hst & _).
  unfold st0 in Hb'. rewrite Hb in Hb'. inversion Hb'; subst sc1' s1' log1'; clear Hb'.
  pose proof (run_hprog_const _ _ _ _ _ Hb) as [K1 _].
  exists due, rest, backs, s2, (rest ++ backs), now, sc3, s3, log3.
  assert (D : (forall e, In e due <-> minimal (s_events sc1) e) /\ ord_sorted due /\
              (forall e, In e due -> feqb (ev_time e) now = true)).
  { destruct (s_events sc1) as [|e0 q] eqn:Q.
    - apply Permutation_nil in Perm. apply app_eq_nil in Perm. destruct Perm as [-> _].
      split; [|split; [constructor|intros ? []]]. intros e. unfold minimal. cbn. tauto.
    - rewrite <- Q in *. destruct Hcons as (e1 & P & Hnow & Pd); [congruence|].
      destruct (due_minimal _ _ _ _ _ _ _ Hu1 Hn P Hnow Pd) as (D1 & D2 & D3).
      split; [exact D1|]. split; [exact D3|].
      intros e He. apply D1 in He. destruct He as [Hin Hmin].
      destruct (pq_peek_max _ _ _ Hn P) as [Hin1 Hmax].
      specialize (Hmin e1 Hin1). specialize (Hmax e Hin). subst now.
      apply feqb_iff. split; [apply Hn; auto|]. split; [apply Hn; auto|].
      apply fleb_iff in Hmin. destruct Hmin as (_ & _ & [K|K]); [|exact K].
      exfalso. apply Hmax. apply prio_cmp_Gt_iff; [apply Hn; auto..|]. left. exact K. }
  destruct D as (D & Hs & Hnow).
  split; [exact D|]. split; [exact Perm|]. split; [exact Hs|]. split; [exact Hts|].
  split; [exact Hu2|]. split; [reflexivity|]. split; [rewrite <- K1; exact Ha|].
  split; [auto|]. cbn [fst snd]. split; [exact Hsc'|exact Hst].
Qed.

End Proofs.
