(** * Proofs about simulation time *)
From Coq Require Import List Bool ZArith NArith Arith Lia Permutation.
From Coq Require Import ZifyBool ZifyNat ZifyN.
From Verif Require Import F32 F32Facts F32Real SchedModel SchedSpec SchedProofs SchedStep SchedHist.
Import ListNotations.
Local Open Scope N_scope.

Lemma fleb_trans a b c : fleb a b = true -> fleb b c = true -> fleb a c = true.
Proof.
  rewrite !fleb_iff. intros (A1 & A2 & A3) (B1 & B2 & B3). repeat split; auto.
  destruct A3 as [A3|A3], B3 as [B3|B3].
  - left. eapply klt_trans; eauto.
  - rewrite <- B3. auto.
  - rewrite A3. auto.
  - right. congruence.
Qed.
Lemma fleb_refl a : f32_is_nan a = false -> fleb a a = true.
Proof. intros. apply fleb_iff. auto. Qed.

Section Proofs.
Context {A S : Type}.
Implicit Types (q : list (event A)) (e : event A) (u : user A S).

Lemma pq_push_In (a : agentimpl A) p q x :
  In x (fst (pq_push a p q)) -> In x q \/ snd x = p.
Proof.
  induction q as [|[b pb] q IH]; cbn.
  - intros [<-|[]]. auto.
  - destruct (ai_id b =? ai_id a).
    + intros [<-|H]; auto.
    + destruct (pq_push a p q) as [q' r]. cbn in *. intros [<-|H]; auto.
      destruct (IH H); auto.
Qed.

Lemma pq_remove_In id q x : In x (fst (pq_remove id q)) -> In x q.
Proof.
  induction q as [|e q IH]; cbn; [auto|].
  destruct (ev_id e =? id); cbn; [auto|].
  destruct (pq_remove id q) as [q' r]. cbn in *. intros [<-|H]; auto.
Qed.

Lemma do_op_no_past (sc : sched A) o :
  no_past sc -> op_future sc o -> no_past (fst (do_op sc o)).
Proof.
  intros [Ht Hq] Ho.
  assert (Push : forall a t ord ids, good_time t /\ fleb (s_time sc) t = true ->
     no_past (Sched (s_step sc) (s_time sc) (fst (pq_push a (Prio t ord) (s_events sc))) ids)).
  { intros a t ord ids Hg. split; [exact Ht|]. cbn. intros e He.
    apply pq_push_In in He. destruct He as [He|He]; [auto|].
    unfold ev_time. rewrite He. exact Hg. }
  destruct o as [a t ord|ag t ord|ag t ord|id| | |]; cbn; try (split; assumption).
  - apply Push. exact Ho.
  - unfold schedule_repeating. specialize (Push (AI (s_ids sc) ag true) t ord (u32_succ (s_ids sc)) Ho).
    destruct (pq_push _ _ _). exact Push.
  - unfold distributed_schedule_repeating.
    specialize (Push (AI (s_ids sc) ag true) t ord (u32_succ (s_ids sc)) Ho).
    destruct (pq_push _ _ _). exact Push.
  - unfold dequeue. pose proof (pq_remove_In id (s_events sc)) as K.
    destruct (pq_remove _ _) as [q r]. cbn in *. split; [exact Ht|]. auto.
Qed.

Lemma prog_no_past {X} (p : hprog A X) : forall sc sc' x log,
  no_past sc -> prog_future p sc -> run_hprog p sc = (sc', x, log) -> no_past sc'.
Proof.
  induction p as [x|o k IH]; cbn; intros sc sc' y log Hn Hf E.
  - inversion E; subst. exact Hn.
  - destruct Hf as [Ho Hk]. pose proof (do_op_no_past sc o Hn Ho) as Hn1.
    destruct (do_op sc o) as [sc1 r]. cbn in *.
    destruct (run_hprog (k r) sc1) as [[sc2 z] l] eqn:Ek. inversion E; subst.
    eapply IH; eauto.
Qed.

Lemma turns_backs u es s backs s' :
  turns u es s backs s' -> forall b, In b backs ->
  exists e, In e es /\ ev_time b = fadd (ev_time e) f1 /\ ev_ord b = ev_ord e /\ ev_id b = ev_id e.
Proof.
  induction 1 as [|e es s s' backs s'' Ht Hts IH|e es b s s' backs s'' Ht Hts IH]; intros x Hx.
  - destruct Hx.
  - destruct (IH x Hx) as (y & Hy & Ey). exists y. split; [right|]; auto.
  - destruct Hx as [<-|Hx].
    + exists e. split; [left; auto|]. inversion Ht; subst. auto.
    + destruct (IH x Hx) as (y & Hy & Ey). exists y. split; [right|]; auto.
Qed.

Lemma step_no_past u ch sc w :
  user_future u -> unique_ids (s_events sc) -> no_past sc ->
  no_past (fst (step u ch sc w)) /\
  fleb (s_time sc) (s_time (fst (step u ch sc w))) = true.
Proof.
  intros Huf Hu Hn. destruct (step u ch sc w) as [sc' w'] eqn:E.
  apply step_anatomy in E; [|exact Hu].
  destruct E as (sc1 & s1 & log1 & due & rest & backs & s2 & tr & now & sc3 & s3 & log3 &
      Hb & Hu1 & Perm & Hnil & Hcons & Hts & Hu2 & Hsc & Ha & Hsc' & Hst & Htr).
  pose proof (proj1 (Huf sc (st0 u sc w) Hn)) as F1.
  pose proof (prog_no_past _ _ _ _ _ Hn F1 Hb) as Hn1.
  pose proof (run_hprog_const _ _ _ _ _ Hb) as [_ T1].
  destruct Hn1 as [G1 Q1].
  assert (Hnn : no_nan (s_events sc1)) by (intros e He; apply Q1; exact He).
  assert (Key : good_time now /\ fleb (s_time sc) now = true /\
    forall e, In e (due ++ rest) -> good_time (ev_time e) /\ fleb now (ev_time e) = true).
  { destruct (s_events sc1) as [|x q] eqn:Eq.
    - apply Permutation_nil in Perm. rewrite Perm. rewrite (Hnil eq_refl), T1.
      destruct Hn as [G _]. split; [exact G|]. split; [|intros e []].
      apply fleb_refl. apply G.
    - rewrite <- Eq in *. destruct Hcons as (e0 & P & Hnow & Pd); [congruence|].
      destruct (pq_peek_max _ _ _ Hnn P) as [Hin Hmax]. subst now.
      destruct (Q1 _ Hin) as [G L]. split; [exact G|]. split; [rewrite <- T1; exact L|].
      intros e He. assert (He' : In e (s_events sc1))
        by (eapply Permutation_in; [symmetry; exact Perm|exact He]).
      split; [apply Q1; exact He'|].
      specialize (Hmax e He'). unfold not_above in Hmax.
      rewrite prio_cmp_Gt_iff in Hmax by (apply Hnn; auto).
      apply fleb_iff. split; [apply Hnn; auto|]. split; [apply Hnn; auto|].
      destruct (klt_total (fkey (ev_time e0)) (fkey (ev_time e))) as [K|[K|K]]; auto.
      destruct Hmax. left. exact K. }
  destruct Key as (Gn & Ln & Hall).
  assert (Hn2 : no_past (Sched (s_step sc1) now (rest ++ backs) (s_ids sc1))).
  { split; [exact Gn|]. cbn. intros e He. apply in_app_or in He. destruct He as [He|He].
    - apply Hall. apply in_or_app. auto.
    - destruct (turns_backs _ _ _ _ _ Hts e He) as (x & Hx & Et & _).
      destruct (Hall x) as [[V Nn] L]; [apply in_or_app; auto|].
      destruct (fadd_one_ge (ev_time x) V Nn) as [L1 N1].
      rewrite Et. split.
      + split; [|exact N1]. apply fadd_valid; [exact V|reflexivity].
      + eapply fleb_trans; eauto. }
  pose proof (proj2 (Huf _ s2 Hn2)) as F2.
  pose proof (prog_no_past _ _ _ _ _ Hn2 F2 Ha) as Hn3.
  pose proof (run_hprog_const _ _ _ _ _ Ha) as [_ T3]. cbn in T3.
  subst sc'. cbn. rewrite T3. split; [|exact Ln].
  destruct Hn3 as [G3 Q3]. rewrite T3 in Q3. split; cbn; auto.
Qed.

Lemma act_no_past u x c :
  user_future u -> unique_ids (s_events (fst c)) -> no_past (fst c) ->
  (match x with ActApi o => op_future (fst c) o | ActStep _ => True end) ->
  no_past (fst (act u x c)) /\ fleb (s_time (fst c)) (s_time (fst (act u x c))) = true.
Proof.
  intros Huf Hu Hn Hx. destruct c as [sc w]. destruct x as [o|ch]; cbn in *.
  - pose proof (do_op_no_past sc o Hn Hx) as K. pose proof (do_op_const sc o) as [_ T].
    destruct (do_op sc o) as [sc1 r]. cbn in *. split; [exact K|]. rewrite T.
    apply fleb_refl. apply Hn.
  - apply step_no_past; auto.
Qed.

Lemma acts_no_past u : forall xs c,
  user_future u -> unique_ids (s_events (fst c)) -> no_past (fst c) -> acts_future u xs c ->
  no_past (fst (acts u xs c)) /\ fleb (s_time (fst c)) (s_time (fst (acts u xs c))) = true.
Proof.
  induction xs as [|x xs IH]; cbn; intros c Huf Hu Hn Hf.
  - split; [exact Hn|]. apply fleb_refl. apply Hn.
  - destruct Hf as [Hx Hf].
    destruct (act_no_past u x c Huf Hu Hn Hx) as [Hn1 L1].
    destruct (IH (act u x c) Huf (act_unique u x c Hu) Hn1 Hf) as [Hn2 L2].
    split; [exact Hn2|]. eapply fleb_trans; eauto.
Qed.

Lemma acts_app u xs ys (c : sched A * world A S) : acts u (xs ++ ys) c = acts u ys (acts u xs c).
Proof. apply fold_left_app. Qed.

Lemma acts_future_app u : forall xs ys c,
  acts_future u (xs ++ ys) c <-> acts_future u xs c /\ acts_future u ys (acts u xs c).
Proof.
  induction xs as [|x xs IH]; cbn; intros ys c; [tauto|].
  rewrite IH. tauto.
Qed.

Lemma time_monotone u s xs ys :
  user_future u -> acts_future u (xs ++ ys) (sched_new, World s []) ->
  fleb (s_time (fst (acts u xs (sched_new, World s []))))
       (s_time (fst (acts u (xs ++ ys) (sched_new, World s [])))) = true.
Proof.
  intros Huf Hf. rewrite acts_app. apply acts_future_app in Hf. destruct Hf as [F1 F2].
  assert (Hu : unique_ids (s_events (fst (sched_new (A:=A), World s [] : world A S))))
    by constructor.
  assert (Hn : no_past (fst (sched_new (A:=A), World s [] : world A S))).
  { split; cbn; [split; reflexivity|tauto]. }
  destruct (acts_no_past u xs _ Huf Hu Hn F1) as [Hn1 _].
  apply (acts_no_past u ys); auto. apply acts_unique. exact Hu.
Qed.

(** ** Synchronous schedules *)

Definition silent u : Prop :=
  (forall s, exists s', u_before u s = HRet s') /\ (forall s, exists s', u_after u s = HRet s').
Definition never_stops u : Prop := forall ag s, fst (a_stopped u ag s) = false.

Lemma ran_app (a b : list (call A)) : ran (a ++ b) = ran a ++ ran b.
Proof. apply flat_map_app. Qed.

Lemma turns_all_back u : never_stops u -> forall es s backs s',
  turns u es s backs s' -> (forall e, In e es -> ai_rep (fst e) = true) ->
  map ev_id backs = map ev_id es /\
  (forall b, In b backs -> ai_rep (fst b) = true) /\
  Forall2 (fun e b => ev_time b = fadd (ev_time e) f1) es backs.
Proof.
  intros Hns es s backs s' H.
  induction H as [|e es s s' backs s'' Ht Hts IH|e es b s s' backs s'' Ht Hts IH]; intros Hrep.
  - cbn. split; [auto|split; [tauto|constructor]].
  - exfalso. specialize (Hrep e (or_introl eq_refl)). inversion Ht; subst; cbn in Hrep.
    + discriminate.
    + match goal with K : a_stopped u ?a ?b = _ |- _ =>
        specialize (Hns a b); rewrite K in Hns; discriminate end.
  - destruct IH as (I1 & I2 & I3). { intros x Hx. apply Hrep. right. exact Hx. }
    inversion Ht; subst; cbn. rewrite I1. split; [reflexivity|]. split.
    + intros x [<-|Hx]; auto.
    + constructor; auto.
Qed.

Lemma stopped_ran es backs (tr : list (call A)) :
  stopped_calls es backs tr -> ran tr = map ev_id es.
Proof. unfold ran. induction 1; cbn; auto; rewrite IHstopped_calls; reflexivity. Qed.

Definition sync_at (t : f32) q : Prop :=
  unique_ids q /\ (forall e, In e q -> ev_time e = t /\ ai_rep (fst e) = true).

Lemma step_sync u ch sc w t :
  silent u -> never_stops u -> f32_is_nan t = false ->
  s_events sc <> [] -> sync_at t (s_events sc) ->
  let c' := step u ch sc w in
  s_time (fst c') = t /\
  sync_at (fadd t f1) (s_events (fst c')) /\
  Permutation (map ev_id (s_events (fst c'))) (map ev_id (s_events sc)) /\
  exists l, ran (w_trace (snd c')) = ran (w_trace w) ++ l /\
    Permutation l (map ev_id (s_events sc)).
Proof.
  intros [Sb Sa] Hns Hnan Hne [Hu Hq]. cbv zeta.
  destruct (step u ch sc w) as [sc' w'] eqn:E.
  apply step_anatomy in E; [|exact Hu].
  destruct E as (sc1 & s1 & log1 & due & rest & backs & s2 & tr & now & sc3 & s3 & log3 &
      Hb & Hu1 & Perm & Hnil & Hcons & Hts & Hu2 & Hsc & Ha & Hsc' & Hst & Htr).
  destruct (Sb (st0 u sc w)) as [sb Eb]. rewrite Eb in Hb. cbn in Hb. inversion Hb; subst; clear Hb.
  destruct (Sa s2) as [sa Ea]. rewrite Ea in Ha. cbn in Ha. inversion Ha; subst; clear Ha.
  destruct Hcons as (e0 & P & Hnow & Pd); [exact Hne|].
  assert (Hnn : no_nan (s_events sc1)).
  { intros e He. destruct (Hq e He) as [-> _]. exact Hnan. }
  assert (Ht : now = t). { subst now. apply Hq. eapply pq_peek_In; eauto. }
  clear Hnow. subst now.
  apply pop_due_spec in Pd; auto.
  2:{ intros e He K. destruct (Hq e He) as [E _]. rewrite E in K. destruct (klt_irrefl _ K). }
  destruct Pd as (_ & _ & Hr & _).
  assert (rest = []).
  { destruct rest as [|x rest]; [reflexivity|]. exfalso.
    specialize (Hr x (or_introl eq_refl)).
    assert (Hx : In x (s_events sc1)).
    { eapply Permutation_in; [symmetry; exact Perm|]. apply in_or_app. right. left. auto. }
    destruct (Hq x Hx) as [E _]. rewrite E in Hr. destruct (klt_irrefl _ Hr). }
  subst rest. rewrite app_nil_r in Perm. cbn [app] in *.
  assert (Hdue : forall e, In e due -> ev_time e = t /\ ai_rep (fst e) = true).
  { intros e He. apply Hq. eapply Permutation_in; [symmetry; exact Perm|exact He]. }
  destruct (turns_all_back u Hns _ _ _ _ Hts) as (B1 & B2 & B3).
  { intros e He. apply Hdue. exact He. }
  cbn [fst snd s_time s_events].
  split; [reflexivity|].
  split.
  { split; [exact Hu2|]. intros b Hbk. split; [|apply B2; exact Hbk].
    destruct (turns_backs _ _ _ _ _ Hts b Hbk) as (x & Hx & Et & _).
    rewrite Et. destruct (Hdue x Hx) as [-> _]. reflexivity. }
  split. { rewrite B1. apply Permutation_map. symmetry. exact Perm. }
  exists (map ev_id due). split.
  - rewrite Htr. cbn [api map]. rewrite ran_app. f_equal.
    pose proof (stopped_ran _ _ _ Hsc) as Hr'. unfold ran in *.
    destruct (s_step sc1 =? 0); cbn; rewrite flat_map_app, Hr'; cbn;
      rewrite app_nil_r; reflexivity.
  - apply Permutation_map. symmetry. exact Perm.
Qed.

Fixpoint add_ones (t : f32) (k : nat) : f32 :=
  match k with O => t | Datatypes.S k' => add_ones (fadd t f1) k' end.

Lemma add_ones_int z k : (- 2 ^ 24 <= z)%Z -> (z + Z.of_nat k <= 2 ^ 24)%Z ->
  add_ones (f_of_Z z) k = f_of_Z (z + Z.of_nat k).
Proof.
  revert z. induction k as [|k IH]; intros z H0 H1; cbn [add_ones].
  - f_equal. lia.
  - rewrite fadd_one_int by lia. rewrite IH by lia. f_equal. lia.
Qed.

(** Only steps, with arbitrary tie-breaks. *)
Lemma sync_run u : silent u -> never_stops u ->
  forall chs sc w z,
  (- 2 ^ 24 <= z)%Z -> (z + Z.of_nat (length chs) <= 2 ^ 24)%Z ->
  s_events sc <> [] -> sync_at (f_of_Z z) (s_events sc) ->
  let c' := acts u (map ActStep chs) (sc, w) in
  (chs <> [] -> s_time (fst c') = f_of_Z (z + Z.of_nat (length chs) - 1)) /\
  sync_at (f_of_Z (z + Z.of_nat (length chs))) (s_events (fst c')) /\
  Permutation (map ev_id (s_events (fst c'))) (map ev_id (s_events sc)) /\
  exists ls, ran (w_trace (snd c')) = ran (w_trace w) ++ concat ls /\
    length ls = length chs /\
    Forall (fun l => Permutation l (map ev_id (s_events sc))) ls.
Proof.
  intros Hs Hns. induction chs as [|ch chs IH]; intros sc w z H0 H1 Hne Hsync; cbv zeta.
  - cbn. split; [congruence|]. split; [rewrite Z.add_0_r; exact Hsync|].
    split; [reflexivity|]. exists []. cbn. rewrite app_nil_r. auto.
  - cbn [map acts fold_left act fst snd]. fold (acts u (map ActStep chs) (step u ch sc w)).
    cbn [length] in *.
    assert (Hnan : f32_is_nan (f_of_Z z) = false) by (apply f_of_Z_not_nan; lia).
    destruct (step_sync u ch sc w (f_of_Z z) Hs Hns Hnan Hne Hsync) as (T & Sy & Pm & l & Hl & Pl).
    destruct (step u ch sc w) as [sc1 w1]. cbn [fst snd] in *.
    rewrite fadd_one_int in Sy by lia.
    destruct (IH sc1 w1 (z + 1)%Z) as (I1 & I2 & I3 & ls & I4 & I5 & I6); auto; try lia.
    { intros K. rewrite K in Pm. cbn in Pm. apply Permutation_nil in Pm.
      destruct (s_events sc); [congruence|discriminate]. }
    split.
    { intros _. destruct chs as [|c chs].
      - cbn. rewrite T. f_equal. lia.
      - rewrite I1 by discriminate. f_equal. cbn [length]. lia. }
    split. { replace (z + Z.of_nat (Datatypes.S (length chs)))%Z with (z + 1 + Z.of_nat (length chs))%Z by lia. exact I2. }
    split. { rewrite I3. exact Pm. }
    exists (l :: ls). cbn. rewrite I4, Hl, <- app_assoc. split; [reflexivity|].
    split; [congruence|]. constructor; [exact Pl|].
    eapply Forall_impl; [|exact I6]. intros x Hx. cbn in Hx. rewrite Hx. exact Pm.
Qed.

End Proofs.
