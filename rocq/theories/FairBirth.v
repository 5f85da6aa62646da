(** * Scheduled agents get their turn although others are born *)
From Coq Require Import Reals List Bool ZArith NArith Arith Lia Lra Permutation.
From Flocq Require Import Core.
From Verif Require Import F32 F32Facts F32Real F32Ops SchedModel SchedSpec SchedProofs SchedStep SchedHist SchedTime FairSpec FairProofs.
Import ListNotations.
Local Open Scope nat_scope.

(** ** Times as integers: multiples of 2^-149 *)
Section Grid.
Local Open Scope R_scope.
Definition tick (x : f32) : Z := Zfloor (f2R x * bpow radix2 149).
Lemma tick_exact x : f32_valid x -> IZR (tick x) = f2R x * bpow radix2 149.
Proof.
  intros V. pose proof (f2R_format x V) as F. unfold tick.
  assert (E : exists k, f2R x * bpow radix2 149 = IZR k).
  { unfold generic_format, F2R in F. cbn [Fnum Fexp] in F. set (e := cexp radix2 (SpecFloat.fexp 24 128) (f2R x)) in *.
    assert (He : (- 149 <= e)%Z) by (unfold e, cexp, SpecFloat.fexp, SpecFloat.emin; lia).
    exists (Ztrunc (scaled_mantissa radix2 (SpecFloat.fexp 24 128) (f2R x)) * 2 ^ (e + 149))%Z.
    rewrite F at 1. rewrite Rmult_assoc, <- bpow_plus, mult_IZR. f_equal.
    rewrite <- IZR_Zpower by lia. reflexivity. }
  destruct E as [k ->]. rewrite Zfloor_IZR. reflexivity.
Qed.
Lemma tick_lt x y : fok x -> fok y -> fltb x y = true -> (tick x < tick y)%Z.
Proof.
  intros Fx Fy L. apply (flt_R x y Fx Fy) in L. apply lt_IZR. rewrite !tick_exact by (apply Fx || apply Fy).
  apply Rmult_lt_compat_r; [apply bpow_gt_0|exact L].
Qed.
Lemma tick_low x : tame x -> (tick (f_of_Z (- 2 ^ 24)) <= tick x)%Z.
Proof.
  intros (V & F & L). apply le_IZR. rewrite !tick_exact by (apply V || apply f_of_Z_valid).
  apply Rmult_le_compat_r; [apply bpow_ge_0|]. rewrite (proj1 (f_of_Z_exact (- 2 ^ 24) ltac:(lia))), opp_IZR. exact L.
Qed.
End Grid.

Section Birth.
Context {A S : Type}.
Implicit Types (q : list (event A)) (e : event A).

Lemma births_app (a b : list (call A)) : births (a ++ b) = (births a + births b)%N.
Proof. unfold births. rewrite filter_app, app_length. lia. Qed.
Lemma births_quiet (l : list (call A)) : filter is_scheduling l = [] -> births l = 0%N.
Proof. unfold births. intros ->. reflexivity. Qed.

Lemma push_In (a : agentimpl A) p q e : In e q -> ev_id e <> ai_id a -> In e (fst (pq_push a p q)).
Proof.
  induction q as [|[b pb] q IH]; intros He Ne; [destruct He|]. cbn [pq_push].
  destruct (N.eqb_spec (ai_id b) (ai_id a)) as [E|E].
  - destruct He as [<-|He]; [destruct (Ne E)|right; exact He].
  - destruct (pq_push a p q) as [q' r]. cbn [fst] in *. destruct He as [<-|He]; [left; reflexivity|right; apply IH; auto].
Qed.
Lemma push_times (a : agentimpl A) p q e : In e (fst (pq_push a p q)) -> In e q \/ ev_time e = p_time p.
Proof.
  induction q as [|[b pb] q IH]; cbn [pq_push].
  - intros [<-|[]]. right. reflexivity.
  - destruct (ai_id b =? ai_id a)%N.
    + intros [<-|He]; [right; reflexivity|left; right; exact He].
    + destruct (pq_push a p q) as [q' r]. cbn [fst] in *. intros [<-|He]; [left; left; reflexivity|].
      destruct (IH He) as [K|K]; [left; right; exact K|right; exact K].
Qed.

Definition op_births (o : sop A) : N := match o with OpRepeating _ _ _ | OpDistRepeating _ _ _ => 1 | _ => 0 end.
Lemma op_births_call o r : births [CApi o r] = op_births o.
Proof. destruct o; reflexivity. Qed.

Lemma later_op id (Q : f32 -> Prop) (sc : sched A) o : op_later id sc o ->
  (forall x, good_time x -> fltb (s_time sc) x = true -> Q x) ->
  (forall e, In e (s_events sc) -> Q (ev_time e)) -> unique_ids (s_events sc) -> (id < s_ids sc)%N ->
  let sc' := fst (do_op sc o) in
  (forall e, In e (s_events sc') -> Q (ev_time e)) /\
  (forall e, In e (s_events sc) -> ev_id e = id -> In e (s_events sc')) /\
  s_ids sc' = ((s_ids sc + op_births o) mod (if (op_births o =? 0)%N then s_ids sc + 1 else u32_mod))%N.
Proof.
  intros H Hl HQ U Hid. destruct o as [a t o|ag t o|ag t o|i| | |]; cbn [op_later do_op op_births] in *.
  - destruct H as (Ne & G & L). cbn [fst schedule_once s_events s_ids]. split; [|split].
    + intros e He. apply push_times in He. destruct He as [He| ->]; [auto|cbn; auto].
    + intros e He Ei. apply push_In; [exact He|congruence].
    + rewrite N.mod_small; cbn; lia.
  - destruct H as (G & L). unfold schedule_repeating.
    pose proof (push_times (AI (s_ids sc) ag true) (Prio t o) (s_events sc)) as PT.
    pose proof (push_In (AI (s_ids sc) ag true) (Prio t o) (s_events sc)) as PI.
    destruct (pq_push _ _ _) as [q r]. cbn [fst s_events s_ids ai_id p_time] in *. split; [|split; [|reflexivity]].
    + intros e He. destruct (PT e He) as [K| ->]; auto.
    + intros e He Ei. apply PI; [exact He|lia].
  - destruct H as (G & L). unfold distributed_schedule_repeating.
    pose proof (push_times (AI (s_ids sc) ag true) (Prio t o) (s_events sc)) as PT.
    pose proof (push_In (AI (s_ids sc) ag true) (Prio t o) (s_events sc)) as PI.
    destruct (pq_push _ _ _) as [q r]. cbn [fst s_events s_ids ai_id p_time] in *. split; [|split; [|reflexivity]].
    + intros e He. destruct (PT e He) as [K| ->]; auto.
    + intros e He Ei. apply PI; [exact He|lia].
  - unfold dequeue. destruct (pq_remove_filter i (s_events sc) U) as [E _].
    destruct (pq_remove i (s_events sc)) as [q r]. cbn [fst] in *. subst q. cbn [fst s_events s_ids]. split; [|split].
    + intros e He. apply filter_In in He. apply HQ, He.
    + intros e He Ei. apply filter_In. split; [exact He|]. apply negb_true_iff, N.eqb_neq. congruence.
    + rewrite N.mod_small; cbn; lia.
  - cbn [fst]. split; [auto|]. split; [auto|]. rewrite N.mod_small; cbn; lia.
  - cbn [fst]. split; [auto|]. split; [auto|]. rewrite N.mod_small; cbn; lia.
  - cbn [fst]. split; [auto|]. split; [auto|]. rewrite N.mod_small; cbn; lia.
Qed.

Lemma later_hook {X} id (Q : f32 -> Prop) (p : hprog A X) : forall sc sc' x log,
  prog_later id p sc -> run_hprog p sc = (sc', x, log) ->
  (forall x, good_time x -> fltb (s_time sc) x = true -> Q x) ->
  (forall e, In e (s_events sc) -> Q (ev_time e)) -> unique_ids (s_events sc) -> (id < s_ids sc)%N ->
  (u32_mod <= s_ids sc + births (api log))%N \/
  (forall e, In e (s_events sc') -> Q (ev_time e)) /\
  (forall e, In e (s_events sc) -> ev_id e = id -> In e (s_events sc')) /\
  s_ids sc' = (s_ids sc + births (api log))%N.
Proof.
  induction p as [y|o k IH]; intros sc sc' x log P E Hl HQ U Hid; cbn [run_hprog prog_later] in *.
  - injection E as <- _ <-. right. split; [auto|]. split; [auto|]. cbn. lia.
  - destruct P as [Po Pk]. destruct (later_op id Q sc o Po Hl HQ U Hid) as (Q1 & K1 & I1).
    pose proof (do_op_unique sc o U) as U1. pose proof (proj2 (do_op_const sc o)) as C1.
    destruct (do_op sc o) as [sc1 r] eqn:D. cbn [fst snd] in *.
    destruct (run_hprog (k r) sc1) as [[sc2 z] l] eqn:Ek. injection E as <- _ <-.
    cbn [api map]. change (CApi (fst (o, r)) (snd (o, r)) :: map _ l) with ([CApi o r] ++ api l).
    rewrite births_app, op_births_call.
    destruct (N.le_gt_cases u32_mod (s_ids sc + op_births o)) as [O|O]; [left; lia|].
    assert (I2 : s_ids sc1 = (s_ids sc + op_births o)%N).
    { rewrite I1. destruct (op_births o =? 0)%N eqn:Z; [apply N.eqb_eq in Z; rewrite Z; apply N.mod_small; lia|apply N.mod_small; exact O]. }
    destruct (IH r sc1 sc2 z l Pk Ek) as [K|(Q2 & K2 & I3)]; auto.
    + intros v Gv Lv. apply Hl; [exact Gv|rewrite <- C1; exact Lv].
    + lia.
    + left. lia.
    + right. split; [exact Q2|]. split; [intros e He Ei; apply K2; auto|]. lia.
Qed.

Variable u : user A S.
Variable id : N.
Hypothesis Hu : user_later id u.
Notation top := (f_of_Z (2 ^ 24)).

(** The queue and the clock are tame, and [id] is not given out again soon. *)
Definition fine (sc : sched A) : Prop :=
  unique_ids (s_events sc) /\ tame_before top (s_events sc) /\
  tame (s_time sc) /\ (f2R (s_time sc) < IZR (2 ^ 24))%R /\ (id < s_ids sc)%N.
Definition all_later (sc : sched A) : Prop := forall e, In e (s_events sc) -> fltb (s_time sc) (ev_time e) = true.

Lemma later_tame now x : tame now -> good_time x -> fltb now x = true -> fltb x top = true -> tame x.
Proof.
  intros Tn [V N] L1 L2. assert (F : f32_is_finite x = true).
  { destruct x as [s|s| |s m ee]; try reflexivity; [|discriminate N].
    destruct s; [|discriminate L2].
    destruct now as [[]|[]| |[] ? ?]; discriminate L1. }
  split; [exact V|]. split; [exact F|].
  apply (flt_R now x (tame_fok _ Tn) (conj V F)) in L1. destruct Tn as (_ & _ & Tn). lra.
Qed.

Lemma below_top x : tame x -> (f2R x < IZR (2 ^ 24))%R -> fltb x top = true.
Proof. intros T L. apply flt_R; [apply tame_fok; auto using top_tame..|]. rewrite top_R. exact L. Qed.
Lemma top_below x : tame x -> fltb x top = true -> (f2R x < IZR (2 ^ 24))%R.
Proof. intros T L. apply flt_R in L; [|apply tame_fok; auto using top_tame..]. rewrite top_R in L. exact L. Qed.

Lemma stopped_births es backs (tr : list (call A)) : stopped_calls es backs tr -> births tr = 0%N.
Proof. intros H. apply births_quiet. induction H; [reflexivity|rewrite filter_app..]; rewrite ?IHstopped_calls; cbn in *; auto. Qed.

(** The part of a step after the turns. *)
Lemma after_part (sc sc1 : sched A) due rest backs s1 s2 now e0 sc3 s3 log3 sc' :
  unique_ids (s_events sc1) -> (id < s_ids sc1)%N ->
  (forall x, In x (s_events sc1) -> good_time (ev_time x) /\ (fltb (ev_time x) top = true -> tame (ev_time x))) ->
  Permutation (s_events sc1) (due ++ rest) -> now = ev_time e0 -> minimal (s_events sc1) e0 ->
  (forall e, In e due <-> minimal (s_events sc1) e) ->
  (forall x, In x rest -> fltb now (ev_time x) = true) ->
  tame now -> (f2R now < IZR (2 ^ 24))%R ->
  turns u due s1 backs s2 -> unique_ids (rest ++ backs) ->
  run_hprog (u_after u s2) (Sched (s_step sc1) now (rest ++ backs) (s_ids sc1)) = (sc3, s3, log3) ->
  sc' = Sched (u64_succ (s_step sc)) (s_time sc3) (s_events sc3) (s_ids sc3) ->
  (u32_mod <= s_ids sc1 + births (api log3))%N \/
    fine sc' /\ all_later sc' /\ s_ids sc' = (s_ids sc1 + births (api log3))%N /\ s_time sc' = now /\
    (forall x, In x (rest ++ backs) -> ev_id x = id -> In x (s_events sc')).
Proof.
  intros Hu1 Hid Q1 Perm Hnow M0 Dd Rl Tn LnR Hts Hu2 Ha Hsc'.
  assert (Ln : fltb now top = true) by (apply below_top; auto).
  assert (Hq : forall x, In x (rest ++ backs) -> (good_time (ev_time x) /\ (fltb (ev_time x) top = true -> tame (ev_time x))) /\ fltb now (ev_time x) = true).
  { intros x Hx. apply in_app_or in Hx. destruct Hx as [Hx|Hx].
    - split; [|apply Rl; exact Hx]. apply Q1. eapply Permutation_in; [symmetry; exact Perm|apply in_or_app; auto].
    - destruct (turns_backs _ _ _ _ _ Hts x Hx) as (y & Hy & Ey & _).
      assert (Yt : fleb now (ev_time y) = true /\ fleb (ev_time y) now = true).
      { apply Dd in Hy. rewrite Hnow. split; [apply (proj2 M0), Hy|apply Hy, M0]. }
      assert (Ty : tame (ev_time y) /\ f2R (ev_time y) = f2R now).
      { apply Dd in Hy. destruct Yt as [Y1 Y2].
        assert (Ly : fltb (ev_time y) top = true).
        { apply fleb_iff in Y2. apply fltb_iff in Ln. apply fltb_iff. destruct Y2 as (? & ? & [Y3|Y3]), Ln as (? & ? & Ln); split; auto; split; auto.
          - eapply klt_trans; eauto.
          - rewrite Y3. exact Ln. }
        assert (Ty : tame (ev_time y)) by (apply (Q1 y (proj1 Hy)); exact Ly). split; [exact Ty|].
        apply (fle_R now (ev_time y)) in Y1; [|apply tame_fok; auto..]. apply (fle_R (ev_time y) now) in Y2; [|apply tame_fok; auto..]. lra. }
      destruct Ty as [Ty Ry]. destruct (fadd_one_half (ev_time y) Ty ltac:(lra)) as [Tb Hb2]. rewrite Ey.
      split; [split; [apply tame_nan; exact Tb|intros _; exact Tb]|].
      apply (flt_R now _ (tame_fok _ Tn) (tame_fok _ Tb)). lra. }
  destruct (later_hook id (fun x => (good_time x /\ (fltb x top = true -> tame x)) /\ fltb now x = true) _ _ _ _ _
     (proj2 (Hu (Sched (s_step sc1) now (rest ++ backs) (s_ids sc1)) s2 Tn LnR)) Ha) as [O|(Q3 & K3 & I3)]; auto.
  { cbn [s_time]. intros x G L. split; [|exact L]. split; [exact G|]. apply later_tame with now; auto. }
  right. pose proof (run_hprog_const _ _ _ _ _ Ha) as [_ C3]. cbn [s_time s_ids s_events] in *. subst sc'.
  cbn [s_time s_ids s_events]. rewrite C3. split; [|split; [|split; [exact I3|split; [reflexivity|exact K3]]]].
  - split; [cbn [s_events]; eapply run_hprog_unique; [exact Ha|exact Hu2]|].
    split; [intros x Hx; apply (Q3 x Hx)|].
    cbn [s_time s_ids]. split; [exact Tn|]. split; [exact LnR|lia].
  - unfold all_later. cbn [s_events s_time]. intros x Hx. apply (Q3 x Hx).
Qed.

(** One step: [id] is still waiting and the clock has advanced, or [id] ran. *)
Lemma step_birth ch sc (w : world A S) e : fine sc ->
  In e (s_events sc) -> ev_id e = id -> tame (ev_time e) -> (f2R (ev_time e) <= IZR (2 ^ 24))%R ->
  let c := step u ch sc w in
  exists new, w_trace (snd c) = w_trace w ++ new /\
  ((u32_mod <= s_ids sc + births new)%N \/
   (In id (ran new) /\
    (f2R (ev_time e) = IZR (2 ^ 24) \/ ai_rep (fst e) = false \/ In (CAgentStopped id true) new \/
     fine (fst c) /\ s_ids (fst c) = (s_ids sc + births new)%N /\
     exists b, In b (s_events (fst c)) /\ ev_id b = id /\ ai_rep (fst b) = true /\ ev_time b = fadd (ev_time e) f1)) \/
   (fine (fst c) /\ s_ids (fst c) = (s_ids sc + births new)%N /\ In e (s_events (fst c)) /\
    all_later (fst c) /\ fltb (s_time (fst c)) (ev_time e) = true /\
    (all_later sc -> fltb (s_time sc) (s_time (fst c)) = true))).
Proof.
  intros (U & T & Tc & Lc & Hid) He Ei Tt Tm c. unfold c. destruct (step u ch sc w) as [sc' w'] eqn:E.
  pose proof (step_anatomy u ch sc w sc' w' U E) as
    (sc1 & s1 & log1 & due & rest & backs & s2 & tr & now & sc3 & s3 & log3 &
      Hb & Hu1 & Perm & Hnil & Hcons & Hts & Hu2 & Hsc & Ha & Hsc' & Hst & Htr).
  cbn [fst snd]. eexists. split; [exact Htr|].
  assert (Bn : births ((if (s_step sc =? 0)%N then [CUpdate 0] else []) ++
      CStateBefore :: api log1 ++ tr ++ CStateAfter :: api log3 ++ [CUpdate (u64_succ (s_step sc))]) =
      (births (api log1) + births (api log3))%N).
  { change (CStateBefore (A:=A) :: ?l) with ([CStateBefore (A:=A)] ++ l).
    change (CStateAfter (A:=A) :: ?l) with ([CStateAfter (A:=A)] ++ l).
    rewrite !births_app, (stopped_births _ _ _ Hsc). destruct (s_step sc =? 0)%N; cbn; lia. }
  rewrite Bn. clear Bn.
  pose proof (run_hprog_const _ _ _ _ _ Hb) as [_ C1].
  destruct (later_hook id (fun x => good_time x /\ (fltb x top = true -> tame x) /\
      (all_later sc -> fltb (s_time sc) x = true)) _ _ _ _ _ (proj1 (Hu sc (st0 u sc w) Tc Lc)) Hb) as [O|(Q1 & K1 & I1)]; auto.
  { intros x G L. split; [exact G|]. split; [apply later_tame with (s_time sc); auto|auto]. }
  { intros x Hx. destruct (T x Hx) as [G Tx]. split; [exact G|]. split; [exact Tx|]. intros AL. apply AL. exact Hx. }
  { left. lia. }
  specialize (K1 e He Ei).
  assert (Nn : no_nan (s_events sc1)) by (intros x Hx; apply (Q1 x Hx)).
  destruct Hcons as (e0 & P & Hnow & Pd); [intros Z; rewrite Z in K1; destruct K1|].
  destruct (due_minimal _ _ _ _ _ _ _ Hu1 Nn P Hnow Pd) as (Dd & Dr & _).
  assert (Ran : In e due -> In id (ran ((if (s_step sc =? 0)%N then [CUpdate 0] else []) ++
      CStateBefore :: api log1 ++ tr ++ CStateAfter :: api log3 ++ [CUpdate (u64_succ (s_step sc))]))).
  { intros Hd. rewrite ran_app. apply in_or_app. right. change (CStateBefore (A:=A) :: ?l) with ([CStateBefore (A:=A)] ++ l).
    rewrite !ran_app. apply in_or_app. right. apply in_or_app. right. apply in_or_app. left.
    rewrite (stopped_ran _ _ _ Hsc). rewrite <- Ei. apply in_map. exact Hd. }
  destruct (pq_peek_max _ _ _ Nn P) as [Hin0 Hmax0].
  assert (M0 : minimal (s_events sc1) e0).
  { split; [exact Hin0|].
    intros x Hx. specialize (Hmax0 x Hx). unfold not_above in Hmax0.
    rewrite prio_cmp_Gt_iff in Hmax0 by (apply Nn; auto). apply fleb_iff.
    split; [apply Nn; auto|]. split; [apply Nn; auto|].
    destruct (klt_total (fkey (ev_time e0)) (fkey (ev_time x))) as [K|[K|K]]; auto. destruct Hmax0. left. exact K. }
  assert (Rl : forall x, In x rest -> fltb now (ev_time x) = true).
  { intros x Hx. apply Dr in Hx. destruct Hx as [Hx Hnm]. pose proof (proj2 M0 x Hx) as L. rewrite <- Hnow in L.
    apply fleb_iff in L. destruct L as (L1 & L2 & [L3|L3]); [apply fltb_iff; auto|]. exfalso. apply Hnm. split; [exact Hx|].
    intros y Hy. eapply fleb_trans; [|apply (proj2 M0); exact Hy]. rewrite <- Hnow. apply fleb_iff. auto. }
  assert (Le : fleb now (ev_time e) = true) by (rewrite Hnow; apply (proj2 M0); exact K1).
  destruct (in_app_or _ _ _ (Permutation_in _ Perm K1)) as [Hd|Hr].
  { destruct (Req_dec (f2R (ev_time e)) (IZR (2 ^ 24))) as [Z|Z]; [right; left; auto|].
    assert (Lt : fltb now top = true).
    { pose proof (below_top _ Tt ltac:(lra)) as K. apply fltb_iff in K. apply fleb_iff in Le. apply fltb_iff.
      destruct K as (? & ? & K), Le as (? & ? & [Y3|Y3]); split; auto; split; auto.
      - eapply klt_trans; eauto.
      - rewrite Y3. exact K. }
    assert (Tn : tame now) by (rewrite Hnow; apply (Q1 e0 Hin0); rewrite <- Hnow; exact Lt).
    assert (LnR : (f2R now < IZR (2 ^ 24))%R) by (apply top_below; auto).
    assert (AH : (u32_mod <= s_ids sc1 + births (api log3))%N \/
    fine sc' /\ all_later sc' /\ s_ids sc' = (s_ids sc1 + births (api log3))%N /\ s_time sc' = now /\
    (forall x, In x (rest ++ backs) -> ev_id x = id -> In x (s_events sc'))) by
    (eapply after_part; eauto; [lia|intros x Hx; destruct (Q1 x Hx) as (? & ? & _); auto]);
  destruct AH as [O|(F3 & A3 & I3 & C3 & K3)]; [|rewrite ?C3].
    - left. lia.
    - right. left. split; [auto|]. right.
      destruct (ai_rep (fst e)) eqn:Rp; [|left; reflexivity]. right.
      destruct (stopped_or_back _ _ _ e Hsc Hd Rp) as [K|(b & Hbk & Eb)].
      + left. rewrite Ei in K. apply in_or_app. right. right. apply in_or_app. right. apply in_or_app. left. exact K.
      + right. split; [exact F3|]. split; [lia|]. exists b.
        destruct (turns_backs _ _ _ _ _ Hts b Hbk) as (y & Hy & Ey & _ & Iy).
        assert (y = e).
        { apply (due_unique (s_events sc1)); auto; [|congruence]. eapply Permutation_in; [symmetry; exact Perm|apply in_or_app; auto]. }
        subst y. split; [apply K3; [apply in_or_app; auto|congruence]|]. split; [congruence|].
        split; [eapply turns_rep; eauto|exact Ey]. }
  assert (Ln : fltb now (ev_time e) = true) by (apply Rl; exact Hr).
  assert (Lt : fltb now top = true).
  { apply fltb_iff in Ln. assert (K : fleb (ev_time e) top = true) by (apply fle_R; [apply tame_fok; auto using top_tame..|rewrite top_R; exact Tm]).
    apply fleb_iff in K. apply fltb_iff. destruct Ln as (? & ? & Ln), K as (? & ? & [Y3|Y3]); split; auto; split; auto.
    - eapply klt_trans; eauto.
    - rewrite <- Y3. exact Ln. }
  assert (Tn : tame now) by (rewrite Hnow; apply (Q1 e0 Hin0); rewrite <- Hnow; exact Lt).
  assert (LnR : (f2R now < IZR (2 ^ 24))%R) by (apply top_below; auto).
  assert (AH : (u32_mod <= s_ids sc1 + births (api log3))%N \/
    fine sc' /\ all_later sc' /\ s_ids sc' = (s_ids sc1 + births (api log3))%N /\ s_time sc' = now /\
    (forall x, In x (rest ++ backs) -> ev_id x = id -> In x (s_events sc'))) by
    (eapply after_part; eauto; [lia|intros x Hx; destruct (Q1 x Hx) as (? & ? & _); auto]);
  destruct AH as [O|(F3 & A3 & I3 & C3 & K3)]; [|rewrite ?C3].
  - left. lia.
  - right. right. split; [exact F3|]. split; [lia|]. split; [apply K3; [apply in_or_app; auto|exact Ei]|].
    split; [exact A3|]. split; [exact Ln|]. intros AL. rewrite Hnow. apply (Q1 e0 Hin0). exact AL.
Qed.

(** Traces only grow. *)
Lemma steps_extend chs : forall c : sched A * world A S, unique_ids (s_events (fst c)) ->
  exists more, w_trace (snd (acts u (map ActStep chs) c)) = w_trace (snd c) ++ more.
Proof.
  induction chs as [|ch chs IH]; intros c Uc.
  - exists []. cbn. rewrite app_nil_r. reflexivity.
  - cbn [map acts fold_left act]. fold (acts u (map ActStep chs) (step u ch (fst c) (snd c))).
    destruct (IH (step u ch (fst c) (snd c))) as [m ->]; [apply (act_unique u (ActStep ch) c Uc)|].
    destruct (step u ch (fst c) (snd c)) as [sc' w'] eqn:E.
    destruct (step_anatomy u ch _ _ sc' w' Uc E) as
      (sc1 & s1 & log1 & due & rest & backs & s2 & tr & now & sc3 & s3 & log3 &
       _ & _ & _ & _ & _ & _ & _ & _ & _ & _ & _ & Htr). cbn [snd]. rewrite Htr, <- app_assoc. eauto.
Qed.

Definition ran_or_full (sc : sched A) (tr tr' : list (call A)) : Prop :=
  exists new, tr' = tr ++ new /\ (In id (ran new) \/ (u32_mod <= s_ids sc + births new)%N).

Section Target.
Variable e : event A.
Hypothesis Ei : ev_id e = id.
Hypothesis Tt : tame (ev_time e).
Hypothesis Tm : (f2R (ev_time e) <= IZR (2 ^ 24))%R.

Lemma more_steps ch chs sc (w : world A S) : fine sc -> In e (s_events sc) ->
  (let c := step u ch sc w in fine (fst c) -> In e (s_events (fst c)) -> all_later (fst c) ->
     fltb (s_time (fst c)) (ev_time e) = true ->
     (all_later sc -> fltb (s_time sc) (s_time (fst c)) = true) ->
     ran_or_full (fst c) (w_trace (snd c)) (w_trace (snd (acts u (map ActStep chs) c)))) ->
  ran_or_full sc (w_trace w) (w_trace (snd (acts u (map ActStep (ch :: chs)) (sc, w)))).
Proof.
  intros W He H. pose proof W as (U & _). destruct (step_birth ch sc w e W He Ei Tt Tm) as (new & En & D). cbv zeta in *.
  cbn [map acts fold_left act fst snd]. fold (acts u (map ActStep chs) (step u ch sc w)).
  destruct (steps_extend chs (step u ch sc w)) as [m Em]; [apply (act_unique u (ActStep ch) (sc, w) U)|].
  destruct D as [D|[[D _]|(D1 & D4 & D2 & D3 & D5 & D6)]].
  - exists (new ++ m). rewrite Em, En, app_assoc. split; [reflexivity|]. right. rewrite births_app. lia.
  - exists (new ++ m). rewrite Em, En, app_assoc. split; [reflexivity|]. left. rewrite ran_app. apply in_or_app. auto.
  - destruct (H D1 D2 D3 D5 D6) as (n2 & E2 & R2). exists (new ++ n2). rewrite E2, En, app_assoc. split; [reflexivity|].
    destruct R2 as [R2|R2]; [left; rewrite ran_app; apply in_or_app; auto|right; rewrite births_app; lia].
Qed.

Lemma steps_later chs : forall sc (w : world A S), fine sc -> In e (s_events sc) -> all_later sc ->
  (Z.to_nat (tick (ev_time e) - tick (s_time sc)) < length chs)%nat ->
  ran_or_full sc (w_trace w) (w_trace (snd (acts u (map ActStep chs) (sc, w)))).
Proof.
  induction chs as [|ch chs IH]; intros sc w W He AL L; [cbn in L; lia|].
  apply more_steps; [exact W|exact He|]. cbv zeta. destruct (step u ch sc w) as [sc' w']. cbn [fst snd]. intros W' He' AL' Lt St.
  apply IH; auto. specialize (St AL). cbn [length] in L.
  assert (T1 : tame (s_time sc)) by apply W. assert (T2 : tame (s_time sc')) by apply W'.
  pose proof (tick_lt _ _ (tame_fok _ T1) (tame_fok _ T2) St). pose proof (tick_lt _ _ (tame_fok _ T2) (tame_fok _ Tt) Lt). lia.
Qed.

Lemma steps_birth chs sc (w : world A S) : fine sc -> In e (s_events sc) ->
  (Z.to_nat (tick (ev_time e) - tick (f_of_Z (- 2 ^ 24))) + 1 < length chs)%nat ->
  ran_or_full sc (w_trace w) (w_trace (snd (acts u (map ActStep chs) (sc, w)))).
Proof.
  intros W He L. destruct chs as [|ch chs]; [cbn in L; lia|]. apply more_steps; [exact W|exact He|]. cbv zeta.
  destruct (step u ch sc w) as [sc' w']. cbn [fst snd length] in *. intros W' He' AL' Lt _. apply steps_later; auto.
  assert (T2 : tame (s_time sc')) by apply W'. pose proof (tick_low _ T2). lia.
Qed.
End Target.

(** ** Again and again *)
Definition rewaits (sc : sched A) (t : f32) : Prop :=
  fine sc /\ exists e, In e (s_events sc) /\ ev_id e = id /\ ai_rep (fst e) = true /\ ev_time e = t.

Definition goes_on (chs : nat -> nat -> nat) (c : sched A * world A S) (n : nat) (P : list (call A) -> Prop) : Prop :=
  exists new, w_trace (snd (after_steps u chs n c)) = w_trace (snd c) ++ new /\
  ((u32_mod <= s_ids (fst c) + births new)%N \/
   s_ids (fst (after_steps u chs n c)) = (s_ids (fst c) + births new)%N /\ P new \/
   In (CAgentStopped id true) new).

Lemma once_more : forall k chs c e, fine (fst c) -> In e (s_events (fst c)) -> ev_id e = id -> ai_rep (fst e) = true ->
  tame (ev_time e) -> (f2R (ev_time e) < IZR (2 ^ 24))%R ->
  (all_later (fst c) /\ Z.to_nat (tick (ev_time e) - tick (s_time (fst c))) < k \/
   Z.to_nat (tick (ev_time e) - tick (f_of_Z (- 2 ^ 24))) + 1 < k)%nat ->
  exists n, goes_on chs c n (fun new => In id (ran new) /\ rewaits (fst (after_steps u chs n c)) (fadd (ev_time e) f1)).
Proof.
  induction k as [|k IH]; intros chs [sc w] e W He Ei Rp Tt Tm Hk; [lia|]. cbn [fst snd] in *.
  destruct (step_birth (chs 0) sc w e W He Ei Tt ltac:(lra)) as (new & En & D). cbv zeta in *.
  destruct D as [D|[[D1 D]|(D1 & D4 & D2 & D3 & D5 & D6)]].
  - exists 1. exists new. cbn [after_steps fst snd]. auto.
  - exists 1. exists new. cbn [after_steps fst snd]. split; [exact En|].
    destruct D as [D|[D|[D|(F & I & b & B1 & B2 & B3 & B4)]]]; [lra|congruence|auto|].
    right. left. split; [exact I|]. split; [exact D1|]. split; [exact F|]. exists b. auto.
  - destruct (IH (fun i => chs (Datatypes.S i)) (step u (chs 0) sc w) e D1 D2 Ei Rp Tt Tm) as (n & more & Em & Hm).
    { left. split; [exact D3|].
      assert (T1 : tame (s_time sc)) by apply W.
      assert (T2 : tame (s_time (fst (step u (chs 0) sc w)))) by apply D1.
      pose proof (tick_lt _ _ (tame_fok _ T2) (tame_fok _ Tt) D5).
      destruct Hk as [[AL Hk]|Hk].
      - pose proof (tick_lt _ _ (tame_fok _ T1) (tame_fok _ T2) (D6 AL)). lia.
      - pose proof (tick_low _ T2). lia. }
    exists (Datatypes.S n). exists (new ++ more). rewrite (after_steps_shift u chs n (sc, w)). cbn [fst snd].
    split; [rewrite Em, En, app_assoc; reflexivity|]. rewrite births_app, ran_app, D4 in *.
    destruct Hm as [Hm|[[I [Hm Hw]]|Hm]].
    + left. lia.
    + right. left. split; [lia|]. split; [apply in_or_app; auto|exact Hw].
    + right. right. apply in_or_app. auto.
Qed.

Fixpoint plus_ones (t : f32) (k : nat) : f32 := match k with O => t | Datatypes.S k' => plus_ones (fadd t f1) k' end.

Lemma again_birth : forall k chs c t, rewaits (fst c) t -> tame t ->
  (forall i, i < k -> (f2R (plus_ones t i) < IZR (2 ^ 24))%R) ->
  exists n, goes_on chs c n (fun new => k <= count_occ N.eq_dec (ran new) id).
Proof.
  induction k as [|k IH]; intros chs c t [F (e & He & Ei & Rp & Et)] Tt Hk.
  - exists 0, []. cbn [after_steps]. rewrite app_nil_r. split; [reflexivity|]. right. left. cbn. split; lia.
  - assert (L0 : (f2R t < IZR (2 ^ 24))%R) by (apply (Hk 0); lia).
    destruct (once_more _ chs c e F He Ei Rp ltac:(rewrite Et; exact Tt) ltac:(rewrite Et; exact L0)
      (or_intror (Nat.lt_succ_diag_r _))) as (n & new & En & H).
    destruct H as [H|[[I [H W]]|H]]; [exists n, new; auto| |exists n, new; auto].
    rewrite Et in W. destruct (fadd_one_half t Tt L0) as [T1 _].
    destruct (IH (fun i => chs (n + i)) _ _ W T1) as (m & more & Em & Hm).
    { intros i Hi. apply (Hk (Datatypes.S i)). lia. }
    exists (n + m), (new ++ more). rewrite after_steps_add. split; [rewrite Em, En, app_assoc; reflexivity|].
    rewrite births_app, ran_app, count_occ_app, I in *. apply (count_occ_In N.eq_dec) in H.
    destruct Hm as [Hm|[[I2 Hm]|Hm]].
    + left. lia.
    + right. left. split; lia.
    + right. right. apply in_or_app. auto.
Qed.

Lemma plus_ones_Z z k : (- 2 ^ 24 <= z)%Z -> (z + Z.of_nat k <= 2 ^ 24)%Z ->
  plus_ones (f_of_Z z) k = f_of_Z (z + Z.of_nat k).
Proof.
  revert z. induction k as [|k IH]; intros z L H; cbn [plus_ones]; [f_equal; lia|].
  rewrite fadd_one_int by lia. rewrite IH by lia. f_equal. lia.
Qed.
End Birth.
