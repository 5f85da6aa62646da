(** * Proofs that scheduled agents get their turn *)
From Coq Require Import Reals List Bool ZArith NArith Arith Lia Lra Permutation.
From Flocq Require Import Core IEEE754.BinarySingleNaN.
From Verif Require Import F32 F32Facts F32Real F32Ops SchedModel SchedSpec SchedProofs SchedStep SchedHist SchedTime FairSpec.
Import ListNotations.
Local Open Scope nat_scope.

(** ** Adding one moves a time by at least one half *)
Section Half.
Local Open Scope R_scope.
#[local] Existing Instance Hprec.
#[local] Existing Instance Hmax.
#[local] Instance vexp : Valid_exp (SpecFloat.fexp 24 128) := fexp_correct 24 128 Hprec.

Lemma f1_R : f2R f1 = 1.
Proof. unfold f2R, f1, SF2R, F2R. cbn. lra. Qed.

Lemma rnd_half z : Rabs z <= IZR (2 ^ 24) -> z - 1 / 2 <= rnd z.
Proof.
  intros H. destruct (Req_dec z 0) as [->|Hz]; [rewrite rnd_0; lra|].
  destruct (Rlt_or_le (Rabs z) (IZR (2 ^ 24))) as [L|L].
  - pose proof (error_le_half_ulp radix2 (SpecFloat.fexp 24 128) (fun x => negb (Z.even x)) z) as E.
    rewrite ulp_neq_0 in E by exact Hz.
    assert (B : bpow radix2 (cexp radix2 (SpecFloat.fexp 24 128) z) <= 1).
    { change 1 with (bpow radix2 0). apply bpow_le. unfold cexp.
      assert (M : (mag radix2 z <= 24)%Z).
      { apply mag_le_bpow; [exact Hz|]. change (bpow radix2 24) with (IZR (2 ^ 24)). exact L. }
      unfold SpecFloat.fexp, SpecFloat.emin. lia. }
    change (Rabs (rnd z - z) <= / 2 * bpow radix2 (cexp radix2 (SpecFloat.fexp 24 128) z)) in E.
    apply Rabs_le_inv in E. lra.
  - assert (X : z = IZR (2 ^ 24) \/ z = IZR (- 2 ^ 24)).
    { unfold Rabs in *. destruct (Rcase_abs z); [right; rewrite opp_IZR; lra|left; lra]. }
    destruct X as [-> | ->]; rewrite rnd_exact by (apply int_format; lia); lra.
Qed.

(** A representable number below 2^24 is at most 2^24 - 1 or far below. *)
Lemma below_24 x : fok x -> f2R x < IZR (2 ^ 24) -> f2R x + 1 <= IZR (2 ^ 24).
Proof.
  intros [V F] U. destruct (Rle_or_lt (f2R x) (IZR (2 ^ 24) - 1)) as [K|K]; [lra|]. exfalso.
  assert (B3 : IZR (2 ^ 23) + 1 <= IZR (2 ^ 24)) by (rewrite <- plus_IZR; apply IZR_le; lia).
  assert (B0 : 0 < IZR (2 ^ 23)) by (apply IZR_lt; lia).
  pose proof (f2R_format x V) as Fm.
  assert (U2 : f2R x + ulp radix2 (SpecFloat.fexp 24 128) (f2R x) <= bpow radix2 24).
  { apply id_p_ulp_le_bpow; auto. lra. }
  rewrite ulp_neq_0 in U2 by lra.
  assert (C : cexp radix2 (SpecFloat.fexp 24 128) (f2R x) = 0%Z).
  { unfold cexp. rewrite (mag_unique radix2 (f2R x) 24); [reflexivity|].
    rewrite Rabs_pos_eq by lra. change (bpow radix2 (24 - 1)) with (IZR (2 ^ 23)).
    change (bpow radix2 24) with (IZR (2 ^ 24)). split; [lra|exact U]. }
  rewrite C in U2. change (bpow radix2 0) with 1 in U2.
  change (bpow radix2 24) with (IZR (2 ^ 24)) in U2. lra.
Qed.

Lemma fadd_one_half x : tame x -> f2R x < IZR (2 ^ 24) ->
  tame (fadd x f1) /\ f2R x + 1 / 2 <= f2R (fadd x f1).
Proof.
  intros (V & F & L) U.
  assert (Ok1 : fok f1) by (split; reflexivity).
  pose proof (below_24 x (conj V F) U) as K.
  assert (B : Rabs (rnd (f2R x + f2R f1)) < fmax).
  { apply (rnd_no_overflow _ (f_of_Z (- 2 ^ 24)) (f_of_Z (2 ^ 24))); [apply fok_of_Z; lia..|].
    rewrite <- (rnd_f2R (f_of_Z (- 2 ^ 24))), <- (rnd_f2R (f_of_Z (2 ^ 24))) by (apply fok_of_Z; lia).
    rewrite (proj1 (f_of_Z_exact (- 2 ^ 24) ltac:(lia))), (proj1 (f_of_Z_exact (2 ^ 24) ltac:(lia))).
    split; apply rnd_le; rewrite f1_R; [rewrite opp_IZR|]; lra. }
  destruct (fadd_ok x f1 (conj V F) Ok1 B) as [[V' F'] E].
  assert (Z : f2R x + f2R f1 - 1 / 2 <= rnd (f2R x + f2R f1)).
  { apply rnd_half. rewrite f1_R. apply Rabs_le. lra. }
  rewrite f1_R in *. rewrite E. split; [|lra].
  split; [exact V'|]. split; [exact F'|]. rewrite E. lra.
Qed.
End Half.

(** ** A measure of what still has to run before time [t] *)
Section Measure.
Context {A : Type}.
Variable t : f32.
Hypothesis Tt : tame t.
Hypothesis Tm : (f2R t <= IZR (2 ^ 24))%R.
Implicit Types (q : list (event A)) (e : event A).

Definition due_in (x : f32) : nat :=
  if fltb x t then Z.to_nat (Zceil (2 * (f2R t - f2R x))) else 0.
Fixpoint work q : nat := match q with [] => 0 | e :: q' => due_in (ev_time e) + work q' end.

Lemma due_in_less x : tame x -> fltb x t = true ->
  tame (fadd x f1) /\ due_in (fadd x f1) + 1 <= due_in x.
Proof.
  intros T L. pose proof (proj1 (flt_R x t (conj (proj1 T) (proj1 (proj2 T))) (conj (proj1 Tt) (proj1 (proj2 Tt)))) L) as LR.
  destruct (fadd_one_half x T) as [T' H]; [lra|]. split; [exact T'|].
  unfold due_in. rewrite L.
  assert (P : (1 <= Zceil (2 * (f2R t - f2R x)))%Z).
  { assert (0 < Zceil (2 * (f2R t - f2R x)))%Z; [|lia]. apply lt_IZR. eapply Rlt_le_trans; [|apply Zceil_ub]. lra. }
  destruct (fltb (fadd x f1) t) eqn:L'; [|lia].
  assert (Q : (Zceil (2 * (f2R t - f2R (fadd x f1))) <= Zceil (2 * (f2R t - f2R x)) - 1)%Z).
  { apply Zceil_glb. rewrite minus_IZR. pose proof (Zceil_ub (2 * (f2R t - f2R x))). lra. }
  lia.
Qed.

Lemma work_app q q' : work (q ++ q') = work q + work q'.
Proof. induction q as [|e q IH]; cbn [app work]; lia. Qed.
Lemma work_perm q q' : Permutation q q' -> work q = work q'.
Proof.
  induction 1; cbn [work]; lia.
Qed.
Lemma work_filter f q : work (filter f q) <= work q.
Proof. induction q as [|e q IH]; cbn [filter work]; [lia|]. destruct (f e); cbn [work]; lia. Qed.

Lemma tame_filter f q : tame_before t q -> tame_before t (filter f q).
Proof. intros H e He. apply filter_In in He. apply H. tauto. Qed.

(** Hooks that leave [id] alone *)
Lemma do_dequeue (sc : sched A) i : unique_ids (s_events sc) ->
  s_events (fst (do_op sc (OpDequeue i))) = filter (fun e => negb (ev_id e =? i)%N) (s_events sc).
Proof.
  intros U. cbn. unfold dequeue. destruct (pq_remove_filter i (s_events sc) U) as [E _].
  destruct (pq_remove i (s_events sc)) as [q r]. exact E.
Qed.

Lemma alone_keeps {X} id (p : hprog A X) : leaves_alone id p -> forall sc sc' x log,
  unique_ids (s_events sc) -> tame_before t (s_events sc) -> run_hprog p sc = (sc', x, log) ->
  tame_before t (s_events sc') /\ work (s_events sc') <= work (s_events sc) /\
  (forall e, In e (s_events sc) -> ev_id e = id -> In e (s_events sc')).
Proof.
  induction 1 as [x|i k Hi Hk IH|k Hk IH|k Hk IH|k Hk IH]; intros sc sc' y log U T E; cbn [run_hprog] in E.
  - injection E as <- _ _. auto.
  - pose proof (do_dequeue sc i U) as D. pose proof (do_op_unique sc (OpDequeue i) U) as U'.
    destruct (do_op sc (OpDequeue i)) as [sc1 r]. cbn [fst] in D, U'.
    destruct (run_hprog (k r) sc1) as [[sc2 z] l] eqn:Ek. injection E as <- _ _.
    assert (T1 : tame_before t (s_events sc1)) by (rewrite D; apply tame_filter; exact T).
    destruct (IH r sc1 sc2 z l U' T1 Ek) as (I1 & I2 & I3). split; [exact I1|].
    rewrite D in I2, I3. split; [pose proof (work_filter (fun e => negb (ev_id e =? i)%N) (s_events sc)); lia|].
    intros e He Ei. apply I3; [|exact Ei]. apply filter_In. split; [exact He|].
    apply negb_true_iff, N.eqb_neq. congruence.
  - destruct (do_op sc OpAllEvents) as [sc1 r] eqn:D. injection D as <- <-.
    destruct (run_hprog _ sc) as [[sc2 z] l] eqn:Ek. injection E as <- _ _. eapply IH; eauto.
  - destruct (do_op sc OpReadStep) as [sc1 r] eqn:D. injection D as <- <-.
    destruct (run_hprog _ sc) as [[sc2 z] l] eqn:Ek. injection E as <- _ _. eapply IH; eauto.
  - destruct (do_op sc OpReadTime) as [sc1 r] eqn:D. injection D as <- <-.
    destruct (run_hprog _ sc) as [[sc2 z] l] eqn:Ek. injection E as <- _ _. eapply IH; eauto.
Qed.

Context {S : Type}.
Variable u : user A S.

Lemma backs_work es s backs s' : turns u es s backs s' ->
  (forall e, In e es -> tame (ev_time e) /\ fltb (ev_time e) t = true) ->
  work backs + length es <= work es /\ (forall b, In b backs -> tame (ev_time b)).
Proof.
  induction 1 as [|e es s s' backs s'' Ht Hts IH|e es b s s' backs s'' Ht Hts IH]; intros H.
  - cbn. split; [lia|intros ? []].
  - destruct IH as [I1 I2]; [intros x Hx; apply H; right; exact Hx|]. split; [|exact I2].
    destruct (H e (or_introl eq_refl)) as [T L]. pose proof (proj2 (due_in_less _ T L)) as D.
    cbn [work length]. lia.
  - destruct IH as [I1 I2]; [intros x Hx; apply H; right; exact Hx|].
    destruct (H e (or_introl eq_refl)) as [T L]. pose proof (due_in_less _ T L) as [T' D].
    assert (Eb : ev_time b = fadd (ev_time e) f1) by (inversion Ht; reflexivity). split.
    + cbn [work length]. rewrite Eb. lia.
    + intros x [<-|Hx]; [rewrite Eb; exact T'|apply I2; exact Hx].
Qed.

Lemma tame_nan x : tame x -> good_time x.
Proof. intros (V & F & _). split; [exact V|]. destruct x; try discriminate; reflexivity. Qed.

Variable id : N.
Hypothesis Hu : user_leaves_alone id u.

(** One step: either [id] runs, or it stays where it is and less work is left. *)
Lemma step_fair ch sc (w : world A S) e :
  unique_ids (s_events sc) -> tame_before t (s_events sc) ->
  In e (s_events sc) -> ev_id e = id -> ev_time e = t ->
  let c := step u ch sc w in
  exists new, w_trace (snd c) = w_trace w ++ new /\
  (In id (ran new) \/
   unique_ids (s_events (fst c)) /\ tame_before t (s_events (fst c)) /\
   In e (s_events (fst c)) /\ work (s_events (fst c)) + 1 <= work (s_events sc)).
Proof.
  intros U T He Ei Et c. unfold c. destruct (step u ch sc w) as [sc' w'] eqn:E.
  pose proof (step_anatomy u ch sc w sc' w' U E) as
    (sc1 & s1 & log1 & due & rest & backs & s2 & tr & now & sc3 & s3 & log3 &
      Hb & Hu1 & Perm & Hnil & Hcons & Hts & Hu2 & Hsc & Ha & Hsc' & Hst & Htr).
  destruct (alone_keeps id _ (proj1 (Hu (st0 u sc w))) _ _ _ _ U T Hb) as (T1 & W1 & K1).
  specialize (K1 e He Ei). cbn [fst snd]. eexists. split; [exact Htr|].
  assert (Nn : no_nan (s_events sc1)) by (intros x Hx; apply (proj1 (T1 x Hx))).
  destruct Hcons as (e0 & P & Hnow & Pd); [intros Z; rewrite Z in K1; destruct K1|].
  destruct (due_minimal _ _ _ _ _ _ _ Hu1 Nn P Hnow Pd) as (Dd & Dr & _).
  destruct (in_app_or _ _ _ (Permutation_in _ Perm K1)) as [Hd|Hr].
  { left. rewrite ran_app. apply in_or_app. right. change (CStateBefore (A:=A) :: ?l) with ([CStateBefore (A:=A)] ++ l).
    rewrite !ran_app. apply in_or_app. right. apply in_or_app. right. apply in_or_app. left.
    rewrite (stopped_ran _ _ _ Hsc). rewrite <- Ei. apply in_map. exact Hd. }
  right.
  assert (D0 : In e0 due).
  { apply Dd. destruct (pq_peek_max _ _ _ Nn P) as [Hin Hmax]. split; [exact Hin|].
    intros x Hx. specialize (Hmax x Hx). unfold not_above in Hmax.
    rewrite prio_cmp_Gt_iff in Hmax by (apply Nn; auto). apply fleb_iff.
    split; [apply Nn; auto|]. split; [apply Nn; auto|].
    destruct (klt_total (fkey (ev_time e0)) (fkey (ev_time x))) as [K|[K|K]]; auto. destruct Hmax. left. exact K. }
  assert (Early : forall x, In x due -> tame (ev_time x) /\ fltb (ev_time x) t = true).
  { intros x Hx. apply Dd in Hx. destruct Hx as [Hxq Hxm].
    assert (L : fltb (ev_time x) t = true).
    { apply Dr in Hr. destruct Hr as [_ Hnm]. pose proof (Hxm e K1) as L. rewrite Et in L. apply fleb_iff in L.
      destruct L as (L1 & L2 & [L3|L3]); [apply fltb_iff; auto|]. exfalso. apply Hnm. split; [exact K1|].
      intros y Hy. eapply fleb_trans; [|apply Hxm; exact Hy]. rewrite Et. apply fleb_iff. auto. }
    split; [apply (T1 x Hxq); exact L|exact L]. }
  destruct (backs_work _ _ _ _ Hts Early) as [Wb Tb].
  assert (Hrest : forall x, In x rest -> In x (s_events sc1)).
  { intros x Hx. eapply Permutation_in; [symmetry; exact Perm|]. apply in_or_app. auto. }
  assert (T2 : tame_before t (rest ++ backs)).
  { intros x Hx. apply in_app_or in Hx. destruct Hx as [Hx|Hx]; [apply T1, Hrest, Hx|].
    split; [apply tame_nan, Tb, Hx|intros _; apply Tb, Hx]. }
  destruct (alone_keeps id _ (proj2 (Hu s2)) (Sched (s_step sc1) now (rest ++ backs) (s_ids sc1)) _ _ _ Hu2 T2 Ha) as (T3 & W3 & K3).
  subst sc'. cbn [s_events].
  split. { eapply run_hprog_unique; [exact Ha|exact Hu2]. }
  split; [exact T3|]. split; [apply K3; [cbn; apply in_or_app; auto|exact Ei]|].
  cbn [s_events] in W3. rewrite work_app in W3. rewrite (work_perm _ _ Perm), work_app in W1.
  assert (1 <= length due) by (destruct due; [destruct D0|cbn; lia]). lia.
Qed.

Lemma steps_fair chs : forall sc (w : world A S) e,
  unique_ids (s_events sc) -> tame_before t (s_events sc) ->
  In e (s_events sc) -> ev_id e = id -> ev_time e = t -> work (s_events sc) < length chs ->
  ran_since id (w_trace w) (w_trace (snd (acts u (map ActStep chs) (sc, w)))).
Proof.
  induction chs as [|ch chs IH]; intros sc w e U T He Ei Et L; [cbn in L; lia|].
  destruct (step_fair ch sc w e U T He Ei Et) as (new & Htr & H). cbv zeta in *.
  cbn [map acts fold_left act fst snd]. fold (acts u (map ActStep chs) (step u ch sc w)).
  assert (Ext : forall c : sched A * world A S, unique_ids (s_events (fst c)) -> exists more, w_trace (snd (acts u (map ActStep chs) c)) = w_trace (snd c) ++ more).
  { clear. induction chs as [|ch chs IH]; intros c Uc.
    - exists []. cbn. rewrite app_nil_r. reflexivity.
    - cbn [map acts fold_left act]. fold (acts u (map ActStep chs) (step u ch (fst c) (snd c))).
      destruct (IH (step u ch (fst c) (snd c))) as [m ->]; [apply (act_unique u (ActStep ch) c Uc)|].
      destruct (step u ch (fst c) (snd c)) as [sc' w'] eqn:E.
      destruct (step_anatomy u ch _ _ sc' w' Uc E) as
        (sc1 & s1 & log1 & due & rest & backs & s2 & tr & now & sc3 & s3 & log3 &
         _ & _ & _ & _ & _ & _ & _ & _ & _ & _ & _ & Htr). cbn [snd]. rewrite Htr, <- app_assoc. eauto. }
  destruct H as [H|(U' & T' & He' & W')].
  - destruct (Ext (step u ch sc w)) as [m ->]; [apply (act_unique u (ActStep ch) (sc, w) U)|]. exists (new ++ m). rewrite Htr, app_assoc. split; [reflexivity|].
    rewrite ran_app. apply in_or_app. left. exact H.
  - destruct (step u ch sc w) as [sc' w']. cbn [fst snd] in *. cbn in L.
    destruct (IH sc' w' e U' T' He' Ei Et ltac:(lia)) as (m & -> & Hm).
    exists (new ++ m). rewrite Htr, app_assoc. split; [reflexivity|]. rewrite ran_app. apply in_or_app. right. exact Hm.
Qed.
End Measure.

(** ** Again and again *)
Section Again.
Context {A S : Type}.
Variable u : user A S.
Variable id : N.
Hypothesis Hu : user_leaves_alone id u.
Implicit Types (q : list (event A)) (e : event A).
Notation top := (f_of_Z (2 ^ 24)).

Lemma top_tame : tame top.
Proof.
  split; [apply f_of_Z_valid|]. split; [reflexivity|]. rewrite (proj1 (f_of_Z_exact (2 ^ 24) ltac:(lia))).
  rewrite <- opp_IZR. apply IZR_le. lia.
Qed.
Lemma top_R : f2R top = IZR (2 ^ 24).
Proof. apply f_of_Z_exact. lia. Qed.
Lemma tame_fok x : tame x -> fok x.
Proof. intros (V & F & _). split; auto. Qed.

Lemma fadd_one_top x : tame x -> fleb x top = true -> tame (fadd x f1) /\ fleb (fadd x f1) top = true.
Proof.
  intros T L. pose proof (proj1 (fle_R x top (tame_fok _ T) (tame_fok _ top_tame)) L) as LR. rewrite top_R in LR.
  destruct (Rlt_or_le (f2R x) (IZR (2 ^ 24))) as [K|K].
  - destruct (fadd_one_half x T K) as [T' _]. split; [exact T'|]. apply fle_R; [apply tame_fok; auto using top_tame..|].
    destruct T as (V & F & TL). pose proof (below_24 x (conj V F) K) as B.
    destruct T' as (V' & F' & _). destruct (fadd_inv x f1 V eq_refl F') as (_ & _ & ->). rewrite f1_R, top_R.
    rewrite <- (rnd_exact (IZR (2 ^ 24))) by (apply int_format; lia). apply rnd_le. exact B.
  - assert (E : x = top).
    { destruct T as (V & F & _). apply f2R_inj; auto; [apply f_of_Z_valid|rewrite top_R; lra|].
      assert (0 < IZR (2 ^ 24))%R by (apply IZR_lt; lia). lra. }
    subst x. split; [|reflexivity]. replace (fadd top f1) with top by reflexivity. exact top_tame.
Qed.

Lemma tame_mono t q : tame_before top q -> fleb t top = true -> tame_before t q.
Proof.
  intros H L e He. destruct (H e He) as [G T]. split; [exact G|]. intros K. apply T.
  apply fltb_iff in K. apply fleb_iff in L. apply fltb_iff. destruct K as (K1 & K2 & K3), L as (L1 & L2 & L3).
  split; [exact K1|]. split; [exact L2|]. destruct L3 as [L3|L3]; [eapply klt_trans; eauto|rewrite <- L3; exact K3].
Qed.

Lemma fltb_top_or x : f32_is_nan x = false -> fltb x top = true \/ fleb top x = true.
Proof.
  intros N. destruct (klt_total (fkey x) (fkey top)) as [K|[K|K]].
  - left. apply fltb_iff. auto.
  - right. apply fleb_iff. auto.
  - right. apply fleb_iff. auto.
Qed.

Lemma back_tame x : good_time x -> (fltb x top = true -> tame x) ->
  good_time (fadd x f1) /\ (fltb (fadd x f1) top = true -> tame (fadd x f1)).
Proof.
  intros [V N] H. destruct (fadd_one_ge x V N) as [G N'].
  split; [split; [apply fadd_valid; [exact V|reflexivity]|exact N']|].
  intros L. destruct (fltb_top_or x N) as [K|K].
  - apply fadd_one_top; [apply H; exact K|]. apply fltb_iff in K. apply fleb_iff. tauto.
  - exfalso. pose proof (fleb_trans _ _ _ K G) as Z. apply fleb_iff in Z. apply fltb_iff in L.
    destruct Z as (_ & _ & [Z|Z]), L as (_ & _ & L); [exact (klt_asym _ _ Z L)|rewrite Z in L; exact (klt_irrefl _ L)].
Qed.

Lemma stopped_or_back es backs (tr : list (call A)) e : stopped_calls es backs tr -> In e es -> ai_rep (fst e) = true ->
  In (CAgentStopped (ev_id e) true) tr \/ exists b, In b backs /\ ev_id b = ev_id e.
Proof.
  induction 1 as [|x es backs tr Hr H IH|x es backs tr Hr H IH|x b es backs tr Hr Hb H IH]; intros He R; [destruct He|..].
  - destruct He as [->|He]; [congruence|]. destruct (IH He R) as [K|K]; [left; apply in_or_app; right; exact K|right; exact K].
  - destruct He as [->|He]; [left; apply in_or_app; right; left; reflexivity|].
    destruct (IH He R) as [K|K]; [left; apply in_or_app; right; right; exact K|right; exact K].
  - destruct He as [->|He]; [right; exists b; split; [left; reflexivity|exact Hb]|].
    destruct (IH He R) as [K|(y & K & Ky)]; [left; apply in_or_app; right; right; exact K|right; exists y; split; [right; exact K|exact Ky]].
Qed.

Lemma turns_rep es s backs s' : turns u es s backs s' -> forall b, In b backs -> ai_rep (fst b) = true.
Proof.
  induction 1 as [|e es s s' backs s'' Ht Hts IH|e es b s s' backs s'' Ht Hts IH]; intros x Hx; [destruct Hx|auto|].
  destruct Hx as [<-|Hx]; [inversion Ht; reflexivity|auto].
Qed.

(** [id] waits at a reachable time among tame events. *)
Definition waiting (sc : sched A) : Prop :=
  unique_ids (s_events sc) /\ tame_before top (s_events sc) /\
  exists e, In e (s_events sc) /\ ev_id e = id /\ ai_rep (fst e) = true /\ tame (ev_time e) /\ fleb (ev_time e) top = true.
Definition wtime (sc : sched A) (t : f32) : Prop :=
  exists e, In e (s_events sc) /\ ev_id e = id /\ ev_time e = t.

Lemma due_unique q a b : unique_ids q -> In a q -> In b q -> ev_id a = ev_id b -> a = b.
Proof.
  unfold unique_ids. induction q as [|x q IH]; cbn; intros U Ha Hb E; [destruct Ha|]. apply NoDup_cons_iff in U.
  destruct U as [N U]. destruct Ha as [->|Ha], Hb as [->|Hb]; auto.
  - exfalso. apply N. rewrite E. apply in_map. exact Hb.
  - exfalso. apply N. rewrite <- E. apply in_map. exact Ha.
Qed.

(** After a step [id] has been stopped, or still waits; and it ran or waits at the same time. *)
Lemma step_waiting ch sc (w : world A S) : waiting sc ->
  let c := step u ch sc w in
  exists new, w_trace (snd c) = w_trace w ++ new /\
  (In (CAgentStopped id true) new \/ waiting (fst c)).
Proof.
  intros (U & T & e & He & Ei & Rep & Te & Le) c. unfold c. destruct (step u ch sc w) as [sc' w'] eqn:E.
  pose proof (step_anatomy u ch sc w sc' w' U E) as
    (sc1 & s1 & log1 & due & rest & backs & s2 & tr & now & sc3 & s3 & log3 &
      Hb & Hu1 & Perm & Hnil & Hcons & Hts & Hu2 & Hsc & Ha & Hsc' & Hst & Htr).
  destruct (alone_keeps top id _ (proj1 (Hu (st0 u sc w))) _ _ _ _ U T Hb) as (T1 & _ & K1).
  specialize (K1 e He Ei). cbn [fst snd]. eexists. split; [exact Htr|].
  assert (Hin : forall x, In x (due ++ rest) -> In x (s_events sc1)).
  { intros x Hx. eapply Permutation_in; [symmetry; exact Perm|exact Hx]. }
  assert (T2 : tame_before top (rest ++ backs)).
  { intros x Hx. apply in_app_or in Hx. destruct Hx as [Hx|Hx]; [apply T1, Hin, in_or_app; auto|].
    destruct (turns_backs _ _ _ _ _ Hts x Hx) as (y & Hy & Ey & _). rewrite Ey.
    destruct (T1 y (Hin y ltac:(apply in_or_app; auto))) as [G H]. apply back_tame; auto. }
  destruct (alone_keeps top id _ (proj2 (Hu s2)) (Sched (s_step sc1) now (rest ++ backs) (s_ids sc1)) _ _ _ Hu2 T2 Ha) as (T3 & _ & K3).
  assert (W : forall x, In x (rest ++ backs) -> ev_id x = id -> ai_rep (fst x) = true -> tame (ev_time x) ->
    fleb (ev_time x) top = true -> waiting sc').
  { intros x Hx Ex Rx Tx Lx. subst sc'. split; [cbn [s_events]; eapply run_hprog_unique; [exact Ha|exact Hu2]|].
    split; [exact T3|]. exists x. split; [apply K3; [exact Hx|exact Ex]|auto]. }
  destruct (in_app_or _ _ _ (Permutation_in _ Perm K1)) as [Hd|Hr].
  - destruct (stopped_or_back _ _ _ e Hsc Hd Rep) as [K|(b & Hbk & Eb)].
    + left. rewrite Ei in K. apply in_or_app. right. right. apply in_or_app. right. apply in_or_app. left. exact K.
    + right. apply (W b); [apply in_or_app; auto|congruence|eapply turns_rep; eauto|..];
        destruct (turns_backs _ _ _ _ _ Hts b Hbk) as (y & Hy & Ey & _ & Iy);
        assert (y = e) by (apply (due_unique (s_events sc1)); auto; [apply Hin, in_or_app; auto|congruence]); subst y;
        rewrite Ey; apply fadd_one_top; auto.
  - right. apply (W e); auto. apply in_or_app. auto.
Qed.

Lemma after_steps_shift chs n : forall c,
  after_steps u chs (Datatypes.S n) c =
  after_steps u (fun i => chs (Datatypes.S i)) n (step u (chs 0) (fst c) (snd c)).
Proof. induction n as [|n IH]; intros c; [reflexivity|]. cbn [after_steps] in *. rewrite IH. reflexivity. Qed.
Lemma after_steps_add chs m : forall n c,
  after_steps u chs (n + m) c = after_steps u (fun i => chs (n + i)) m (after_steps u chs n c).
Proof.
  intros n c. induction m as [|m IH]; [rewrite Nat.add_0_r; reflexivity|].
  rewrite Nat.add_succ_r. cbn [after_steps]. rewrite IH. reflexivity.
Qed.

(** [id] runs once more, unless it is stopped. *)
Lemma runs_once_more : forall k chs c t, tame t -> fleb t top = true -> waiting (fst c) -> wtime (fst c) t ->
  work t (s_events (fst c)) <= k ->
  exists n new, w_trace (snd (after_steps u chs n c)) = w_trace (snd c) ++ new /\
  (In (CAgentStopped id true) new \/ In id (ran new) /\ waiting (fst (after_steps u chs n c))).
Proof.
  induction k as [|k IH]; intros chs c t Tt Lt W (e & He & Ei & Et) Wk;
  assert (Tm : (f2R t <= IZR (2 ^ 24))%R)
    by (rewrite <- top_R; apply fle_R; auto using tame_fok, top_tame);
  destruct c as [sc w]; cbn [fst snd] in *; pose proof W as (U & T & _);
  destruct (step_fair t Tt Tm u id Hu (chs 0) sc w e U (tame_mono t _ T Lt) He Ei Et) as (new & En & H);
  destruct (step_waiting (chs 0) sc w W) as (new' & En' & H'); cbv zeta in *;
  (assert (new' = new) by (eapply app_inv_head; rewrite <- En'; exact En)); subst new';
  (destruct H' as [H'|H']; [exists 1, new; cbn [after_steps fst snd]; auto|]);
  (destruct H as [H|(U' & T' & He' & W')]; [exists 1, new; cbn [after_steps fst snd]; auto|]); [lia|].
  assert (WT : wtime (fst (step u (chs 0) sc w)) t) by (exists e; auto).
  destruct (IH (fun i => chs (Datatypes.S i)) (step u (chs 0) sc w) t Tt Lt H' WT ltac:(lia)) as (n & more & Em & Hm).
  exists (Datatypes.S n), (new ++ more). rewrite (after_steps_shift chs n (sc, w)). cbn [fst snd].
  split; [rewrite Em, En, app_assoc; reflexivity|].
  destruct Hm as [Hm|[Hm Hw]]; [left; apply in_or_app; auto|right]. split; [|exact Hw]. rewrite ran_app. apply in_or_app. auto.
Qed.

Lemma runs_again : forall k chs c, waiting (fst c) ->
  exists n new, w_trace (snd (after_steps u chs n c)) = w_trace (snd c) ++ new /\
  (In (CAgentStopped id true) new \/
   k <= count_occ N.eq_dec (ran new) id /\ waiting (fst (after_steps u chs n c))).
Proof.
  induction k as [|k IH]; intros chs c W.
  - exists 0, []. cbn [after_steps]. rewrite app_nil_r. split; [reflexivity|]. right. split; [lia|exact W].
  - pose proof W as (_ & _ & e & He & Ei & _ & Te & Le).
    destruct (runs_once_more _ chs c (ev_time e) Te Le W ltac:(exists e; auto) (le_n _)) as (n & new & En & H).
    destruct H as [H|[H W']]; [exists n, new; auto|].
    destruct (IH (fun i => chs (n + i)) _ W') as (m & more & Em & Hm).
    exists (n + m), (new ++ more). rewrite after_steps_add. split; [rewrite Em, En, app_assoc; reflexivity|].
    destruct Hm as [Hm|[Hm Hw]]; [left; apply in_or_app; auto|right]. split; [|exact Hw].
    rewrite ran_app, count_occ_app. apply (count_occ_In N.eq_dec) in H. lia.
Qed.
End Again.
