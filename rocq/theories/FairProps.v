(** * C123: every scheduled agent gets its turn *)
From Coq Require Import Reals List Bool ZArith NArith Arith Lia Lra Permutation.
From Flocq Require Import Core.
From Verif Require Import F32 F32Real F32Ops SchedModel SchedSpec SchedProofs SchedStep SchedHist SchedTime SchedExamples FairSpec FairProofs FairBirth.
Import ListNotations.
Local Open Scope nat_scope.

(** An agent queued at a finite time of at most 2^24 runs after a bounded number of steps,
    whatever the other agents do and however ties are broken.  The hooks of the state must
    not schedule for ever before it; here they schedule nothing. *)
Theorem C123_gets_its_turn_partial :
  forall A S (u : user A S) (sc : sched A) (w : world A S) (e : event A),
  In e (s_events sc) -> unique_ids (s_events sc) ->
  tame (ev_time e) -> (f2R (ev_time e) <= IZR (2 ^ 24))%R ->
  tame_before (ev_time e) (s_events sc) ->
  user_leaves_alone (ev_id e) u ->
  exists n, forall chs, n <= length chs ->
    ran_since (ev_id e) (w_trace w) (w_trace (snd (acts u (map ActStep chs) (sc, w)))).
Proof.
  intros A S u sc w e He U T Tm Tb Hu. exists (work (ev_time e) (s_events sc) + 1). intros chs L.
  apply (steps_fair (ev_time e) T Tm u (ev_id e) Hu chs sc w e U Tb He eq_refl eq_refl). lia.
Qed.
Print Assumptions C123_gets_its_turn_partial.

(** A repeating agent queued at such a time runs as often as one likes, for every endless
    sequence of steps, unless it reports that it is stopped. *)
Theorem C123_again_and_again_partial :
  forall A S (u : user A S) (sc : sched A) (w : world A S) (e : event A),
  In e (s_events sc) -> unique_ids (s_events sc) -> ai_rep (fst e) = true ->
  tame (ev_time e) -> (f2R (ev_time e) <= IZR (2 ^ 24))%R ->
  tame_before (f_of_Z (2 ^ 24)) (s_events sc) ->
  user_leaves_alone (ev_id e) u ->
  forall (chs : nat -> nat -> nat) k, exists n new,
    w_trace (snd (after_steps u chs n (sc, w))) = w_trace w ++ new /\
    (In (CAgentStopped (ev_id e) true) new \/ k <= count_occ N.eq_dec (ran new) (ev_id e)).
Proof.
  intros A S u sc w e He U R T Tm Tb Hu chs k.
  destruct (runs_again u (ev_id e) Hu k chs (sc, w)) as (n & new & E & H).
  - split; [exact U|]. split; [exact Tb|]. exists e. split; [exact He|]. split; [reflexivity|]. split; [exact R|].
    split; [exact T|]. apply fle_R; [apply tame_fok; auto using top_tame..|]. rewrite top_R. exact Tm.
  - exists n, new. split; [exact E|]. tauto.
Qed.
Print Assumptions C123_again_and_again_partial.

Lemma tame_int z : (Z.abs z <= 2 ^ 24)%Z -> tame (f_of_Z z).
Proof.
  intros H. destruct (f_of_Z_exact z H) as [E F]. split; [apply f_of_Z_valid|]. split; [exact F|].
  rewrite E, <- opp_IZR. apply IZR_le. lia.
Qed.

(** With births: the hooks may schedule any number of agents as long as each is later than
    the current time (such as [schedule.time + 1.0]), and may dequeue others.  The agent runs
    after a number of steps that depends only on its time, unless the 2^32 ids run out first
    (then its own id is given to another agent). *)
Theorem C123_births_partial :
  forall A S (u : user A S) (sc : sched A) (e : event A),
  In e (s_events sc) -> unique_ids (s_events sc) -> (ev_id e < s_ids sc)%N ->
  tame (ev_time e) -> (f2R (ev_time e) <= IZR (2 ^ 24))%R ->
  tame_before (f_of_Z (2 ^ 24)) (s_events sc) ->
  tame (s_time sc) -> (f2R (s_time sc) < IZR (2 ^ 24))%R ->
  user_later (ev_id e) u ->
  exists n, forall (w : world A S) chs, n <= length chs ->
  exists new, w_trace (snd (acts u (map ActStep chs) (sc, w))) = w_trace w ++ new /\
    (In (ev_id e) (ran new) \/ (2 ^ 32 <= s_ids sc + births new)%N).
Proof.
  intros A S u sc e He U Hid T Tm Tb Tc Lc Hu.
  exists (Z.to_nat (tick (ev_time e) - tick (f_of_Z (- 2 ^ 24))) + 2). intros w chs L.
  apply (steps_birth u (ev_id e) Hu e eq_refl T Tm chs sc w); [|exact He|lia].
  split; [exact U|]. split; [exact Tb|]. auto.
Qed.
Print Assumptions C123_births_partial.

(** A repeating agent queued at an integral time [z] runs [k] times whenever [z + k] is at
    most 2^24, in every endless run, unless it is stopped or the ids run out. *)
Theorem C123_births_again_partial :
  forall A S (u : user A S) (sc : sched A) (w : world A S) (e : event A) z k,
  In e (s_events sc) -> unique_ids (s_events sc) -> (ev_id e < s_ids sc)%N -> ai_rep (fst e) = true ->
  ev_time e = f_of_Z z -> (- 2 ^ 24 <= z)%Z -> (z + Z.of_nat k <= 2 ^ 24)%Z ->
  tame_before (f_of_Z (2 ^ 24)) (s_events sc) ->
  tame (s_time sc) -> (f2R (s_time sc) < IZR (2 ^ 24))%R ->
  user_later (ev_id e) u ->
  forall chs : nat -> nat -> nat, exists n new,
    w_trace (snd (after_steps u chs n (sc, w))) = w_trace w ++ new /\
    (k <= count_occ N.eq_dec (ran new) (ev_id e) \/ In (CAgentStopped (ev_id e) true) new \/
     (2 ^ 32 <= s_ids sc + births new)%N).
Proof.
  intros A S u sc w e z k He U Hid R Et Lz Lk Tb Tc Lc Hu chs.
  destruct k as [|k]; [exists 0, []; cbn; rewrite app_nil_r; split; [reflexivity|left; lia]|].
  destruct (again_birth u (ev_id e) Hu (Datatypes.S k) chs (sc, w) (f_of_Z z)) as (n & new & En & H).
  - split; [split; [exact U|]; split; [exact Tb|]; auto|]. exists e. auto.
  - apply tame_int. lia.
  - intros i Hi. rewrite plus_ones_Z by lia. rewrite (proj1 (f_of_Z_exact (z + Z.of_nat i) ltac:(lia))). apply IZR_lt. lia.
  - exists n, new. split; [exact En|]. change (2 ^ 32)%N with u32_mod. cbn [fst] in H. tauto.
Qed.
Print Assumptions C123_births_again_partial.

(** The two ways to starve an agent: see also [C06_saturation_refuted] for the first, time
    standing still at 2^24.  The second: an [after_step] that schedules a one-shot agent at
    the current time in every step.  The agent waiting at time 1 never runs. *)
Definition pusher : user unit nat :=
  User (fun s => HRet s) (fun _ s => s) (fun s => HRet s)
    (fun s => HCall OpReadTime (fun r =>
       match r with
       | RTime t => HCall (OpOnce (AI 7%N tt false) t 0%Z) (fun _ => HRet s)
       | _ => HRet s
       end))
    (fun s => HRet (false, s))
    (fun a s => (a, s)) (fun a s => (a, s)) (fun a s => (a, s)) (fun a s => (false, (a, s))).
Definition shot : event unit := (AI 7%N tt false, Prio f0 0%Z).
Definition late : event unit := (AI 1%N tt true, Prio f1 0%Z).
Definition pushed_out : sched unit := Sched 0 f0 [shot; late] 2.

Lemma pushed_step ch sc (w : world unit nat) :
  Permutation (s_events sc) [shot; late] -> 
  let c := step pusher ch sc w in
  Permutation (s_events (fst c)) [shot; late] /\
  exists new, w_trace (snd c) = w_trace w ++ new /\ ~ In 1%N (ran new).
Proof.
  intros P c. unfold c. destruct (step pusher ch sc w) as [sc' w'] eqn:E.
  assert (U : unique_ids (s_events sc)).
  { unfold unique_ids. eapply Permutation_NoDup; [apply Permutation_map; symmetry; exact P|].
    cbn. repeat constructor; cbn; intuition discriminate. }
  destruct (step_anatomy pusher ch sc w sc' w' U E) as
    (sc1 & s1 & log1 & due & rest & backs & s2 & tr & now & sc3 & s3 & log3 &
      Hb & Hu1 & Perm & Hnil & Hcons & Hts & Hu2 & Hsc & Ha & Hsc' & Hst & Htr).
  cbn in Hb. injection Hb as <- <- <-.
  assert (I1 : In shot (s_events sc)) by (eapply Permutation_in; [symmetry; exact P|left; reflexivity]).
  assert (I2 : In late (s_events sc)) by (eapply Permutation_in; [symmetry; exact P|right; left; reflexivity]).
  assert (All : forall x, In x (s_events sc) -> x = shot \/ x = late).
  { intros x Hx. apply (Permutation_in _ P) in Hx. destruct Hx as [<-|[<-|[]]]; auto. }
  assert (Nn : no_nan (s_events sc)) by (intros x Hx; destruct (All x Hx) as [-> | ->]; reflexivity).
  destruct Hcons as (e0 & Pk & Hnow & Pd); [intros Z; rewrite Z in I1; destruct I1|].
  destruct (due_minimal _ _ _ _ _ _ _ U Nn Pk Hnow Pd) as (Dd & Dr & _).
  assert (D1 : In shot due).
  { apply Dd. split; [exact I1|]. intros x Hx. destruct (All x Hx) as [-> | ->]; reflexivity. }
  assert (D2 : In late rest).
  { apply Dr. split; [exact I2|]. intros [_ M]. specialize (M shot I1). discriminate. }
  assert (Len : length due + length rest = 2).
  { rewrite <- app_length, <- (Permutation_length Perm), (Permutation_length P). reflexivity. }
  destruct due as [|d [|d' due]]; [destruct D1| |destruct rest; [destruct D2|cbn in Len; lia]].
  destruct rest as [|r [|r' rest]]; [destruct D2| |cbn in Len; lia].
  destruct D1 as [->|[]]. destruct D2 as [->|[]].
  assert (backs = []) by (inversion Hts as [|? ? ? ? ? ? T1 T2|? ? ? ? ? ? ? T1 T2]; subst;
    [inversion T2; reflexivity|inversion T1]). subst backs.
  assert (Now : now = f0).
  { rewrite Hnow. destruct (SchedProofs.pq_peek_max _ _ _ Nn Pk) as [Hin Hm].
    destruct (All e0 Hin) as [-> | ->]; [reflexivity|]. exfalso. apply (Hm shot I1). reflexivity. }
  subst now. rewrite Now in Ha. cbn in Ha. injection Ha as <- <- <-. subst sc'. cbn [fst snd s_events]. split.
  - apply perm_swap.
  - eexists. split; [exact Htr|]. rewrite ran_app. intros K. apply in_app_or in K.
    destruct K as [K|K]; [destruct (s_step sc =? 0)%N; destruct K|].
    inversion Hsc; subst; try discriminate. match goal with H : stopped_calls [] _ _ |- _ => inversion H; subst end.
    cbn in K. intuition discriminate.
Qed.

Theorem C123_starved_by_hooks_refuted :
  forall chs (w : world unit nat),
  let c := acts pusher (map ActStep chs) (pushed_out, w) in
  exists new, w_trace (snd c) = w_trace w ++ new /\ ~ In 1%N (ran new) /\
  exists e, In e (s_events (fst c)) /\ ev_id e = 1%N /\ ev_time e = f1.
Proof.
  intros chs w. cbv zeta.
  assert (G : forall sc (w : world unit nat), Permutation (s_events sc) [shot; late] ->
    let c := acts pusher (map ActStep chs) (sc, w) in
    Permutation (s_events (fst c)) [shot; late] /\ exists new, w_trace (snd c) = w_trace w ++ new /\ ~ In 1%N (ran new)).
  { clear. induction chs as [|ch chs IH]; intros sc w P; cbv zeta.
    - split; [exact P|]. exists []. cbn. rewrite app_nil_r. auto.
    - cbn [map acts fold_left act fst snd]. fold (acts pusher (map ActStep chs) (step pusher ch sc w)).
      destruct (pushed_step ch sc w P) as (P1 & n1 & E1 & N1). destruct (step pusher ch sc w) as [sc1 w1].
      cbn [fst snd] in *. destruct (IH sc1 w1 P1) as (P2 & n2 & E2 & N2). split; [exact P2|].
      exists (n1 ++ n2). rewrite E2, E1, app_assoc. split; [reflexivity|]. rewrite ran_app. intros K.
      apply in_app_or in K. tauto. }
  destruct (G pushed_out w (Permutation_refl _)) as (P & new & E & N). exists new. split; [exact E|]. split; [exact N|].
  exists late. split; [eapply Permutation_in; [symmetry; exact P|right; left; reflexivity]|auto].
Qed.
Print Assumptions C123_starved_by_hooks_refuted.

(** An agent at time 3 behind two repeating agents at time 1: the hypotheses hold, and three
    steps are needed. *)
Definition waits : user N nat :=
  User (fun s => HRet s) (fun _ s => s) (fun s => HCall OpAllEvents (fun _ => HCall (OpDequeue 9%N) (fun _ => HRet s)))
    (fun s => HCall OpReadTime (fun _ => HRet s)) (fun s => HRet (false, s))
    (fun a s => (a, s)) (fun a s => ((a + 1)%N, Datatypes.S s)) (fun a s => (a, s)) (fun a s => (false, (a, s))).
Example C123_concrete :
  let e := nth 2 demo_q (AI 0%N 0%N true, Prio f0 0%Z) in
  In e (s_events demo_sc) /\ unique_ids (s_events demo_sc) /\ ai_rep (fst e) = true /\
  tame (ev_time e) /\ (f2R (ev_time e) <= IZR (2 ^ 24))%R /\
  tame_before (ev_time e) (s_events demo_sc) /\ tame_before (f_of_Z (2 ^ 24)) (s_events demo_sc) /\
  user_leaves_alone (ev_id e) waits /\
  existsb (N.eqb 2) (ran (w_trace (snd (acts waits (map ActStep [ch0; ch0]) (demo_sc, World 0 []))))) = false /\
  existsb (N.eqb 2) (ran (w_trace (snd (acts waits (map ActStep [ch0; ch0; ch0]) (demo_sc, World 0 []))))) = true.
Proof.
  assert (T : forall t e, In e (s_events demo_sc) -> good_time (ev_time e) /\ (fltb (ev_time e) t = true -> tame (ev_time e))).
  { intros t e [<-|[<-|[<-|[]]]]; (split; [split; reflexivity|intros _]);
      [apply (tame_int 1)|apply (tame_int 1)|apply (tame_int 3)]; lia. }
  split; [right; right; left; reflexivity|].
  split; [repeat constructor; cbn; intuition discriminate|]. split; [reflexivity|].
  split; [apply (tame_int 3); lia|].
  split. { change (f2R (f_of_Z 3) <= IZR (2 ^ 24))%R. rewrite (proj1 (f_of_Z_exact 3 ltac:(lia))). apply IZR_le. lia. }
  split; [intros e He; apply T; exact He|]. split; [intros e He; apply T; exact He|].
  split. { intros s. split; repeat constructor. discriminate. }
  split; vm_compute; reflexivity.
Qed.

(** Births in every step: the hook after a step schedules one agent a time unit ahead.  The
    hypotheses hold, and the agent at time 3 runs in the third step. *)
Definition breeds : user N nat :=
  User (fun s => HRet s) (fun _ s => s) (fun s => HRet s)
    (fun s => HCall OpReadTime (fun r =>
       match r with RTime t => HCall (OpRepeating 5%N (fadd t f1) 0%Z) (fun _ => HRet s) | _ => HRet s end))
    (fun s => HRet (false, s))
    (fun a s => (a, s)) (fun a s => ((a + 1)%N, Datatypes.S s)) (fun a s => (a, s)) (fun a s => (false, (a, s))).
Example C123_births_concrete :
  let e := nth 2 demo_q (AI 0%N 0%N true, Prio f0 0%Z) in
  (ev_id e < s_ids demo_sc)%N /\ ev_time e = f_of_Z 3 /\
  tame (s_time demo_sc) /\ (f2R (s_time demo_sc) < IZR (2 ^ 24))%R /\ user_later (ev_id e) breeds /\
  map (fun k => count_occ N.eq_dec (ran (w_trace (snd (acts breeds (map ActStep (repeat ch0 k)) (demo_sc, World 0 []))))) 2%N)
    [2; 3; 4; 5] = [0; 1; 2; 3] /\
  births (w_trace (snd (acts breeds (map ActStep (repeat ch0 5)) (demo_sc, World 0 [])))) = 5%N.
Proof.
  split; [reflexivity|]. split; [reflexivity|].
  split; [apply (tame_int 0); lia|].
  split. { change (s_time demo_sc) with (f_of_Z 0). rewrite (proj1 (f_of_Z_exact 0 ltac:(lia))). apply IZR_lt. lia. }
  split.
  { intros sc s T L. split; [exact I|]. cbn [prog_later breeds u_after op_later do_op snd fst].
    destruct (fadd_one_half (s_time sc) T L) as [T' H]. split; [exact I|]. split; [|exact I]. split; [apply tame_nan; exact T'|].
    apply flt_R; [apply tame_fok; assumption..|lra]. }
  split; vm_compute; reflexivity.
Qed.
