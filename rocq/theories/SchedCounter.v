(** * Witnesses: where the scheduler breaks its contract *)
From Coq Require Import List Bool ZArith NArith Arith Lia Permutation.
From Coq Require Import ZifyBool ZifyNat ZifyN.
From Verif Require Import F32 F32Facts SchedModel SchedSpec SchedProofs SchedStep SchedHist SchedTime.
Import ListNotations.
Local Open Scope N_scope.

(** A user whose agents and state do nothing. *)
Definition idle {A} : user A unit :=
  User (fun s => HRet s) (fun _ s => s) (fun s => HRet s) (fun s => HRet s)
    (fun s => HRet (false, s))
    (fun a s => (a, s)) (fun a s => (a, s)) (fun a s => (a, s)) (fun a s => (false, (a, s))).

Definition w0 {A} : world A unit := World tt [].

(** ** Id wrap-around *)
Definition many (n : nat) : list (action bool) :=
  repeat (ActApi (OpRepeating true f0 0)) n.

Lemma acts_snoc {A S} (u : user A S) xs x c : acts u (xs ++ [x]) c = act u x (acts u xs c).
Proof. unfold acts. rewrite fold_left_app. reflexivity. Qed.

Lemma repeat_snoc {X} (x : X) n : repeat x (Datatypes.S n) = repeat x n ++ [x].
Proof. induction n as [|n IH]; cbn in *; [reflexivity|]. f_equal. exact IH. Qed.

Lemma many_trace n :
  let c := acts idle (many n) (sched_new, w0) in
  existsb is_once (w_trace (snd c)) = false /\
  length (filter is_scheduling (w_trace (snd c))) = n /\
  (forall e, In e (s_events (fst c)) -> ai_agent (fst e) = true) /\
  l_live (live_after (w_trace (snd c))) = rev (map N.of_nat (seq 0 n)) /\
  l_next (live_after (w_trace (snd c))) = N.of_nat n.
Proof.
  induction n as [|n IH]; cbv zeta.
  - cbn. tauto.
  - unfold many. rewrite repeat_snoc, acts_snoc. fold (many n). cbv zeta in IH.
    destruct (acts idle (many n) (sched_new, w0)) as [sc w]. cbn [fst snd] in IH.
    destruct IH as (H1 & H2 & H3 & H4 & H5).
    cbn [act fst snd do_op]. unfold schedule_repeating.
    pose proof (pq_push_In (AI (s_ids sc) true true) (Prio f0 0) (s_events sc)) as Hin.
    assert (Hag : forall e, In e (fst (pq_push (AI (s_ids sc) true true) (Prio f0 0) (s_events sc))) ->
              ai_agent (fst e) = true).
    { clear - H3. induction (s_events sc) as [|[b pb] q IH]; cbn.
      - intros e [<-|[]]. reflexivity.
      - destruct (ai_id b =? s_ids sc).
        + intros e [<-|He]; [|apply H3; right; exact He].
          cbn. apply (H3 (b, pb)). left. reflexivity.
        + destruct (pq_push _ _ q) as [q' r]. cbn in *. intros e [<-|He].
          * apply H3. left. reflexivity.
          * apply IH; [|exact He]. intros x Hx. apply H3. right. exact Hx. }
    destruct (pq_push (AI (s_ids sc) true true) (Prio f0 0) (s_events sc)) as [q r].
    cbn [fst snd w_trace s_events] in *.
    rewrite existsb_app, filter_app, app_length, live_after_snoc.
    cbn [existsb is_once orb filter is_scheduling length live_call l_live l_next]. rewrite H1, H2, H4, H5.
    split; [reflexivity|]. split; [lia|]. split; [exact Hag|].
    split; [|lia].
    rewrite seq_S, map_app, rev_app_distr. reflexivity.
Qed.

(** After 2^32 agents the next one is dropped: the call answers false and the agent is
    nowhere in the queue. *)
Lemma id_wrap_drops :
  exists (xs : list (action bool)) sc w sc' ,
    acts idle xs (sched_new, w0) = (sc, w) /\
    N.of_nat (length xs) = 4294967296 /\
    schedule_repeating sc false f0 0 = (sc', false) /\
    ~ (exists e, In e (s_events sc') /\ ai_agent (fst e) = false).
Proof.
  assert (Hnn : exists n, N.of_nat n = 4294967296).
  { exists (N.to_nat 4294967296). apply N2Nat.id. }
  destruct Hnn as [n Hnn].
  exists (many n).
  destruct (acts idle (many n) (sched_new, w0)) as [sc w] eqn:E.
  exists sc, w.
  pose proof (many_trace n) as M. cbv zeta in M. rewrite E in M.
  cbn [fst snd] in M. destruct M as (M1 & M2 & M3 & M4 & M5).
  assert (I : inv (w_trace w) sc).
  { pose proof (inv_acts idle (many n) sched_new w0 (inv_fresh (A:=bool) tt)) as I.
    rewrite E in I. cbn [fst snd] in I. apply I; [exact M1|].
    unfold n_sched. rewrite M2, Hnn. unfold u32_mod. lia. }
  assert (Hid : s_ids sc = 0).
  { rewrite (inv_ids _ _ I). unfold n_sched. rewrite M2, Hnn. reflexivity. }
  assert (H0 : In 0 (map ev_id (s_events sc))).
  { apply (inv_live _ _ I). rewrite M4. apply -> in_rev.
    apply in_map_iff. exists O. split; [reflexivity|]. apply in_seq. lia. }
  destruct (pq_push_present (AI 0 false true) (Prio f0 0) (s_events sc) H0)
    as (l & b & pb & r & Hq & Hb & Hn & Hp).
  exists (Sched (s_step sc) (s_time sc) (l ++ (b, Prio f0 0) :: r) (u32_succ 0)).
  split; [reflexivity|].
  split. { unfold many. rewrite repeat_length. exact Hnn. }
  split. { unfold schedule_repeating. rewrite Hid, Hp. reflexivity. }
  cbn. intros (e & He & Hf).
  apply in_app_or in He. destruct He as [He|[<-|He]].
  - rewrite (M3 e) in Hf; [discriminate|]. rewrite Hq. apply in_or_app. auto.
  - cbn in Hf. specialize (M3 (b, pb)). rewrite Hq in M3.
    cbn in M3. rewrite M3 in Hf; [discriminate|]. apply in_or_app. right. left. auto.
  - rewrite (M3 e) in Hf; [discriminate|]. rewrite Hq. apply in_or_app. right. right. auto.
Qed.

(** ** Time saturates at 2^24 *)

Definition T24 : f32 := f_of_Z 16777216.
Definition T24_2 : f32 := f_of_Z 16777218.

(** Two agents, at 2^24 and 2^24 + 2. *)
Definition stuck_setup : list (action unit) :=
  [ActApi (OpRepeating tt T24 0); ActApi (OpRepeating tt T24_2 0)].

Definition stuck_q (q : list (event unit)) : Prop :=
  unique_ids q /\
  (exists e, In e q /\ ev_id e = 0) /\
  forall e, In e q ->
    (ev_id e = 0 /\ ev_time e = T24 /\ ai_rep (fst e) = true) \/
    (ev_id e = 1 /\ ev_time e = T24_2).

Lemma stuck_step ch sc (w : world unit unit) :
  stuck_q (s_events sc) ->
  stuck_q (s_events (fst (step idle ch sc w))) /\
  s_time (fst (step idle ch sc w)) = T24 /\
  exists l, ran (w_trace (snd (step idle ch sc w))) = ran (w_trace w) ++ l /\ ~ In 1 l.
Proof.
  intros (Hu & (z & Hz & Hz0) & Hq).
  destruct (step idle ch sc w) as [sc' w'] eqn:E.
  apply step_anatomy in E; [|exact Hu].
  destruct E as (sc1 & s1 & log1 & due & rest & backs & s2 & tr & now & sc3 & s3 & log3 &
      Hb & Hu1 & Perm & Hnil & Hcons & Hts & Hu2 & Hsc & Ha & Hsc' & Hst & Htr).
  cbn in Hb, Ha. inversion Hb; subst; clear Hb. inversion Ha; subst; clear Ha.
  assert (Hnn : no_nan (s_events sc1)).
  { intros e He. destruct (Hq e He) as [(_ & -> & _)|(_ & ->)]; reflexivity. }
  destruct Hcons as (e0 & P & Hnow & Pd).
  { intros K. rewrite K in Hz. destruct Hz. }
  assert (Hzt : ev_time z = T24).
  { destruct (Hq z Hz) as [(_ & ? & _)|(K & _)]; [assumption|lia]. }
  destruct (due_minimal _ _ _ _ _ _ _ Hu Hnn P Hnow Pd) as (D1 & D2 & _).
  assert (Hd : forall e, In e due -> ev_id e = 0 /\ ev_time e = T24 /\ ai_rep (fst e) = true).
  { intros e He. apply D1 in He. destruct He as [Hin Hmin].
    destruct (Hq e Hin) as [K|(_ & K)]; [exact K|]. exfalso.
    specialize (Hmin z Hz). rewrite K, Hzt in Hmin. vm_compute in Hmin. discriminate. }
  assert (Hzd : In z due).
  { apply D1. split; [exact Hz|]. intros e He. rewrite Hzt.
    destruct (Hq e He) as [(_ & -> & _)|(_ & ->)]; vm_compute; reflexivity. }
  destruct (turns_all_back idle (fun _ _ => eq_refl) _ _ _ _ Hts) as (B1 & B2 & B3).
  { intros e He. apply Hd in He. tauto. }
  cbn [fst snd s_events s_time].
  split; [split; [exact Hu2|split]|split].
  - assert (In 0 (map ev_id backs)) as K.
    { rewrite B1. rewrite <- Hz0. apply in_map. exact Hzd. }
    apply in_map_iff in K. destruct K as (b & Eb & Hbk). exists b.
    split; [apply in_or_app; auto|exact Eb].
  - intros e He. apply in_app_or in He. destruct He as [He|He].
    + apply Hq. apply D2 in He. tauto.
    + left. destruct (turns_backs _ _ _ _ _ Hts e He) as (x & Hx & Et & _ & Ei).
      apply Hd in Hx. destruct Hx as (X1 & X2 & X3). rewrite Et, Ei, X1, X2.
      repeat split. apply B2. exact He.
  - destruct (pq_peek_max _ _ _ Hnn P) as [Hin Hmax].
    destruct (Hq e0 Hin) as [(_ & K & _)|(_ & K)]; [congruence|]. exfalso.
    apply (Hmax z Hz). unfold prio_cmp. change (p_time (snd z)) with (ev_time z).
    change (p_time (snd e0)) with (ev_time e0). rewrite Hzt, K. vm_compute. reflexivity.
  - exists (map ev_id due). split.
    + rewrite Htr. cbn [api map]. rewrite ran_app. f_equal.
      pose proof (stopped_ran _ _ _ Hsc) as Hr'. unfold ran in *.
      destruct (s_step sc1 =? 0); cbn; rewrite flat_map_app, Hr'; cbn;
        rewrite app_nil_r; reflexivity.
    + intros K. apply in_map_iff in K. destruct K as (e & Ee & He). apply Hd in He. lia.
Qed.

Lemma stuck_forever chs :
  let c := acts idle (stuck_setup ++ map ActStep chs) (sched_new, w0) in
  (chs <> [] -> s_time (fst c) = T24) /\ ~ In 1 (ran (w_trace (snd c))) /\
  (exists e, In e (s_events (fst c)) /\ ev_id e = 1) .
Proof.
  cbv zeta. rewrite acts_app.
  set (c0 := acts idle stuck_setup (sched_new, w0)).
  assert (Q0 : stuck_q (s_events (fst c0))).
  { split; [|split].
    - repeat constructor; cbn; lia.
    - eexists. split; [left; reflexivity|reflexivity].
    - intros e [<-|[<-|[]]]; [left|right]; repeat split. }
  assert (R0 : ~ In 1 (ran (w_trace (snd c0)))) by (cbn; tauto).
  assert (P0 : exists e, In e (s_events (fst c0)) /\ ev_id e = 1).
  { eexists. split; [right; left; reflexivity|reflexivity]. }
  assert (L : forall chs c, stuck_q (s_events (fst c)) -> ~ In 1 (ran (w_trace (snd c))) ->
    (exists e, In e (s_events (fst c)) /\ ev_id e = 1) ->
    (chs <> [] -> s_time (fst (acts idle (map ActStep chs) c)) = T24) /\
    ~ In 1 (ran (w_trace (snd (acts idle (map ActStep chs) c)))) /\
    (exists e, In e (s_events (fst (acts idle (map ActStep chs) c))) /\ ev_id e = 1)).
  { clear. induction chs as [|ch chs IH]; intros [sc w] Hq Hr Hp.
    - cbn in *. split; [congruence|]. auto.
    - cbn [map acts fold_left act fst snd] in *.
      fold (acts idle (map ActStep chs) (step idle ch sc w)).
      destruct (stuck_step ch sc w Hq) as (Q & T & l & Rl & Nl).
      assert (Hp' : exists e, In e (s_events (fst (step idle ch sc w))) /\ ev_id e = 1).
      { destruct Hq as (Hu & (z & Hz & Hz0) & Hq).
        destruct (step idle ch sc w) as [sc' w'] eqn:E.
        apply step_anatomy in E; [|exact Hu].
        destruct E as (sc1 & s1 & log1 & due & rest & backs & s2 & tr & now & sc3 & s3 & log3 &
          Hb & Hu1 & Perm & Hnil & Hcons & Hts & Hu2 & Hsc & Ha & Hsc' & Hst & Htr).
        cbn in Hb, Ha. inversion Hb; subst; clear Hb. inversion Ha; subst; clear Ha.
        destruct Hp as (y & Hy & Hy1). exists y. split; [|exact Hy1]. cbn.
        apply in_or_app. left.
        eapply Permutation_in in Hy; [|exact Perm]. apply in_app_or in Hy.
        destruct Hy as [Hy|Hy]; [|exact Hy]. exfalso.
        cbn [snd] in Rl. rewrite Htr in Rl. cbn [api map] in Rl. rewrite ran_app in Rl.
        apply app_inv_head in Rl. apply Nl. rewrite <- Rl.
        pose proof (stopped_ran _ _ _ Hsc) as Hr'.
        assert (In 1 (ran tr)). { rewrite Hr', <- Hy1. apply in_map. exact Hy. }
        unfold ran in *. destruct (s_step sc1 =? 0); cbn; rewrite flat_map_app;
          apply in_or_app; auto. }
      destruct (step idle ch sc w) as [sc1 w1]. cbn [fst snd] in *.
      destruct (IH (sc1, w1)) as (I1 & I2 & I3); auto.
      { cbn. rewrite Rl. intros K. apply in_app_or in K. tauto. }
      split; [|split; [exact I2|exact I3]].
      intros _. destruct chs as [|c chs]; [exact T|]. apply I1. discriminate. }
  apply L; assumption.
Qed.
