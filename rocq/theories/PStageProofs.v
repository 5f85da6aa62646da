(** * Proofs about agents of the parallel build in a double-buffered space *)
From Coq Require Import List Bool ZArith NArith Arith Lia Permutation.
From Verif Require Import F32 F32Facts SchedModel SchedSpec SchedProofs SchedStep SchedTime
  ParModel ParSpec ParProofs Grid ObjModel OrderSpec OrderProofs OrderInst FlockSpec FlockProofs StageModel StageSpec PStageModel PStageSpec.
Import ListNotations.
Local Open Scope nat_scope.

Section Stage.
Context {O G V K : Type}.
Variable place : G -> O -> option G.
Variable publish : G -> option G.
Variable see : G -> O -> option V.
Variable rule : O -> V -> O.
Variable stops : O -> bool.
Variable ends : G -> bool.
Variable agents : list O.
Variable key : O -> K.
(** What is needed of a space: [writes g p]: [p] has been placed since the last
    publication; [reads g p]: [p] is published; [same g g']: the same is published. *)
Variable good : O -> Prop.
Variable wf : G -> Prop.
Variables reads writes : G -> list O -> Prop.
Variable same : G -> G -> Prop.
Variable shows : G -> list O -> Prop.
Hypothesis Home : Forall good agents.
Hypothesis Stays : forall o v, good o -> good (rule o v).
Hypothesis Same_refl : forall g, same g g.
Hypothesis Same_trans : forall g1 g2 g3, same g1 g2 -> same g2 g3 -> same g1 g3.
Hypothesis Place : forall g p o, wf g -> writes g p -> good o ->
  exists g', place g o = Some g' /\ wf g' /\ writes g' (p ++ [o]) /\ same g' g.
Hypothesis Publish : forall g p, wf g -> writes g p ->
  exists g', publish g = Some g' /\ wf g' /\ reads g' p /\ writes g' [].
Hypothesis See : forall g p o, wf g -> reads g p -> p <> [] -> length p <= length agents -> good o ->
  exists v, see g o = Some v.
Hypothesis See_same : forall g g' o, wf g -> wf g' -> same g' g -> see g' o = see g o.
Hypothesis Few : (N.of_nat (length agents) < 4294967296)%N.
Hypothesis Same_key : forall o v, key (rule o v) = key o.
Hypothesis Unique : NoDup (map key agents).
Hypothesis Shows : forall g p, wf g -> reads g p -> Forall good p -> NoDup (map key p) -> shows g p.
Notation u := (pstage_user place publish see rule stops ends agents).
Notation alive := (filter (fun o => negb (stops o))).

Definition pnext (g : G) (o : O) : O := match see g o with Some v => rule o v | None => o end.
Definition sights (g : G) : Prop := forall o, good o -> exists v, see g o = Some v.

Lemma pstep_moves g g0 p o : sights g0 -> wf g0 -> wf g -> same g g0 -> writes g p -> good o ->
  exists g', stage_step place see rule o (g, false) = (pnext g0 o, (g', false)) /\
    wf g' /\ writes g' (p ++ [pnext g0 o]) /\ same g' g0 /\ good (pnext g0 o).
Proof.
  intros Si W0 W R H Hi. unfold stage_step, pnext, stage_place. cbn [fst snd]. rewrite (See_same g0 g o W0 W R).
  destruct (Si o Hi) as [v Ev]. rewrite Ev. cbv zeta.
  destruct (Place g p (rule o v) W H (Stays o v Hi)) as (g' & E & W' & H' & R'). rewrite E. eauto 10.
Qed.

Definition plively (l : list (event O)) : Prop := forall e, In e l -> ai_rep (fst e) = true /\ good (ai_agent (fst e)).

Lemma pturns_move g : wf g -> sights g -> forall l gk p backs s, wf gk -> same gk g -> writes gk p -> plively l ->
  turns u l (gk, false) backs s ->
  exists g', s = (g', false) /\ wf g' /\ same g' g /\ writes g' (p ++ map (pnext g) (ags l)) /\
    ags backs = alive (map (pnext g) (ags l)) /\ plively backs.
Proof.
  intros W Si. induction l as [|e l IH]; intros gk p backs s Wk R H L T.
  - inversion T; subst. exists gk. cbn. rewrite app_nil_r. split; [reflexivity|]. split; [exact Wk|].
    split; [exact R|]. split; [exact H|]. split; [reflexivity|intros ? []].
  - destruct (L e (or_introl eq_refl)) as [Lr Li].
    destruct (pstep_moves gk g p (ai_agent (fst e)) Si W Wk R H Li) as (g1 & E1 & W1 & H1 & R1' & I1).
    assert (LF : life u (ai_rep (fst e)) (ai_agent (fst e)) (gk, false) =
       (if stops (pnext g (ai_agent (fst e))) then None else Some (pnext g (ai_agent (fst e))), (g1, false))).
    { unfold life. cbn [pstage_user a_before a_step a_after a_stopped]. rewrite E1, Lr. reflexivity. }
    assert (L' : plively l) by (intros x Hx; apply L; right; exact Hx).
    inversion T as [|? ? ? ? ? ? T1 T2|? ? ? ? ? ? ? T1 T2]; subst; apply turn_life in T1; destruct T1 as [Tb Ts];
      rewrite LF in Tb, Ts; cbn [fst snd] in Tb, Ts; subst s'; destruct (IH g1 _ _ _ W1 R1' H1 L' T2) as (g' & -> & W' & R' & H' & B' & Lb).
    + exists g'. split; [reflexivity|]. split; [exact W'|]. split; [exact R'|].
      rewrite <- app_assoc in H'. split; [exact H'|]. split; [|exact Lb].
      cbn [ags map filter]. fold (ags l). destruct (stops (pnext g (ai_agent (fst e)))); [exact B'|discriminate].
    + exists g'. split; [reflexivity|]. split; [exact W'|]. split; [exact R'|].
      rewrite <- app_assoc in H'. split; [exact H'|].
      destruct (stops (pnext g (ai_agent (fst e)))) eqn:St; [discriminate|]. injection Tb as ->. split.
      * unfold ags in *. cbn [map filter fst ai_agent]. rewrite St. cbn [negb]. rewrite B'. reflexivity.
      * intros x [<-|Hx]; [cbn; auto|apply Lb; exact Hx].
Qed.

(** ** The state between two steps *)
Definition pbetween (n : N) (p : list O) (sc : sched O) (s : G * bool) : Prop :=
  s_step sc = n /\ unique_ids (s_events sc) /\ plively (s_events sc) /\
  Forall good p /\ snd s = false /\ wf (fst s) /\
  (if (n =? 0)%N then writes (fst s) p else reads (fst s) p /\ writes (fst s) []) /\
  Permutation (queued sc) (if (n =? 0)%N then p else alive p) /\
  (exists rest, Permutation (map key agents) (map key p ++ rest)) /\
  ((forall o, stops o = false) -> Permutation (map key p) (map key agents)).

Lemma init_pbetween : forall l (sc : sched O) g p,
  wf g -> writes g p -> Forall good p -> Forall good l ->
  s_step sc = 0%N -> unique_ids (s_events sc) -> (forall e, In e (s_events sc) -> (ev_id e < s_ids sc)%N) ->
  plively (s_events sc) -> (s_ids sc + N.of_nat (length l) < 4294967296)%N ->
  let r := par_run_hprog (stage_init place l (g, false)) sc in
  let sc' := fst (fst r) in let s := snd (fst r) in
  s_step sc' = 0%N /\ unique_ids (s_events sc') /\ plively (s_events sc') /\
  snd s = false /\ wf (fst s) /\ writes (fst s) (p ++ l) /\
  queued sc' = queued sc ++ l.
Proof.
  induction l as [|o l IH]; intros sc g p W H Fp Fl Hs U Ids L Bd r; subst r.
  - cbn. rewrite !app_nil_r. auto 10.
  - inversion Fl as [|? ? Ho Fl']; subst. cbn [stage_init]. unfold stage_place. cbn [fst snd].
    destruct (Place g p o W H Ho) as (g' & E & W' & H' & _). rewrite E. cbn [par_run_hprog par_do_op].
    unfold schedule_repeating.
    assert (Fr : ~ In (s_ids sc) (map ev_id (s_events sc))).
    { intros Hin. apply in_map_iff in Hin. destruct Hin as (e & Ee & He). specialize (Ids e He). lia. }
    rewrite (pq_push_fresh (AI (s_ids sc) o true) (Prio f0 0) (s_events sc) Fr). cbn [length] in Bd.
    assert (Eu : u32_succ (s_ids sc) = (s_ids sc + 1)%N) by (unfold u32_succ; apply N.mod_small; change u32_mod with 4294967296%N; lia).
    rewrite Eu. cbn [fst].
    set (sc1 := Sched _ _ _ _).
    assert (In1 : forall e, In e (s_events sc1) -> In e (s_events sc) \/ e = (AI (s_ids sc) o true, Prio f0 0)).
    { intros e He. cbn in He. apply in_app_or in He. destruct He as [He|[He|[]]]; auto. }
    destruct (IH sc1 g' (p ++ [o]) W' H') as (I1 & I2 & I3 & I4 & I5 & I6 & I7).
    + apply Forall_app. auto.
    + exact Fl'.
    + exact Hs.
    + cbn. unfold unique_ids. rewrite map_app. apply NoDup_app_one; [exact U|exact Fr].
    + intros e He. destruct (In1 e He) as [He'| ->]; cbn; [specialize (Ids e He')|]; lia.
    + intros e He. destruct (In1 e He) as [He'| ->]; [apply L; exact He'|cbn; auto].
    + cbn. lia.
    + destruct (par_run_hprog (stage_init place l (g', false)) sc1) as [[x y] lg]. cbn [fst snd] in *.
      rewrite <- app_assoc in I6. do 6 (split; [assumption|]).
      rewrite I7. unfold queued. cbn [sc1 s_events]. rewrite map_app, <- app_assoc. reflexivity.
Qed.

Definition pready (s : G * bool) : Prop := snd s = false /\ wf (fst s) /\ writes (fst s) [].

Lemma start_pbetween (wd : world O (G * bool)) : pready (w_st wd) ->
  pbetween 0 agents (fst (par_init u wd)) (w_st (snd (par_init u wd))).
Proof.
  intros (Fl & W & H). unfold par_init. cbn [pstage_user u_init]. destruct (w_st wd) as [g b] eqn:Ew. cbn [fst snd] in *. subst b.
  pose proof (init_pbetween agents sched_new g [] W H (Forall_nil _) Home eq_refl (NoDup_nil _)) as X.
  cbn [s_events sched_new] in X. specialize (X (fun _ F => match F with end) (fun _ F => match F with end)).
  change (s_ids sched_new) with 0%N in X. rewrite N.add_0_l in X. specialize (X Few). cbv zeta in X.
  destruct (par_run_hprog _ _) as [[a b] l]. cbn [fst snd w_st] in *. destruct X as (X1 & X2 & X3 & X4 & X5 & X6 & X7).
  unfold pbetween. do 3 (split; [assumption|]). split; [exact Home|]. do 2 (split; [assumption|]). split; [exact X6|].
  split; [rewrite X7; reflexivity|]. split; [exists []; rewrite app_nil_r; reflexivity|reflexivity].
Qed.

Lemma pbetween_keys n p sc s : pbetween n p sc s -> NoDup (map key p) /\ length p <= length agents.
Proof.
  intros (_ & _ & _ & _ & _ & _ & _ & _ & (rest & R) & _). split.
  - pose proof (Permutation_NoDup R Unique) as N. apply NoDup_app_elim in N. apply N.
  - apply Permutation_length in R. rewrite app_length, !map_length in R. lia.
Qed.

Lemma pbetween_found n p (c : sched O * world O (G * bool)) : pbetween n p (fst c) (w_st (snd c)) ->
  let g := par_found publish c in
  (if N.eqb (s_step (fst c)) 0 then u_update u 0 (w_st (snd c)) else w_st (snd c)) = (g, false) /\
  wf g /\ reads g p /\ writes g [] /\ shows g p.
Proof.
  intros B g. destruct (pbetween_keys _ _ _ _ B) as [Nd _]. destruct B as (Hn & _ & _ & Fp & Fl & W & B & _).
  unfold g, par_found, space_of. rewrite Hn. destruct (w_st (snd c)) as [gw b]. cbn [fst snd] in *. subst b.
  destruct (n =? 0)%N.
  - destruct (Publish gw p W B) as (g' & E & W' & R' & Z'). cbn [pstage_user u_update]. unfold pstage_update. cbn [fst snd].
    rewrite E. auto 10.
  - destruct B. auto 10.
Qed.

Lemma alive_nil p : alive p <> [] -> p <> [].
Proof. intros H E. subst p. apply H. reflexivity. Qed.
Lemma pnext_keys g l : map key (map (pnext g) l) = map key l.
Proof. rewrite map_map. apply map_ext. intros o. unfold pnext. destruct (see g o); [apply Same_key|reflexivity]. Qed.
Lemma palive_split p : exists rest, Permutation (map key p) (map key (alive p) ++ rest).
Proof.
  exists (map key (filter stops p)). rewrite <- map_app. apply Permutation_map.
  induction p as [|o p IH]; cbn; [constructor|]. destruct (stops o); cbn; [|constructor; exact IH].
  apply Permutation_cons_app. exact IH.
Qed.
Lemma palive_all p : (forall o, stops o = false) -> alive p = p.
Proof. intros H. apply FieldProofs.filter_true. intros o _. rewrite H. reflexivity. Qed.

(** ** One step *)
Variable threads : nat.

Lemma pstep_between n p (c : sched O * world O (G * bool)) ch inter sc' w' : (n + 1 < 18446744073709551616)%N ->
  pbetween n p (fst c) (w_st (snd c)) ->
  par_step u threads ch inter (fst c) (snd c) = PDone sc' w' ->
  exists q, pbetween (n + 1) q sc' (w_st w') /\
    Permutation q (map (pnext (par_found publish c)) (queued (fst c))).
Proof.
  intros Bn B E. pose proof (pbetween_found n p c B) as (E0 & Wf & Rf & Zf & _). pose proof (pbetween_keys n p _ _ B) as [_ Le].
  set (g := par_found publish c) in *.
  destruct B as (Hn & U & L & Fp & Fl & W & _ & Q & (rest & Rk) & Nk).
  destruct (par_step_runs_all u threads ch inter (fst c) (snd c) sc' w' U E)
    as (sc1 & s1 & l1 & popped & run & backs & s2 & now & sc3 & s3 & l3 & B1 & Nt & P & _ & _ & D & T & U2 & Af & -> & Ew' & _).
  rewrite E0 in B1. cbn in B1. injection B1 as <- <- <-. cbn in Af. injection Af as <- <- <-.
  assert (Pr : Permutation (s_events (fst c)) run) by (rewrite P; apply D).
  assert (Ld : plively run) by (intros e He; apply L; eapply Permutation_in; [symmetry; exact Pr|exact He]).
  assert (Qr : Permutation (ags run) (queued (fst c))) by (unfold queued, ags; apply Permutation_map; symmetry; exact Pr).
  assert (X : exists g2, s2 = (g2, false) /\ wf g2 /\ same g2 g /\ writes g2 ([] ++ map (pnext g) (ags run)) /\
    ags backs = alive (map (pnext g) (ags run)) /\ plively backs /\ Forall good (map (pnext g) (ags run))).
  { destruct run as [|e0 run].
    - inversion T; subst. exists g. cbn. split; [reflexivity|]. do 3 (split; [auto|]). split; [reflexivity|]. split; [intros ? []|constructor].
    - assert (Np : p <> []).
      { intros ->. assert (Z : Permutation (ags (e0 :: run)) []).
        { rewrite Qr, Q. destruct (n =? 0)%N; reflexivity. }
        apply Permutation_length in Z. discriminate. }
      assert (Si : sights g) by (intros o Ho; exact (See g p o Wf Rf Np Le Ho)).
      destruct (pturns_move g Wf Si (e0 :: run) g [] backs s2 Wf (Same_refl g) Zf Ld T) as (g2 & X1 & X2 & X3 & X4 & X5 & X6).
      exists g2. do 6 (split; [assumption|]). apply Forall_forall. intros o Ho. apply in_map_iff in Ho. destruct Ho as (o1 & <- & Ho).
      apply in_map_iff in Ho. destruct Ho as (e & <- & He). destruct (Ld e He) as [_ Gd]. unfold pnext.
      destruct (Si _ Gd) as [v ->]. apply Stays. exact Gd. }
  destruct X as (g2 & -> & W2 & R2 & H2 & B2 & L2 & Fg). cbn [app] in H2.
  destruct (Publish g2 _ W2 H2) as (g3 & E3 & W3 & R3 & Z3).
  exists (map (pnext g) (ags run)). rewrite Ew'. cbn [pstage_user u_update]. unfold pstage_update. cbn [fst snd]. rewrite E3.
  assert (Es : u64_succ (s_step (fst c)) = (n + 1)%N) by (rewrite Hn; apply u64_succ_small; exact Bn).
  assert (Pq : Permutation (map (pnext g) (ags run)) (map (pnext g) (queued (fst c)))) by (apply Permutation_map; exact Qr).
  assert (Kq : Permutation (map key (map (pnext g) (ags run))) (map key (queued (fst c)))) by (rewrite pnext_keys; apply Permutation_map; exact Qr).
  split; [|exact Pq]. unfold pbetween. cbn [s_step s_events fst snd]. replace (n + 1 =? 0)%N with false by (symmetry; apply N.eqb_neq; lia).
  split; [exact Es|]. split; [exact U2|]. split; [exact L2|]. split; [exact Fg|]. split; [reflexivity|]. split; [exact W3|].
  split; [auto|]. split; [unfold queued; cbn [s_events]; fold (ags backs); rewrite B2; reflexivity|]. split.
  - assert (X : exists r2, Permutation (map key p) (map key (queued (fst c)) ++ r2)).
    { destruct (n =? 0)%N; [exists []; rewrite app_nil_r, Q; reflexivity|].
      destruct (palive_split p) as [r2 X2]. exists r2. rewrite Q. exact X2. }
    destruct X as [r2 X2]. exists (r2 ++ rest). rewrite Rk, X2, Kq, app_assoc. reflexivity.
  - intros Hs. rewrite Kq, <- (Nk Hs). rewrite Q. destruct (n =? 0)%N; [reflexivity|]. rewrite palive_all by exact Hs. reflexivity.
Qed.

Lemma pstep_exit n p (c : sched O * world O (G * bool)) ch inter : pbetween n p (fst c) (w_st (snd c)) -> queued (fst c) = [] ->
  exists w, par_step u threads ch inter (fst c) (snd c) = PExit w /\ snd (w_st w) = false.
Proof.
  intros B Q. destruct (pbetween_found n p c B) as (E0 & _). unfold par_step.
  set (w0 := if N.eqb (s_step (fst c)) 0 then call_update u (s_step (fst c)) (snd c) else snd c).
  assert (Hw0 : w_st w0 = (par_found publish c, false)).
  { rewrite <- E0. unfold w0. destruct (N.eqb_spec (s_step (fst c)) 0) as [E|E]; [rewrite E|]; reflexivity. }
  rewrite Hw0. cbn [pstage_user u_before par_run_hprog].
  unfold queued in Q. apply map_eq_nil in Q. rewrite Q.
  assert (X : forall k, pq_peek k (@nil (event O)) = None) by (intros k; unfold pq_peek; destruct (k mod _); reflexivity).
  rewrite X.
  eexists. split; reflexivity.
Qed.

Hypothesis Threads : threads <> 0.
Lemma pstep_outcome n p (c : sched O * world O (G * bool)) ch inter : pbetween n p (fst c) (w_st (snd c)) ->
  match par_step u threads ch inter (fst c) (snd c) with
  | PExit w => queued (fst c) = [] /\ snd (w_st w) = false
  | PPanic => False
  | PRunning _ => queued (fst c) <> []
  | PDone _ _ => queued (fst c) <> []
  end.
Proof.
  intros B. destruct (queued (fst c)) as [|o q] eqn:Q.
  { destruct (pstep_exit n p c ch inter B Q) as (w & -> & F). auto. }
  assert (Ne : s_events (fst c) <> []) by (intros E; unfold queued in Q; rewrite E in Q; discriminate).
  destruct (pbetween_found n p c B) as (E0 & _). unfold par_step.
  set (w0 := if N.eqb (s_step (fst c)) 0 then call_update u (s_step (fst c)) (snd c) else snd c).
  assert (Hw0 : w_st w0 = (par_found publish c, false)).
  { rewrite <- E0. unfold w0. destruct (N.eqb_spec (s_step (fst c)) 0) as [E|E]; [rewrite E|]; reflexivity. }
  rewrite Hw0. cbn [pstage_user u_before par_run_hprog].
  destruct (pq_peek (ch 0) (s_events (fst c))) as [e|] eqn:Pk; [|apply pq_peek_none in Pk; contradiction].
  destruct threads as [|th]; [contradiction|].
  destruct (finished _); [|discriminate]. cbn [u_after par_run_hprog]. discriminate.
Qed.

(** ** Runs *)
Lemma par_steps_snoc (us : user O (G * bool)) n x : forall l sc w,
  par_steps us n (l ++ [x]) sc w =
  match par_steps us n l sc w with
  | None => None
  | Some c => match par_step us n (fst x) (snd x) (fst c) (snd c) with PDone sc' w' => Some (sc', w') | _ => None end
  end.
Proof.
  destruct x as [ch inter]. induction l as [|[ch1 i1] l IH]; intros sc w; cbn [app par_steps fst snd]; [reflexivity|].
  destruct (par_step us n ch1 i1 sc w); auto.
Qed.

Variable g0 : G.
Hypothesis Ready0 : pready (g0, false).

Lemma prun_between : forall l c, (N.of_nat (length l) < 18446744073709551616)%N -> par_played u threads g0 l = Some c ->
  exists p, pbetween (N.of_nat (length l)) p (fst c) (w_st (snd c)).
Proof.
  intros l. induction l as [|x l IH] using rev_ind; intros c Bn E.
  - exists agents. injection E as <-. apply (start_pbetween (World (g0, false) []) Ready0).
  - unfold par_played in E. rewrite par_steps_snoc in E. rewrite app_length in *. cbn [length] in *.
    destruct (par_steps u threads l _ _) as [c1|] eqn:E1; [|discriminate].
    destruct (IH c1) as (p & B); [lia|exact E1|].
    destruct (par_step u threads (fst x) (snd x) (fst c1) (snd c1)) as [?| |?|sc' w'] eqn:Es; try discriminate. injection E as <-.
    destruct (pstep_between (N.of_nat (length l)) p c1 (fst x) (snd x) sc' w' ltac:(lia) B Es) as (q & Bq & _). exists q.
    replace (N.of_nat (length l + 1)) with (N.of_nat (length l) + 1)%N by lia. exact Bq.
Qed.

Lemma pstage_in_step : par_in_step u threads g0 publish shows pnext stops agents.
Proof.
  split.
  - eexists. split; [reflexivity|]. pose proof (start_pbetween (World (g0, false) []) Ready0) as B.
    set (c := par_init u (World (g0, false) [])) in *.
    destruct (pbetween_found 0 agents (fst c, snd c) B) as (_ & _ & _ & _ & Sh). split; [apply B|]. split; [exact Sh|].
    destruct B as (_ & _ & _ & _ & _ & _ & _ & Q & _). exact Q.
  - intros l c Bn Ec. change (2 ^ 64)%N with 18446744073709551616%N in Bn.
    destruct (prun_between l c ltac:(lia) Ec) as (p & B). split; [apply B|]. intros ch inter.
    split; [exact (pstep_exit _ p c ch inter B)|]. split.
    + intros Ne. pose proof (pstep_outcome _ p c ch inter B) as Po.
      assert (X : exists more sc' w', par_step u threads ch (inter ++ more) (fst c) (snd c) = PDone sc' w').
      { destruct (par_step u threads ch inter (fst c) (snd c)) as [?| |?|sc' w'] eqn:Es; [tauto|tauto| |].
        - apply (par_step_progress _ _ _ _ _ _ _ Es).
        - exists [], sc', w'. rewrite app_nil_r. exact Es. }
      destruct X as (more & sc' & w' & Es). exists more, (sc', w'). unfold par_played in *. rewrite par_steps_snoc, Ec. cbn [fst snd].
      rewrite Es. reflexivity.
    + intros c' E. unfold par_played in *. rewrite par_steps_snoc, Ec in E. cbn [fst snd] in E.
      destruct (par_step u threads ch inter (fst c) (snd c)) as [?| |?|sc' w'] eqn:Es; try discriminate. injection E as <-.
      destruct (pstep_between _ p c ch inter sc' w' Bn B Es) as (q & Bq & Pq). exists q. split; [exact Pq|].
      destruct (pbetween_found _ q (sc', w') Bq) as (_ & _ & _ & _ & Sh). split; [apply Bq|]. split; [exact Sh|].
      destruct Bq as (_ & _ & _ & _ & _ & _ & _ & Q & _).
      replace (N.of_nat (length l) + 1 =? 0)%N with false in Q by (symmetry; apply N.eqb_neq; lia). exact Q.
Qed.

(** ** [simulate!] *)
Definition ended (n : N) (e : sim_end O (G * bool)) : Prop :=
  match e with
  | SimDone w => exists n' q sc, (n <= n')%N /\ pbetween n' q sc (w_st w)
  | SimExit w => snd (w_st w) = false /\ ((forall o, stops o = false) -> agents = [])
  | SimPanic => False
  | SimRunning => True
  end.

Lemma ploop_ended os : forall k i n p sc (wd : world O (G * bool)),
  (n + N.of_nat k < 18446744073709551616)%N ->
  pbetween n p sc (w_st wd) ->
  ended (match k with 0%nat => n | Datatypes.S _ => n + 1 end)%N (par_sim_loop u threads os i k sc wd).
Proof.
  induction k as [|k IH]; intros i n p sc wd Bn B; cbn [par_sim_loop].
  - exists n, p, sc. split; [lia|exact B].
  - pose proof (pstep_outcome n p (sc, wd) (fst (os i)) (snd (os i)) B) as Po. cbn [fst snd] in Po.
    destruct (par_step u threads (fst (os i)) (snd (os i)) sc wd) as [w1| |?|sc1 w1] eqn:Es.
    + destruct Po as [Q F]. split; [exact F|]. intros Hs. destruct B as (_ & _ & _ & _ & _ & _ & _ & Q' & _ & Nk).
      cbn [fst] in Q. rewrite Q in Q'. apply Permutation_nil in Q'. specialize (Nk Hs).
      assert (Ep : p = []) by (destruct (n =? 0)%N; [exact Q'|rewrite palive_all in Q' by exact Hs; exact Q']).
      subst p. apply Permutation_nil in Nk. apply map_eq_nil in Nk. exact Nk.
    + exact Po.
    + exact I.
    + destruct (pstep_between n p (sc, wd) (fst (os i)) (snd (os i)) sc1 w1 ltac:(lia) B Es) as (q & Bq & _).
      unfold par_end. cbn [pstage_user u_end par_run_hprog fst snd].
      destruct (ends (fst (w_st w1))).
      * exists (n + 1)%N, q, sc1. split; [lia|exact Bq].
      * pose proof (IH (Datatypes.S i) (n + 1)%N q sc1 (World (w_st w1) (w_trace w1 ++ CEnd false :: api [])) ltac:(lia) Bq) as X.
        unfold ended in *. destruct (par_sim_loop _ _ _ _ _ _ _); auto. destruct X as (n' & q' & sc' & Le & X).
        exists n', q', sc'. split; [destruct k; lia|exact X].
Qed.

Lemma pbetween_ready n p sc s : (n <> 0)%N -> pbetween n p sc s -> pready s /\ reads (fst s) p.
Proof.
  intros Hn (_ & _ & _ & _ & Fl & W & B & _). apply N.eqb_neq in Hn. rewrite Hn in B. destruct B. split; [split; auto|assumption].
Qed.

Lemma preps_ended os n : (N.of_nat n < 18446744073709551616)%N -> n <> 0 ->
  forall reps r (wd : world O (G * bool)), pready (w_st wd) -> reps <> 0 ->
  ended 1 (par_sim_reps u threads os r reps n wd).
Proof.
  intros Bn Hn. induction reps as [|reps IH]; intros r wd Rd Hr; [congruence|]. cbn [par_sim_reps].
  pose proof (start_pbetween wd Rd) as B. destruct (par_init u wd) as [sc w1]. cbn [fst snd] in B.
  pose proof (ploop_ended (os r) n 0 0%N agents sc w1 ltac:(lia) B) as X.
  destruct (par_sim_loop u threads (os r) 0 n sc w1) as [w2|w2| |]; try exact X.
  destruct n as [|n]; [congruence|]. destruct X as (n' & q & sc' & Le & Bq).
  destruct reps as [|reps]; [cbn; eauto|]. apply IH; [|lia]. apply (pbetween_ready n' q sc' _ ltac:(lia) Bq).
Qed.

Lemma pstage_conserved : par_conserved key u threads g0 shows stops agents.
Proof.
  intros os n reps Bn Hn Hr. change (2 ^ 64)%N with 18446744073709551616%N in Bn.
  pose proof (preps_ended os n Bn Hn reps 0 (World (g0, false) []) Ready0 Hr) as X. unfold par_simulate.
  destruct (par_sim_reps _ _ _ _ _ _ _) as [w|w| |]; try exact X. destruct X as (n' & q & sc & Le & B).
  destruct (pbetween_ready n' q sc _ ltac:(lia) B) as [_ R]. destruct (pbetween_keys _ _ _ _ B) as [Nd _].
  destruct B as (_ & _ & _ & Fp & Fl & W & _ & _ & Rk & Nk). split; [exact Fl|]. exists q. split; [apply Shows; assumption|]. auto.
Qed.
End Stage.
