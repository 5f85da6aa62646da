(** * Proofs about agents in a double-buffered space *)
From Coq Require Import List Bool ZArith NArith Arith Lia Permutation.
From Verif Require Import F32 F32Facts F32Real SchedModel SchedSpec SchedProofs SchedStep SchedTime
  SimModel Grid ObjModel OrderSpec OrderProofs OrderModels OrderInst FlockSpec FlockProofs StageModel StageSpec.
Import ListNotations.
Local Open Scope nat_scope.

Section Stage.
Context {O G V : Type}.
Variable place : G -> O -> option G.
Variable publish : G -> G.
Variable see : G -> O -> option V.
Variable rule : O -> V -> O.
Variable stops : O -> bool.
Variable ends : G -> bool.
Variable agents : list O.
(** What is needed of a space: [writes g p]: [p] has been placed since the last
    publication; [reads g p]: [p] is published; [same g g']: the same is published. *)
Variable good : O -> Prop.
Variable wf : G -> Prop.
Variables reads writes : G -> list O -> Prop.
Variable same : G -> G -> Prop.
Hypothesis Home : Forall good agents.
Hypothesis Stays : forall o v, good o -> good (rule o v).
Hypothesis Same_refl : forall g, same g g.
Hypothesis Same_trans : forall g1 g2 g3, same g1 g2 -> same g2 g3 -> same g1 g3.
Hypothesis Place : forall g p o, wf g -> writes g p -> good o ->
  exists g', place g o = Some g' /\ wf g' /\ writes g' (p ++ [o]) /\ same g' g.
Hypothesis Publish : forall g p, wf g -> writes g p -> wf (publish g) /\ reads (publish g) p /\ writes (publish g) [].
Hypothesis See : forall g o, wf g -> good o -> exists v, see g o = Some v.
Hypothesis See_same : forall g g' o, wf g -> wf g' -> same g' g -> see g' o = see g o.
Hypothesis Few : (N.of_nat (length agents) < 4294967296)%N.
Notation u := (stage_user place publish see rule stops ends agents).
Notation alive := (filter (fun o => negb (stops o))).

Definition next (g : G) (o : O) : O := match see g o with Some v => rule o v | None => o end.

Lemma step_moves g p o : wf g -> writes g p -> good o ->
  exists g', stage_step place see rule o (g, false) = (next g o, (g', false)) /\
    wf g' /\ writes g' (p ++ [next g o]) /\ same g' g /\ good (next g o).
Proof.
  intros W H Hi. unfold stage_step, next, stage_place. cbn [fst snd].
  destruct (See g o W Hi) as [v Ev]. rewrite Ev. cbv zeta.
  destruct (Place g p (rule o v) W H (Stays o v Hi)) as (g' & E & W' & H' & R). rewrite E. eauto 10.
Qed.

Definition lively (l : list (event O)) : Prop := forall e, In e l -> ai_rep (fst e) = true /\ good (ai_agent (fst e)).

Lemma turns_move g : wf g -> forall l gk p backs s, wf gk -> same gk g -> writes gk p -> lively l ->
  turns u l (gk, false) backs s ->
  exists g', s = (g', false) /\ wf g' /\ same g' g /\ writes g' (p ++ map (next g) (ags l)) /\
    ags backs = alive (map (next g) (ags l)) /\ lively backs.
Proof.
  intros W. induction l as [|e l IH]; intros gk p backs s Wk R H L T.
  - inversion T; subst. exists gk. cbn. rewrite app_nil_r. split; [reflexivity|]. split; [exact Wk|].
    split; [exact R|]. split; [exact H|]. split; [reflexivity|intros ? []].
  - destruct (L e (or_introl eq_refl)) as [Lr Li].
    destruct (step_moves gk p (ai_agent (fst e)) Wk H Li) as (g1 & E1 & W1 & H1 & R1 & I1).
    assert (En : next gk (ai_agent (fst e)) = next g (ai_agent (fst e))).
    { unfold next. rewrite (See_same g gk _ W Wk R). reflexivity. }
    rewrite En in E1, H1, I1.
    assert (LF : life u (ai_rep (fst e)) (ai_agent (fst e)) (gk, false) =
       (if stops (next g (ai_agent (fst e))) then None else Some (next g (ai_agent (fst e))), (g1, false))).
    { unfold life. cbn [stage_user a_before a_step a_after a_stopped]. rewrite E1, Lr. reflexivity. }
    assert (L' : lively l) by (intros x Hx; apply L; right; exact Hx).
    assert (R1' : same g1 g) by (eapply Same_trans; eauto).
    inversion T as [|? ? ? ? ? ? T1 T2|? ? ? ? ? ? ? T1 T2]; subst; apply turn_life in T1; destruct T1 as [Tb Ts];
      rewrite LF in Tb, Ts; cbn [fst snd] in Tb, Ts; subst s'; destruct (IH g1 _ _ _ W1 R1' H1 L' T2) as (g' & -> & W' & R' & H' & B' & Lb).
    + exists g'. split; [reflexivity|]. split; [exact W'|]. split; [exact R'|].
      rewrite <- app_assoc in H'. split; [exact H'|]. split; [|exact Lb].
      cbn [ags map filter]. fold (ags l). destruct (stops (next g (ai_agent (fst e)))); [exact B'|discriminate].
    + exists g'. split; [reflexivity|]. split; [exact W'|]. split; [exact R'|].
      rewrite <- app_assoc in H'. split; [exact H'|].
      destruct (stops (next g (ai_agent (fst e)))) eqn:St; [discriminate|]. injection Tb as ->. split.
      * unfold ags in *. cbn [map filter fst ai_agent]. rewrite St. cbn [negb]. rewrite B'. reflexivity.
      * intros x [<-|Hx]; [cbn; auto|apply Lb; exact Hx].
Qed.

(** ** One step *)
Definition between (n : N) (p : list O) (sc : sched O) (s : G * bool) : Prop :=
  s_step sc = n /\ unique_ids (s_events sc) /\ together (s_events sc) /\ lively (s_events sc) /\
  Forall good p /\ snd s = false /\ wf (fst s) /\
  (if (n =? 0)%N then writes (fst s) p else reads (fst s) p /\ writes (fst s) []).

Lemma step_between n p sc (wd : world O (G * bool)) ch : (n + 1 < 18446744073709551616)%N ->
  between n p sc (w_st wd) ->
  let g := found publish (sc, wd) in
  wf g /\ reads g p /\
  exists q, between (n + 1) q (fst (step u ch sc wd)) (w_st (snd (step u ch sc wd))) /\
    Permutation q (map (next g) (queued sc)) /\
    Permutation (queued (fst (step u ch sc wd))) (alive q).
Proof.
  intros Bn (Hn & U & Tg & L & Fp & Fl & W & B) g.
  destruct (w_st wd) as [gw b] eqn:Ew. cbn [fst snd] in *. subst b.
  assert (X : st0 u sc wd = (g, false) /\ wf g /\ reads g p /\ writes g []).
  { unfold st0, g, found, space_of. cbn [fst snd]. rewrite Hn, Ew. cbn [fst]. destruct (n =? 0)%N.
    - cbn [stage_user u_update fst snd]. split; [reflexivity|]. apply Publish; assumption.
    - destruct B. auto. }
  destruct X as (E0 & Wf & Rf & Zf). split; [exact Wf|]. split; [exact Rf|].
  destruct (step u ch sc wd) as [sc' w'] eqn:E. apply step_anatomy in E; [|exact U].
  destruct E as (sc1 & s1 & l1 & due & rest & backs & s2 & tr & now & sc3 & s3 & l3 & B1 & U1 & P & N0 & N1 & T & U2 & _ & Af & -> & Ew' & _).
  rewrite E0 in B1. cbn in B1. injection B1 as <- <- <-.
  cbn in Af. injection Af as <- <- <-.
  assert (Er : rest = []).
  { destruct (s_events sc) as [|e0 q0] eqn:Q.
    - apply Permutation_nil in P. apply app_eq_nil in P. apply P.
    - rewrite <- Q in *. destruct N1 as (e1 & Pk & Nw & Pd); [congruence|].
      exact (all_due ch now _ due rest e1 U Tg Pk Nw Pd). }
  subst rest. rewrite app_nil_r in P.
  assert (Ld : lively due) by (intros e He; apply L; eapply Permutation_in; [symmetry; exact P|exact He]).
  destruct (turns_move g Wf due g [] backs s2 Wf (Same_refl g) Zf Ld T) as (g2 & -> & W2 & R2 & H2 & B2 & L2).
  cbn [app] in H2. destruct (Publish g2 _ W2 H2) as (W3 & R3 & Z3).
  exists (map (next g) (ags due)). cbn [fst snd]. cbn [stage_user u_update fst snd] in Ew'. rewrite Ew'.
  assert (Es : u64_succ (s_step sc) = (n + 1)%N) by (rewrite Hn; apply u64_succ_small; exact Bn).
  split; [|split].
  - split; [exact Es|]. cbn [s_events app]. split; [exact U2|]. split; [|split; [exact L2|split; [|split; [reflexivity|split; [exact W3|]]]]].
    + destruct Tg as (tm & [Tv Tn] & Ht). exists (fadd tm f1). split.
      * split; [apply fadd_valid; [exact Tv|reflexivity]|]. apply fadd_one_ge; assumption.
      * intros e He. destruct (turns_backs _ _ _ _ _ T e He) as (e' & He' & Et & _). rewrite Et, (Ht e'); [reflexivity|].
        eapply Permutation_in; [symmetry; exact P|exact He'].
    + apply Forall_forall. intros o Ho. apply in_map_iff in Ho. destruct Ho as (o1 & <- & Ho).
      apply in_map_iff in Ho. destruct Ho as (e & <- & He). destruct (Ld e He) as [_ Gd]. unfold next.
      destruct (See g _ Wf Gd) as [v ->]. apply Stays. exact Gd.
    + replace (n + 1 =? 0)%N with false by (symmetry; apply N.eqb_neq; lia). auto.
  - apply Permutation_map. unfold queued, ags. apply Permutation_map. symmetry. exact P.
  - unfold queued. cbn [s_events app]. fold (ags backs). rewrite B2. reflexivity.
Qed.

(** ** [init] *)
Lemma init_between : forall l (sc : sched O) g p,
  wf g -> writes g p -> Forall good p -> Forall good l ->
  s_step sc = 0%N -> unique_ids (s_events sc) -> (forall e, In e (s_events sc) -> (ev_id e < s_ids sc)%N) ->
  (forall e, In e (s_events sc) -> ev_time e = f0) -> lively (s_events sc) ->
  (s_ids sc + N.of_nat (length l) < 4294967296)%N ->
  let r := run_hprog (stage_init place l (g, false)) sc in
  between 0 (p ++ l) (fst (fst r)) (snd (fst r)) /\ queued (fst (fst r)) = queued sc ++ l.
Proof.
  induction l as [|o l IH]; intros sc g p W H Fp Fl Hs U Ids Tm L Bd r; subst r.
  - cbn. rewrite !app_nil_r. split; [|reflexivity]. split; [exact Hs|]. split; [exact U|].
    split; [exists f0; split; [split; reflexivity|exact Tm]|]. auto 10.
  - inversion Fl as [|? ? Ho Fl']; subst. cbn [stage_init]. unfold stage_place. cbn [fst snd].
    destruct (Place g p o W H Ho) as (g' & E & W' & H' & _). rewrite E. cbn [run_hprog do_op].
    unfold schedule_repeating.
    assert (Fr : ~ In (s_ids sc) (map ev_id (s_events sc))).
    { intros Hin. apply in_map_iff in Hin. destruct Hin as (e & Ee & He). specialize (Ids e He). lia. }
    rewrite (pq_push_fresh (AI (s_ids sc) o true) (Prio f0 0) (s_events sc) Fr). cbn [length] in Bd.
    assert (Eu : u32_succ (s_ids sc) = (s_ids sc + 1)%N) by (unfold u32_succ; apply N.mod_small; change u32_mod with 4294967296%N; lia).
    rewrite Eu.
    set (sc1 := Sched _ _ _ _).
    assert (In1 : forall e, In e (s_events sc1) -> In e (s_events sc) \/ e = (AI (s_ids sc) o true, Prio f0 0)).
    { intros e He. cbn in He. apply in_app_or in He. destruct He as [He|[He|[]]]; auto. }
    destruct (IH sc1 g' (p ++ [o]) W' H') as [IH1 IH2].
    + apply Forall_app. auto.
    + exact Fl'.
    + exact Hs.
    + cbn. unfold unique_ids. rewrite map_app. apply NoDup_app_one; [exact U|exact Fr].
    + intros e He. destruct (In1 e He) as [He'| ->]; cbn; [specialize (Ids e He')|]; lia.
    + intros e He. destruct (In1 e He) as [He'| ->]; [apply Tm; exact He'|reflexivity].
    + intros e He. destruct (In1 e He) as [He'| ->]; [apply L; exact He'|cbn; auto].
    + cbn. lia.
    + destruct (run_hprog (stage_init place l (g', false)) sc1) as [[x y] lg]. cbn [fst snd] in *.
      rewrite <- app_assoc in IH1. split; [exact IH1|]. rewrite IH2. unfold queued. cbn [sc1 s_events]. rewrite map_app, <- app_assoc. reflexivity.
Qed.

(** ** Runs *)
Definition ready (s : G * bool) : Prop := snd s = false /\ wf (fst s) /\ writes (fst s) [].

Lemma start_between (wd : world O (G * bool)) : ready (w_st wd) ->
  between 0 agents (fst (call_init u sched_new wd)) (w_st (snd (call_init u sched_new wd))) /\
  queued (fst (call_init u sched_new wd)) = agents.
Proof.
  intros (Fl & W & H). unfold call_init. cbn [stage_user u_init]. destruct (w_st wd) as [g b] eqn:Ew. cbn [fst snd] in *. subst b.
  pose proof (init_between agents sched_new g [] W H (Forall_nil _) Home eq_refl (NoDup_nil _)) as X.
  cbn [s_events sched_new] in X. specialize (X (fun _ F => match F with end) (fun _ F => match F with end) (fun _ F => match F with end)).
  change (s_ids sched_new) with 0%N in X. rewrite N.add_0_l in X. specialize (X Few). cbv zeta in X.
  destruct (run_hprog _ _) as [[a b] l]. exact X.
Qed.

Lemma after_snoc chs ch (sc : sched O) (wd : world O (G * bool)) :
  after_steps u (chs ++ [ch]) sc wd =
  step u ch (fst (after_steps u chs sc wd)) (snd (after_steps u chs sc wd)).
Proof. unfold after_steps. rewrite map_app. unfold acts. rewrite fold_left_app. reflexivity. Qed.

Context {K : Type}.
Variable key : O -> K.
Hypothesis Same_key : forall o v, key (rule o v) = key o.

Definition population (n : nat) (p : list O) (sc : sched O) (s : G * bool) : Prop :=
  between (N.of_nat n) p sc s /\
  Permutation (queued sc) (match n with 0 => p | Datatypes.S _ => alive p end) /\
  (exists rest, Permutation (map key agents) (map key p ++ rest)) /\
  ((forall o, stops o = false) -> Permutation (map key p) (map key agents)).

Lemma alive_split p : exists rest, Permutation (map key p) (map key (alive p) ++ rest).
Proof.
  exists (map key (filter stops p)). rewrite <- map_app. apply Permutation_map.
  induction p as [|o p IH]; cbn; [constructor|]. destruct (stops o); cbn; [|constructor; exact IH].
  apply Permutation_cons_app. exact IH.
Qed.
Lemma alive_all p : (forall o, stops o = false) -> alive p = p.
Proof. intros H. apply FieldProofs.filter_true. intros o _. rewrite H. reflexivity. Qed.
Lemma next_keys g l : map key (map (next g) l) = map key l.
Proof. rewrite map_map. apply map_ext. intros o. unfold next. destruct (see g o); [apply Same_key|reflexivity]. Qed.

Lemma population_step n p sc (wd : world O (G * bool)) ch : (N.of_nat n + 1 < 18446744073709551616)%N ->
  population n p sc (w_st wd) ->
  exists q, population (Datatypes.S n) q (fst (step u ch sc wd)) (w_st (snd (step u ch sc wd))) /\
    Permutation q (map (next (found publish (sc, wd))) (queued sc)).
Proof.
  intros Bn (B & Q & (rest & R) & N). destruct (step_between (N.of_nat n) p sc wd ch Bn B) as (_ & _ & q & B1 & P1 & P2).
  exists q. split; [|exact P1].
  assert (Kq : Permutation (map key q) (map key (queued sc))).
  { rewrite P1, next_keys. reflexivity. }
  split; [replace (N.of_nat (Datatypes.S n)) with (N.of_nat n + 1)%N by lia; exact B1|]. split; [exact P2|]. split.
  - assert (X : exists r2, Permutation (map key p) (map key (queued sc) ++ r2)).
    { destruct n as [|n]; [exists []; rewrite app_nil_r, Q; reflexivity|].
      destruct (alive_split p) as [r2 E2]. exists r2. rewrite Q. exact E2. }
    destruct X as [r2 E2]. exists (r2 ++ rest). rewrite R, E2, Kq, app_assoc. reflexivity.
  - intros Hs. rewrite Kq, <- (N Hs). destruct n as [|n]; rewrite Q; [reflexivity|]. rewrite alive_all by exact Hs. reflexivity.
Qed.

Lemma start_population (wd : world O (G * bool)) : ready (w_st wd) ->
  population 0 agents (fst (call_init u sched_new wd)) (w_st (snd (call_init u sched_new wd))).
Proof.
  intros Rd. destruct (start_between wd Rd) as [B Q]. split; [exact B|]. rewrite Q. split; [reflexivity|].
  split; [exists []; rewrite app_nil_r; reflexivity|reflexivity].
Qed.

Lemma run_population (wd : world O (G * bool)) : ready (w_st wd) ->
  forall chs, (N.of_nat (length chs) < 18446744073709551616)%N ->
  let c0 := call_init u sched_new wd in
  let c := after_steps u chs (fst c0) (snd c0) in
  exists p, population (length chs) p (fst c) (w_st (snd c)).
Proof.
  intros Rd chs. induction chs as [|ch chs IH] using rev_ind; intros Bn c0 c; subst c.
  - exists agents. apply start_population. exact Rd.
  - rewrite app_length in *. cbn [length] in *. destruct IH as (p & P); [lia|]. rewrite after_snoc.
    replace (length chs + 1) with (Datatypes.S (length chs)) in * by lia.
    destruct (population_step (length chs) _ _ _ ch ltac:(lia) P) as (q & P1 & _). exists q. exact P1.
Qed.

Lemma population_ready n p sc s : population (Datatypes.S n) p sc s -> ready s /\ reads (fst s) p /\ Forall good p.
Proof.
  intros ((_ & _ & _ & _ & Fp & Fl & W & B) & _). replace (N.of_nat (Datatypes.S n) =? 0)%N with false in B by (symmetry; apply N.eqb_neq; lia).
  destruct B as [B1 B2]. split; [split; [exact Fl|split; [exact W|exact B2]]|]. auto.
Qed.

(** What can be read of a population, if its agents are told apart. *)
Variable shows : G -> list O -> Prop.
Hypothesis Unique : NoDup (map key agents).
Hypothesis Shows : forall g p, wf g -> reads g p -> Forall good p -> NoDup (map key p) -> shows g p.

Lemma population_unique n p sc s : population n p sc s -> NoDup (map key p).
Proof.
  intros (_ & _ & (rest & R) & _). apply (Permutation_NoDup R) in Unique.
  apply NoDup_app_elim in Unique. apply Unique.
Qed.
Lemma population_shows n p (c : sched O * world O (G * bool)) : population n p (fst c) (w_st (snd c)) ->
  panicked c = false /\ shows (found publish c) p.
Proof.
  intros P. pose proof (population_unique _ _ _ _ P) as Nd. destruct P as ((Hn & _ & _ & _ & Fp & Fl & W & B) & _). split; [exact Fl|].
  unfold found, space_of. rewrite Hn. destruct (N.of_nat n =? 0)%N.
  - destruct (Publish _ _ W B) as (W' & R' & _). apply Shows; assumption.
  - destruct B as [B _]. apply Shows; assumption.
Qed.

Variable g0 : G.
Hypothesis Ready0 : ready (g0, false).

Lemma stage_in_step : in_step u g0 publish shows next stops agents.
Proof.
  split.
  - pose proof (start_population (World (g0, false) []) Ready0) as P. cbv zeta.
    destruct (population_shows 0 agents (played u g0 []) P) as [E1 E2]. split; [exact E1|]. split; [exact E2|]. apply P.
  - intros chs ch Bn c c'. change (2 ^ 64)%N with 18446744073709551616%N in Bn.
    destruct (run_population (World (g0, false) []) Ready0 chs) as (p & P); [lia|].
    assert (E : c' = step u ch (fst c) (snd c)) by apply after_snoc.
    destruct (population_step (length chs) p _ _ ch Bn P) as (q & P1 & P2).
    exists q. split; [exact P2|]. rewrite E.
    destruct (population_shows _ q (step u ch (fst c) (snd c)) P1) as [E1 E2].
    split; [exact E1|]. split; [exact E2|]. apply P1.
Qed.

(** ** [simulate!] *)
Lemma loop_population chs : forall k i n p sc (wd : world O (G * bool)),
  (N.of_nat n + N.of_nat k < 18446744073709551616)%N ->
  population n p sc (w_st wd) ->
  exists n' q, n <= n' <= n + k /\ (k <> 0 -> n < n') /\
    population n' q (fst (sim_loop u chs i k sc wd)) (w_st (snd (sim_loop u chs i k sc wd))).
Proof.
  induction k as [|k IH]; intros i n p sc wd Bn P; cbn [sim_loop].
  - exists n, p. split; [lia|]. split; [congruence|exact P].
  - destruct (population_step n p sc wd (chs i) ltac:(lia) P) as (q & P1 & _).
    destruct (step u (chs i) sc wd) as [sc1 w1]. cbn [fst snd] in P1. unfold call_end. cbn [stage_user u_end run_hprog].
    destruct (ends (fst (w_st w1))); cbn [fst snd].
    + exists (Datatypes.S n), q. split; [lia|]. split; [lia|exact P1].
    + destruct (IH (Datatypes.S i) (Datatypes.S n) q sc1 (World (w_st w1) (w_trace w1 ++ CEnd false :: api [])) ltac:(lia) P1)
        as (n' & q' & B1 & B2 & P2).
      exists n', q'. split; [lia|]. split; [lia|exact P2].
Qed.

Lemma rep_population chs n (wd : world O (G * bool)) : (N.of_nat n < 18446744073709551616)%N -> n <> 0 -> ready (w_st wd) ->
  exists n' q, population (Datatypes.S n') q (fst (sim_rep u chs n wd)) (w_st (snd (sim_rep u chs n wd))).
Proof.
  intros Bn Hn Rd. unfold sim_rep. pose proof (start_population wd Rd) as P. destruct (call_init u sched_new wd) as [sc w1].
  cbn [fst snd] in P. destruct (loop_population chs n 0 0 agents sc w1 ltac:(lia) P) as (n' & q & B1 & B2 & P1).
  destruct n' as [|n']; [lia|]. eauto.
Qed.

Lemma reps_population chs n : (N.of_nat n < 18446744073709551616)%N -> n <> 0 ->
  forall reps r (wd : world O (G * bool)), ready (w_st wd) ->
  ready (w_st (snd (sim_reps u chs r reps n wd))) /\
  (reps <> 0 -> exists n' q sc, population (Datatypes.S n') q sc (w_st (snd (sim_reps u chs r reps n wd)))).
Proof.
  intros Bn Hn. induction reps as [|reps IH]; intros r wd Rd; cbn [sim_reps]; [split; [exact Rd|congruence]|].
  destruct (rep_population (chs r) n wd Bn Hn Rd) as (n' & q & P).
  destruct (sim_rep u (chs r) n wd) as [sc w1]. cbn [fst snd] in P. destruct (population_ready _ _ _ _ P) as [Rd1 _].
  destruct (IH (Datatypes.S r) w1 Rd1) as [I1 I2]. destruct (sim_reps u chs (Datatypes.S r) reps n w1) as [l w2] eqn:E.
  cbn [snd] in *. split; [exact I1|]. intros _. destruct reps as [|reps]; [|apply I2; lia].
  cbn in E. injection E as <- <-. eauto.
Qed.

Lemma stage_conserved : conserved key u g0 shows stops agents.
Proof.
  intros chs n reps Bn Hn Hr s. change (2 ^ 64)%N with 18446744073709551616%N in Bn.
  destruct (reps_population chs n Bn Hn reps 0 (World (g0, false) []) Ready0) as [_ X].
  destruct (X Hr) as (n' & q & sc & P). pose proof (population_unique _ _ _ _ P) as Nd.
  destruct (population_ready _ _ _ _ P) as [(F & W & _) [R Fq]].
  split; [exact F|]. exists q. split; [apply Shows; assumption|]. apply P.
Qed.
End Stage.
