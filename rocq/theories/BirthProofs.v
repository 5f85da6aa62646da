(** * Proofs about populations with births and deaths *)
From Coq Require Import List Bool ZArith NArith Arith Lia Permutation.
From Verif Require Import F32 F32Facts F32Real SchedModel SchedSpec SchedProofs SchedStep SchedHist SchedTime
  SimModel Grid ObjModel OrderSpec OrderProofs OrderModels OrderInst FlockSpec FlockProofs StageModel StageProofs PStageModel BirthModel BirthSpec.
Import ListNotations.
Local Open Scope nat_scope.

Lemma numbers_succ k : numbers (k + 1) = numbers k ++ [k].
Proof.
  unfold numbers. replace (N.to_nat (k + 1)) with (N.to_nat k + 1) by lia. rewrite seq_app, map_app. cbn. rewrite N2Nat.id. reflexivity.
Qed.
Lemma numbers_NoDup k : NoDup (numbers k).
Proof. unfold numbers. apply FinFun.Injective_map_NoDup; [intros a b; lia|apply seq_NoDup]. Qed.

Section Birth.
Context {O G V B : Type}.
Variable place : G -> O -> option G.
Variable publish : G -> option G.
Variable see : G -> O -> option V.
Variable rule : O -> V -> O.
Variable stops : O -> bool.
Variable ends : G -> bool.
Variable births : G -> option (list B).
Variable newborn : N -> B -> O.
Variable agents : list O.
Variable good : O -> Prop.
Variable wf : G -> Prop.
Variables reads writes : G -> list O -> Prop.
Variable same : G -> G -> Prop.
Variable key : O -> N.
Hypothesis Home : Forall good agents.
Hypothesis Stays : forall o v, good o -> good (rule o v).
Hypothesis Same_refl : forall g, same g g.
Hypothesis Same_trans : forall g1 g2 g3, same g1 g2 -> same g2 g3 -> same g1 g3.
Hypothesis Place : forall g p o, wf g -> writes g p -> good o ->
  exists g', place g o = Some g' /\ wf g' /\ writes g' (p ++ [o]) /\ same g' g.
Hypothesis Publish : forall g p, wf g -> writes g p ->
  exists g', publish g = Some g' /\ wf g' /\ reads g' p /\ writes g' [].
Hypothesis See : forall g o, wf g -> good o -> exists v, see g o = Some v.
Hypothesis See_same : forall g g' o, wf g -> wf g' -> same g' g -> see g' o = see g o.
Hypothesis Births : forall g, wf g -> exists bs, births g = Some bs.
Hypothesis Births_same : forall g g', wf g -> wf g' -> same g' g -> births g' = births g.
Hypothesis Born_good : forall n b, good (newborn n b).
Hypothesis Born_key : forall n b, key (newborn n b) = n.
Hypothesis Same_key : forall o v, key (rule o v) = key o.
Hypothesis First_keys : map key agents = numbers (N.of_nat (length agents)).
Hypothesis Few : (N.of_nat (length agents) < 4294967296)%N.
Notation u := (birth_user place publish see rule stops ends births newborn agents).
Notation alive := (filter (fun o => negb (stops o))).
Notation next := (StageProofs.next see rule).
Notation town := ((G * bool) * N)%type.
Definition litter (g : G) : list B := match births g with Some bs => bs | None => [] end.

Definition lively (l : list (event O)) : Prop := forall e, In e l -> ai_rep (fst e) = true /\ good (ai_agent (fst e)).

Lemma turns_move g k : wf g -> forall l gk p backs s, wf gk -> same gk g -> writes gk p -> lively l ->
  turns u l ((gk, false), k) backs s ->
  exists g', s = ((g', false), k) /\ wf g' /\ same g' g /\ writes g' (p ++ map (next g) (ags l)) /\
    ags backs = alive (map (next g) (ags l)) /\ lively backs.
Proof.
  intros W. induction l as [|e l IH]; intros gk p backs s Wk R H L T.
  - inversion T; subst. exists gk. cbn. rewrite app_nil_r. split; [reflexivity|]. split; [exact Wk|].
    split; [exact R|]. split; [exact H|]. split; [reflexivity|intros ? []].
  - destruct (L e (or_introl eq_refl)) as [Lr Li].
    destruct (step_moves place see rule good wf writes same Stays Place See gk p (ai_agent (fst e)) Wk H Li) as (g1 & E1 & W1 & H1 & R1 & I1).
    assert (En : next gk (ai_agent (fst e)) = next g (ai_agent (fst e))).
    { unfold StageProofs.next. rewrite (See_same g gk _ W Wk R). reflexivity. }
    rewrite En in E1, H1, I1.
    assert (LF : life u (ai_rep (fst e)) (ai_agent (fst e)) ((gk, false), k) =
       (if stops (next g (ai_agent (fst e))) then None else Some (next g (ai_agent (fst e))), ((g1, false), k))).
    { unfold life. cbn [birth_user a_before a_step a_after a_stopped fst snd]. rewrite E1, Lr. reflexivity. }
    assert (L' : lively l) by (intros x Hx; apply L; right; exact Hx).
    assert (R1' : same g1 g) by (eapply Same_trans; eauto).
    inversion T as [|? ? ? ? ? ? T1 T2|? ? ? ? ? ? ? T1 T2]; subst; apply turn_life in T1; destruct T1 as [Tb Ts];
      rewrite LF in Tb, Ts; cbn [fst snd] in Tb, Ts; subst s'; destruct (IH g1 _ _ _ W1 R1' H1 L' T2) as (g' & -> & W' & R' & H' & B' & Lb).
    + exists g'. split; [reflexivity|]. split; [exact W'|]. split; [exact R'|].
      rewrite <- app_assoc in H'. split; [exact H'|]. split; [|exact Lb].
      cbn [ags map filter]. fold (ags l). destruct (stops (next g (ai_agent (fst e)))); [exact B'|discriminate].
    + exists g'. split; [reflexivity|]. split; [exact W'|]. split; [exact R'|].
      rewrite <- app_assoc in H'. split; [exact H'|].
      destruct (stops (next g (ai_agent (fst e)))) eqn:St; [discriminate|]. injection Tb as ->. split.
      * unfold ags in *. cbn [map filter fst ai_agent]. rewrite St. cbn [negb]. rewrite B'. reflexivity.
      * intros x [<-|Hx]; [cbn; auto|apply Lb; exact Hx].
Qed.

(** ** Scheduling new agents: what [init] and [after_step] do with each. *)
(** All events are at [tm]; ids are below the counter, which is [k]. *)
Definition calm (tm : f32) (k : N) (sc : sched O) : Prop :=
  unique_ids (s_events sc) /\ (forall e, In e (s_events sc) -> ev_time e = tm) /\ lively (s_events sc) /\
  (forall e, In e (s_events sc) -> (ev_id e < k)%N) /\ s_ids sc = k.

Lemma enlist tm k sc o : calm tm k sc -> good o -> (k + 1 < 4294967296)%N ->
  let sc1 := fst (do_op sc (OpRepeating o tm 0)) in
  calm tm (k + 1) sc1 /\ queued sc1 = queued sc ++ [o] /\ s_step sc1 = s_step sc /\ s_time sc1 = s_time sc.
Proof.
  intros (U & Tm & L & Ids & Ek) Ho Bd. cbn [do_op]. unfold schedule_repeating.
  assert (Fr : ~ In (s_ids sc) (map ev_id (s_events sc))).
  { intros Hin. apply in_map_iff in Hin. destruct Hin as (e & Ee & He). specialize (Ids e He). lia. }
  rewrite (pq_push_fresh (AI (s_ids sc) o true) (Prio tm 0) (s_events sc) Fr). cbn [fst].
  assert (Eu : u32_succ (s_ids sc) = (k + 1)%N) by (unfold u32_succ; rewrite Ek; apply N.mod_small; change u32_mod with 4294967296%N; lia).
  assert (In1 : forall e, In e (s_events sc ++ [(AI (s_ids sc) o true, Prio tm 0)]) -> In e (s_events sc) \/ e = (AI (s_ids sc) o true, Prio tm 0)).
  { intros e He. apply in_app_or in He. destruct He as [He|[He|[]]]; auto. }
  split; [|split; [|split; reflexivity]].
  - split; [|split; [|split; [|split; [|exact Eu]]]]; cbn [s_events].
    + unfold unique_ids. rewrite map_app. apply NoDup_app_one; [exact U|exact Fr].
    + intros e He. destruct (In1 e He) as [He'| ->]; [apply Tm; exact He'|reflexivity].
    + intros e He. destruct (In1 e He) as [He'| ->]; [apply L; exact He'|cbn; auto].
    + intros e He. destruct (In1 e He) as [He'| ->]; cbn; [specialize (Ids e He')|]; lia.
  - unfold queued. cbn [s_events]. rewrite map_app. reflexivity.
Qed.

Lemma deliver_calm tm : forall bs (sc : sched O) g p k,
  wf g -> writes g p -> calm tm k sc -> fadd (s_time sc) f1 = tm -> (k + N.of_nat (length bs) < 4294967296)%N ->
  let r := run_hprog (deliver place newborn bs ((g, false), k)) sc in
  exists g', snd (fst r) = ((g', false), (k + N.of_nat (length bs))%N) /\ wf g' /\
    writes g' (p ++ numbered newborn k bs) /\
    calm tm (k + N.of_nat (length bs)) (fst (fst r)) /\ queued (fst (fst r)) = queued sc ++ numbered newborn k bs /\
    s_step (fst (fst r)) = s_step sc /\ s_time (fst (fst r)) = s_time sc.
Proof.
  induction bs as [|b bs IH]; intros sc g p k W H C Et Bd r; subst r.
  - cbn. exists g. rewrite !N.add_0_r, !app_nil_r. auto 10.
  - cbn [deliver fst snd length numbered] in *. cbn [run_hprog do_op].
    destruct (enlist tm k sc (newborn k b) C (Born_good _ _) ltac:(lia)) as (C1 & Q1 & S1 & T1).
    cbn [do_op] in C1, Q1, S1, T1. rewrite Et.
    destruct (schedule_repeating sc (newborn k b) tm 0) as [sc1 x]. cbn [fst] in C1, Q1, S1, T1.
    unfold stage_place. cbn [fst snd]. destruct (Place g p (newborn k b) W H (Born_good _ _)) as (g1 & E & W1 & H1 & _). rewrite E.
    destruct (IH sc1 g1 _ (k + 1)%N W1 H1 C1 ltac:(congruence) ltac:(lia)) as (g' & R1 & R2 & R3 & R4 & R5 & R6 & R7).
    destruct (run_hprog (deliver place newborn bs ((g1, false), (k + 1)%N)) sc1) as [[sc2 s2] lg]. cbn [fst snd] in *.
    exists g'. replace (k + N.of_nat (Datatypes.S (length bs)))%N with (k + 1 + N.of_nat (length bs))%N by lia.
    split; [exact R1|]. split; [exact R2|]. rewrite <- app_assoc in R3. split; [exact R3|]. split; [exact R4|].
    split; [rewrite R5, Q1, <- app_assoc; reflexivity|]. split; congruence.
Qed.

Lemma init_calm : forall l (sc : sched O) g p k,
  wf g -> writes g p -> Forall good l -> calm f0 k sc -> (k + N.of_nat (length l) < 4294967296)%N ->
  let r := run_hprog (birth_init place l ((g, false), k)) sc in
  exists g', snd (fst r) = ((g', false), (k + N.of_nat (length l))%N) /\ wf g' /\ writes g' (p ++ l) /\
    calm f0 (k + N.of_nat (length l)) (fst (fst r)) /\ queued (fst (fst r)) = queued sc ++ l /\
    s_step (fst (fst r)) = s_step sc /\ s_time (fst (fst r)) = s_time sc.
Proof.
  induction l as [|o l IH]; intros sc g p k W H F C Bd r; subst r.
  - cbn. exists g. rewrite !N.add_0_r, !app_nil_r. auto 10.
  - apply Forall_cons_iff in F. destruct F as [Ho F]. cbn [birth_init fst snd length] in *. cbn [run_hprog do_op].
    destruct (enlist f0 k sc o C Ho ltac:(lia)) as (C1 & Q1 & S1 & T1). cbn [do_op] in C1, Q1, S1, T1.
    destruct (schedule_repeating sc o f0 0) as [sc1 x]. cbn [fst] in C1, Q1, S1, T1.
    unfold stage_place. cbn [fst snd]. destruct (Place g p o W H Ho) as (g1 & E & W1 & H1 & _). rewrite E.
    destruct (IH sc1 g1 _ (k + 1)%N W1 H1 F C1 ltac:(lia)) as (g' & R1 & R2 & R3 & R4 & R5 & R6 & R7).
    destruct (run_hprog (birth_init place l ((g1, false), (k + 1)%N)) sc1) as [[sc2 s2] lg]. cbn [fst snd] in *.
    exists g'. replace (k + N.of_nat (Datatypes.S (length l)))%N with (k + 1 + N.of_nat (length l))%N by lia.
    split; [exact R1|]. split; [exact R2|]. rewrite <- app_assoc in R3. split; [exact R3|]. split; [exact R4|].
    split; [rewrite R5, Q1, <- app_assoc; reflexivity|]. split; congruence.
Qed.

(** ** One step *)
Definition between (n : N) (p : list O) (sc : sched O) (s : town) : Prop :=
  s_step sc = n /\ good_time (s_time sc) /\ (exists tm, good_time tm /\ calm tm (snd s) sc) /\
  Forall good p /\ snd (fst s) = false /\ wf (fst (fst s)) /\
  (if (n =? 0)%N then writes (fst (fst s)) p else reads (fst (fst s)) p /\ writes (fst (fst s)) []).

Lemma good_time_next t : good_time t -> good_time (fadd t f1).
Proof. intros [Tv Tn]. split; [apply fadd_valid; [exact Tv|reflexivity]|]. apply fadd_one_ge; assumption. Qed.

Lemma numbered_good bs : forall k, Forall good (numbered newborn k bs).
Proof. induction bs; cbn; auto. Qed.
Lemma numbered_length bs : forall k, length (numbered newborn k bs) = length bs.
Proof. induction bs; cbn; auto. Qed.

(** The counter never goes down, whatever the rest. *)
Lemma after_counts s sc : (snd s <= snd (snd (fst (run_hprog (birth_after place births newborn s) sc))))%N.
Proof.
  unfold birth_after. destruct (births (fst (fst s))) as [bs|]; [|cbn; lia]. revert s sc. induction bs as [|b bs IH]; intros s sc; [cbn; lia|].
  cbn [deliver run_hprog do_op]. destruct (schedule_repeating sc _ _ _) as [sc1 x]. specialize (IH (stage_place place (newborn (snd s) b) (fst s), (snd s + 1)%N) sc1).
  destruct (run_hprog _ sc1) as [[a c] l]. cbn [fst snd] in *. lia.
Qed.

Lemma step_between n p sc (wd : world O town) ch : (n + 1 < 18446744073709551616)%N ->
  between n p sc (w_st wd) -> (snd (w_st (snd (step u ch sc wd))) < 4294967296)%N ->
  let g := met publish (sc, wd) in
  let k := snd (w_st wd) in
  wf g /\ reads g p /\
  exists q, let babies := numbered newborn k (litter g) in
    between (n + 1) (q ++ babies) (fst (step u ch sc wd)) (w_st (snd (step u ch sc wd))) /\
    Permutation q (map (next g) (queued sc)) /\
    Permutation (queued (fst (step u ch sc wd))) (alive q ++ babies) /\
    snd (w_st (snd (step u ch sc wd))) = (k + N.of_nat (length (litter g)))%N.
Proof.
  intros Bn (Hn & Gt & (tm & Gm & (U & Tm & L & Ids & Ek)) & Fp & Fl & W & B0) Bk g k.
  destruct (w_st wd) as [[gw b] k0] eqn:Ew. cbn [fst snd] in *. subst b k.
  assert (X : st0 u sc wd = ((g, false), k0) /\ wf g /\ reads g p /\ writes g []).
  { unfold st0, g, met, land_of. cbn [fst snd]. rewrite Hn, Ew. cbn [fst]. destruct (n =? 0)%N.
    - cbn [birth_user u_update fst snd]. unfold pstage_update. cbn [fst snd]. destruct (Publish gw p W B0) as (g' & -> & X). auto.
    - destruct B0. auto. }
  destruct X as (E0 & Wf & Rf & Zf). split; [exact Wf|]. split; [exact Rf|].
  destruct (step u ch sc wd) as [sc' w'] eqn:E. apply step_anatomy in E; [|exact U].
  destruct E as (sc1 & s1 & l1 & due & rest & backs & s2 & tr & now & sc3 & s3 & l3 & B1 & U1 & P & N0 & N1 & T & U2 & _ & Af & -> & Ew' & _).
  rewrite E0 in B1. cbn in B1. injection B1 as <- <- <-.
  assert (Er : rest = [] /\ good_time now /\ (forall e, In e (s_events sc) -> ev_time e = now)).
  { destruct (s_events sc) as [|e0 q0] eqn:Q.
    - apply Permutation_nil in P. apply app_eq_nil in P. split; [apply P|]. split; [rewrite N0 by reflexivity; exact Gt|intros ? []].
    - rewrite <- Q in *. destruct N1 as (e1 & Pk & Nw & Pd); [congruence|].
      assert (He1 : In e1 (s_events sc)) by (eapply pq_peek_In; exact Pk).
      split; [exact (all_due ch now _ due rest e1 U (ex_intro _ tm (conj Gm Tm)) Pk Nw Pd)|].
      rewrite Nw, (Tm _ He1). split; [exact Gm|exact Tm]. }
  destruct Er as (-> & Gn & Tn). rewrite app_nil_r in P. cbn [app] in U2, Af.
  assert (Ld : lively due) by (intros e He; apply L; eapply Permutation_in; [symmetry; exact P|exact He]).
  destruct (turns_move g k0 Wf due g [] backs s2 Wf (Same_refl g) Zf Ld T) as (g2 & -> & W2 & R2 & H2 & B2 & L2).
  cbn [app] in H2.
  assert (El : births g2 = Some (litter g)).
  { rewrite (Births_same g g2 Wf W2 R2). unfold litter. destruct (Births g Wf) as [bs ->]. reflexivity. }
  cbn [birth_user u_after] in Af. unfold birth_after in Af. cbn [fst] in Af. rewrite El in Af.
  cbn [birth_user u_update fst snd] in Ew'. cbn [fst snd] in Bk.
  assert (Cm : calm (fadd now f1) k0 (Sched (s_step sc) now backs (s_ids sc))).
  { split; [exact U2|]. split; [|split; [exact L2|split; [|exact Ek]]].
    - intros e He. destruct (turns_backs _ _ _ _ _ T e He) as (e' & He' & Et & _). rewrite Et, (Tn e'); [reflexivity|].
      eapply Permutation_in; [symmetry; exact P|exact He'].
    - intros e He. destruct (turns_backs _ _ _ _ _ T e He) as (e' & He' & _ & _ & Ei).
      rewrite Ei. apply Ids. eapply Permutation_in; [symmetry; exact P|exact He']. }
  assert (Bl : (k0 + N.of_nat (length (litter g)) < 4294967296)%N).
  { assert (Sk : snd s3 = (k0 + N.of_nat (length (litter g)))%N); [|rewrite Ew' in Bk; cbn [snd] in Bk; lia].
    clear - Af. replace s3 with (snd (fst (run_hprog (deliver place newborn (litter g) ((g2, false), k0)) (Sched (s_step sc) now backs (s_ids sc))))) by (rewrite Af; reflexivity).
    clear Af. generalize (Sched (s_step sc) now backs (s_ids sc)) as q. generalize ((g2, false)) as y. revert k0. induction (litter g) as [|b bs IH]; intros k y q; [cbn; lia|].
    cbn [deliver run_hprog do_op fst snd length]. destruct (schedule_repeating q _ _ _) as [q1 x].
    specialize (IH (k + 1)%N (stage_place place (newborn k b) y) q1). destruct (run_hprog _ q1) as [[a c] l]. cbn [fst snd] in *. lia. }
  destruct (deliver_calm (fadd now f1) (litter g) _ g2 _ k0 W2 H2 Cm eq_refl Bl) as (g3 & S3 & W3 & H3 & C3 & Q3 & St3 & Ti3).
  rewrite Af in S3, C3, Q3, St3, Ti3. cbn [fst snd s_step s_time] in S3, C3, Q3, St3, Ti3. subst s3.
  destruct (Publish g3 _ W3 H3) as (g4 & E4 & W4 & R4 & Z4).
  unfold pstage_update in Ew'. cbn [fst snd] in Ew'. rewrite E4 in Ew'.
  exists (map (next g) (ags due)). cbn [fst snd]. rewrite Ew'. cbn [fst snd].
  assert (Es : u64_succ (s_step sc) = (n + 1)%N) by (rewrite Hn; apply u64_succ_small; exact Bn).
  split; [|split; [|split; [|reflexivity]]].
  - split; [exact Es|]. cbn [s_time]. split; [rewrite Ti3; exact Gn|]. split; [exists (fadd now f1); split; [apply good_time_next; exact Gn|exact C3]|].
    split; [|split; [reflexivity|split; [exact W4|]]].
    + apply Forall_app. split; [|apply numbered_good]. apply Forall_forall. intros o Ho. apply in_map_iff in Ho. destruct Ho as (o1 & <- & Ho).
      apply in_map_iff in Ho. destruct Ho as (e & <- & He). destruct (Ld e He) as [_ Gd]. unfold StageProofs.next.
      destruct (See g _ Wf Gd) as [v ->]. apply Stays. exact Gd.
    + replace (n + 1 =? 0)%N with false by (symmetry; apply N.eqb_neq; lia). auto.
  - apply Permutation_map. unfold queued, ags. apply Permutation_map. symmetry. exact P.
  - change (queued (Sched (u64_succ (s_step sc)) (s_time sc3) (s_events sc3) (s_ids sc3))) with (queued sc3). rewrite Q3.
    change (queued (Sched (s_step sc) now backs (s_ids sc))) with (ags backs). rewrite B2. reflexivity.
Qed.

(** ** Runs *)
Definition ready (g : G) : Prop := wf g /\ writes g [].
Variable g0 : G.
Hypothesis Ready0 : ready g0.

Lemma start_between :
  let c := lived u g0 [] in
  between 0 agents (fst c) (w_st (snd c)) /\ queued (fst c) = agents /\ made c = N.of_nat (length agents).
Proof.
  destruct Ready0 as [W H]. unfold lived, made. change (after_steps u [] ?a ?b) with (a, b). cbv zeta. cbn [fst snd]. unfold call_init. cbn [birth_user u_init w_st].
  assert (C : calm f0 0 (@sched_new O)).
  { split; [constructor|]. split; [intros ? []|]. split; [intros ? []|]. split; [intros ? []|reflexivity]. }
  destruct (init_calm agents sched_new g0 [] 0%N W H Home C ltac:(rewrite N.add_0_l; exact Few)) as (g' & R1 & R2 & R3 & R4 & R5 & R6 & R7).
  destruct (run_hprog _ _) as [[a b] l]. cbn [fst snd w_st] in *. rewrite N.add_0_l in *. subst b. cbn [fst snd].
  split; [|split; [exact R5|reflexivity]].
  split; [exact R6|]. split; [rewrite R7; split; reflexivity|]. split; [exists f0; split; [split; reflexivity|exact R4]|].
  split; [exact Home|]. split; [reflexivity|]. split; [exact R2|exact R3].
Qed.

Lemma lived_snoc chs ch : lived u g0 (chs ++ [ch]) = step u ch (fst (lived u g0 chs)) (snd (lived u g0 chs)).
Proof. unfold lived, after_steps. rewrite map_app. unfold acts. rewrite fold_left_app. reflexivity. Qed.

(** Keys: all numbers so far are those queued and those gone. *)
Definition registered (c : sched O * world O town) : Prop :=
  (exists gone, Permutation (numbers (made c)) (map key (queued (fst c)) ++ gone)) /\
  ((forall o, stops o = false) -> Permutation (numbers (made c)) (map key (queued (fst c)))).

Lemma numbered_keys bs : forall k, numbers (k + N.of_nat (length bs)) = numbers k ++ map key (numbered newborn k bs).
Proof.
  induction bs as [|b bs IH]; intros k; cbn [length numbered map].
  - rewrite N.add_0_r, app_nil_r. reflexivity.
  - replace (k + N.of_nat (Datatypes.S (length bs)))%N with (k + 1 + N.of_nat (length bs))%N by lia.
    rewrite IH, numbers_succ, Born_key, <- app_assoc. reflexivity.
Qed.
Lemma next_keys g l : map key (map (next g) l) = map key l.
Proof. rewrite map_map. apply map_ext. intros o. unfold StageProofs.next. destruct (see g o); [apply Same_key|reflexivity]. Qed.
Lemma alive_split p : exists rest, Permutation (map key p) (map key (alive p) ++ rest).
Proof.
  exists (map key (filter stops p)). rewrite <- map_app. apply Permutation_map.
  induction p as [|o p IH]; cbn; [constructor|]. destruct (stops o); cbn; [|constructor; exact IH].
  apply Permutation_cons_app. exact IH.
Qed.

Variable shows : G -> list O -> Prop.
Hypothesis Shows : forall g p, wf g -> reads g p -> Forall good p -> NoDup (map key p) -> shows g p.

Definition population (n : nat) (p : list O) (c : sched O * world O town) : Prop :=
  between (N.of_nat n) p (fst c) (w_st (snd c)) /\ registered c /\ NoDup (map key p).

Lemma population_step n p c ch : (N.of_nat n + 1 < 18446744073709551616)%N -> population n p c ->
  (made (step u ch (fst c) (snd c)) < 4294967296)%N ->
  let c' := step u ch (fst c) (snd c) in
  let babies := numbered newborn (made c) (litter (met publish c)) in
  exists q, population (Datatypes.S n) (q ++ babies) c' /\ Permutation q (map (next (met publish c)) (queued (fst c))) /\
    Permutation (queued (fst c')) (alive q ++ babies) /\ made c' = (made c + N.of_nat (length babies))%N.
Proof.
  intros Bn (B1 & ((gone & R) & Rn) & _) Bk c' babies. destruct c as [sc wd]. cbn [fst snd] in *.
  destruct (step_between (N.of_nat n) p sc wd ch Bn B1 Bk) as (_ & _ & q & X). cbv zeta in X. change (snd (w_st wd)) with (made (sc, wd)) in X.
  fold babies in X. destruct X as (B2 & P1 & P2 & M). fold c' in B2, P2, M. change (snd (w_st (snd c'))) with (made c') in M.
  assert (Kq : Permutation (map key q) (map key (queued sc))) by (rewrite P1, next_keys; reflexivity).
  assert (Kn : numbers (made c') = numbers (made (sc, wd)) ++ map key babies) by (rewrite M; apply numbered_keys).
  assert (Kp : Permutation (numbers (made c')) (map key (q ++ babies) ++ gone)).
  { rewrite Kn, R, map_app, Kq, <- !app_assoc. apply Permutation_app_head. apply Permutation_app_comm. }
  exists q. split; [|split; [exact P1|split; [exact P2|unfold babies; rewrite numbered_length; exact M]]].
  split; [replace (N.of_nat (Datatypes.S n)) with (N.of_nat n + 1)%N by lia; exact B2|]. split; [split|].
  - destruct (alive_split q) as [r2 E2]. exists (r2 ++ gone). rewrite Kp, P2, !map_app, E2, <- !app_assoc. apply Permutation_app_head.
    rewrite !app_assoc. apply Permutation_app_tail. apply Permutation_app_comm.
  - intros Hs. rewrite Kn, (Rn Hs), P2, map_app, <- Kq. rewrite (StageProofs.alive_all stops q Hs). reflexivity.
  - pose proof (Permutation_NoDup Kp (numbers_NoDup (made c'))) as ND.
    apply NoDup_app_elim in ND. apply ND.
Qed.

Lemma population_shows n p c : population n p c -> failed c = false /\ shows (met publish c) p.
Proof.
  intros ((Hn & _ & _ & Fp & Fl & W & B1) & _ & Nd). split; [exact Fl|]. unfold met, land_of. rewrite Hn. destruct (N.of_nat n =? 0)%N.
  - destruct (Publish _ _ W B1) as (g' & -> & W' & R' & _). apply Shows; assumption.
  - destruct B1 as [B1 _]. apply Shows; assumption.
Qed.

Lemma start_population : population 0 agents (lived u g0 []).
Proof.
  destruct start_between as (B1 & Q & M). split; [exact B1|]. split.
  - assert (E : Permutation (numbers (made (lived u g0 []))) (map key (queued (fst (lived u g0 []))))).
    { rewrite M, Q, First_keys. reflexivity. }
    split; [exists []; rewrite app_nil_r; exact E|intros _; exact E].
  - rewrite First_keys. apply numbers_NoDup.
Qed.

Lemma step_counts ch sc (wd : world O town) : unique_ids (s_events sc) -> (snd (w_st wd) <= snd (w_st (snd (step u ch sc wd))))%N.
Proof.
  intros U. destruct (step u ch sc wd) as [sc' w'] eqn:E. apply step_anatomy in E; [|exact U].
  destruct E as (sc1 & s1 & l1 & due & rest & backs & s2 & tr & now & sc3 & s3 & l3 & B1 & _ & _ & _ & _ & T & _ & _ & Af & _ & Ew' & _).
  cbn [snd]. rewrite Ew'. cbn [birth_user u_update snd].
  assert (S1 : snd s1 = snd (w_st wd)).
  { cbn in B1. injection B1 as <- <- <-. unfold st0. destruct (s_step sc =? 0)%N; reflexivity. }
  assert (S2 : snd s2 = snd s1).
  { clear - T. induction T as [s|e l s s' bk s'' T1 T2 IH|e l bb s s' bk s'' T1 T2 IH]; [reflexivity| |]; rewrite IH; apply turn_life in T1; destruct T1 as [_ T1]; rewrite T1;
      unfold life; cbn [birth_user a_before a_step a_after a_stopped]; destruct (stage_step _ _ _ _ _); cbn; destruct (ai_rep _); reflexivity. }
  pose proof (after_counts s2 (Sched (s_step sc1) now (rest ++ backs) (s_ids sc1))) as X. cbn [birth_user u_after] in Af. rewrite Af in X. cbn [fst snd] in X. lia.
Qed.

Lemma run_population chs : (N.of_nat (length chs) < 18446744073709551616)%N -> (made (lived u g0 chs) < 4294967296)%N ->
  exists p, population (length chs) p (lived u g0 chs).
Proof.
  induction chs as [|ch chs IH] using rev_ind; intros Bn Bk; [exists agents; apply start_population|].
  rewrite app_length in *. cbn [length] in *. replace (length chs + 1) with (Datatypes.S (length chs)) in * by lia.
  rewrite lived_snoc in *.
  assert (X : unique_ids (s_events (fst (lived u g0 chs)))).
  { unfold lived, after_steps. apply acts_unique. unfold call_init. destruct (run_hprog (u_init u _) sched_new) as [[a b] l] eqn:E.
    apply run_hprog_unique in E; [exact E|constructor]. }
  destruct IH as (p & P); [lia| |].
  - pose proof (step_counts ch _ (snd (lived u g0 chs)) X). unfold made in *. lia.
  - destruct (population_step (length chs) p _ ch ltac:(lia) P Bk) as (q & P1 & _). eauto.
Qed.

Lemma birth_in_step : grows_in_step key u g0 publish shows next litter newborn stops agents.
Proof.
  split.
  - cbv zeta. destruct (population_shows _ _ _ start_population) as [E1 E2]. destruct start_between as (_ & Q & M).
    split; [exact E1|]. split; [exact E2|]. split; [rewrite Q; reflexivity|exact M].
  - intros chs ch c c' Bn Bk babies. change (2 ^ 64)%N with 18446744073709551616%N in Bn. change (2 ^ 32)%N with 4294967296%N in Bk.
    assert (Ec : c' = step u ch (fst c) (snd c)) by apply lived_snoc.
    destruct (run_population chs) as (p & P).
    + lia.
    + assert (X : unique_ids (s_events (fst (lived u g0 chs)))).
      { unfold lived, after_steps. apply acts_unique. unfold call_init. destruct (run_hprog (u_init u _) sched_new) as [[a b] l] eqn:E.
        apply run_hprog_unique in E; [exact E|constructor]. }
      pose proof (step_counts ch _ (snd (lived u g0 chs)) X) as Y. fold c in Y. rewrite <- Ec in Y. exact (N.le_lt_trans _ _ _ Y Bk).
    + fold c in P. destruct (population_step (length chs) p c ch Bn P) as (q & P1 & P2 & P3 & P4); [rewrite <- Ec; exact Bk|].
      rewrite <- Ec in P1, P3, P4. destruct (population_shows _ _ _ P1) as [E1 E2]. exists q.
      split; [exact P2|]. split; [exact E1|]. split; [exact E2|]. split; [exact P3|]. split; [exact P4|]. apply P1.
Qed.
End Birth.
