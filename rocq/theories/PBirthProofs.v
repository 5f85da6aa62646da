(** * Proofs about populations of the parallel build with births and deaths *)
From Coq Require Import List Bool ZArith NArith Arith Lia Permutation.
From Verif Require Import F32 F32Facts F32Real SchedModel SchedSpec SchedProofs SchedStep SchedHist SchedTime
  ParModel ParSpec ParProofs SimModel Grid ObjModel OrderSpec OrderProofs OrderModels OrderInst FlockSpec FlockProofs
  StageModel StageProofs PStageModel PStageSpec PStageProofs BirthModel BirthSpec BirthProofs PBirthModel PBirthSpec.
Import ListNotations.
Local Open Scope nat_scope.

(** ** Scheduling new agents: what [init] and [after_step] do with each *)
Section Programs.
Context {O G B : Type}.
Variable place : G -> O -> option G.
Variable births : G -> option (list B).
Variable newborn : N -> B -> O.
Lemma par_after_counts s sc : (snd s <= snd (snd (fst (par_run_hprog (birth_after place births newborn s) sc))))%N.
Proof.
  unfold birth_after. destruct (births (fst (fst s))) as [bs|]; [|cbn; lia]. revert s sc. induction bs as [|b bs IH]; intros s sc; [cbn; lia|].
  cbn [deliver par_run_hprog par_do_op]. destruct (schedule_repeating sc _ _ _) as [sc1 x]. cbn [fst]. specialize (IH (stage_place place (newborn (snd s) b) (fst s), (snd s + 1)%N) sc1).
  destruct (par_run_hprog _ sc1) as [[a c] l]. cbn [fst snd] in *. lia.
Qed.

Lemma par_deliver_counts : forall bs s (sc : sched O),
  snd (snd (fst (par_run_hprog (deliver place newborn bs s) sc))) = (snd s + N.of_nat (length bs))%N.
Proof.
  induction bs as [|b bs IH]; intros s sc; [cbn; lia|]. cbn [deliver par_run_hprog par_do_op length].
  destruct (schedule_repeating sc _ _ _) as [sc1 x]. cbn [fst]. specialize (IH (stage_place place (newborn (snd s) b) (fst s), (snd s + 1)%N) sc1).
  destruct (par_run_hprog _ sc1) as [[a c] l]. cbn [fst snd] in *. lia.
Qed.

Variable key : O -> N.
Hypothesis Born_key : forall n b, key (newborn n b) = n.
Lemma born_keys bs : forall k, numbers (k + N.of_nat (length bs)) = numbers k ++ map key (numbered newborn k bs).
Proof.
  induction bs as [|b bs IH]; intros k; cbn [length numbered map].
  - rewrite N.add_0_r, app_nil_r. reflexivity.
  - replace (k + N.of_nat (Datatypes.S (length bs)))%N with (k + 1 + N.of_nat (length bs))%N by lia.
    rewrite IH, numbers_succ, Born_key, <- app_assoc. reflexivity.
Qed.
End Programs.

Section Calm.
Context {O G : Type}.
Variable place : G -> O -> option G.
Variable good : O -> Prop.
Variable wf : G -> Prop.
Variable writes : G -> list O -> Prop.
Variable same : G -> G -> Prop.
Hypothesis Place : forall g p o, wf g -> writes g p -> good o ->
  exists g', place g o = Some g' /\ wf g' /\ writes g' (p ++ [o]) /\ same g' g.
Notation calm := (calm good).

Lemma par_enlist tm k sc o : calm tm k sc -> good o -> (k + 1 < 4294967296)%N ->
  let sc1 := fst (par_do_op sc (OpRepeating o tm 0)) in
  calm tm (k + 1) sc1 /\ queued sc1 = queued sc ++ [o] /\ s_step sc1 = s_step sc /\ s_time sc1 = s_time sc.
Proof.
  intros (U & Tm & L & Ids & Ek) Ho Bd. cbn [par_do_op]. unfold schedule_repeating.
  assert (Fr : ~ In (s_ids sc) (map ev_id (s_events sc))).
  { intros Hin. apply in_map_iff in Hin. destruct Hin as (e & Ee & He). specialize (Ids e He). lia. }
  rewrite (pq_push_fresh (AI (s_ids sc) o true) (Prio tm 0) (s_events sc) Fr). cbn [fst].
  assert (Eu : u32_succ (s_ids sc) = (k + 1)%N) by (unfold u32_succ; rewrite Ek; apply N.mod_small; change u32_mod with 4294967296%N; lia).
  assert (In1 : forall e, In e (s_events sc ++ [(AI (s_ids sc) o true, Prio tm 0)]) -> In e (s_events sc) \/ e = (AI (s_ids sc) o true, Prio tm 0)).
  { intros e He. apply in_app_or in He. destruct He as [He|[He|[]]]; auto. }
  split; [|split; [|split; reflexivity]].
  - split; [|split; [|split; [|split; [|exact Eu]]]]; cbn [s_events].
    + unfold unique_ids. rewrite map_app. apply NoDup_app_one; [exact U|exact Fr].
    + intros e He. destruct (In1 e He) as [He'| ->]; [apply Tm; exact He'|reflexivity].
    + intros e He. destruct (In1 e He) as [He'| ->]; [apply L; exact He'|cbn; auto].
    + intros e He. destruct (In1 e He) as [He'| ->]; cbn; [specialize (Ids e He')|]; lia.
  - unfold queued. cbn [s_events]. rewrite map_app. reflexivity.
Qed.

Lemma par_init_calm : forall l (sc : sched O) g p k,
  wf g -> writes g p -> Forall good l -> calm f0 k sc -> (k + N.of_nat (length l) < 4294967296)%N ->
  let r := par_run_hprog (birth_init place l ((g, false), k)) sc in
  exists g', snd (fst r) = ((g', false), (k + N.of_nat (length l))%N) /\ wf g' /\ writes g' (p ++ l) /\
    calm f0 (k + N.of_nat (length l)) (fst (fst r)) /\ queued (fst (fst r)) = queued sc ++ l /\
    s_step (fst (fst r)) = s_step sc /\ s_time (fst (fst r)) = s_time sc.
Proof.
  induction l as [|o l IH]; intros sc g p k W H F C Bd r; subst r.
  - cbn. exists g. rewrite !N.add_0_r, !app_nil_r. auto 10.
  - apply Forall_cons_iff in F. destruct F as [Ho F]. cbn [birth_init fst snd length] in *. cbn [par_run_hprog par_do_op].
    destruct (par_enlist f0 k sc o C Ho ltac:(lia)) as (C1 & Q1 & S1 & T1). cbn [par_do_op] in C1, Q1, S1, T1.
    destruct (schedule_repeating sc o f0 0) as [sc1 x]. cbn [fst]. cbn [fst] in C1, Q1, S1, T1.
    unfold stage_place. cbn [fst snd]. destruct (Place g p o W H Ho) as (g1 & E & W1 & H1 & _). rewrite E.
    destruct (IH sc1 g1 _ (k + 1)%N W1 H1 F C1 ltac:(lia)) as (g' & R1 & R2 & R3 & R4 & R5 & R6 & R7).
    destruct (par_run_hprog (birth_init place l ((g1, false), (k + 1)%N)) sc1) as [[sc2 s2] lg]. cbn [fst snd] in *.
    exists g'. replace (k + N.of_nat (Datatypes.S (length l)))%N with (k + 1 + N.of_nat (length l))%N by lia.
    split; [exact R1|]. split; [exact R2|]. rewrite <- app_assoc in R3. split; [exact R3|]. split; [exact R4|].
    split; [rewrite R5, Q1, <- app_assoc; reflexivity|]. split; congruence.
Qed.

Context {B : Type}.
Variable newborn : N -> B -> O.
Hypothesis Born_good : forall n b, good (newborn n b).
Lemma par_deliver_calm tm : forall bs (sc : sched O) g p k,
  wf g -> writes g p -> calm tm k sc -> fadd (s_time sc) f1 = tm -> (k + N.of_nat (length bs) < 4294967296)%N ->
  let r := par_run_hprog (deliver place newborn bs ((g, false), k)) sc in
  exists g', snd (fst r) = ((g', false), (k + N.of_nat (length bs))%N) /\ wf g' /\
    writes g' (p ++ numbered newborn k bs) /\
    calm tm (k + N.of_nat (length bs)) (fst (fst r)) /\ queued (fst (fst r)) = queued sc ++ numbered newborn k bs /\
    s_step (fst (fst r)) = s_step sc /\ s_time (fst (fst r)) = s_time sc.
Proof.
  induction bs as [|b bs IH]; intros sc g p k W H C Et Bd r; subst r.
  - cbn. exists g. rewrite !N.add_0_r, !app_nil_r. auto 10.
  - cbn [deliver fst snd length numbered] in *. cbn [par_run_hprog par_do_op].
    destruct (par_enlist tm k sc (newborn k b) C (Born_good _ _) ltac:(lia)) as (C1 & Q1 & S1 & T1).
    cbn [par_do_op] in C1, Q1, S1, T1. rewrite Et.
    destruct (schedule_repeating sc (newborn k b) tm 0) as [sc1 x]. cbn [fst]. cbn [fst] in C1, Q1, S1, T1.
    unfold stage_place. cbn [fst snd]. destruct (Place g p (newborn k b) W H (Born_good _ _)) as (g1 & E & W1 & H1 & _). rewrite E.
    destruct (IH sc1 g1 _ (k + 1)%N W1 H1 C1 ltac:(congruence) ltac:(lia)) as (g' & R1 & R2 & R3 & R4 & R5 & R6 & R7).
    destruct (par_run_hprog (deliver place newborn bs ((g1, false), (k + 1)%N)) sc1) as [[sc2 s2] lg]. cbn [fst snd] in *.
    exists g'. replace (k + N.of_nat (Datatypes.S (length bs)))%N with (k + 1 + N.of_nat (length bs))%N by lia.
    split; [exact R1|]. split; [exact R2|]. rewrite <- app_assoc in R3. split; [exact R3|]. split; [exact R4|].
    split; [rewrite R5, Q1, <- app_assoc; reflexivity|]. split; congruence.
Qed.
End Calm.

Section Birth.
Context {O G V B : Type}.
Variable place : G -> O -> option G.
Variable publish : G -> option G.
Variable see : G -> O -> option V.
Variable rule : O -> V -> O.
Variable stops : O -> bool.
Variable ends : G -> bool.
Variable births : G -> option (list B).
Variable newborn : N -> B -> O.
Variable agents : list O.
Variable limit : N.
Hypothesis Limit : (limit <= 4294967296)%N.
Variable good : O -> Prop.
Variable wf : G -> Prop.
Variables reads writes : G -> list O -> Prop.
Variable same : G -> G -> Prop.
Variable key : O -> N.
Hypothesis Home : Forall good agents.
Hypothesis Stays : forall o v, good o -> good (rule o v).
Hypothesis Same_refl : forall g, same g g.
Hypothesis Same_trans : forall g1 g2 g3, same g1 g2 -> same g2 g3 -> same g1 g3.
Hypothesis Place : forall g p o, wf g -> writes g p -> good o ->
  exists g', place g o = Some g' /\ wf g' /\ writes g' (p ++ [o]) /\ same g' g.
Hypothesis Publish : forall g p, wf g -> writes g p ->
  exists g', publish g = Some g' /\ wf g' /\ reads g' p /\ writes g' [].
Hypothesis See : forall g p o, wf g -> reads g p -> p <> [] -> (N.of_nat (length p) < limit)%N -> good o ->
  exists v, see g o = Some v.
Hypothesis See_same : forall g g' o, wf g -> wf g' -> same g' g -> see g' o = see g o.
Hypothesis Births : forall g, wf g -> exists bs, births g = Some bs.
Hypothesis Births_same : forall g g', wf g -> wf g' -> same g' g -> births g' = births g.
Hypothesis Born_good : forall n b, good (newborn n b).
Hypothesis Born_key : forall n b, key (newborn n b) = n.
Hypothesis Same_key : forall o v, key (rule o v) = key o.
Hypothesis First_keys : map key agents = numbers (N.of_nat (length agents)).
Hypothesis Few : (N.of_nat (length agents) < 4294967296)%N.
Variable shows : G -> list O -> Prop.
Hypothesis Shows : forall g p, wf g -> reads g p -> Forall good p -> NoDup (map key p) -> shows g p.
Notation u := (birth_user place publish see rule stops ends births newborn agents).
Notation alive := (filter (fun o => negb (stops o))).
Notation next := (pnext see rule).
Notation litter := (litter births).
Notation town := ((G * bool) * N)%type.
Notation conf := (sched O * world O town)%type.
Notation lively := (plively good).

Lemma pturns_move g k : wf g -> sights see good g -> forall l gk p backs s, wf gk -> same gk g -> writes gk p -> lively l ->
  turns u l ((gk, false), k) backs s ->
  exists g', s = ((g', false), k) /\ wf g' /\ same g' g /\ writes g' (p ++ map (next g) (ags l)) /\
    ags backs = alive (map (next g) (ags l)) /\ lively backs.
Proof.
  intros W Si. induction l as [|e l IH]; intros gk p backs s Wk R H L T.
  - inversion T; subst. exists gk. cbn. rewrite app_nil_r. split; [reflexivity|]. split; [exact Wk|].
    split; [exact R|]. split; [exact H|]. split; [reflexivity|intros ? []].
  - destruct (L e (or_introl eq_refl)) as [Lr Li].
    destruct (pstep_moves place see rule good wf writes same Stays Same_trans Place See_same gk g p (ai_agent (fst e)) Si W Wk R H Li) as (g1 & E1 & W1 & H1 & R1' & I1).
    assert (LF : life u (ai_rep (fst e)) (ai_agent (fst e)) ((gk, false), k) =
       (if stops (next g (ai_agent (fst e))) then None else Some (next g (ai_agent (fst e))), ((g1, false), k))).
    { unfold life. cbn [birth_user a_before a_step a_after a_stopped fst snd]. rewrite E1, Lr. reflexivity. }
    assert (L' : lively l) by (intros x Hx; apply L; right; exact Hx).
    inversion T as [|? ? ? ? ? ? T1 T2|? ? ? ? ? ? ? T1 T2]; subst; apply turn_life in T1; destruct T1 as [Tb Ts];
      rewrite LF in Tb, Ts; cbn [fst snd] in Tb, Ts; subst s'; destruct (IH g1 _ _ _ W1 R1' H1 L' T2) as (g' & -> & W' & R' & H' & B' & Lb).
    + exists g'. split; [reflexivity|]. split; [exact W'|]. split; [exact R'|].
      rewrite <- app_assoc in H'. split; [exact H'|]. split; [|exact Lb].
      cbn [ags map filter]. fold (ags l). destruct (stops (next g (ai_agent (fst e)))); [exact B'|discriminate].
    + exists g'. split; [reflexivity|]. split; [exact W'|]. split; [exact R'|].
      rewrite <- app_assoc in H'. split; [exact H'|].
      destruct (stops (next g (ai_agent (fst e)))) eqn:St; [discriminate|]. injection Tb as ->. split.
      * unfold ags in *. cbn [map filter fst ai_agent]. rewrite St. cbn [negb]. rewrite B'. reflexivity.
      * intros x [<-|Hx]; [cbn; auto|apply Lb; exact Hx].
Qed.

(** ** The state between two steps *)
Definition pregistered (c : conf) : Prop :=
  (exists gone, Permutation (numbers (made c)) (map key (queued (fst c)) ++ gone)) /\
  ((forall o, stops o = false) -> Permutation (numbers (made c)) (map key (queued (fst c)))).
Definition settled (n : N) (p : list O) (c : conf) : Prop :=
  s_step (fst c) = n /\ (exists tm, good_time tm /\ calm good tm (made c) (fst c)) /\
  Forall good p /\ failed c = false /\ wf (land_of c) /\
  (if (n =? 0)%N then writes (land_of c) p else reads (land_of c) p /\ writes (land_of c) []) /\
  Permutation (queued (fst c)) (if (n =? 0)%N then p else queued (fst c)) /\
  (queued (fst c) <> [] -> p <> []) /\
  pregistered c /\ NoDup (map key p) /\ (exists gone, Permutation (numbers (made c)) (map key p ++ gone)).

Variable threads : nat.
Hypothesis Threads : threads <> 0.

Lemma settled_found n p c : settled n p c ->
  let g := met publish c in
  (if N.eqb (s_step (fst c)) 0 then u_update u 0 (w_st (snd c)) else w_st (snd c)) = ((g, false), made c) /\
  wf g /\ reads g p /\ writes g [] /\ shows g p.
Proof.
  intros (Hn & _ & Fp & Fl & W & B0 & _ & _ & _ & Nd & _) g.
  unfold g, met, land_of, failed, made in *. rewrite Hn. destruct (w_st (snd c)) as [[gw b] k]. cbn [fst snd] in *. subst b.
  destruct (n =? 0)%N.
  - destruct (Publish gw p W B0) as (g' & E & W' & R' & Z'). cbn [birth_user u_update fst snd]. unfold pstage_update. cbn [fst snd].
    rewrite E. auto 10.
  - destruct B0. auto 10.
Qed.

Lemma settled_few n p c : settled n p c -> (made c < limit)%N -> (N.of_nat (length p) < limit)%N.
Proof.
  intros (_ & _ & _ & _ & _ & _ & _ & _ & _ & _ & (gone & P)) Bk. apply Permutation_length in P.
  rewrite app_length, map_length in P. unfold numbers in P. rewrite map_length, seq_length in P. lia.
Qed.

Lemma settled_step n p c ch inter sc' w' : (n + 1 < 18446744073709551616)%N -> settled n p c -> (made c < limit)%N ->
  par_step u threads ch inter (fst c) (snd c) = PDone sc' w' -> (made (sc', w') < limit)%N ->
  let g := met publish c in
  let babies := numbered newborn (made c) (litter g) in
  exists q, settled (n + 1) (q ++ babies) (sc', w') /\
    Permutation q (map (next g) (queued (fst c))) /\
    Permutation (queued sc') (alive q ++ babies) /\
    made (sc', w') = (made c + N.of_nat (length babies))%N.
Proof.
  intros Bn S Bc E Bk g babies. pose proof (settled_found n p c S) as (E0 & Wf & Rf & Zf & _).
  pose proof (settled_few n p c S Bc) as Fp'. fold g in E0, Wf, Rf, Zf.
  destruct S as (Hn & (tm & Gm & (U & Tm & L & Ids & Ek)) & Fp & Fl & W & _ & _ & Qp & ((gone & R) & Rn) & _ & _).
  destruct (par_step_runs_all u threads ch inter (fst c) (snd c) sc' w' U E)
    as (sc1 & s1 & l1 & popped & run & backs & s2 & now & sc3 & s3 & l3 & B1 & Nt & P & _ & Nw & D & T & U2 & Af & -> & Ew' & _).
  rewrite E0 in B1. cbn in B1. injection B1 as <- <- <-.
  assert (Pr : Permutation (s_events (fst c)) run) by (rewrite P; apply D).
  assert (Ld : lively run) by (intros e He; apply L; eapply Permutation_in; [symmetry; exact Pr|exact He]).
  assert (Qr : Permutation (ags run) (queued (fst c))) by (unfold queued, ags; apply Permutation_map; symmetry; exact Pr).
  destruct Nw as (e1 & He1 & Ne1 & _); [intros e He; rewrite (Tm e He); apply Gm|].
  assert (Enow : now = tm) by (rewrite <- Ne1; apply Tm; exact He1). subst now.
  assert (Np : p <> []).
  { apply Qp. intros Z. unfold queued in Z. apply map_eq_nil in Z. rewrite Z in He1. destruct He1. }
  assert (Si : sights see good g) by (intros o Ho; exact (See g p o Wf Rf Np Fp' Ho)).
  destruct (pturns_move g (made c) Wf Si run g [] backs s2 Wf (Same_refl g) Zf Ld T) as (g2 & -> & W2 & R2 & H2 & B2 & L2). cbn [app] in H2.
  assert (El : births g2 = Some (litter g)).
  { rewrite (Births_same g g2 Wf W2 R2). unfold BirthProofs.litter. destruct (Births g Wf) as [bs ->]. reflexivity. }
  cbn [birth_user u_after] in Af. unfold birth_after in Af. cbn [fst] in Af. rewrite El in Af. rewrite Enow in Af.
  set (scB := Sched (s_step (fst c)) tm backs (s_ids (fst c))) in *.
  pose proof (par_deliver_counts place newborn (litter g) ((g2, false), made c) scB) as Dc. rewrite Af in Dc. cbn [fst snd] in Dc.
  assert (Mk : made (Sched (u64_succ (s_step (fst c))) (s_time sc3) (s_events sc3) (s_ids sc3), w') = (made c + N.of_nat (length (litter g)))%N).
  { unfold made at 1. cbn [snd]. rewrite Ew'. cbn [birth_user u_update snd]. exact Dc. }
  assert (Bl : (made c + N.of_nat (length (litter g)) < 4294967296)%N) by (rewrite <- Mk; exact (N.lt_le_trans _ _ _ Bk Limit)).
  assert (Cm : calm good (fadd tm f1) (made c) scB).
  { split; [exact U2|]. split; [|split; [exact L2|split; [|exact Ek]]].
    - intros e He. destruct (turns_backs _ _ _ _ _ T e He) as (e' & He' & Et & _). rewrite Et, (Tm e'); [reflexivity|].
      eapply Permutation_in; [symmetry; exact Pr|exact He'].
    - intros e He. destruct (turns_backs _ _ _ _ _ T e He) as (e' & He' & _ & _ & Ei).
      rewrite Ei. apply Ids. eapply Permutation_in; [symmetry; exact Pr|exact He']. }
  destruct (par_deliver_calm place good wf writes same Place newborn Born_good (fadd tm f1) (litter g) scB g2 _ (made c) W2 H2 Cm eq_refl Bl)
    as (g3 & S3 & W3 & H3 & C3 & Q3 & St3 & Ti3).
  rewrite Af in S3, C3, Q3, St3, Ti3. cbn [fst snd] in S3, C3, Q3, St3, Ti3. subst s3.
  destruct (Publish g3 _ W3 H3) as (g4 & E4 & W4 & R4 & Z4).
  cbn [birth_user u_update fst snd] in Ew'. unfold pstage_update in Ew'. cbn [fst snd] in Ew'. rewrite E4 in Ew'.
  set (c' := (Sched (u64_succ (s_step (fst c))) (s_time sc3) (s_events sc3) (s_ids sc3), w')) in *.
  set (q := map (next g) (ags run)) in *.
  assert (Es : u64_succ (s_step (fst c)) = (n + 1)%N) by (rewrite Hn; apply u64_succ_small; exact Bn).
  assert (Pq : Permutation q (map (next g) (queued (fst c)))) by (apply Permutation_map; exact Qr).
  assert (Qn : queued (fst c') = alive q ++ babies).
  { change (queued (fst c')) with (queued sc3). rewrite Q3. change (queued scB) with (ags backs). rewrite B2. reflexivity. }
  assert (Lb : length babies = length (litter g)) by apply (numbered_length newborn).
  assert (Kq : Permutation (map key q) (map key (queued (fst c)))).
  { rewrite Pq. rewrite (pnext_keys see rule key Same_key). reflexivity. }
  assert (Kn : numbers (made c') = numbers (made c) ++ map key babies) by (rewrite Mk; apply (born_keys newborn key Born_key)).
  assert (Kp : Permutation (numbers (made c')) (map key (q ++ babies) ++ gone)).
  { rewrite Kn, R, map_app, Kq, <- !app_assoc. apply Permutation_app_head. apply Permutation_app_comm. }
  assert (Land : land_of c' = g4) by (unfold land_of, c'; cbn [snd]; rewrite Ew'; reflexivity).
  exists q. split; [|split; [exact Pq|split; [change (queued _) with (queued (fst c')); rewrite Qn; reflexivity|rewrite Lb; exact Mk]]].
  unfold settled. replace (n + 1 =? 0)%N with false by (symmetry; apply N.eqb_neq; lia). rewrite Land.
  split; [exact Es|]. split; [exists (fadd tm f1); split; [apply good_time_next; exact Gm|rewrite Mk; exact C3]|].
  split.
  { apply Forall_app. split; [|apply (numbered_good newborn good Born_good)]. apply Forall_forall. intros o Ho. apply in_map_iff in Ho. destruct Ho as (o1 & <- & Ho).
    apply in_map_iff in Ho. destruct Ho as (e & <- & He). destruct (Ld e He) as [_ Gd]. unfold pnext.
    destruct (Si _ Gd) as [v ->]. apply Stays. exact Gd. }
  split; [unfold failed, c'; cbn [snd]; rewrite Ew'; reflexivity|]. split; [exact W4|]. split; [split; assumption|]. split; [reflexivity|].
  split.
  { rewrite Qn. intros Hq Hz. apply app_eq_nil in Hz. destruct Hz as [Hz1 Hz2]. rewrite Hz1, Hz2 in Hq. apply Hq. reflexivity. }
  split; [split|split].
  - destruct (palive_split stops key q) as [r2 E2]. exists (r2 ++ gone). rewrite Kp, Qn, !map_app, E2, <- !app_assoc. apply Permutation_app_head.
    rewrite !app_assoc. apply Permutation_app_tail. apply Permutation_app_comm.
  - intros Hs. rewrite Kn, (Rn Hs), Qn, map_app, <- Kq. rewrite (palive_all stops q Hs). reflexivity.
  - pose proof (Permutation_NoDup Kp (numbers_NoDup (made c'))) as ND. apply NoDup_app_elim in ND. apply ND.
  - exists gone. exact Kp.
Qed.

(** The counter never goes down. *)
Lemma par_step_counts (c : conf) ch inter sc' w' : unique_ids (s_events (fst c)) ->
  par_step u threads ch inter (fst c) (snd c) = PDone sc' w' -> (made c <= made (sc', w'))%N.
Proof.
  intros U E.
  destruct (par_step_runs_all u threads ch inter (fst c) (snd c) sc' w' U E)
    as (sc1 & s1 & l1 & popped & run & backs & s2 & now & sc3 & s3 & l3 & B1 & Nt & P & _ & Nw & D & T & U2 & Af & -> & Ew' & _).
  unfold made. cbn [snd]. rewrite Ew'. cbn [birth_user u_update snd].
  assert (S1 : snd s1 = snd (w_st (snd c))).
  { cbn in B1. injection B1 as <- <- <-. destruct (s_step (fst c) =? 0)%N; reflexivity. }
  assert (S2 : snd s2 = snd s1).
  { clear - T. induction T as [s|e l s s' bk s'' T1 T2 IH|e l bb s s' bk s'' T1 T2 IH]; [reflexivity| |]; rewrite IH; apply turn_life in T1; destruct T1 as [_ T1]; rewrite T1;
      unfold life; cbn [birth_user a_before a_step a_after a_stopped]; destruct (stage_step _ _ _ _ _); cbn; destruct (ai_rep _); reflexivity. }
  cbn [birth_user u_after] in Af.
  pose proof (par_after_counts place births newborn s2 (Sched (s_step (fst c)) now backs (s_ids sc1))) as X. rewrite Af in X. cbn [fst snd] in X. lia.
Qed.

Lemma settled_exit n p c ch inter : settled n p c -> queued (fst c) = [] ->
  exists w, par_step u threads ch inter (fst c) (snd c) = PExit w /\ snd (fst (w_st w)) = false.
Proof.
  intros B0 Q. destruct (settled_found n p c B0) as (E0 & _). unfold par_step.
  set (w0 := if N.eqb (s_step (fst c)) 0 then call_update u (s_step (fst c)) (snd c) else snd c).
  assert (Hw0 : w_st w0 = ((met publish c, false), made c)).
  { rewrite <- E0. unfold w0. destruct (N.eqb_spec (s_step (fst c)) 0) as [E|E]; [rewrite E|]; reflexivity. }
  rewrite Hw0. cbn [birth_user u_before par_run_hprog].
  unfold queued in Q. apply map_eq_nil in Q. rewrite Q.
  assert (X : forall k, pq_peek k (@nil (event O)) = None) by (intros k; unfold pq_peek; destruct (k mod _); reflexivity).
  rewrite X. eexists. split; reflexivity.
Qed.

Lemma settled_goes n p c ch inter : settled n p c -> queued (fst c) <> [] ->
  exists more sc' w', par_step u threads ch (inter ++ more) (fst c) (snd c) = PDone sc' w'.
Proof.
  intros B0 Q. destruct (settled_found n p c B0) as (E0 & _).
  assert (Ne : s_events (fst c) <> []) by (intros E; apply Q; unfold queued; rewrite E; reflexivity).
  assert (Po : match par_step u threads ch inter (fst c) (snd c) with PExit _ | PPanic => False | _ => True end).
  { unfold par_step.
    set (w0 := if N.eqb (s_step (fst c)) 0 then call_update u (s_step (fst c)) (snd c) else snd c).
    assert (Hw0 : w_st w0 = ((met publish c, false), made c)).
    { rewrite <- E0. unfold w0. destruct (N.eqb_spec (s_step (fst c)) 0) as [E|E]; [rewrite E|]; reflexivity. }
    rewrite Hw0. cbn [birth_user u_before par_run_hprog].
    destruct (pq_peek (ch 0) (s_events (fst c))) as [e|] eqn:Pk; [|apply pq_peek_none in Pk; contradiction].
    destruct threads as [|th]; [contradiction|].
    destruct (finished _); [|exact Logic.I]. destruct (par_run_hprog (u_after _ _) _) as [[a b] l]. exact Logic.I. }
  destruct (par_step u threads ch inter (fst c) (snd c)) as [?| |?|sc' w'] eqn:Es; [tauto|tauto| |].
  - apply (par_step_progress _ _ _ _ _ _ _ Es).
  - exists [], sc', w'. rewrite app_nil_r. exact Es.
Qed.

(** ** Runs *)
Variable g0 : G.
Hypothesis Ready0 : wf g0 /\ writes g0 [].

Lemma start_settled : let c := par_init u (World ((g0, false), 0%N) []) in
  settled 0 agents c /\ queued (fst c) = agents /\ made c = N.of_nat (length agents).
Proof.
  destruct Ready0 as [W H]. unfold par_init. cbn [birth_user u_init w_st].
  assert (C : calm good f0 0 (@sched_new O)).
  { split; [constructor|]. split; [intros ? []|]. split; [intros ? []|]. split; [intros ? []|reflexivity]. }
  destruct (par_init_calm place good wf writes same Place agents sched_new g0 [] 0%N W H Home C ltac:(rewrite N.add_0_l; exact Few)) as (g' & R1 & R2 & R3 & R4 & R5 & R6 & R7).
  destruct (par_run_hprog _ _) as [[a b] l]. cbn [fst snd w_st] in *. rewrite N.add_0_l in *. subst b.
  cbn [s_events sched_new] in R5. change (queued a = agents) in R5.
  assert (E : Permutation (numbers (N.of_nat (length agents))) (map key (queued a))) by (rewrite R5, First_keys; reflexivity).
  split; [|split; [exact R5|reflexivity]].
  unfold settled, pregistered, made, failed, land_of. cbn [fst snd w_st].
  split; [exact R6|]. split; [exists f0; split; [split; reflexivity|exact R4]|].
  split; [exact Home|]. split; [reflexivity|]. split; [exact R2|]. split; [exact R3|].
  split; [rewrite R5; reflexivity|]. split; [rewrite R5; auto|].
  split; [split; [exists []; rewrite app_nil_r; exact E|intros _; exact E]|].
  split; [rewrite First_keys; apply numbers_NoDup|]. exists []. rewrite app_nil_r, First_keys. reflexivity.
Qed.

Lemma par_steps_snoc2 n x : forall l sc (w : world O town),
  par_steps u n (l ++ [x]) sc w =
  match par_steps u n l sc w with
  | None => None
  | Some c => match par_step u n (fst x) (snd x) (fst c) (snd c) with PDone sc' w' => Some (sc', w') | _ => None end
  end.
Proof.
  destruct x as [ch inter]. induction l as [|[ch1 i1] l IH]; intros sc w; cbn [app par_steps fst snd]; [reflexivity|].
  destruct (par_step u n ch1 i1 sc w); auto.
Qed.

Lemma run_settled : forall l c, (N.of_nat (length l) < 18446744073709551616)%N -> par_lived u threads g0 l = Some c ->
  (made c < limit)%N -> exists p, settled (N.of_nat (length l)) p c.
Proof.
  assert (Uq : forall l c, par_lived u threads g0 l = Some c -> unique_ids (s_events (fst c))).
  { intros l. induction l as [|x l IH] using rev_ind; intros c E.
    - injection E as <-. destruct start_settled as ((_ & (tm & _ & (U & _)) & _) & _). exact U.
    - unfold par_lived in E. rewrite par_steps_snoc2 in E. destruct (par_steps u threads l _ _) as [c1|] eqn:E1; [|discriminate].
      destruct (par_step u threads (fst x) (snd x) (fst c1) (snd c1)) as [?| |?|sc' w'] eqn:Es; try discriminate. injection E as <-.
      destruct (par_step_runs_all u threads _ _ _ _ sc' w' (IH c1 E1) Es)
        as (sc1 & s1 & l1 & popped & run & backs & s2 & now & sc3 & s3 & l3 & _ & _ & _ & _ & _ & _ & _ & U2 & Af & -> & _).
      apply par_run_hprog_unique in Af. cbn [fst s_events]. apply Af. exact U2. }
  intros l. induction l as [|x l IH] using rev_ind; intros c Bn E Bk.
  - exists agents. injection E as <-. apply start_settled.
  - pose proof E as E2. unfold par_lived in E. rewrite par_steps_snoc2 in E. rewrite app_length in *. cbn [length] in *.
    destruct (par_steps u threads l _ _) as [c1|] eqn:E1; [|discriminate].
    destruct (par_step u threads (fst x) (snd x) (fst c1) (snd c1)) as [?| |?|sc' w'] eqn:Es; try discriminate. injection E as <-.
    assert (B1 : (made c1 < limit)%N).
    { apply (N.le_lt_trans _ _ _ (par_step_counts c1 _ _ sc' w' (Uq l c1 E1) Es) Bk). }
    destruct (IH c1) as (p & S); [lia|exact E1|exact B1|].
    destruct (settled_step (N.of_nat (length l)) p c1 (fst x) (snd x) sc' w' ltac:(lia) S B1 Es Bk) as (q & Sq & _).
    eexists. replace (N.of_nat (length l + 1)) with (N.of_nat (length l) + 1)%N by lia. exact Sq.
Qed.

Lemma pbirth_in_step : par_grows_in_step key u threads g0 publish shows next litter newborn stops agents limit.
Proof.
  split.
  - destruct start_settled as (S & Q & M). eexists. split; [reflexivity|].
    set (c := par_init u (World ((g0, false), 0%N) [])) in *. assert (Ecc : (fst c, snd c) = c) by (destruct c; reflexivity). rewrite Ecc.
    destruct (settled_found 0 agents c S) as (_ & _ & _ & _ & Sh). split; [apply S|]. split; [exact Sh|]. split; [rewrite Q; reflexivity|exact M].
  - intros l c Bn Ec Bc. change (2 ^ 64)%N with 18446744073709551616%N in Bn.
    destruct (run_settled l c ltac:(lia) Ec Bc) as (p & S). split; [apply S|]. intros ch inter.
    split; [exact (settled_exit _ p c ch inter S)|]. split.
    + intros Ne. destruct (settled_goes _ p c ch inter S Ne) as (more & sc' & w' & Es). exists more, (sc', w').
      unfold par_lived in *. rewrite par_steps_snoc2, Ec. cbn [fst snd]. rewrite Es. reflexivity.
    + intros c' E Bk babies. unfold par_lived in *. rewrite par_steps_snoc2, Ec in E. cbn [fst snd] in E.
      destruct (par_step u threads ch inter (fst c) (snd c)) as [?| |?|sc' w'] eqn:Es; try discriminate. injection E as <-.
      destruct (settled_step _ p c ch inter sc' w' Bn S Bc Es Bk) as (q & Sq & Pq & Qq & Mq). exists q. split; [exact Pq|].
      destruct (settled_found _ _ (sc', w') Sq) as (_ & _ & _ & _ & Sh). split; [apply Sq|]. split; [exact Sh|].
      split; [exact Qq|]. split; [exact Mq|].
      destruct Sq as (_ & _ & _ & _ & _ & _ & _ & _ & Rg & _). exact Rg.
Qed.
End Birth.
