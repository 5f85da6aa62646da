(** * Proofs about simulations of the shape of flockers *)
From Coq Require Import List Bool ZArith NArith Arith Lia Permutation.
From Verif Require Import F32 F32Facts F32Real SchedModel SchedSpec SchedProofs SchedStep SchedTime
  SimModel Grid ObjModel FieldModel FieldSpec FieldProofs OrderSpec OrderProofs OrderModels OrderInst
  FlockModel FlockSpec.
Import ListNotations.
Local Open Scope nat_scope.

Section Flock.
Variable A : arith.
Context {O : Type}.
Variable location : O -> num A * num A.
Variable radius : O -> num A.
Variable rule : O -> list O -> O.
Variable stops : O -> bool.
Variable ends : @field2d A O -> bool.
Variable agents : list O.
Variables w h d : num A.
Variable t : bool.
Hypothesis GS : good_size A w h d.
Hypothesis Home : Forall (fun o => in_field A w h d (location o)) agents.
Hypothesis Stays : forall o l, in_field A w h d (location o) -> in_field A w h d (location (rule o l)).
Notation u := (flock_user A location radius rule stops ends agents).
Notation fld := (@field2d A O).
Notation wf := (fwf A w h d t).
Notation nw := (cols A w d).
Notation nh := (cols A h d).
Notation inf o := (in_field A w h d (location o)).
Notation alive := (filter (fun o => negb (stops o))).

Definition here (c : loc) (p : list O) : list O := filter (fun o => loc_eqb (discretize A d (location o)) c) p.
Definition reads (f : fld) (p : list O) : Prop :=
  forall c, in_range nw nh c -> vget (f_read f) (cell_index nh c) = Some (here c p).
Definition writes (f : fld) (p : list O) : Prop :=
  forall c, in_range nw nh c -> vget (f_write f) (cell_index nh c) = Some (here c p).
Lemma here_app c p q : here c (p ++ q) = here c p ++ here c q.
Proof. apply filter_app. Qed.

Lemma set_adds f p o : wf f -> writes f p -> inf o ->
  exists f', f_set A f o (location o) = Some f' /\ wf f' /\ writes f' (p ++ [o]) /\ f_read f' = f_read f.
Proof.
  intros W H Hi. destruct (set_ok A w h d t GS f o (location o) W Hi) as (f' & E & W' & B).
  exists f'. split; [exact E|]. split; [exact W'|]. split.
  - intros c Hc. destruct (B c Hc) as [_ ->]. rewrite (H c Hc), here_app.
    replace (here c [o]) with (if loc_eqb (discretize A d (location o)) c then [o] else []) by reflexivity. cbn [option_map].
    destruct (loc_eqb (discretize A d (location o)) c); [reflexivity|]. rewrite app_nil_r. reflexivity.
  - unfold f_set in E. destruct (vget _ _); [|discriminate]. destruct (vset _ _ _); [|discriminate].
    injection E as <-. reflexivity.
Qed.

Lemma around_read f f' o : wf f -> wf f' -> f_read f' = f_read f ->
  around A location radius f' o = around A location radius f o.
Proof.
  intros (W1 & W2 & W3 & W4 & W5 & _) (V1 & V2 & V3 & V4 & V5 & _) E. unfold around.
  rewrite (neighbors_geom A location f' f (location o) (radius o)); congruence.
Qed.

Lemma step_moves f p o : wf f -> writes f p -> inf o ->
  let o' := rule o (around A location radius f o) in
  exists f', mover_step A location radius rule o (f, false) = (o', (f', false)) /\
    wf f' /\ writes f' (p ++ [o']) /\ f_read f' = f_read f /\ inf o'.
Proof.
  intros W H Hi o'. unfold mover_step. cbn [fst snd].
  destruct (neighbors_total A location w h d t GS f (location o) (radius o) W) as [ns En].
  assert (Eo : o' = rule o ns) by (unfold o', around; rewrite En; reflexivity). rewrite En. cbv zeta. rewrite <- Eo.
  assert (Hi' : inf o') by (rewrite Eo; apply Stays; exact Hi).
  destruct (set_adds f p o' W H Hi') as (f' & E & W' & H' & R). rewrite E. eauto 10.
Qed.

(** ** The turns of one step *)
Definition moved (f : fld) (o : O) : O := rule o (around A location radius f o).
Definition ags (l : list (event O)) : list O := map (fun e => ai_agent (fst e)) l.
Definition lively (l : list (event O)) : Prop := forall e, In e l -> ai_rep (fst e) = true /\ inf (ai_agent (fst e)).

Lemma turns_move f : wf f -> forall l fk p backs s, wf fk -> f_read fk = f_read f -> writes fk p -> lively l ->
  turns u l (fk, false) backs s ->
  exists f', s = (f', false) /\ wf f' /\ f_read f' = f_read f /\ writes f' (p ++ map (moved f) (ags l)) /\
    ags backs = alive (map (moved f) (ags l)) /\ lively backs.
Proof.
  intros W. induction l as [|e l IH]; intros fk p backs s Wk R H L T.
  - inversion T; subst. exists fk. cbn. rewrite app_nil_r. split; [reflexivity|]. split; [exact Wk|].
    split; [exact R|]. split; [exact H|]. split; [reflexivity|intros ? []].
  - destruct (L e (or_introl eq_refl)) as [Lr Li].
    destruct (step_moves fk p (ai_agent (fst e)) Wk H Li) as (f1 & E1 & W1 & H1 & R1 & I1).
    rewrite (around_read f fk _ W Wk R) in E1, H1, I1. fold (moved f (ai_agent (fst e))) in E1, H1, I1.
    assert (LF : life u (ai_rep (fst e)) (ai_agent (fst e)) (fk, false) =
       (if stops (moved f (ai_agent (fst e))) then None else Some (moved f (ai_agent (fst e))), (f1, false))).
    { unfold life. cbn [flock_user a_before a_step a_after a_stopped]. rewrite E1, Lr. reflexivity. }
    assert (L' : lively l) by (intros x Hx; apply L; right; exact Hx).
    assert (R1' : f_read f1 = f_read f) by congruence.
    inversion T as [|? ? ? ? ? ? T1 T2|? ? ? ? ? ? ? T1 T2]; subst; apply turn_life in T1; destruct T1 as [Tb Ts];
      rewrite LF in Tb, Ts; cbn [fst snd] in Tb, Ts; subst s'; destruct (IH f1 _ _ _ W1 R1' H1 L' T2) as (f' & -> & W' & R' & H' & B' & Lb).
    + exists f'. split; [reflexivity|]. split; [exact W'|]. split; [exact R'|].
      rewrite <- app_assoc in H'. split; [exact H'|]. split; [|exact Lb].
      cbn [ags map filter]. fold (ags l). destruct (stops (moved f (ai_agent (fst e)))); [exact B'|discriminate].
    + exists f'. split; [reflexivity|]. split; [exact W'|]. split; [exact R'|].
      rewrite <- app_assoc in H'. split; [exact H'|].
      destruct (stops (moved f (ai_agent (fst e)))) eqn:St; [discriminate|]. injection Tb as ->. split.
      * unfold ags in *. cbn [map filter fst ai_agent]. rewrite St. cbn [negb]. rewrite B'. reflexivity.
      * intros x [<-|Hx]; [cbn; auto|apply Lb; exact Hx].
Qed.

(** Every event is at the same time. *)
Definition together (l : list (event O)) : Prop :=
  exists tm, good_time tm /\ forall e, In e l -> ev_time e = tm.

Lemma fleb_refl x : f32_is_nan x = false -> fleb x x = true.
Proof. intros N. apply fleb_iff. split; [exact N|]. split; [exact N|]. right. reflexivity. Qed.

Lemma all_due (ch : nat -> nat) now q due rest e0 : unique_ids q -> together q ->
  pq_peek (ch 0) q = Some e0 -> now = ev_time e0 -> pop_due (length q) ch 0 now q = (due, rest) -> rest = [].
Proof.
  intros U (tm & [Tv Tn] & Ht) P N Pd.
  assert (Nn : no_nan q) by (intros e He; rewrite (Ht e He); exact Tn).
  destruct (due_minimal q _ ch now due rest e0 U Nn P N Pd) as (_ & Hr & _).
  destruct rest as [|e rest]; [reflexivity|]. destruct (proj1 (Hr e) (or_introl eq_refl)) as [Hq Hm].
  exfalso. apply Hm. split; [exact Hq|]. intros e' He'. rewrite (Ht e Hq), (Ht e' He'). apply fleb_refl. exact Tn.
Qed.

(** ** One step *)
(** Between steps: the queue is together, [p] is readable and nothing is being written;
    before the first step [p] is still being written. *)
Definition between (n : N) (p : list O) (sc : sched O) (s : fld * bool) : Prop :=
  s_step sc = n /\ unique_ids (s_events sc) /\ together (s_events sc) /\ lively (s_events sc) /\
  Forall (fun o => inf o) p /\ snd s = false /\ wf (fst s) /\
  (if (n =? 0)%N then writes (fst s) p else reads (fst s) p /\ writes (fst s) []).

Lemma update_publishes f p : wf f -> writes f p ->
  exists f', mover_update A (f, false) = (f', false) /\ f_lazy_update A f = Some f' /\ wf f' /\ reads f' p /\ writes f' [].
Proof.
  intros W H. destruct (lazy_ok A w h d t GS f W) as (f' & E & W' & _ & B).
  exists f'. unfold mover_update. cbn [fst snd]. rewrite E. split; [reflexivity|]. split; [reflexivity|]. split; [exact W'|].
  split; intros c Hc; destruct (B c Hc) as [B1 B2]; [rewrite B1; apply H; exact Hc|exact B2].
Qed.

Lemma step_between n p sc (wd : world O (fld * bool)) ch : (n + 1 < 18446744073709551616)%N ->
  between n p sc (w_st wd) ->
  let f := looked_at sc (fst (w_st wd)) in
  wf f /\ reads f p /\
  exists q, between (n + 1) q (fst (step u ch sc wd)) (w_st (snd (step u ch sc wd))) /\
    Permutation q (map (moved f) (queued sc)) /\
    Permutation (queued (fst (step u ch sc wd))) (alive q).
Proof.
  intros Bn (Hn & U & Tg & L & Fp & Fl & W & B) f.
  destruct (w_st wd) as [fw b] eqn:Ew. cbn [fst snd] in *. subst b.
  assert (X : st0 u sc wd = (f, false) /\ wf f /\ reads f p /\ writes f []).
  { unfold st0, f, looked_at. rewrite Hn, Ew. destruct (n =? 0)%N.
    - destruct (update_publishes fw p W B) as (f1 & E1 & E2 & W1 & R1 & Z1). cbn [flock_user u_update].
      rewrite E1, E2. auto.
    - destruct B. auto. }
  destruct X as (E0 & Wf & Rf & Zf). split; [exact Wf|]. split; [exact Rf|].
  destruct (step u ch sc wd) as [sc' w'] eqn:E. apply step_anatomy in E; [|exact U].
  destruct E as (sc1 & s1 & l1 & due & rest & backs & s2 & tr & now & sc3 & s3 & l3 & B1 & U1 & P & N0 & N1 & T & U2 & _ & Af & -> & Ew' & _).
  rewrite E0 in B1. cbn in B1. injection B1 as <- <- <-.
  cbn in Af. injection Af as <- <- <-.
  assert (Er : rest = []).
  { destruct (s_events sc) as [|e0 q0] eqn:Q.
    - apply Permutation_nil in P. apply app_eq_nil in P. apply P.
    - rewrite <- Q in *. destruct N1 as (e1 & Pk & Nw & Pd); [congruence|].
      exact (all_due ch now _ due rest e1 U Tg Pk Nw Pd). }
  subst rest. rewrite app_nil_r in P.
  assert (Ld : lively due) by (intros e He; apply L; eapply Permutation_in; [symmetry; exact P|exact He]).
  destruct (turns_move f Wf due f [] backs s2 Wf eq_refl Zf Ld T) as (f2 & -> & W2 & R2 & H2 & B2 & L2).
  cbn [app] in H2.
  destruct (update_publishes f2 _ W2 H2) as (f3 & E3 & _ & W3 & R3 & Z3).
  exists (map (moved f) (ags due)). cbn [fst snd]. cbn [flock_user u_update] in Ew'. rewrite E3 in Ew'. rewrite Ew'.
  assert (Es : u64_succ (s_step sc) = (n + 1)%N) by (rewrite Hn; apply u64_succ_small; exact Bn).
  split; [|split].
  - split; [exact Es|]. cbn [s_events app]. split; [exact U2|]. split; [|split; [exact L2|split; [|split; [reflexivity|split; [exact W3|]]]]].
    + destruct Tg as (tm & [Tv Tn] & Ht). exists (fadd tm f1). split.
      * split; [apply fadd_valid; [exact Tv|reflexivity]|]. apply fadd_one_ge; assumption.
      * intros e He. destruct (turns_backs _ _ _ _ _ T e He) as (e' & He' & Et & _). rewrite Et, (Ht e'); [reflexivity|].
        eapply Permutation_in; [symmetry; exact P|exact He'].
    + apply Forall_forall. intros o Ho. apply in_map_iff in Ho. destruct Ho as (o1 & <- & Ho).
      apply in_map_iff in Ho. destruct Ho as (e & <- & He). apply Stays. apply (Ld e He).
    + replace (n + 1 =? 0)%N with false by (symmetry; apply N.eqb_neq; lia). auto.
  - apply Permutation_map. unfold queued, ags. apply Permutation_map. symmetry. exact P.
  - unfold queued. cbn [s_events app]. fold (ags backs). rewrite B2. reflexivity.
Qed.

(** ** [init] *)
Lemma init_between : forall l (sc : sched O) f p,
  wf f -> writes f p -> Forall (fun o => inf o) p -> Forall (fun o => inf o) l ->
  s_step sc = 0%N -> unique_ids (s_events sc) -> (forall e, In e (s_events sc) -> (ev_id e < s_ids sc)%N) ->
  (forall e, In e (s_events sc) -> ev_time e = f0) -> lively (s_events sc) ->
  (s_ids sc + N.of_nat (length l) < 4294967296)%N ->
  let r := run_hprog (flock_init A location l (f, false)) sc in
  between 0 (p ++ l) (fst (fst r)) (snd (fst r)) /\ queued (fst (fst r)) = queued sc ++ l.
Proof.
  induction l as [|o l IH]; intros sc f p W H Fp Fl Hs U Ids Tm L Bd r; subst r.
  - cbn. rewrite !app_nil_r. split; [|reflexivity]. split; [exact Hs|]. split; [exact U|].
    split; [exists f0; split; [split; reflexivity|exact Tm]|]. auto 10.
  - inversion Fl as [|? ? Ho Fl']; subst. cbn [flock_init]. unfold flock_place. cbn [fst snd].
    destruct (set_adds f p o W H Ho) as (f' & E & W' & H' & _). rewrite E. cbn [run_hprog do_op].
    unfold schedule_repeating.
    assert (Fr : ~ In (s_ids sc) (map ev_id (s_events sc))).
    { intros Hin. apply in_map_iff in Hin. destruct Hin as (e & Ee & He). specialize (Ids e He). lia. }
    rewrite (pq_push_fresh (AI (s_ids sc) o true) (Prio f0 0) (s_events sc) Fr). cbn [length] in Bd.
    assert (Eu : u32_succ (s_ids sc) = (s_ids sc + 1)%N) by (unfold u32_succ; apply N.mod_small; change u32_mod with 4294967296%N; lia).
    rewrite Eu.
    set (sc1 := Sched _ _ _ _).
    assert (In1 : forall e, In e (s_events sc1) -> In e (s_events sc) \/ e = (AI (s_ids sc) o true, Prio f0 0)).
    { intros e He. cbn in He. apply in_app_or in He. destruct He as [He|[He|[]]]; auto. }
    destruct (IH sc1 f' (p ++ [o]) W' H') as [IH1 IH2].
    + apply Forall_app. auto.
    + exact Fl'.
    + exact Hs.
    + cbn. unfold unique_ids. rewrite map_app. apply NoDup_app_one; [exact U|exact Fr].
    + intros e He. destruct (In1 e He) as [He'| ->]; cbn; [specialize (Ids e He')|]; lia.
    + intros e He. destruct (In1 e He) as [He'| ->]; [apply Tm; exact He'|reflexivity].
    + intros e He. destruct (In1 e He) as [He'| ->]; [apply L; exact He'|cbn; auto].
    + cbn. lia.
    + destruct (run_hprog (flock_init A location l (f', false)) sc1) as [[x y] lg]. cbn [fst snd] in *.
      rewrite <- app_assoc in IH1. split; [exact IH1|]. rewrite IH2. unfold queued. cbn [sc1 s_events]. rewrite map_app, <- app_assoc. reflexivity.
Qed.

(** ** What one sees of a population *)
Lemma reads_shows f p : wf f -> reads f p -> Forall (fun o => inf o) p -> shows A location w h d f p.
Proof.
  intros W R Fp. split.
  - intros l Hl. exists (here (discretize A d l) p). split; [|reflexivity].
    unfold f_get. rewrite (index_eq A w h d t f l W). apply R. exact Hl.
  - eexists. split; [unfold f_iter; apply (iter_eq A w h d t f _ _ W R)|].
    assert (Q : Permutation (flat_map (fun c => map (fun o => (not_discretize A d c, o)) (at_cell A d c (map (fun o => (o, location o)) p))) (cells nw nh))
      (map (fun q => (not_discretize A d (discretize A d (snd q)), fst q)) (map (fun o => (o, location o)) p))).
    { apply iter_placements. intros q Hq. apply in_map_iff in Hq. destruct Hq as (o & <- & Ho). rewrite Forall_forall in Fp. exact (Fp o Ho). }
    apply (Permutation_map snd) in Q. rewrite map_map in Q. cbn [snd fst] in Q. rewrite map_map in Q. cbn in Q. rewrite map_id in Q.
    rewrite <- Q. apply Permutation_map. apply Permutation_refl'. apply flat_map_ext. intros c. f_equal.
    unfold at_cell, here. clear. induction p as [|o p IH]; [reflexivity|]. cbn.
    destruct (loc_eqb (discretize A d (location o)) c); cbn; rewrite IH; reflexivity.
Qed.

(** ** Runs *)
(** Before a repetition: nothing has gone wrong and nothing is being written. *)
Definition ready (s : fld * bool) : Prop := snd s = false /\ wf (fst s) /\ writes (fst s) [].
Hypothesis Few : (N.of_nat (length agents) < 4294967296)%N.

Lemma new_ready : ready (f_new A w h d t, false).
Proof.
  destruct (new_ok (O := O) A w h d t GS) as [W B]. split; [reflexivity|]. split; [exact W|]. intros c Hc. apply B. exact Hc.
Qed.
Lemma start_between (wd : world O (fld * bool)) : ready (w_st wd) ->
  between 0 agents (fst (call_init u sched_new wd)) (w_st (snd (call_init u sched_new wd))) /\
  queued (fst (call_init u sched_new wd)) = agents.
Proof.
  intros (Fl & W & H). unfold call_init. cbn [flock_user u_init]. destruct (w_st wd) as [f b] eqn:Ew. cbn [fst snd] in *. subst b.
  pose proof (init_between agents sched_new f [] W H (Forall_nil _) Home eq_refl (NoDup_nil _)) as X.
  cbn [s_events sched_new] in X. specialize (X (fun _ F => match F with end) (fun _ F => match F with end) (fun _ F => match F with end)).
  change (s_ids sched_new) with 0%N in X. rewrite N.add_0_l in X. specialize (X Few). cbv zeta in X.
  destruct (run_hprog _ _) as [[a b] l]. exact X.
Qed.

(** One more step, seen from the end of the run. *)
Lemma after_snoc chs ch (sc : sched O) (wd : world O (fld * bool)) :
  after_steps u (chs ++ [ch]) sc wd =
  step u ch (fst (after_steps u chs sc wd)) (snd (after_steps u chs sc wd)).
Proof. unfold after_steps. rewrite map_app. unfold acts. rewrite fold_left_app. reflexivity. Qed.

Context {K : Type}.
Variable key : O -> K.
Hypothesis Same_key : forall o l, key (rule o l) = key o.

(** After [n] steps [p] is readable. *)
Definition population (n : nat) (p : list O) (sc : sched O) (s : fld * bool) : Prop :=
  between (N.of_nat n) p sc s /\
  Permutation (queued sc) (match n with 0 => p | Datatypes.S _ => alive p end) /\
  (exists rest, Permutation (map key agents) (map key p ++ rest)) /\
  ((forall o, stops o = false) -> Permutation (map key p) (map key agents)).

Lemma alive_split p : exists rest, Permutation (map key p) (map key (alive p) ++ rest).
Proof.
  exists (map key (filter stops p)). rewrite <- map_app. apply Permutation_map.
  induction p as [|o p IH]; cbn; [constructor|]. destruct (stops o); cbn; [|constructor; exact IH].
  apply Permutation_cons_app. exact IH.
Qed.
Lemma alive_all p : (forall o, stops o = false) -> alive p = p.
Proof. intros H. apply FieldProofs.filter_true. intros o _. rewrite H. reflexivity. Qed.
Lemma moved_keys f l : map key (map (moved f) l) = map key l.
Proof. rewrite map_map. apply map_ext. intros o. apply Same_key. Qed.

Lemma population_step n p sc (wd : world O (fld * bool)) ch : (N.of_nat n + 1 < 18446744073709551616)%N ->
  population n p sc (w_st wd) ->
  exists q, population (Datatypes.S n) q (fst (step u ch sc wd)) (w_st (snd (step u ch sc wd))) /\
    Permutation q (map (moved (looked_at sc (fst (w_st wd)))) (queued sc)).
Proof.
  intros Bn (B & Q & (rest & R) & N). destruct (step_between (N.of_nat n) p sc wd ch Bn B) as (_ & _ & q & B1 & P1 & P2).
  exists q. split; [|exact P1].
  assert (Kq : Permutation (map key q) (map key (queued sc))).
  { rewrite P1, moved_keys. reflexivity. }
  split; [replace (N.of_nat (Datatypes.S n)) with (N.of_nat n + 1)%N by lia; exact B1|]. split; [exact P2|]. split.
  - assert (X : exists r2, Permutation (map key p) (map key (queued sc) ++ r2)).
    { destruct n as [|n]; [exists []; rewrite app_nil_r, Q; reflexivity|].
      destruct (alive_split p) as [r2 E2]. exists r2. rewrite Q. exact E2. }
    destruct X as [r2 E2]. exists (r2 ++ rest). rewrite R, E2, Kq, app_assoc. reflexivity.
  - intros Hs. rewrite Kq, <- (N Hs). destruct n as [|n]; rewrite Q; [reflexivity|]. rewrite alive_all by exact Hs. reflexivity.
Qed.

Lemma start_population (wd : world O (fld * bool)) : ready (w_st wd) ->
  population 0 agents (fst (call_init u sched_new wd)) (w_st (snd (call_init u sched_new wd))).
Proof.
  intros Rd. destruct (start_between wd Rd) as [B Q]. split; [exact B|]. rewrite Q. split; [reflexivity|].
  split; [exists []; rewrite app_nil_r; reflexivity|reflexivity].
Qed.

Lemma run_population (wd : world O (fld * bool)) : ready (w_st wd) ->
  forall chs, (N.of_nat (length chs) < 18446744073709551616)%N ->
  let c0 := call_init u sched_new wd in
  let c := after_steps u chs (fst c0) (snd c0) in
  exists p, population (length chs) p (fst c) (w_st (snd c)).
Proof.
  intros Rd chs. induction chs as [|ch chs IH] using rev_ind; intros Bn c0 c; subst c.
  - exists agents. apply start_population. exact Rd.
  - rewrite app_length in *. cbn [length] in *. destruct IH as (p & P); [lia|]. rewrite after_snoc.
    replace (length chs + 1) with (Datatypes.S (length chs)) in * by lia.
    destruct (population_step (length chs) _ _ _ ch ltac:(lia) P) as (q & P1 & _). exists q. exact P1.
Qed.

Lemma population_ready n p sc s : population (Datatypes.S n) p sc s -> ready s /\ reads (fst s) p /\ Forall (fun o => inf o) p.
Proof.
  intros ((_ & _ & _ & _ & Fp & Fl & W & B) & _). replace (N.of_nat (Datatypes.S n) =? 0)%N with false in B by (symmetry; apply N.eqb_neq; lia).
  destruct B as [B1 B2]. split; [split; [exact Fl|split; [exact W|exact B2]]|]. auto.
Qed.
Lemma population_shows n p sc s : population n p sc s ->
  snd s = false /\ shows A location w h d (looked_at sc (fst s)) p.
Proof.
  intros ((Hn & _ & _ & _ & Fp & Fl & W & B) & _). split; [exact Fl|]. unfold looked_at. rewrite Hn.
  destruct (N.of_nat n =? 0)%N.
  - destruct s as [f b]. cbn [fst snd] in *. destruct (update_publishes f p W B) as (f' & _ & E & W' & R' & _). rewrite E.
    apply reads_shows; assumption.
  - destruct B as [B _]. apply reads_shows; assumption.
Qed.

(** ** [simulate!] *)
Lemma loop_population chs : forall k i n p sc (wd : world O (fld * bool)),
  (N.of_nat n + N.of_nat k < 18446744073709551616)%N ->
  population n p sc (w_st wd) ->
  exists n' q, n <= n' <= n + k /\ (k <> 0 -> n < n') /\
    population n' q (fst (sim_loop u chs i k sc wd)) (w_st (snd (sim_loop u chs i k sc wd))).
Proof.
  induction k as [|k IH]; intros i n p sc wd Bn P; cbn [sim_loop].
  - exists n, p. split; [lia|]. split; [congruence|exact P].
  - destruct (population_step n p sc wd (chs i) ltac:(lia) P) as (q & P1 & _).
    destruct (step u (chs i) sc wd) as [sc1 w1]. cbn [fst snd] in P1. unfold call_end. cbn [flock_user u_end run_hprog].
    destruct (ends (fst (w_st w1))); cbn [fst snd].
    + exists (Datatypes.S n), q. split; [lia|]. split; [lia|exact P1].
    + destruct (IH (Datatypes.S i) (Datatypes.S n) q sc1 (World (w_st w1) (w_trace w1 ++ CEnd false :: api [])) ltac:(lia) P1)
        as (n' & q' & B1 & B2 & P2).
      exists n', q'. split; [lia|]. split; [lia|exact P2].
Qed.

Lemma rep_population chs n (wd : world O (fld * bool)) : (N.of_nat n < 18446744073709551616)%N -> n <> 0 -> ready (w_st wd) ->
  exists n' q, population (Datatypes.S n') q (fst (sim_rep u chs n wd)) (w_st (snd (sim_rep u chs n wd))).
Proof.
  intros Bn Hn Rd. unfold sim_rep. pose proof (start_population wd Rd) as P. destruct (call_init u sched_new wd) as [sc w1].
  cbn [fst snd] in P. destruct (loop_population chs n 0 0 agents sc w1 ltac:(lia) P) as (n' & q & B1 & B2 & P1).
  destruct n' as [|n']; [lia|]. eauto.
Qed.

Lemma reps_population chs n : (N.of_nat n < 18446744073709551616)%N -> n <> 0 ->
  forall reps r (wd : world O (fld * bool)), ready (w_st wd) ->
  ready (w_st (snd (sim_reps u chs r reps n wd))) /\
  (reps <> 0 -> exists n' q sc, population (Datatypes.S n') q sc (w_st (snd (sim_reps u chs r reps n wd)))).
Proof.
  intros Bn Hn. induction reps as [|reps IH]; intros r wd Rd; cbn [sim_reps]; [split; [exact Rd|congruence]|].
  destruct (rep_population (chs r) n wd Bn Hn Rd) as (n' & q & P).
  destruct (sim_rep u (chs r) n wd) as [sc w1]. cbn [fst snd] in P. destruct (population_ready _ _ _ _ P) as [Rd1 _].
  destruct (IH (Datatypes.S r) w1 Rd1) as [I1 I2]. destruct (sim_reps u chs (Datatypes.S r) reps n w1) as [l w2] eqn:E.
  cbn [snd] in *. split; [exact I1|]. intros _. destruct reps as [|reps]; [|apply I2; lia].
  cbn in E. injection E as <- <-. eauto.
Qed.
End Flock.
