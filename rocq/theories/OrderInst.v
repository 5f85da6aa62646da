(** * The two families of OrderModels satisfy the hypotheses of C116 *)
From Coq Require Import List Bool ZArith NArith Arith Lia Permutation RelationClasses.
From Verif Require Import F32 F32Facts F32Real SchedModel SchedSpec SchedProofs SchedStep SchedTime
  SimModel Grid DashModel NumModel ObjModel FieldModel OrderSpec OrderProofs OrderModels.
Import ListNotations.

(** ** Runs in which nobody is scheduled after [init] *)
Section Static.
Context {A S K : Type}.
Variables (u : user A S) (key : A -> K).
Hypothesis Quiet : (forall s, exists s', u_before u s = HRet s') /\ (forall s, exists s', u_after u s = HRet s') /\
  (forall s, exists x, u_end u s = HRet x).
Hypothesis Keeps : forall r a s a', fst (life u r a s) = Some a' -> key a' = key a.
Notation ekey := (fun e : event A => key (ai_agent (fst e))).

Definition fine (q : list (event A)) : Prop :=
  NoDup (map ekey q) /\ forall e, In e q -> good_time (ev_time e).

Lemma fine_distinct q : fine q -> distinct_agents key q.
Proof. intros [N G]. split; [exact N|]. intros e He. apply G. exact He. Qed.

Lemma turns_keys l : forall s backs s', turns u l s backs s' ->
  (forall k, In k (map ekey backs) -> In k (map ekey l)) /\
  (NoDup (map ekey l) -> NoDup (map ekey backs)).
Proof.
  intros s backs s' T. induction T as [|e es s s' backs s'' T1 T2 IH|e es b s s' backs s'' T1 T2 IH].
  - auto.
  - cbn. destruct IH as [I1 I2]. split; [auto|]. intros N. inversion N; auto.
  - destruct IH as [I1 I2]. apply turn_life in T1. destruct T1 as [T1 _].
    assert (Kb : ekey b = ekey e).
    { destruct (fst (life u (ai_rep (fst e)) (ai_agent (fst e)) s)) as [a'|] eqn:L; [|discriminate].
      injection T1 as ->. cbn. eapply Keeps. exact L. }
    cbn [map]. rewrite Kb. split.
    + intros k [<-|H]; [left; reflexivity|right; apply I1; exact H].
    + intros N. inversion N as [|? ? N1 N2]; subst. constructor; [|apply I2; exact N2].
      intros H. apply N1. apply I1. exact H.
Qed.

Lemma NoDup_app_intro {X} (a b : list X) : NoDup a -> NoDup b -> (forall x, In x a -> ~ In x b) -> NoDup (a ++ b).
Proof.
  induction a as [|x a IH]; cbn; [auto|]. intros Na Nb D. inversion Na; subst. constructor.
  - intros H. apply in_app_or in H. destruct H; [auto|]. apply (D x); auto.
  - apply IH; auto.
Qed.
Lemma NoDup_app_elim {X} (a b : list X) : NoDup (a ++ b) -> NoDup a /\ NoDup b /\ (forall x, In x a -> ~ In x b).
Proof.
  induction a as [|x a IH]; cbn; intros N; [repeat split; [constructor|exact N|intros ? []]|].
  inversion N as [|? ? N1 N2]; subst. destruct (IH N2) as (I1 & I2 & I3). repeat split; auto.
  - constructor; [|exact I1]. intros H. apply N1. apply in_or_app. auto.
  - intros y [<-|H]; [|auto]. intros H. apply N1. apply in_or_app. auto.
Qed.

Lemma step_fine ch sc (w : world A S) : unique_ids (s_events sc) -> fine (s_events sc) ->
  distinct_agents key (queue_before u sc w) /\ fine (s_events (fst (step u ch sc w))).
Proof.
  intros U F. destruct (step u ch sc w) as [x y] eqn:E. apply step_anatomy in E; [|exact U].
  destruct E as (sc1 & s1 & l1 & due & rest & backs & s2 & tr & now & sc3 & s3 & l3 & B & U1 & P & _ & _ & T & _ & _ & Af & -> & _).
  unfold queue_before. fold (st0 u sc w).
  destruct (proj1 Quiet (st0 u sc w)) as [sb Eb]. rewrite Eb in *. cbn in B |- *. inversion B; subst sc1 s1 l1.
  destruct (proj1 (proj2 Quiet) s2) as [sa Ea]. rewrite Ea in Af. cbn in Af. inversion Af; subst sc3 s3 l3. cbn.
  split; [apply fine_distinct; exact F|]. destruct F as [N G].
  apply (Permutation_NoDup (Permutation_map ekey P)) in N. rewrite map_app in N.
  destruct (NoDup_app_elim _ _ N) as (N1 & N2 & N3). destruct (turns_keys _ _ _ _ T) as [I1 I2].
  split.
  - rewrite map_app. apply NoDup_app_intro; auto. intros k H1 H2. apply (N3 k); auto.
  - intros e He. apply in_app_or in He. destruct He as [He|He].
    + apply G. eapply Permutation_in; [symmetry; exact P|]. apply in_or_app. auto.
    + destruct (turns_backs _ _ _ _ _ T e He) as (e' & He' & Et & _).
      destruct (G e') as [V Nn].
      { eapply Permutation_in; [symmetry; exact P|]. apply in_or_app. auto. }
      rewrite Et. split; [apply fadd_valid; [exact V|reflexivity]|]. apply fadd_one_ge; assumption.
Qed.

Lemma loop_fine chs : forall n i sc (w : world A S),
  unique_ids (s_events sc) -> fine (s_events sc) -> loop_along u (distinct_agents key) chs i n sc w.
Proof.
  induction n as [|n IH]; intros i sc w U F; cbn [loop_along]; [exact I|].
  destruct (step_fine (chs i) sc w U F) as [D F1]. split; [exact D|].
  pose proof (step_unique u (chs i) sc w U) as U1.
  destruct (step u (chs i) sc w) as [sc1 w1]. cbn [fst] in *. unfold call_end.
  destruct (proj2 (proj2 Quiet) (w_st w1)) as [[b s] Ee]. rewrite Ee. cbn.
  destruct b; [exact I|]. apply IH; assumption.
Qed.

Hypothesis Init : forall s, fine (s_events (fst (fst (run_hprog (u_init u s) sched_new)))).

Lemma reps_fine chs n : forall reps r (w : world A S), reps_along u (distinct_agents key) chs r reps n w.
Proof.
  induction reps as [|reps IH]; intros r w; cbn [reps_along]; [exact I|]. split; [|apply IH].
  unfold call_init. specialize (Init (w_st w)).
  pose proof (fun a b c R => run_hprog_unique (u_init u (w_st w)) sched_new a b c R (NoDup_nil _)) as U.
  destruct (run_hprog (u_init u (w_st w)) sched_new) as [[a b] l]. cbn in *.
  apply loop_fine; [eapply U; reflexivity|exact Init].
Qed.
End Static.

(** Scheduling agents with distinct keys. *)
Lemma schedule_all_fine {A K X} (key : A -> K) (agents : list A) : forall (x : X) (sc : sched A),
  NoDup (map key agents) -> unique_ids (s_events sc) -> fine key (s_events sc) ->
  (forall e a, In e (s_events sc) -> In a agents -> key (ai_agent (fst e)) <> key a) ->
  fine key (s_events (fst (fst (run_hprog (schedule_all agents x) sc)))).
Proof.
  induction agents as [|a rest IH]; intros x sc N U F D; cbn [schedule_all run_hprog]; [exact F|].
  cbn [map] in N. inversion N as [|? ? N1 N2]; subst.
  pose proof (do_op_unique sc (OpRepeating a f0 0) U) as U1.
  cbn [do_op] in *. unfold schedule_repeating in *.
  assert (Q : (forall e, In e (fst (pq_push (AI (s_ids sc) a true) (Prio f0 0) (s_events sc))) ->
                 ev_time e = f0 \/ In e (s_events sc)) /\
              ((map (fun e => ai_agent (fst e)) (fst (pq_push (AI (s_ids sc) a true) (Prio f0 0) (s_events sc))) =
                map (fun e => ai_agent (fst e)) (s_events sc)) \/
               (map (fun e => ai_agent (fst e)) (fst (pq_push (AI (s_ids sc) a true) (Prio f0 0) (s_events sc))) =
                map (fun e => ai_agent (fst e)) (s_events sc) ++ [a]))).
  { split.
    - intros e He. apply pq_push_In in He. destruct He as [He|He]; [right; exact He|left]. unfold ev_time. rewrite He. reflexivity.
    - destruct (in_dec N.eq_dec (ai_id (AI (s_ids sc) a true)) (map ev_id (s_events sc))) as [I|I].
      + left. destruct (pq_push_present _ (Prio f0 0) _ I) as (l & b & pb & r & E & _ & _ & ->). rewrite E. cbn.
        rewrite !map_app. reflexivity.
      + right. rewrite pq_push_fresh by exact I. cbn. rewrite map_app. reflexivity. }
  destruct (pq_push (AI (s_ids sc) a true) (Prio f0 0) (s_events sc)) as [q r]. cbn [fst snd] in *.
  destruct Q as [Q1 Q2].
  assert (F1 : fine key q).
  { destruct F as [Fn Fg]. split.
    - assert (Ek : forall q, map (fun e : event A => key (ai_agent (fst e))) q = map key (map (fun e => ai_agent (fst e)) q))
        by (intros q0; rewrite map_map; reflexivity).
      rewrite Ek in *. destruct Q2 as [E|E]; rewrite E; [exact Fn|]. rewrite map_app. cbn. apply NoDup_app_one; [exact Fn|].
      intros H. rewrite map_map in H. apply in_map_iff in H. destruct H as (e & Ee & He).
      apply (D e a He); [left; reflexivity|exact Ee].
    - intros e He. destruct (Q1 e He) as [->|H]; [split; reflexivity|apply Fg; exact H]. }
  assert (D1 : forall e b, In e q -> In b rest -> key (ai_agent (fst e)) <> key b).
  { intros e b He Hb. apply (in_map (fun e => ai_agent (fst e))) in He.
    assert (He' : In (ai_agent (fst e)) (map (fun e => ai_agent (fst e)) (s_events sc) ++ [a])).
    { apply in_or_app. destruct Q2 as [E|E]; rewrite E in He; [left; exact He|]. apply in_app_or in He. exact He. }
    apply in_app_or in He'. destruct He' as [H|[H|[]]].
    - apply in_map_iff in H. destruct H as (e' & Ee & He'). rewrite <- Ee. apply D; [exact He'|right; exact Hb].
    - rewrite <- H. intros Ek. apply N1. rewrite Ek. apply in_map. exact Hb. }
  match goal with |- context [run_hprog (schedule_all rest x) ?SC] => specialize (IH x SC N2 U1 F1 D1) end.
  destruct (run_hprog (schedule_all rest x) _) as [[c d] l]. exact IH.
Qed.

Lemma schedule_all_same {A X} (ok : sop A -> Prop) R (RX : X -> X -> Prop) (agents : list A) x x' :
  (forall a, ok (OpRepeating a f0 0)) -> RX x x' ->
  hook_same ok R RX (schedule_all agents x) (schedule_all agents x').
Proof.
  intros Ok H. induction agents as [|a rest IH]; cbn; [constructor; exact H|]. constructor; [apply Ok|]. intros; exact IH.
Qed.

(** ** Cells of a number grid *)
Section NumberGrid.
Context {T X : Type}.
Variable look : loc * X -> list loc.
Variable rule : loc * X -> list (option T) -> X * option T.
Variable stops : loc * X -> bool.
Variable ends : list (option T) -> bool.
Variable watch : list loc.
Variable agents : list (loc * X).
Notation u := (cell_user look rule stops ends watch agents).

Lemma sg_set_get g v l : (forall k, sg_get (sg_set g v l) k = sg_get g k) /\
  (forall k, sg_get_unbuffered (sg_set g v l) k = if loc_eqb k l then Some v else @sg_get_unbuffered T g k).
Proof.
  split; [reflexivity|]. intros k. unfold sg_get_unbuffered, sg_set. cbn [sg_write].
  induction (sg_write g) as [|p m IH]; cbn.
  - destruct (loc_eqb k l); reflexivity.
  - destruct (loc_eqb l (fst p)) eqn:E.
    + apply loc_eqb_eq in E. subst l. unfold hm_find. cbn. destruct (loc_eqb k (fst p)); reflexivity.
    + destruct (hm_insert loc_eqb l v m) as [m' r]. cbn in *. unfold hm_find in *. cbn.
      destruct (loc_eqb k (fst p)) eqn:E2; [|exact IH]. apply loc_eqb_eq in E2. subst k.
      assert (E3 : loc_eqb (fst p) l = false).
      { apply loc_eqb_neq. apply loc_eqb_neq in E. congruence. }
      rewrite E3. reflexivity.
Qed.

Lemma cell_life r a g : life u r a g =
  (if r then if stops (fst (cell_step look rule a g)) then None else Some (fst (cell_step look rule a g)) else None,
   snd (cell_step look rule a g)).
Proof. unfold life. cbn. destruct (cell_step look rule a g) as [a' g']. cbn. destruct r; reflexivity. Qed.

Definition cell_put (g : sgrid T) (l : loc) (w : option T) : sgrid T :=
  match w with Some v => sg_set g v l | None => g end.
Lemma cell_put_get g l w k : sg_get (cell_put g l w) k = sg_get g k.
Proof. destruct w; reflexivity. Qed.
Lemma cell_step_eq a g : cell_step look rule a g =
  ((fst a, fst (rule a (map (sg_get g) (look a)))), cell_put g (fst a) (snd (rule a (map (sg_get g) (look a))))).
Proof. unfold cell_step. destruct (rule a (map (sg_get g) (look a))); reflexivity. Qed.
Lemma cell_step_fst a g g' : (forall l, sg_get g l = sg_get g' l) ->
  fst (cell_step look rule a g) = fst (cell_step look rule a g').
Proof. intros H. rewrite !cell_step_eq. cbn [fst]. rewrite (map_ext _ _ H). reflexivity. Qed.

Lemma grid_same_equiv : Equivalence (@grid_same T).
Proof.
  split.
  - intros g. repeat split.
  - intros g g' (E1 & E2 & E3 & E4). split; [intros l; symmetry; apply E1|]. split; [intros l; symmetry; apply E2|]. auto.
  - intros a b c (E1 & E2 & E3 & E4) (F1 & F2 & F3 & F4).
    split; [intros l; rewrite E1; apply F1|]. split; [intros l; rewrite E2; apply F2|]. split; congruence.
Qed.

Lemma cell_independent : independent u fst grid_same.
Proof.
  split.
  - exact grid_same_equiv.
  - intros r a s s' (E1 & E2 & E3 & E4). rewrite !cell_life. cbn [fst snd].
    rewrite (cell_step_fst a s s' E1). split; [reflexivity|]. rewrite !cell_step_eq. cbn [snd].
    rewrite (map_ext _ _ E1). destruct (snd (rule a _)) as [v|]; cbn [cell_put]; [|repeat split; assumption].
    split; [intros l; apply E1|]. split; [|auto].
    intros l. rewrite !(proj2 (sg_set_get _ _ _)). destruct (loc_eqb l (fst a)); auto.
  - intros n s s' (E1 & E2 & E3 & E4). split; [exact E2|]. split; [reflexivity|]. auto.
  - intros r r' a b s D. rewrite !cell_life. cbn [fst snd].
    rewrite (cell_step_fst a (snd (cell_step look rule b s)) s); [reflexivity|].
    intros l. rewrite cell_step_eq. cbn [snd]. apply cell_put_get.
  - intros r r' a b s D. rewrite !cell_life. cbn [snd]. rewrite !cell_step_eq. cbn [snd].
    rewrite !(map_ext _ _ (cell_put_get _ _ _)).
    set (wa := snd (rule a _)). set (wb := snd (rule b _)).
    split; [intros l; rewrite !cell_put_get; reflexivity|].
    split; [|destruct wa, wb; split; reflexivity].
    intros l. destruct wa as [va|], wb as [vb|]; cbn [cell_put]; try reflexivity.
    rewrite !(proj2 (sg_set_get _ _ _)).
    destruct (loc_eqb l (fst a)) eqn:Ea; [|reflexivity].
    destruct (loc_eqb l (fst b)) eqn:Eb; [|reflexivity].
    apply loc_eqb_eq in Ea. apply loc_eqb_eq in Eb. congruence.
Qed.

Lemma cell_hooks : step_hooks (fun _ => True) answer_same u grid_same /\ sim_hooks u grid_same.
Proof.
  split.
  - intros s s' H. split; constructor; exact H.
  - intros s s' H. split; [apply schedule_all_same; auto|]. constructor. split; cbn; [|exact H].
    rewrite (map_ext _ _ (proj1 H)). reflexivity.
Qed.

Lemma cell_reps (chs chs' : nat -> nat -> nat -> nat) n reps g : NoDup (map fst agents) ->
  fst (simulate u chs n reps g) = fst (simulate u chs' n reps g) /\
  grid_same (w_st (snd (simulate u chs n reps g))) (w_st (snd (simulate u chs' n reps g))).
Proof.
  intros N. unfold simulate. apply (sim_reps_same u fst grid_same cell_independent (proj1 cell_hooks) (proj2 cell_hooks)).
  - apply grid_same_equiv.
  - apply reps_fine.
    + repeat split; intros s; eexists; reflexivity.
    + intros r a s a' E. rewrite cell_life in E. cbn [fst] in E. rewrite cell_step_eq in E. cbn [fst] in E.
      destruct r; [|discriminate]. destruct (stops _); [discriminate|]. injection E as <-. reflexivity.
    + intros s. apply schedule_all_fine; [exact N|constructor|split; [constructor|intros ? []]|intros ? ? []].
Qed.
End NumberGrid.

(** ** Movers in a field *)
Section Field.
Variable A : arith.
Context {O K : Type}.
Variable location : O -> num A * num A.
Variable radius : O -> num A.
Variable rule : O -> list O -> O.
Variable stops : O -> bool.
Variable agents : list O.
Variable key : O -> K.
Hypothesis rule_unordered : forall o l l', Permutation l l' -> rule o l = rule o l'.
Hypothesis rule_key : forall o l, key (rule o l) = key o.
Notation u := (mover_user A location radius rule stops agents).
Notation fld := (@field2d A O).

Definition orel {X Y} (R : X -> Y -> Prop) (a : option X) (b : option Y) : Prop :=
  match a, b with None, None => True | Some x, Some y => R x y | _, _ => False end.

Lemma F2_refl (v : list (list O)) : Forall2 (@Permutation O) v v.
Proof. induction v; constructor; auto. Qed.
Lemma F2_sym (v v' : list (list O)) : Forall2 (@Permutation O) v v' -> Forall2 (@Permutation O) v' v.
Proof. induction 1; constructor; auto. symmetry. assumption. Qed.
Lemma F2_trans (v v' : list (list O)) : Forall2 (@Permutation O) v v' -> forall v'', Forall2 (@Permutation O) v' v'' -> Forall2 (@Permutation O) v v''.
Proof. induction 1; intros v'' H'; inversion H'; subst; constructor; [etransitivity; eauto|apply IHForall2; assumption]. Qed.

Lemma params_equiv : Equivalence (@params_same A O).
Proof.
  split; unfold params_same.
  - intros f. repeat split.
  - intros f f' H. intuition congruence.
  - intros f f' f'' H H'. intuition congruence.
Qed.
Lemma mover_equiv : Equivalence (@mover_same A O).
Proof.
  split.
  - intros [f b]. split; [|reflexivity]. split; [apply F2_refl|]. split; [apply F2_refl|apply (@Equivalence_Reflexive _ _ params_equiv)].
  - intros [f b] [f' b'] [(H1 & H2 & H3) H4]. cbn in *. split; [|symmetry; exact H4].
    split; [apply F2_sym; exact H1|]. split; [apply F2_sym; exact H2|]. apply (@Equivalence_Symmetric _ _ params_equiv). exact H3.
  - intros [f b] [f' b'] [f'' b''] [(H1 & H2 & H3) H4] [(H1' & H2' & H3') H4']. cbn in *. split; [|cbn; congruence]. cbn.
    split; [eapply F2_trans; eauto|]. split; [eapply F2_trans; eauto|]. eapply (@Equivalence_Transitive _ _ params_equiv); eauto.
Qed.

Lemma mover_equiv_refl (f : fld) : field_same f f.
Proof. split; [apply F2_refl|]. split; [apply F2_refl|apply (@Equivalence_Reflexive _ _ params_equiv)]. Qed.

Lemma vget_F2 v v' z : Forall2 (@Permutation O) v v' -> orel (@Permutation O) (vget v z) (vget v' z).
Proof.
  intros H. unfold vget. destruct (as_index z) as [i|]; [|exact I].
  revert i. induction H; intros [|i]; cbn; auto.
Qed.
Lemma mapM_orel {X Y Z} (R : Y -> Z -> Prop) (f : X -> option Y) (g : X -> option Z) l :
  (forall x, orel R (f x) (g x)) -> orel (Forall2 R) (mapM f l) (mapM g l).
Proof.
  intros H. induction l as [|x l IH]; cbn; [constructor|].
  specialize (H x). destruct (f x), (g x); cbn in H; [|destruct H|destruct H|exact I].
  destruct (mapM f l), (mapM g l); cbn in *; [|destruct IH|destruct IH|exact I]. constructor; assumption.
Qed.
Lemma concat_F2 (v v' : list (list O)) : Forall2 (@Permutation O) v v' -> Permutation (concat v) (concat v').
Proof. induction 1; cbn; [constructor|]. apply Permutation_app; assumption. Qed.
Lemma lset_F2 i b b' v v' : Permutation b b' -> Forall2 (@Permutation O) v v' -> Forall2 (@Permutation O) (lset i b v) (lset i b' v').
Proof. intros Hb H. revert i. induction H; intros [|i]; cbn; constructor; auto. Qed.

Lemma neighbors_same f f' l d : Forall2 (@Permutation O) (f_read f) (f_read f') -> params_same f f' ->
  orel (@Permutation O) (f_neighbors A location f l d) (f_neighbors A location f' l d).
Proof.
  intros H (E1 & E2 & E3 & E4 & E5 & E6 & E7 & E8 & E9). unfold f_neighbors.
  assert (W : window A f l d = window A f' l d) by (unfold window; rewrite E2, E3, E4, E5; reflexivity).
  rewrite W, E2, E3, E4, E5, E6. destruct (le A d (of_int A 0)); [constructor|].
  destruct (window A f' l d) as [ids|]; [|exact I].
  match goal with |- orel _ (option_map _ (mapM ?F _)) (option_map _ (mapM ?G _)) =>
    pose proof (mapM_orel (@Permutation O) F G ids) as M end.
  cbn beta in M. lapply M.
  - intros M'. destruct (mapM _ ids), (mapM _ ids); cbn in *; [apply concat_F2; exact M'|destruct M'|destruct M'|exact I].
  - intros c. pose proof (vget_F2 _ _ (cell_index (f_dh f') c) H) as V.
    destruct (vget (f_read f) _), (vget (f_read f') _); cbn in *; [apply filter_perm; exact V|destruct V|destruct V|exact I].
Qed.

(** Placing an object, as a change of the bags and a count. *)
Definition put (f : fld) (o : O) (l : num A * num A) : fld * bool :=
  match f_set A f o l with None => (f, true) | Some f' => (f', false) end.

Lemma put_eq f o l : put f o l =
  match as_index (f_index A f l) with
  | Some i =>
      match nth_error (f_write f) i with
      | Some b => (Field2D (f_read f) (lset i (b ++ [o]) (f_write f))
                    (if f_checked f then f_nagents f else f_nagents f + 1)%N
                    (f_width f) (f_height f) (f_disc f) (f_toroidal f) (f_dh f) (f_dw f) (f_density f) (f_checked f), false)
      | None => (f, true)
      end
  | None => (f, true)
  end.
Proof.
  unfold put, f_set, vget, vset. destruct (as_index (f_index A f l)) as [i|]; [|reflexivity].
  destruct (nth_error (f_write f) i) as [b|] eqn:E; [|reflexivity].
  assert (L : (i < length (f_write f))%nat) by (apply nth_error_Some; congruence).
  apply Nat.ltb_lt in L. rewrite L. reflexivity.
Qed.

Lemma nth_F2 v v' i : Forall2 (@Permutation O) v v' -> orel (@Permutation O) (nth_error v i) (nth_error v' i).
Proof. intros H. revert i. induction H; intros [|i]; cbn; auto. Qed.

Lemma put_same f f' o l : field_same f f' ->
  field_same (fst (put f o l)) (fst (put f' o l)) /\ snd (put f o l) = snd (put f' o l).
Proof.
  intros S. pose proof S as (R & W & P). pose proof P as (E1 & E2 & E3 & E4 & E5 & E6 & E7 & E8 & E9). rewrite !put_eq.
  assert (Ei : f_index A f l = f_index A f' l) by (unfold f_index; rewrite E4, E6; reflexivity).
  rewrite Ei. destruct (as_index (f_index A f' l)) as [i|]; [|auto].
  pose proof (nth_F2 _ _ i W) as N.
  destruct (nth_error (f_write f) i) as [b|], (nth_error (f_write f') i) as [b'|]; cbn in N; [|destruct N|destruct N|auto].
  cbn [fst snd]. split; [|reflexivity]. split; [exact R|]. split.
  - apply lset_F2; [|exact W]. apply Permutation_app_tail. exact N.
  - unfold params_same. cbn. rewrite E1, E9. intuition.
Qed.

Lemma lset_lset_other {X} (x y : X) v : forall i j, i <> j -> lset i x (lset j y v) = lset j y (lset i x v).
Proof. induction v as [|z v IH]; intros [|i] [|j] H; cbn; try congruence. f_equal. apply IH. congruence. Qed.
Lemma lset_lset_same {X} (x y : X) v : forall i, lset i x (lset i y v) = lset i x v.
Proof. induction v as [|z v IH]; intros [|i]; cbn; try reflexivity. f_equal. apply IH. Qed.

Lemma put_read f o l : f_read (fst (put f o l)) = f_read f.
Proof. rewrite put_eq. destruct (as_index _); [destruct (nth_error _ _)|]; reflexivity. Qed.
Lemma put_index f o l l' : f_index A (fst (put f o l)) l' = f_index A f l'.
Proof. rewrite put_eq. destruct (as_index _); [destruct (nth_error _ _)|]; reflexivity. Qed.

Lemma put_comm f o l o' l' :
  field_same (fst (put (fst (put f o' l')) o l)) (fst (put (fst (put f o l)) o' l')) /\
  snd (put (fst (put f o' l')) o l) = snd (put f o l) /\
  snd (put (fst (put f o l)) o' l') = snd (put f o' l').
Proof.
  assert (Rf : forall f : fld, field_same f f).
  { intros x. split; [apply F2_refl|]. split; [apply F2_refl|apply (@Equivalence_Reflexive _ _ params_equiv)]. }
  rewrite !(put_eq (fst _)), !put_index.
  rewrite !put_eq.
  destruct (as_index (f_index A f l)) as [i|], (as_index (f_index A f l')) as [j|]; cbn [fst snd]; auto.
  destruct (nth_error (f_write f) i) as [b|] eqn:Ei, (nth_error (f_write f) j) as [b'|] eqn:Ej; cbn [fst snd f_write]; rewrite ?Ei, ?Ej; auto.
  2:{ assert (D : i <> j) by congruence. rewrite lset_other by congruence. rewrite Ej. cbn. auto. }
  2:{ assert (D : i <> j) by congruence. rewrite lset_other by congruence. rewrite Ei. cbn. auto. }
  destruct (Nat.eq_dec i j) as [<-|D].
  - assert (b' = b) by congruence. subst b'.
    assert (L : (i < length (f_write f))%nat) by (apply nth_error_Some; congruence).
    rewrite !lset_same by exact L. cbn [fst snd f_checked f_nagents f_read].
    split; [|auto]. split; [apply F2_refl|]. cbn [f_write]. split.
    + rewrite !lset_lset_same. apply lset_F2; [|apply F2_refl]. rewrite <- !app_assoc. apply Permutation_app_head. apply perm_swap.
    + unfold params_same. cbn. repeat split.
  - rewrite !lset_other by congruence. rewrite Ei, Ej. cbn [fst snd]. split; [|auto].
    split; [apply F2_refl|]. cbn [f_write]. split.
    + rewrite lset_lset_other by congruence. apply F2_refl.
    + unfold params_same. cbn. repeat split.
Qed.

(** What a mover wants to do depends only on what is published. *)
Definition plan (f : fld) (o : O) : option O :=
  option_map (rule o) (f_neighbors A location f (location o) (radius o)).
Lemma plan_same f f' o : Forall2 (@Permutation O) (f_read f) (f_read f') -> params_same f f' -> plan f o = plan f' o.
Proof.
  intros R P. pose proof (neighbors_same f f' (location o) (radius o) R P) as N. unfold plan.
  destruct (f_neighbors A location f _ _), (f_neighbors A location f' _ _); cbn in *; [|destruct N|destruct N|reflexivity].
  f_equal. apply rule_unordered. exact N.
Qed.
Lemma neighbors_geom f f' l d : f_read f = f_read f' -> f_width f = f_width f' -> f_height f = f_height f' ->
  f_disc f = f_disc f' -> f_toroidal f = f_toroidal f' -> f_dh f = f_dh f' ->
  f_neighbors A location f l d = f_neighbors A location f' l d.
Proof.
  intros E1 E2 E3 E4 E5 E6. unfold f_neighbors, window. rewrite E1, E2, E3, E4, E5, E6. reflexivity.
Qed.
Lemma plan_put f o l o' : plan (fst (put f o l)) o' = plan f o'.
Proof.
  unfold plan. f_equal. apply neighbors_geom; rewrite put_eq; destruct (as_index _); try destruct (nth_error _ _); reflexivity.
Qed.

Definition enact (o : O) (s : fld * bool) (p : option O) : fld * bool :=
  match p with
  | None => (fst s, true)
  | Some o' => let x := put (fst s) o' (location o') in (fst x, if snd x then true else snd s)
  end.
Lemma mover_step_eq o s : mover_step A location radius rule o s =
  (match plan (fst s) o with None => o | Some o' => o' end, enact o s (plan (fst s) o)).
Proof.
  unfold mover_step, plan, enact, put. destruct (f_neighbors A location (fst s) (location o) (radius o)) as [ns|]; cbn; [|reflexivity].
  destruct (f_set A (fst s) (rule o ns) (location (rule o ns))); reflexivity.
Qed.

Lemma mover_life r o s : life u r o s =
  (let o' := match plan (fst s) o with None => o | Some o' => o' end in
   (if r then if stops o' then None else Some o' else None, enact o s (plan (fst s) o))).
Proof.
  unfold life. cbn [mover_user a_before a_step a_after a_stopped]. rewrite mover_step_eq. destruct r; reflexivity.
Qed.

Lemma plan_enact o s p o' : plan (fst (enact o s p)) o' = plan (fst s) o'.
Proof. destruct p; cbn; [apply plan_put|reflexivity]. Qed.

Lemma update_same (s s' : fld * bool) : mover_same s s' -> mover_same (mover_update A s) (mover_update A s').
Proof.
  destruct s as [f b], s' as [f' b']. intros [(R & W & P) E]. cbn in *. subst b'.
  pose proof P as (E1 & E2 & E3 & E4 & E5 & E6 & E7 & E8 & E9).
  unfold mover_update, f_lazy_update. cbn [fst snd]. rewrite E9, E6, E7.
  destruct (f_checked f').
  - split; [|reflexivity]. split; [exact W|]. cbn [f_write f_read fst]. split.
    + clear -R. induction R; constructor; auto.
    + unfold params_same. cbn. intuition.
  - destruct (as_index (wrap32 (f_dw f' * f_dh f'))) as [[|n]|]; try (split; [split; [exact R|split; [exact W|exact P]]|reflexivity]).
    split; [|reflexivity]. split; [exact W|]. split; [apply F2_refl|]. unfold params_same. cbn. rewrite E1. intuition.
Qed.

Lemma mover_independent : independent u key mover_same.
Proof.
  split.
  - exact mover_equiv.
  - intros r o [f b] [f' b'] [S E]. cbn in S, E. subst b'. rewrite !mover_life. cbn [fst snd].
    rewrite (plan_same f f' o (proj1 S) (proj2 (proj2 S))). split; [reflexivity|].
    destruct (plan f' o) as [o'|]; cbn [enact fst snd]; [|split; [exact S|reflexivity]].
    destruct (put_same f f' o' (location o') S) as [S1 S2]. split; [exact S1|]. cbn. rewrite S2. reflexivity.
  - intros n s s' H. apply update_same. exact H.
  - intros r r' a c s _. rewrite !mover_life. cbn [fst snd]. rewrite plan_enact. reflexivity.
  - intros r r' a c s _. rewrite !mover_life. cbn [fst snd]. rewrite !plan_enact.
    destruct (plan (fst s) a) as [a'|], (plan (fst s) c) as [c'|]; cbn [enact fst snd]; cbn zeta.
    + destruct (put_comm (fst s) a' (location a') c' (location c')) as (H1 & H2 & H3).
      split; [exact H1|]. cbn [snd]. rewrite H2, H3.
      destruct (snd (put (fst s) a' (location a'))), (snd (put (fst s) c' (location c'))); reflexivity.
    + split; [|cbn; destruct (snd (put _ _ _)); reflexivity]. apply mover_equiv_refl.
    + split; [|cbn; destruct (snd (put _ _ _)); reflexivity]. apply mover_equiv_refl.
    + split; [|reflexivity]. apply mover_equiv_refl.
Qed.

Lemma mover_hooks : step_hooks (fun _ => True) answer_same u mover_same /\ sim_hooks u mover_same.
Proof.
  split.
  - intros s s' H. split; constructor; exact H.
  - intros s s' H. split; [apply schedule_all_same; auto|]. constructor. split; [reflexivity|exact H].
Qed.

Lemma mover_reps (chs chs' : nat -> nat -> nat -> nat) n reps s : NoDup (map key agents) ->
  fst (simulate u chs n reps s) = fst (simulate u chs' n reps s) /\
  mover_same (w_st (snd (simulate u chs n reps s))) (w_st (snd (simulate u chs' n reps s))).
Proof.
  intros N. unfold simulate. apply (sim_reps_same u key mover_same mover_independent (proj1 mover_hooks) (proj2 mover_hooks)).
  - apply mover_equiv.
  - apply reps_fine.
    + repeat split; intros x; eexists; reflexivity.
    + intros r o x o' E. rewrite mover_life in E. cbn [fst] in E.
      destruct r; [|discriminate]. unfold plan in E. destruct (f_neighbors A location (fst x) (location o) (radius o)) as [ns|]; cbn in E.
      * destruct (stops (rule o ns)); [discriminate|]. injection E as <-. apply rule_key.
      * destruct (stops o); [discriminate|]. injection E as <-. reflexivity.
    + intros x. apply schedule_all_fine; [exact N|constructor|split; [constructor|intros ? []]|intros ? ? []].
Qed.
End Field.
