(** * Proofs about one process of a distributed simulation *)
From Coq Require Import List Bool ZArith NArith Arith Lia Permutation.
From Verif Require Import F32 F32Facts F32Real SchedModel SchedSpec SchedProofs SchedStep SchedTime SchedHist SimModel
  Grid ObjModel FieldModel FieldSpec FieldProofs KdModel KdSpec KdProofs KdStore
  OrderSpec OrderProofs OrderModels OrderInst FlockSpec FlockProofs DistModel DistSpec DistTree.
Import ListNotations.
Local Open Scope nat_scope.

(** ** A step is its first part and [after_step] *)
Lemma step_mid {A S} (u : user A S) ch sc w : step u ch sc w = finish_step u (fst (mid_step u ch sc w)) (snd (mid_step u ch sc w)).
Proof.
  unfold step, mid_step. destruct (call_before u sc _) as [sc1 w1]. destruct (pq_peek (ch 0) (s_events sc1)); [|reflexivity].
  destruct (pop_due _ ch 0 _ _) as [due rest]. destruct (run_items u _ w1 due) as [sc3 w2]. reflexivity.
Qed.

Lemma mid_anatomy {A S} (u : user A S) ch sc w : unique_ids (s_events sc) ->
  exists sc1 s1 log1 due rest backs now,
    run_hprog (u_before u (st0 u sc w)) sc = (sc1, s1, log1) /\
    Permutation (s_events sc1) (due ++ rest) /\
    (s_events sc1 = [] -> now = s_time sc1) /\
    (s_events sc1 <> [] -> exists e0, pq_peek (ch 0) (s_events sc1) = Some e0 /\ now = ev_time e0 /\
       pop_due (length (s_events sc1)) ch 0 now (s_events sc1) = (due, rest)) /\
    turns u due s1 backs (w_st (snd (mid_step u ch sc w))) /\
    unique_ids (rest ++ backs) /\
    fst (mid_step u ch sc w) = Sched (s_step sc1) now (rest ++ backs) (s_ids sc1).
Proof.
  intros Hu. unfold mid_step. set (w0 := if (s_step sc =? 0)%N then call_update u (s_step sc) w else w).
  assert (Hw0 : w_st w0 = st0 u sc w).
  { unfold w0, st0. destruct (N.eqb_spec (s_step sc) 0) as [E|E]; [rewrite E|]; reflexivity. }
  unfold call_before. rewrite Hw0. destruct (run_hprog (u_before u (st0 u sc w)) sc) as [[sc1 s1] log1] eqn:E1.
  pose proof (run_hprog_unique _ _ _ _ _ E1 Hu) as Hu1.
  destruct (pq_peek (ch 0) (s_events sc1)) as [e0|] eqn:P.
  - destruct (pop_due (length (s_events sc1)) ch 0 (ev_time e0) (s_events sc1)) as [due rest] eqn:Pd.
    pose proof (pop_due_perm _ _ _ _ _ _ _ Hu1 Pd) as Perm.
    destruct (run_items u (Sched (s_step sc1) (ev_time e0) rest (s_ids sc1)) (World s1 (w_trace w0 ++ CStateBefore :: api log1)) due) as [sc2 w2] eqn:R.
    apply run_items_turns in R. 2:{ cbn. eapply unique_ids_perm; eauto. }
    destruct R as (backs & tr & Hts & Hst & Htm & Hids & Hev & Hu2 & _). cbn in Hts, Hst, Htm, Hids, Hev.
    exists sc1, s1, log1, due, rest, backs, (ev_time e0). split; [reflexivity|]. split; [exact Perm|].
    split. { intros Q. rewrite Q in P. apply pq_peek_In in P. destruct P. }
    split; [eauto|]. split; [exact Hts|]. rewrite <- Hev. split; [exact Hu2|]. destruct sc2 as [a b c e]. cbn in *. congruence.
  - apply pq_peek_none in P. exists sc1, s1, log1, [], [], [], (s_time sc1). split; [reflexivity|]. rewrite P. split; [reflexivity|].
    split; [reflexivity|]. split; [congruence|]. split; [constructor|]. split; [constructor|]. destruct sc1; cbn in *; subst; reflexivity.
Qed.

(** The first part of a step does not depend on what the second exchange will return. *)
Lemma mid_mail A {O} location key radius rule p r b H M ch (sc : sched O) wd :
  mid_step (d_user A location key radius rule p r b H M) ch sc wd = mid_step (d_user A location key radius rule p r b H []) ch sc wd.
Proof.
  assert (X : forall es sc w, run_items (d_user A location key radius rule p r b H M) sc w es = run_items (d_user A location key radius rule p r b H []) sc w es).
  { induction es as [|e es IH]; intros sc' w'; [reflexivity|]. cbn [run_items].
    change (run_item (d_user A location key radius rule p r b H M) sc' w' e) with (run_item (d_user A location key radius rule p r b H []) sc' w' e).
    destruct (run_item _ _ _ _). apply IH. }
  unfold mid_step. change (call_before (d_user A location key radius rule p r b H M)) with (call_before (d_user A location key radius rule p r b H [])).
  change (call_update (d_user A location key radius rule p r b H M)) with (call_update (d_user A location key radius rule p r b H [])).
  destruct (call_before _ _ _) as [sc1 w1]. destruct (pq_peek _ _); [|reflexivity]. destruct (pop_due _ _ _ _ _). apply X.
Qed.

Lemma ev_inj {A} (q : list (event A)) e1 e2 : unique_ids q -> In e1 q -> In e2 q -> ev_id e1 = ev_id e2 -> e1 = e2.
Proof.
  unfold unique_ids. induction q as [|z q IH]; [intros _ []|]. cbn [map]. intros U K1 K2 Q. inversion U as [|? ? Nz Uz]; subst.
  destruct K1 as [K1|K1], K2 as [K2|K2]; subst; auto.
  - destruct Nz. rewrite Q. apply in_map. exact K2.
  - destruct Nz. rewrite <- Q. apply in_map. exact K1.
Qed.

Section Process.
Variable A : arith.
Context {O : Type}.
Notation kop := (kop A (O := O)).
Notation kdtree := (kdtree A (O := O)).
Variable location : O -> num A * num A.
Variable key : O -> N.
Variable radius : O -> num A.
Variable rule : O -> list O -> O.
Variable p r : nat.
Variables x y w h d dist : num A.
Hypothesis GS : good_size A w h d.
Hypothesis Hp : 2 <= p.
Hypothesis Hr : r < p.
Variable bs : list (block A).
Variable k0 : kdtree.
Hypothesis Made : create_tree A p (Z.of_nat r) 0 x y w h d dist = Some k0.
Hypothesis Subs : k_subtrees k0 = bs.
Notation where_ o := (block_by_location A p bs (location o)).
Notation inf o := (in_field A w h d (location o)).
Definition here (s : nat) (o : O) : bool := match where_ o with Some b => (b =? Z.of_nat s)%Z | None => false end.
Hypothesis Key : forall o l, key (rule o l) = key o.
Hypothesis Stays : forall o l, inf o -> inf (rule o l).
Hypothesis Near : forall o l, inf o -> where_ o = Some (Z.of_nat r) ->
  exists b, b < p /\ where_ (rule o l) = Some (Z.of_nat b) /\ (b = r \/ In (Z.of_nat b) (k_neighbor_trees k0)).
Notation epoch := (epoch A p w h d k0).
Notation tidy := (tidy A location).
Notation user := (d_user A location key radius rule p r).
Notation next := (moves_to A location radius rule).

Definition good (o : O) : Prop := inf o /\ where_ o = Some (Z.of_nat r).
Definition reached (o : O) : Prop := inf o /\ exists b, b < p /\ where_ o = Some (Z.of_nat b) /\ (b = r \/ In (Z.of_nat b) (k_neighbor_trees k0)).
(** The call an agent makes when it has arrived. *)
Definition put (o : O) : kop :=
  match where_ o with
  | Some b => if (b =? Z.of_nat r)%Z then KInsert o (location o) else KAddress (Z.to_nat b) o
  | None => KLazyUpdate
  end.
Definition ins (o : O) : kop := KInsert o (location o).
Definition cpy (o : O) : kop := KInsertRead o (location o).

Lemma put_ok o : reached o -> k_in A p w h d (put o) /\ put o <> KLazyUpdate /\ tidy (put o).
Proof.
  intros (Hi & b & Hb & E & _). unfold put. rewrite E. destruct (Z.eqb_spec (Z.of_nat b) (Z.of_nat r)); cbn.
  - split; [exact Hi|]. split; [discriminate|reflexivity].
  - split; [lia|]. split; [discriminate|exact I].
Qed.
Lemma inserted_put l : Forall reached l -> inserted A (map put l) = filter (here r) l /\ copied A (map put l) = [] /\
  forall s, s < p -> addressed A (map put l) s = if s =? r then [] else filter (here s) l.
Proof.
  intros F. induction F as [|o l Ho F (I1 & I2 & I3)].
  - split; [reflexivity|]. split; [reflexivity|]. intros s _. cbn. destruct (s =? r); reflexivity.
  - destruct Ho as (Hi & b & Hb & E & _).
    assert (Hh : forall s, here s o = (Z.of_nat b =? Z.of_nat s)%Z) by (intros s; unfold here; rewrite E; reflexivity).
    cbn [map filter]. rewrite (Hh r). assert (Ep : put o = if (Z.of_nat b =? Z.of_nat r)%Z then KInsert o (location o) else KAddress b o) by (unfold put; rewrite E, Nat2Z.id; reflexivity).
    rewrite Ep. destruct (Z.eqb_spec (Z.of_nat b) (Z.of_nat r)) as [e|e]; cbn [inserted copied addressed flat_map app].
    + split; [f_equal; exact I1|]. split; [exact I2|]. intros s Hs. fold (addressed A (map put l) s). rewrite (I3 s Hs), (Hh s). destruct (Nat.eqb_spec s r) as [|n]; [reflexivity|].
      destruct (Z.eqb_spec (Z.of_nat b) (Z.of_nat s)); [lia|reflexivity].
    + split; [exact I1|]. split; [exact I2|]. intros s Hs. fold (addressed A (map put l) s). rewrite (I3 s Hs), (Hh s). destruct (Nat.eqb_spec s r) as [|n].
      * destruct (Nat.eqb_spec b s); [lia|reflexivity].
      * destruct (Z.eqb_spec (Z.of_nat b) (Z.of_nat s)), (Nat.eqb_spec b s); try lia; reflexivity.
Qed.

(** ** Reading in the halo *)
Lemma copies_run : forall l k E S ids, epoch k E S -> Forall (fun o => inf o) l ->
  exists K, fold_left (fun s o => with_tree A s (k_insert_read A (ps_tree s) o (location o))) l (PS k ids false) = PS K ids false /\
    epoch K E (S ++ map cpy l).
Proof.
  induction l as [|o l IH]; intros k E S ids He F; cbn [fold_left map].
  - exists k. rewrite app_nil_r. auto.
  - inversion F as [|? ? Ho F']; subst. destruct (epoch_op A p r x y w h d dist GS Hp Hr k0 Made k E S (cpy o) He Ho) as (k' & E1 & He'); [discriminate|].
    cbn [k_step cpy] in E1. cbn [ps_tree with_tree]. rewrite E1. cbn [with_tree ps_ids ps_panic].
    destruct (IH k' E _ ids He' F') as (K & Ek & HK). exists K. split; [exact Ek|]. rewrite <- app_assoc in HK. exact HK.
Qed.

(** ** The turns *)
Lemma step_put k E S K ids o : epoch k E S -> shape A K = shape A k0 -> k_read k = k_read K -> good o ->
  exists k', d_step A location radius rule p r o (PS k ids false) = (next K o, PS k' ids false) /\
    epoch k' E (S ++ [put (next K o)]) /\ k_read k' = k_read K /\ reached (next K o).
Proof.
  intros He ShK R [Hi Hw]. destruct (epoch_shape A p r x y w h d dist GS Hp Hr k0 Made _ _ _ He) as [W Sh].
  destruct (relax_some A location p r x y w h d dist GS Hp Hr k0 Made _ _ _ (location o) (radius o) He) as [v Ev].
  assert (En : next K o = rule o v).
  { unfold moves_to. rewrite <- (relax_read A location k0 K k (location o) (radius o) ShK Sh R), Ev. reflexivity. }
  assert (Re : reached (next K o)).
  { rewrite En. split; [apply Stays; exact Hi|]. destruct (Near o v Hi Hw) as (b & Hb & E1 & E2). eauto. }
  destruct (put_ok _ Re) as (P1 & P2 & P3).
  destruct (epoch_op A p r x y w h d dist GS Hp Hr k0 Made k E S (put (next K o)) He P1 P2) as (k' & E1 & He').
  exists k'. unfold d_step. cbn [ps_tree]. rewrite Ev, <- En.
  assert (Sb : k_subtrees k = bs) by (rewrite <- Subs; unfold shape in Sh; congruence). rewrite Sb.
  unfold put in *. destruct Re as (_ & b & Hb & Eb & _). rewrite Eb in *.
  assert (Rk : k_read k' = k_read k).
  { destruct (Z.of_nat b =? Z.of_nat r)%Z; cbn [k_step] in E1.
    - unfold k_insert in E1. destruct (push _ _ _); [|discriminate]. destruct (region_of _ _ _); [|injection E1 as <-; reflexivity].
      destruct (push (k_neighbors k) _ _); [|discriminate]. injection E1 as <-. reflexivity.
    - unfold k_address in E1. destruct (push _ _ _); [|discriminate]. injection E1 as <-. reflexivity. }
  split; [|split; [exact He'|split; [congruence|]]].
  - destruct (Z.of_nat b =? Z.of_nat r)%Z; cbn [k_step] in E1; rewrite E1; reflexivity.
  - split; [rewrite En; apply Stays; exact Hi|]. rewrite En in *. destruct (Near o v Hi Hw) as (b' & Hb' & E1' & E2). eauto.
Qed.

Definition lively (l : list (event O)) : Prop := forall e, In e l -> ai_rep (fst e) = true /\ good (ai_agent (fst e)).
Definition tags (l : list (event O)) : list (N * O) := map (fun e => (ev_id e, ai_agent (fst e))) l.

Lemma turns_put b H M K ids E : shape A K = shape A k0 -> forall l k S backs s,
  epoch k E S -> k_read k = k_read K -> lively l -> turns (user b H M) l (PS k ids false) backs s ->
  exists k', s = PS k' ids false /\ epoch k' E (S ++ map put (map (next K) (ags l))) /\
    tags backs = map (fun t => (fst t, next K (snd t))) (tags l) /\ (forall e, In e backs -> ai_rep (fst e) = true) /\
    Forall reached (map (next K) (ags l)).
Proof.
  intros ShK. induction l as [|e l IH]; intros k S backs s He R L T.
  - inversion T; subst. exists k. cbn. rewrite app_nil_r. split; [reflexivity|]. split; [exact He|]. split; [reflexivity|]. split; [intros ? []|constructor].
  - destruct (L e (or_introl eq_refl)) as [Lr Lg].
    destruct (step_put k E S K ids (ai_agent (fst e)) He ShK R Lg) as (k1 & E1 & He1 & R1 & Re).
    assert (LF : life (user b H M) (ai_rep (fst e)) (ai_agent (fst e)) (PS k ids false) = (Some (next K (ai_agent (fst e))), PS k1 ids false)).
    { unfold life. cbn [d_user a_before a_step a_after a_stopped]. rewrite E1, Lr. reflexivity. }
    assert (L' : lively l) by (intros z Hz; apply L; right; exact Hz).
    inversion T as [|? ? ? ? ? ? T1 T2|? ? ? ? ? ? ? T1 T2]; subst; apply turn_life in T1; destruct T1 as [Tb Ts];
      rewrite LF in Tb, Ts; cbn [fst snd back_of] in Tb, Ts; [discriminate|]. subst s'. injection Tb as ->.
    destruct (IH k1 _ _ _ He1 R1 L' T2) as (k' & -> & H' & B' & Rp & Fr).
    exists k'. split; [reflexivity|]. rewrite <- app_assoc in H'. split; [exact H'|]. cbn [tags map ags fst snd ev_id ai_id ai_agent].
    split; [f_equal; exact B'|]. split; [intros z [<-|Hz]; [reflexivity|apply Rp; exact Hz]|]. constructor; assumption.
Qed.

(** ** Between the steps *)
Definition evok (ids : list (N * N)) (sc : sched O) : Prop :=
  unique_ids (s_events sc) /\
  forall e, In e (s_events sc) -> (ev_id e < s_ids sc)%N /\ ai_rep (fst e) = true /\ lookup (key (ai_agent (fst e))) ids = Some (ev_id e).
Definition pinv (n B : N) (sc : sched O) (s : pstate A (O := O)) : Prop :=
  s_step sc = n /\ ps_panic s = false /\ evok (ps_ids s) sc /\ together (s_events sc) /\ good_time (s_time sc) /\ (s_ids sc <= B)%N /\
  Forall good (queued sc) /\ NoDup (map key (queued sc)) /\
  exists E, Forall tidy E /\ Permutation (inserted A E) (queued sc) /\
    if (n =? 0)%N then epoch (ps_tree s) None E else epoch (ps_tree s) (Some E) [].

(** In the middle of a step. *)
Definition minv (n B : N) (sc : sched O) (s : pstate A (O := O)) : Prop :=
  s_step sc = n /\ ps_panic s = false /\ evok (ps_ids s) sc /\
  (forall e, In e (s_events sc) -> ev_time e = fadd (s_time sc) f1) /\ good_time (s_time sc) /\ (s_ids sc <= B)%N /\
  Forall reached (queued sc) /\ NoDup (map key (queued sc)) /\
  exists E C, Forall (fun o => inf o) C /\ epoch (ps_tree s) E (map cpy C ++ map put (queued sc)).

Definition found (c : sched O * world O (pstate A (O := O))) : pstate A (O := O) :=
  if (s_step (fst c) =? 0)%N then d_update A p 0 (w_st (snd c)) else w_st (snd c).

Lemma found_epoch n B sc wd : pinv n B sc (w_st wd) ->
  exists E k, found (sc, wd) = PS k (ps_ids (w_st wd)) false /\ Forall tidy E /\ Permutation (inserted A E) (queued sc) /\ epoch k (Some E) [].
Proof.
  intros (Hn & Pf & _ & _ & _ & _ & _ & _ & E & FE & PE & HE). unfold found. cbn [fst snd]. rewrite Hn. destruct (w_st wd) as [k ids pf]. cbn [ps_panic ps_tree ps_ids] in *. subst pf.
  destruct (n =? 0)%N.
  - destruct (epoch_update A p r x y w h d dist GS Hp Hr k0 Made _ _ _ HE) as (k' & E1 & He). exists E, k'. unfold d_update. cbn [ps_tree]. rewrite E1. cbn [with_tree ps_ids ps_panic]. auto.
  - exists E, k. auto.
Qed.

Lemma tags_ags l : map snd (tags l) = ags l.
Proof. unfold tags, ags. rewrite map_map. reflexivity. Qed.
Lemma tags_ids l : map fst (tags l) = map ev_id l.
Proof. unfold tags. rewrite map_map. reflexivity. Qed.
Lemma tidy_cpy l : Forall tidy (map cpy l).
Proof. apply Forall_forall. intros c Hc. apply in_map_iff in Hc. destruct Hc as (o & <- & _). reflexivity. Qed.
Lemma copied_cpy l : copied A (map cpy l) = l /\ inserted A (map cpy l) = [].
Proof. induction l as [|o l [I1 I2]]; [auto|]. cbn. split; [f_equal; exact I1|exact I2]. Qed.
Lemma addressed_cpy l s : addressed A (map cpy l) s = [].
Proof. induction l as [|o l IH]; [reflexivity|exact IH]. Qed.

(** The first part of a step, whatever the second exchange will bring. *)
Lemma mid_inv b H M ch n B sc wd : pinv n B sc (w_st wd) -> Forall (fun o => inf o) (concat H) ->
  let c' := mid_step (user b H M) ch sc wd in
  exists K, tree_shows A location w h d K (queued sc ++ concat H) /\ minv n B (fst c') (w_st (snd c')) /\
    Permutation (queued (fst c')) (map (next K) (queued sc)).
Proof.
  intros I FH c'. destruct (found_epoch n B sc wd I) as (E & k & Ef & FE & PE & He). unfold found in Ef. cbn [fst snd] in Ef.
  destruct I as (Hn & Pf & (U & Ev) & Tg & Gt & Bd & Gd & ND & _).
  destruct (mid_anatomy (user b H M) ch sc wd U) as (sc1 & s1 & l1 & due & rest & backs & now & B1 & P & N0 & N1 & T & U2 & Es). fold c' in T, Es.
  assert (E0 : st0 (user b H M) sc wd = PS k (ps_ids (w_st wd)) false) by exact Ef. rewrite E0 in B1. cbn [d_user u_before run_hprog] in B1. injection B1 as <- <- <-.
  unfold d_before in T. cbn [ps_tree] in T. rewrite (epoch_halo A p r x y w h d dist GS Hp Hr k0 Made k E [] He) in T.
  destruct (copies_run (concat H) k (Some E) [] (ps_ids (w_st wd)) He FH) as (K & EK & HK). rewrite EK in T. cbn [app] in HK.
  exists K. destruct (epoch_shape A p r x y w h d dist GS Hp Hr k0 Made _ _ _ HK) as [_ ShK].
  assert (Er : rest = []).
  { destruct (s_events sc) as [|e0 q0] eqn:Q.
    - apply Permutation_nil in P. apply app_eq_nil in P. apply P.
    - rewrite <- Q in *. destruct N1 as (e1 & Pk & Nw & Pd); [congruence|]. exact (all_due ch now _ due rest e1 U Tg Pk Nw Pd). }
  subst rest. rewrite app_nil_r in P. cbn [app] in U2, Es.
  assert (In1 : forall e, In e due -> In e (s_events sc)) by (intros e He'; eapply Permutation_in; [symmetry; exact P|exact He']).
  assert (Ld : lively due).
  { intros e Hd. destruct (Ev e (In1 e Hd)) as (_ & Rp & _). split; [exact Rp|]. rewrite Forall_forall in Gd. apply Gd. unfold queued. apply in_map_iff. eauto. }
  destruct (turns_put b H M K (ps_ids (w_st wd)) (Some E) ShK due K _ backs _ HK eq_refl Ld T) as (k' & Es2 & He2 & Tb & Rp & Fr).
  assert (Qb : queued (fst c') = map (next K) (ags due)).
  { rewrite Es. unfold queued. cbn [s_events]. fold (ags backs). rewrite <- (tags_ags backs), Tb, map_map. cbn [snd]. rewrite <- (tags_ags due), map_map. reflexivity. }
  assert (Pd : Permutation (ags due) (queued sc)) by (apply Permutation_map; symmetry; exact P).
  split; [|split].
  - intros l Hl. destruct (epoch_shows A location p r x y w h d dist GS Hp Hr k0 Made K E (map cpy (concat H)) HK FE (tidy_cpy _) l Hl) as (bag & E1 & E2).
    exists bag. split; [exact E1|]. rewrite E2. destruct (copied_cpy (concat H)) as [-> _]. rewrite !filter_app. apply Permutation_app_tail.
    clear - PE. induction PE; cbn; try reflexivity.
    + destruct (same_cell _ _ _ _); [constructor|]; assumption.
    + destruct (same_cell A d (location y) l), (same_cell A d (location x) l); try reflexivity. apply perm_swap.
    + etransitivity; eassumption.
  - unfold minv. rewrite Qb. rewrite Es2. rewrite Es. cbn [s_step s_events s_time s_ids ps_panic ps_ids ps_tree].
    split; [exact Hn|]. split; [reflexivity|].
    assert (Bk : forall e, In e backs -> exists e', In e' (s_events sc) /\ ev_id e = ev_id e' /\ ai_agent (fst e) = next K (ai_agent (fst e')) /\ ev_time e = fadd (ev_time e') f1).
    { intros e Hb. destruct (turns_backs _ _ _ _ _ T e Hb) as (e1 & H1 & Et & _ & Ei).
      assert (Ht : In (ev_id e, ai_agent (fst e)) (tags backs)) by (unfold tags; apply (in_map (fun e => (ev_id e, ai_agent (fst e)))); exact Hb).
      rewrite Tb in Ht. apply in_map_iff in Ht. destruct Ht as ((i & a) & Ht & H2). cbn [fst snd] in Ht. unfold tags in H2. apply in_map_iff in H2.
      destruct H2 as (e2 & H2 & H3). injection H2 as <- <-. injection Ht as Ht1 Ht2.
      assert (X : e1 = e2).
      { apply (ev_inj _ _ _ U (In1 _ H1) (In1 _ H3)). congruence. }
      subst e2. exists e1. auto. }
    split; [|split; [|split; [|split; [exact Bd|split; [exact Fr|split]]]]].
    + split; [exact U2|]. intros e Hb. destruct (Bk e Hb) as (e' & H1 & -> & Ea & _). destruct (Ev e' H1) as (X1 & X2 & X3).
      split; [exact X1|]. split; [apply Rp; exact Hb|]. rewrite Ea. unfold moves_to. rewrite Key. exact X3.
    + intros e Hb. destruct (Bk e Hb) as (e' & H1 & _ & _ & ->). f_equal. destruct N1 as (e1 & Pk & -> & _).
      { intros Z. rewrite Z in H1. exact H1. }
      destruct Tg as (tm & _ & Ht). rewrite (Ht e' H1), (Ht e1); [reflexivity|]. eapply pq_peek_In; exact Pk.
    + destruct (s_events sc) as [|e0 q0] eqn:Q; [rewrite N0 by reflexivity; exact Gt|]. destruct N1 as (e1 & Pk & -> & _); [discriminate|].
      destruct Tg as (tm & Gtm & Ht). rewrite (Ht e1); [exact Gtm|]. eapply pq_peek_In; exact Pk.
    + assert (Z : map key (map (next K) (ags due)) = map key (ags due)).
      { rewrite map_map. apply map_ext. intros o. apply Key. }
      rewrite Z. eapply Permutation_NoDup; [apply Permutation_map; symmetry; exact Pd|exact ND].
    + exists (Some E), (concat H). split; [exact FH|exact He2].
  - rewrite Qb. apply Permutation_map. exact Pd.
Qed.

(** ** The second part *)
Lemma filter_unique (f : event O -> bool) q : unique_ids q -> unique_ids (filter f q).
Proof.
  unfold unique_ids. induction q as [|e q IH]; cbn; [auto|]. intros U. inversion U as [|? ? Nz U']; subst. destruct (f e); [|auto]. cbn. constructor; [|auto].
  intros Z. apply Nz. apply in_map_iff in Z. destruct Z as (e' & <- & Hin). apply filter_In in Hin. apply in_map. apply Hin.
Qed.
Lemma dequeue_run (F : pstate A (O := O) -> hprog O (pstate A (O := O))) : forall l s sc,
  ps_panic s = false -> unique_ids (s_events sc) -> (forall o, In o l -> lookup (key o) (ps_ids s) <> None) ->
  exists sc', fst (run_hprog (d_dequeue A key l s F) sc) = fst (run_hprog (F s) sc') /\
    s_step sc' = s_step sc /\ s_time sc' = s_time sc /\ s_ids sc' = s_ids sc /\
    s_events sc' = filter (fun e => negb (existsb (fun o => match lookup (key o) (ps_ids s) with Some i => (ev_id e =? i)%N | None => false end) l)) (s_events sc).
Proof.
  induction l as [|o l IH]; intros s sc Pf U Hl; cbn [d_dequeue].
  - exists sc. split; [reflexivity|]. repeat (split; [reflexivity|]). cbn. induction (s_events sc) as [|e q IHq]; [reflexivity|]. cbn. f_equal. apply IHq. unfold unique_ids in *. cbn in U. inversion U; assumption.
  - destruct (lookup (key o) (ps_ids s)) as [i|] eqn:Lk; [|destruct (Hl o (or_introl eq_refl) Lk)].
    cbn [run_hprog do_op]. unfold dequeue. destruct (pq_remove_filter i (s_events sc) U) as [F1 _]. pose proof (pq_remove_unique i _ U) as U'.
    destruct (pq_remove i (s_events sc)) as [q ro]. cbn [fst] in F1, U'. subst q.
    destruct (IH s (Sched (s_step sc) (s_time sc) (filter (fun e => negb (ev_id e =? i)%N) (s_events sc)) (s_ids sc)) Pf U') as (sc' & E & H1 & H2 & H3 & H4).
    { intros o' Ho'. apply Hl. right. exact Ho'. }
    exists sc'. cbn [s_step s_time s_ids s_events] in *. destruct (run_hprog (d_dequeue A key l s F) _) as [[sc2 s2] lg2]. cbn [fst] in *.
    split; [exact E|]. repeat (split; [assumption|]). rewrite H4, filter_filter. apply filter_ext. intros e. cbn [existsb]. rewrite Lk, negb_orb. reflexivity.
Qed.

Lemma arrive_run : forall l k E S ids sc, epoch k E S -> Forall (fun o => inf o) l -> evok ids sc ->
  (s_ids sc + N.of_nat (length l) < 2 ^ 32)%N ->
  (forall o, In o l -> ~ In (key o) (map key (queued sc))) -> NoDup (map key l) ->
  (forall e, In e (s_events sc) -> ev_time e = fadd (s_time sc) f1) ->
  exists k' ids' sc', fst (run_hprog (d_arrive A location key l (PS k ids false)) sc) = (sc', PS k' ids' false) /\
    epoch k' E (S ++ map ins l) /\ evok ids' sc' /\ queued sc' = queued sc ++ l /\
    s_step sc' = s_step sc /\ s_time sc' = s_time sc /\ s_ids sc' = (s_ids sc + N.of_nat (length l))%N /\
    (forall e, In e (s_events sc') -> ev_time e = fadd (s_time sc) f1).
Proof.
  induction l as [|o l IH]; intros k E S ids sc He Fl Ev Bd Ky ND Tm; cbn [d_arrive].
  - exists k, ids, sc. cbn. rewrite !app_nil_r, N.add_0_r. split; [reflexivity|]. split; [exact He|]. split; [exact Ev|]. auto.
  - inversion Fl as [|? ? Ho Fl']; subst. cbn [map] in ND. inversion ND as [|? ? Nk ND']; subst. cbn [length] in Bd.
    cbn [run_hprog do_op]. unfold distributed_schedule_repeating. destruct Ev as [U Ev].
    rewrite pq_push_fresh.
    2:{ cbn [ai_id]. intros Z. apply in_map_iff in Z. destruct Z as (e & Ei & Hin). destruct (Ev e Hin) as (X & _). lia. }
    rewrite u32_pred_succ by (unfold u32_mod; lia).
    destruct (epoch_op A p r x y w h d dist GS Hp Hr k0 Made k E S (ins o) He Ho) as (k1 & E1 & He1); [discriminate|]. cbn [k_step ins] in E1.
    cbn [ps_tree]. rewrite E1. cbn [with_tree ps_ids ps_panic note ps_tree].
    assert (Su : u32_succ (s_ids sc) = (s_ids sc + 1)%N) by (unfold u32_succ; apply N.mod_small; unfold u32_mod; lia). rewrite Su.
    set (sc1 := Sched (s_step sc) (s_time sc) (s_events sc ++ [(AI (s_ids sc) o true, Prio (fadd (s_time sc) f1) 0)]) (s_ids sc + 1)%N).
    assert (Q1 : queued sc1 = queued sc ++ [o]) by (unfold queued, sc1; cbn [s_events]; rewrite map_app; reflexivity).
    destruct (IH k1 E (S ++ [ins o]) ((key o, s_ids sc) :: ids) sc1 He1 Fl') as (k' & ids' & sc' & Er & He' & Ev' & Qe & H1 & H2 & H3 & H4).
    + split.
      * unfold sc1. cbn [s_events]. unfold unique_ids. rewrite map_app. apply NoDup_app_one; [exact U|]. cbn. intros Z. apply in_map_iff in Z. destruct Z as (e & Ei & Hin). destruct (Ev e Hin) as (X & _). unfold ev_id in *. lia.
      * intros e Hin. unfold sc1 in *. cbn [s_events s_ids] in *. apply in_app_iff in Hin. destruct Hin as [Hin|[<-|[]]].
        -- destruct (Ev e Hin) as (X1 & X2 & X3). split; [lia|]. split; [exact X2|]. unfold lookup. cbn [find fst].
           destruct (N.eqb_spec (key o) (key (ai_agent (fst e)))) as [Z|Z]; [|exact X3].
           destruct (Ky o (or_introl eq_refl)). rewrite Z. apply in_map. unfold queued. apply (in_map (fun e => ai_agent (fst e))). exact Hin.
        -- unfold ev_id. cbn [fst ai_id ai_rep ai_agent]. split; [lia|]. split; [reflexivity|]. unfold lookup. cbn [find fst]. rewrite N.eqb_refl. reflexivity.
    + unfold sc1. cbn [s_ids]. lia.
    + intros o' Ho'. rewrite Q1, map_app, in_app_iff. cbn [map]. intros [Z|[Z|[]]]; [exact (Ky o' (or_intror Ho') Z)|]. apply Nk. rewrite Z. apply in_map. exact Ho'.
    + exact ND'.
    + unfold sc1. cbn [s_events s_time]. intros e Hin. apply in_app_iff in Hin. destruct Hin as [Hin|[<-|[]]]; [apply Tm; exact Hin|reflexivity].
    + exists k', ids', sc'. destruct (run_hprog (d_arrive A location key l _) sc1) as [[sc2 s2] lg2]. cbn [fst] in *.
      split; [exact Er|]. rewrite <- app_assoc in He'. split; [exact He'|]. split; [exact Ev'|]. rewrite Qe, Q1, <- app_assoc. split; [reflexivity|].
      unfold sc1 in H1, H2, H3, H4. cbn [s_step s_time s_ids] in *. split; [exact H1|]. split; [exact H2|]. split; [rewrite H3; cbn [length]; lia|exact H4].
Qed.

Lemma tidy_ins l : Forall tidy (map ins l).
Proof. apply Forall_forall. intros c Hc. apply in_map_iff in Hc. destruct Hc as (o & <- & _). reflexivity. Qed.
Lemma inserted_ins l : inserted A (map ins l) = l.
Proof. induction l as [|o l IH]; [reflexivity|]. cbn. f_equal. exact IH. Qed.
Lemma inserted_app2 e1 e2 : inserted A (O := O) (e1 ++ e2) = inserted A e1 ++ inserted A e2.
Proof. apply flat_map_app. Qed.
Lemma key_inj l (o o' : O) : NoDup (map key l) -> In o l -> In o' l -> key o = key o' -> o = o'.
Proof.
  induction l as [|z l IH]; [intros _ []|]. cbn [map]. intros ND H1 H2 E. inversion ND as [|? ? Nz ND']; subst.
  destruct H1 as [->|H1], H2 as [->|H2]; auto.
  - destruct Nz. rewrite E. apply in_map. exact H2.
  - destruct Nz. rewrite <- E. apply in_map. exact H1.
Qed.
Lemma here_reached o : reached o -> here r o = true <-> where_ o = Some (Z.of_nat r).
Proof. intros (_ & b & _ & E & _). unfold here. rewrite E. split; [intros H; apply Z.eqb_eq in H; congruence|]. intros H. injection H as ->. apply Z.eqb_refl. Qed.

Lemma finish_inv b H M n B sc wd : minv n B sc (w_st wd) -> (n + 1 < 2 ^ 64)%N ->
  Forall good (concat M) -> NoDup (map key (filter (here r) (queued sc) ++ concat M)) -> (B + N.of_nat (length (concat M)) < 2 ^ 32)%N ->
  let c' := finish_step (user b H M) sc wd in
  pinv (n + 1) (B + N.of_nat (length (concat M))) (fst c') (w_st (snd c')) /\
  Permutation (queued (fst c')) (filter (here r) (queued sc) ++ concat M).
Proof.
  intros (Hn & Pf & (U & Ev) & Tm & Gt & Bd & Fr & ND & E & C & FC & He) Bn GM NDM BM c'.
  unfold c', finish_step, call_after. cbn [d_user u_after]. unfold d_after. rewrite (epoch_mail A p r x y w h d dist GS Hp Hr k0 Made _ _ _ [] He).
  rewrite (epoch_sent A p r x y w h d dist GS Hp Hr k0 Made _ _ _ He).
  set (S := map cpy C ++ map put (queued sc)) in *.
  assert (AD : forall s, s < p -> addressed A S s = if s =? r then [] else filter (here s) (queued sc)).
  { intros s Hs. unfold S. rewrite addressed_app, addressed_cpy. cbn [app]. destruct (inserted_put _ Fr) as (_ & _ & X). apply X. exact Hs. }
  set (leavers := concat (map (addressed A S) (seq 0 p))).
  assert (LV : forall o, In o leavers <-> In o (queued sc) /\ here r o = false).
  { intros o. unfold leavers. rewrite in_concat. split.
    - intros (l & Hl & Ho). apply in_map_iff in Hl. destruct Hl as (s & <- & Hs). apply in_seq in Hs. rewrite AD in Ho by lia.
      destruct (Nat.eqb_spec s r); [destruct Ho|]. apply filter_In in Ho. destruct Ho as [Ho Hh]. split; [exact Ho|].
      unfold here in *. destruct (where_ o); [|discriminate]. apply Z.eqb_eq in Hh. subst. apply Z.eqb_neq. lia.
    - intros [Ho Hh]. rewrite Forall_forall in Fr. destruct (Fr o Ho) as (Hi & s & Hs & Es & _). exists (addressed A S s). split.
      + apply in_map_iff. exists s. split; [reflexivity|]. apply in_seq. lia.
      + rewrite AD by exact Hs. unfold here in *. rewrite Es in Hh. apply Z.eqb_neq in Hh. destruct (Nat.eqb_spec s r); [subst; contradiction|].
        apply filter_In. split; [exact Ho|]. rewrite Es. apply Z.eqb_refl. }
  assert (EV2 : forall o, In o (queued sc) -> exists e, In e (s_events sc) /\ ai_agent (fst e) = o).
  { intros o Ho. unfold queued in Ho. apply in_map_iff in Ho. destruct Ho as (e & <- & He'). eauto. }
  destruct (dequeue_run (d_arrive A location key (concat M)) leavers (w_st wd) sc Pf U) as (sc1 & Er & S1 & S2 & S3 & S4).
  { intros o Ho. apply LV in Ho. destruct Ho as [Ho _]. destruct (EV2 o Ho) as (e & He' & <-). destruct (Ev e He') as (_ & _ & ->). discriminate. }
  assert (S5 : s_events sc1 = filter (fun e => here r (ai_agent (fst e))) (s_events sc)).
  { rewrite S4. apply filter_ext_in. intros e Hin. destruct (Ev e Hin) as (_ & _ & Lk).
    assert (Qe : In (ai_agent (fst e)) (queued sc)) by (unfold queued; apply (in_map (fun e => ai_agent (fst e))); exact Hin).
    destruct (here r (ai_agent (fst e))) eqn:Hh.
    - apply negb_true_iff. destruct (existsb _ leavers) eqn:X; [|reflexivity]. apply existsb_exists in X. destruct X as (o & Ho & Hi). apply LV in Ho. destruct Ho as [Ho Hn'].
      destruct (EV2 o Ho) as (e' & He' & <-). destruct (Ev e' He') as (_ & _ & Lk'). rewrite Lk' in Hi. apply N.eqb_eq in Hi.
      assert (e = e').
      { exact (ev_inj _ _ _ U Hin He' Hi). }
      subst e'. congruence.
    - apply negb_false_iff. apply existsb_exists. exists (ai_agent (fst e)). split; [apply LV; auto|]. rewrite Lk. apply N.eqb_refl. }
  assert (Q1 : queued sc1 = filter (here r) (queued sc)).
  { unfold queued. rewrite S5. clear. induction (s_events sc) as [|e q IH]; [reflexivity|]. cbn [filter map]. destruct (here r (ai_agent (fst e))); cbn [map]; rewrite IH; reflexivity. }
  destruct (w_st wd) as [k ids pf] eqn:Ew. cbn [ps_panic ps_tree ps_ids] in *. subst pf.
  assert (Gi : Forall (fun o => inf o) (concat M)) by (eapply Forall_impl; [|exact GM]; intros o [X _]; exact X).
  rewrite map_app in NDM.
  destruct (arrive_run (concat M) k E S ids sc1 He Gi) as (k' & ids' & sc2 & Er2 & He2 & Ev2 & Qe & T1 & T2 & T3 & T4).
  { split; [rewrite S5; apply filter_unique; exact U|].
    intros e Hin. rewrite S5 in Hin. apply filter_In in Hin. destruct Hin as [Hin _]. rewrite S3. apply Ev. exact Hin. }
  { rewrite S3. lia. }
  { intros o Ho. rewrite Q1. intros Z. revert NDM Ho Z. clear. generalize (map key (filter (here r) (queued sc))). intros l1 NDM Ho Z.
    induction l1 as [|z l1 IH]; [destruct Z|]. cbn [app] in NDM. inversion NDM as [|? ? Nz ND']; subst. destruct Z as [->|Z]; [|apply IH; assumption].
    apply Nz. apply in_app_iff. right. apply in_map. exact Ho. }
  { clear - NDM. induction (map key (filter (here r) (queued sc))) as [|z l IH]; [exact NDM|]. cbn in NDM. inversion NDM; auto. }
  { intros e Hin. rewrite S5 in Hin. apply filter_In in Hin. rewrite S2. apply Tm. apply Hin. }
  destruct (run_hprog (d_dequeue A key leavers (PS k ids false) (d_arrive A location key (concat M))) sc) as [[sc3 s3] lg3]. cbn [fst] in Er. rewrite Er2 in Er. injection Er as -> ->.
  destruct (epoch_update A p r x y w h d dist GS Hp Hr k0 Made _ _ _ He2) as (k3 & Eu & He3).
  cbn [fst snd call_update w_st d_user u_update]. unfold d_update. cbn [ps_tree]. rewrite Eu. cbn [with_tree ps_ids ps_panic].
  assert (Q2 : queued (Sched (u64_succ (s_step sc2)) (s_time sc2) (s_events sc2) (s_ids sc2)) = filter (here r) (queued sc) ++ concat M) by (unfold queued at 1; cbn [s_events]; fold (queued sc2); rewrite Qe, Q1; reflexivity).
  split; [|rewrite Q2; reflexivity].
  unfold pinv. rewrite Q2. cbn [s_step s_events s_time s_ids ps_panic ps_ids ps_tree].
  split. { rewrite T1, S1, Hn. apply u64_succ_small. exact Bn. }
  split; [reflexivity|]. split; [exact Ev2|]. split; [|split; [|split; [|split; [|split]]]].
  - exists (fadd (s_time sc1) f1). split; [|exact T4]. rewrite S2. destruct Gt as [G1 G2]. split; [apply fadd_valid; [exact G1|reflexivity]|]. apply fadd_one_ge; assumption.
  - rewrite T2, S2. exact Gt.
  - rewrite T3, S3. lia.
  - apply Forall_app. split; [|exact GM]. apply Forall_forall. intros o Ho. apply filter_In in Ho. destruct Ho as [Ho Hh]. rewrite Forall_forall in Fr.
    specialize (Fr o Ho). split; [apply Fr|]. apply here_reached; assumption.
  - rewrite map_app. exact NDM.
  - replace (n + 1 =? 0)%N with false by (symmetry; apply N.eqb_neq; lia).
    exists (S ++ map ins (concat M)). split; [|split; [|exact He3]].
    + apply Forall_app. split; [|apply tidy_ins]. unfold S. apply Forall_app. split; [apply tidy_cpy|]. apply Forall_forall. intros c Hc. apply in_map_iff in Hc. destruct Hc as (o & <- & Ho).
      rewrite Forall_forall in Fr. destruct (put_ok o (Fr o Ho)) as (_ & _ & X). exact X.
    + rewrite inserted_app2, inserted_ins. unfold S. rewrite inserted_app2. destruct (copied_cpy C) as [_ ->]. destruct (inserted_put _ Fr) as (-> & _). reflexivity.
Qed.

(** ** [init] *)
Lemma init_run : forall l k S ids sc q, epoch k None S -> Forall tidy S -> Permutation (inserted A S) q -> queued sc = q ->
  Forall (fun o => inf o) l -> evok ids sc -> (s_ids sc + N.of_nat (length l) < 2 ^ 32)%N -> NoDup (map key (q ++ l)) ->
  (forall e, In e (s_events sc) -> ev_time e = f0) ->
  exists k' ids' sc' S', fst (run_hprog (d_init A location key l (PS k ids false)) sc) = (sc', PS k' ids' false) /\
    epoch k' None S' /\ Forall tidy S' /\ Permutation (inserted A S') (q ++ l) /\ evok ids' sc' /\ queued sc' = q ++ l /\
    s_step sc' = s_step sc /\ s_time sc' = s_time sc /\ s_ids sc' = (s_ids sc + N.of_nat (length l))%N /\
    (forall e, In e (s_events sc') -> ev_time e = f0).
Proof.
  induction l as [|o l IH]; intros k S ids sc q He FS PS' Q Fl Ev Bd ND Tm; cbn [d_init].
  - exists k, ids, sc, S. cbn. rewrite !app_nil_r, N.add_0_r. auto 12.
  - inversion Fl as [|? ? Ho Fl']; subst. cbn [length] in Bd.
    cbn [run_hprog do_op]. unfold distributed_schedule_repeating. destruct Ev as [U Ev].
    rewrite pq_push_fresh.
    2:{ cbn [ai_id]. intros Z. apply in_map_iff in Z. destruct Z as (e & Ei & Hin). destruct (Ev e Hin) as (X & _). lia. }
    rewrite u32_pred_succ by (unfold u32_mod; lia).
    destruct (epoch_op A p r x y w h d dist GS Hp Hr k0 Made k None S (ins o) He Ho) as (k1 & E1 & He1); [discriminate|]. cbn [k_step ins] in E1.
    cbn [ps_tree]. rewrite E1. cbn [with_tree ps_ids ps_panic note ps_tree].
    assert (Su : u32_succ (s_ids sc) = (s_ids sc + 1)%N) by (unfold u32_succ; apply N.mod_small; unfold u32_mod; lia). rewrite Su.
    set (sc1 := Sched (s_step sc) (s_time sc) (s_events sc ++ [(AI (s_ids sc) o true, Prio f0 0)]) (s_ids sc + 1)%N).
    assert (Q1 : queued sc1 = queued sc ++ [o]) by (unfold queued, sc1; cbn [s_events]; rewrite map_app; reflexivity).
    destruct (IH k1 (S ++ [ins o]) ((key o, s_ids sc) :: ids) sc1 (queued sc ++ [o]) He1) as (k' & ids' & sc' & S' & Er & He' & FS' & PS2 & Ev' & Qe & H1 & H2 & H3 & H4).
    + apply Forall_app. split; [exact FS|]. repeat constructor.
    + rewrite inserted_app2. apply Permutation_app_tail. exact PS'.
    + exact Q1.
    + exact Fl'.
    + split.
      * unfold sc1. cbn [s_events]. unfold unique_ids. rewrite map_app. apply NoDup_app_one; [exact U|]. cbn. intros Z. apply in_map_iff in Z. destruct Z as (e & Ei & Hin). destruct (Ev e Hin) as (X & _). unfold ev_id in *. lia.
      * intros e Hin. unfold sc1 in *. cbn [s_events s_ids] in *. apply in_app_iff in Hin. destruct Hin as [Hin|[<-|[]]].
        -- destruct (Ev e Hin) as (X1 & X2 & X3). split; [lia|]. split; [exact X2|]. unfold lookup. cbn [find fst].
           destruct (N.eqb_spec (key o) (key (ai_agent (fst e)))) as [Z|Z]; [|exact X3].
           exfalso. rewrite map_app in ND. cbn [map] in ND. apply NoDup_remove_2 in ND. apply ND. rewrite Z. apply in_app_iff. left. apply in_map. unfold queued. apply (in_map (fun e => ai_agent (fst e))). exact Hin.
        -- unfold ev_id. cbn [fst ai_id ai_rep ai_agent]. split; [lia|]. split; [reflexivity|]. unfold lookup. cbn [find fst]. rewrite N.eqb_refl. reflexivity.
    + unfold sc1. cbn [s_ids]. lia.
    + rewrite <- app_assoc. exact ND.
    + unfold sc1. cbn [s_events]. intros e Hin. apply in_app_iff in Hin. destruct Hin as [Hin|[<-|[]]]; [apply Tm; exact Hin|reflexivity].
    + exists k', ids', sc', S'. destruct (run_hprog (d_init A location key l _) sc1) as [[sc2 s2] lg2]. cbn [fst] in *.
      rewrite <- app_assoc in Qe, PS2. cbn [app] in Qe, PS2.
      split; [exact Er|]. split; [exact He'|]. split; [exact FS'|]. split; [exact PS2|]. split; [exact Ev'|]. split; [exact Qe|].
      unfold sc1 in H1, H2, H3. cbn [s_step s_time s_ids] in *. split; [exact H1|]. split; [exact H2|]. split; [rewrite H3; cbn [length]; lia|exact H4].
Qed.

Lemma start_inv born H M : Forall good born -> NoDup (map key born) -> (N.of_nat (length born) < 2 ^ 32)%N ->
  let c := call_init (user born H M) sched_new (World (PS k0 [] false) []) in
  pinv 0 (N.of_nat (length born)) (fst c) (w_st (snd c)) /\ queued (fst c) = born.
Proof.
  intros G ND Bd c. unfold c, call_init. cbn [d_user u_init w_st].
  assert (Gi : Forall (fun o => inf o) born) by (eapply Forall_impl; [|exact G]; intros o [X _]; exact X).
  destruct (init_run born k0 [] [] sched_new [] (epoch_start A p w h d k0) (Forall_nil _) (Permutation_refl _) eq_refl Gi) as (k' & ids' & sc' & S' & Er & He & FS & PS' & Ev & Qe & H1 & H2 & H3 & H4).
  - split; [constructor|intros ? []].
  - exact Bd.
  - exact ND.
  - intros ? [].
  - destruct (run_hprog (d_init A location key born (PS k0 [] false)) sched_new) as [[sc2 s2] lg2]. cbn [fst] in Er. injection Er as -> ->. cbn [fst snd w_st app] in *.
    split; [|exact Qe]. unfold pinv. rewrite Qe. cbn [ps_panic ps_ids ps_tree].
    split; [exact H1|]. split; [reflexivity|]. split; [exact Ev|]. split; [exists f0; split; [split; reflexivity|exact H4]|].
    split; [rewrite H2; split; reflexivity|]. split; [rewrite H3; change (s_ids sched_new) with 0%N; lia|]. split; [exact G|]. split; [exact ND|].
    exists S'. split; [exact FS|]. split; [exact PS'|exact He].
Qed.
End Process.
