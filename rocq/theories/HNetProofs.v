(** * HNetwork: the model refines the abstract hypergraph *)
From Coq Require Import List Bool NArith Arith Lia Permutation.
From Verif Require Import DashModel NetModel NetSpec NetProofs NetRef NetRun HNetModel HNetSpec.
Import ListNotations.
Local Open Scope N_scope.
Local Notation lkN := (lk N.eqb).

(** ** Sets of ids *)
Lemma in_list_iff i l : in_list i l = true <-> In i l.
Proof.
  unfold in_list. rewrite existsb_exists. split; [intros (x & H1 & H2); apply N.eqb_eq in H2; subst; exact H1|]. intros H. exists i. split; [exact H|apply N.eqb_refl].
Qed.
Lemma in_list_false i l : in_list i l = false <-> ~ In i l.
Proof. rewrite <- in_list_iff. destruct (in_list i l); split; congruence. Qed.
Lemma in_list_app i a b : in_list i (a ++ b) = in_list i a || in_list i b.
Proof. apply existsb_app. Qed.
Lemma same_members_iff a b : same_members a b = true <-> (forall i, In i a <-> In i b).
Proof.
  unfold same_members. rewrite andb_true_iff, !forallb_forall. setoid_rewrite in_list_iff. split.
  - intros [H1 H2] i. split; [apply H1|apply H2].
  - intros H. split; intros i Hi; apply H; exact Hi.
Qed.
Lemma same_members_sym a b : same_members a b = same_members b a.
Proof. unfold same_members. apply andb_comm. Qed.
Lemma same_members_cong a b c : (forall i, In i a <-> In i b) -> same_members a c = same_members b c.
Proof.
  intros H. destruct (same_members a c) eqn:A; symmetry.
  - apply same_members_iff. intros i. rewrite <- H. apply same_members_iff. exact A.
  - apply not_true_is_false. intros B. rewrite same_members_iff in B. assert (C : same_members a c = true) by (apply same_members_iff; intros i; rewrite H; apply B). congruence.
Qed.
Lemma same_members_trans a b c : same_members a b = true -> same_members b c = true -> same_members a c = true.
Proof. rewrite !same_members_iff. intros H1 H2 i. rewrite H1. apply H2. Qed.
Lemma hs_eq_same a b : NoDup a -> NoDup b -> hs_eq a b = same_members a b.
Proof.
  intros Ha Hb. unfold hs_eq. destruct (same_members a b) eqn:S.
  - pose proof (proj1 (same_members_iff _ _) S) as SS. clear S. rename SS into S. apply andb_true_intro. split.
    + apply Nat.eqb_eq, Nat.le_antisymm; apply NoDup_incl_length; try assumption; intros x Hx; apply S; exact Hx.
    + apply forallb_forall. intros x Hx. apply (in_list_iff x b), S, Hx.
  - apply not_true_is_false. intros H. apply andb_prop in H. destruct H as [H1 H2]. apply Nat.eqb_eq in H1. rewrite forallb_forall in H2.
    assert (I : incl a b) by (intros x Hx; apply (in_list_iff x b), H2, Hx).
    assert (I' : incl b a) by (apply NoDup_length_incl; [exact Ha|lia|exact I]).
    assert (F : same_members a b = true) by (apply same_members_iff; intros i; split; [apply I|apply I']). congruence.
Qed.
Lemma dedup_ok l : forall acc, NoDup acc -> NoDup (fold_left hs_insert l acc) /\ (forall i, In i (fold_left hs_insert l acc) <-> In i acc \/ In i l).
Proof.
  induction l as [|x l IH]; intros acc H; cbn [fold_left]; [split; [exact H|intros i; cbn; tauto]|].
  assert (H' : NoDup (hs_insert acc x) /\ forall i, In i (hs_insert acc x) <-> In i acc \/ i = x).
  { unfold hs_insert. change (mem x acc) with (in_list x acc). destruct (in_list x acc) eqn:F.
    - split; [exact H|]. apply in_list_iff in F. intros i. split; [tauto|]. intros [G| ->]; assumption.
    - apply in_list_false in F. split.
      + apply (NoDup_Add (a := x) (l := acc)); [|split; assumption]. pose proof (Add_app x acc []) as A. rewrite app_nil_r in A. exact A.
      + intros i. rewrite in_app_iff. cbn. split; [intros [G|[G|[]]]; [left; exact G|right; symmetry; exact G]|intros [G|G]; [left; exact G|right; left; symmetry; exact G]]. }
  destruct H' as [H1 H2]. destruct (IH _ H1) as [I1 I2]. split; [exact I1|]. intros i. rewrite I2, H2. cbn. split; intuition congruence.
Qed.
Lemma dedup_id l : forall acc, NoDup (acc ++ l) -> fold_left hs_insert l acc = acc ++ l.
Proof.
  induction l as [|x l IH]; intros acc H; cbn [fold_left]; [symmetry; apply app_nil_r|].
  assert (F : hs_insert acc x = acc ++ [x]).
  { unfold hs_insert. change (mem x acc) with (in_list x acc). assert (G : in_list x acc = false); [|rewrite G; reflexivity]. apply in_list_false. intros G.
    apply NoDup_remove_2 in H. apply H, in_or_app. left. exact G. }
  rewrite F, IH; rewrite <- app_assoc; [reflexivity|exact H].
Qed.

Section HNet.
Context {O L W : Type}.
Variable eqo : O -> O -> bool.
Variable E : equivalence eqo.
Local Notation hedge := (hedge L W).
Local Notation opts := (edge_options L W).
Local Notation emap := (list (N * list hedge)).
Local Notation aedge := (list N * opts)%type.

Lemma hedge_new_shown ids (o : opts) : NoDup ids -> hedge_new ids o = hshown (ids, o).
Proof. intros H. unfold hedge_new. rewrite (dedup_id ids []) by exact H. destruct o; reflexivity. Qed.
Lemma hedge_new_nodes ids (o : opts) : h_nodes (hedge_new ids o) = fold_left hs_insert ids [].
Proof. destruct o; reflexivity. Qed.

(** ** Edges *)
Record erep (m : emap) (es : list aedge) (ls : list N) : Prop := ERep {
  er_u : kuniq N.eqb m;
  er_lk : forall i, lkN i m = if in_list i ls then Some (hlist i es) else None
}.
Record eok (es : list aedge) (ls : list N) : Prop := EOk {
  eo_listed : forall e i, In e es -> In i (fst e) -> in_list i ls = true;
  eo_nodup : forall e, In e es -> NoDup (fst e);
  eo_diff : ForallOrdPairs (fun a b => same_members (fst a) (fst b) = false) es
}.

Lemma hlist_unlisted i es ls : eok es ls -> in_list i ls = false -> hlist i es = [].
Proof.
  intros H F. unfold hlist. rewrite filter_none; [reflexivity|]. intros e He. apply in_list_false. intros Hi. rewrite (eo_listed _ _ H e i He Hi) in F. discriminate.
Qed.
Lemma diff_in es : ForallOrdPairs (fun a b : aedge => same_members (fst a) (fst b) = false) es ->
  forall P, (forall a b, P a = true -> P b = true -> same_members (fst a) (fst b) = true) -> (length (filter P es) <= 1)%nat.
Proof.
  intros H P HP. induction H as [|a l H1 H2 IH]; [cbn; lia|]. cbn [filter]. destruct (P a) eqn:A; [|exact IH].
  rewrite filter_none; [cbn; lia|]. intros b Hb. apply not_true_is_false. intros B. rewrite Forall_forall in H1. specialize (HP a b A B). specialize (H1 b Hb). congruence.
Qed.
Lemma diff_filter es P : ForallOrdPairs (fun a b : aedge => same_members (fst a) (fst b) = false) es ->
  ForallOrdPairs (fun a b : aedge => same_members (fst a) (fst b) = false) (filter P es).
Proof.
  intros H. induction H as [|a l H1 H2 IH]; [constructor|]. cbn [filter]. destruct (P a); [|exact IH]. constructor; [|exact IH].
  apply Forall_forall. intros b Hb. apply filter_In in Hb. rewrite Forall_forall in H1. apply H1, Hb.
Qed.
Lemma eok_filter es ls P : eok es ls -> eok (filter P es) ls.
Proof.
  intros H. constructor.
  - intros e i He. apply filter_In in He. apply (eo_listed _ _ H). apply He.
  - intros e He. apply filter_In in He. apply (eo_nodup _ _ H). apply He.
  - apply diff_filter, (eo_diff _ _ H).
Qed.

(** add_edge *)
Lemma add_loop_true e todo : NoDup todo -> forall m : emap, kuniq N.eqb m ->
  (forall i es, In i todo -> lkN i m = Some es -> existsb (hedge_eq e) es = false) ->
  exists m', h_add_loop e todo m = (m', true) /\ kuniq N.eqb m' /\
    forall x, lkN x m' = if in_list x todo then Some ((match lkN x m with Some l => l | None => [] end) ++ [e]) else lkN x m.
Proof.
  intros HN. induction HN as [|i todo HI HN IH]; intros m U H; cbn [h_add_loop].
  - exists m. split; [reflexivity|]. split; [exact U|]. intros x. reflexivity.
  - change (val_of i m) with (lkN i m).
    assert (G : exists m1, (match lkN i m with
        | Some es => if existsb (hedge_eq e) es then (m, false) else h_add_loop e todo (hm_modify N.eqb i (fun es => es ++ [e]) m)
        | None => h_add_loop e todo (fst (hm_insert N.eqb i [e] m)) end) = h_add_loop e todo m1 /\ kuniq N.eqb m1 /\
        forall x, lkN x m1 = if x =? i then Some ((match lkN i m with Some l => l | None => [] end) ++ [e]) else lkN x m).
    { destruct (lkN i m) as [es|] eqn:F.
      - rewrite (H i es (or_introl eq_refl) F). eexists. split; [reflexivity|]. split; [apply kuniq_modify; exact U|]. intros x. rewrite (lk_modify _ Neq).
        destruct (x =? i) eqn:A; [|reflexivity]. apply N.eqb_eq in A. subst x. rewrite F. reflexivity.
      - eexists. split; [reflexivity|]. split; [apply kuniq_insert; [exact Neq|exact U]|]. intros x. rewrite (lk_insert _ Neq). destruct (x =? i); reflexivity. }
    destruct G as (m1 & -> & U1 & L1). destruct (IH m1 U1) as (m' & E1 & U' & L').
    { intros j es Hj. rewrite L1. destruct (j =? i) eqn:A; [apply N.eqb_eq in A; subst; contradiction|]. apply H. right. exact Hj. }
    exists m'. split; [exact E1|]. split; [exact U'|]. intros x. rewrite L', L1. change (in_list x (i :: todo)) with ((x =? i) || in_list x todo).
    destruct (x =? i) eqn:A; [apply N.eqb_eq in A; subst x|reflexivity].
    rewrite (proj2 (in_list_false i todo) HI). reflexivity.
Qed.

(** The hyperedges of a node and a set of members. *)
Lemma find_hlist i t (es : list aedge) : (forall e, In e es -> NoDup (fst e)) -> NoDup t -> In i t ->
  find (fun x => hs_eq (h_nodes x) t) (hlist i es) = option_map hshown (find (fun e => same_members t (fst e)) es).
Proof.
  intros HN Ht Hi. unfold hlist. induction es as [|e es IH]; [reflexivity|]. cbn [filter find].
  assert (HN' : forall e, In e es -> NoDup (fst e)) by (intros x Hx; apply HN; right; exact Hx). specialize (IH HN').
  destruct (in_list i (fst e)) eqn:F.
  - cbn [map find]. change (h_nodes (hshown e)) with (fst e). rewrite (hs_eq_same _ _ (HN e (or_introl eq_refl)) Ht), same_members_sym.
    destruct (same_members t (fst e)); [reflexivity|exact IH].
  - destruct (same_members t (fst e)) eqn:S; [|exact IH]. apply in_list_false in F. pose proof (proj1 (same_members_iff _ _) S i) as SM_. cbn [fst] in SM_. tauto.
Qed.
Lemma existsb_hlist i e (es : list aedge) : (forall e, In e es -> NoDup (fst e)) -> NoDup (h_nodes e) -> In i (h_nodes e) ->
  existsb (hedge_eq e) (hlist i es) = existsb (fun x => same_members (h_nodes e) (fst x)) es.
Proof.
  intros HN Ht Hi. unfold hlist. induction es as [|x es IH]; [reflexivity|]. cbn [filter existsb].
  assert (HN' : forall e, In e es -> NoDup (fst e)) by (intros y Hy; apply HN; right; exact Hy). specialize (IH HN').
  destruct (in_list i (fst x)) eqn:F.
  - cbn [map existsb]. rewrite IH. unfold hedge_eq. change (h_nodes (hshown x)) with (fst x). rewrite (hs_eq_same _ _ Ht (HN x (or_introl eq_refl))). reflexivity.
  - destruct (same_members (h_nodes e) (fst x)) eqn:S; [|exact IH]. apply in_list_false in F. pose proof (proj1 (same_members_iff _ _) S i) as SM_. cbn [fst] in SM_. tauto.
Qed.

Lemma add_edge_erep m es ls ids (o : opts) : erep m es ls -> eok es ls -> NoDup ids -> ids <> [] ->
  let e := hedge_new ids o in
  if existsb (fun x => same_members ids (fst x)) es then h_add_loop e ids m = (m, false)
  else exists m', h_add_loop e ids m = (m', true) /\ erep m' (es ++ [(ids, o)]) (ids ++ ls) /\ eok (es ++ [(ids, o)]) (ids ++ ls).
Proof.
  intros R H HN Hne e. unfold e. rewrite (hedge_new_shown ids o HN). set (e' := hshown (ids, o)).
  assert (HE : h_nodes e' = ids) by reflexivity.
  destruct (existsb (fun x => same_members ids (fst x)) es) eqn:X.
  - destruct ids as [|i ids]; [contradiction|]. cbn [h_add_loop]. change (val_of i m) with (lkN i m). rewrite (er_lk _ _ _ R).
    assert (LI : in_list i ls = true).
    { apply existsb_exists in X. destruct X as (x & X1 & X2). apply (eo_listed _ _ H x i X1). pose proof (proj1 (same_members_iff _ _) X2 i) as SM_. cbn [fst] in SM_. apply SM_. left. reflexivity. }
    rewrite LI, (existsb_hlist i e' es (eo_nodup _ _ H)), HE, X; [reflexivity|exact HN|left; reflexivity].
  - destruct (add_loop_true e' ids HN m (er_u _ _ _ R)) as (m' & M1 & M2 & M3).
    { intros i l Hi. rewrite (er_lk _ _ _ R). destruct (in_list i ls); [|discriminate]. intros F. injection F as <-.
      rewrite (existsb_hlist i e' es (eo_nodup _ _ H)), HE; [exact X|exact HN|exact Hi]. }
    exists m'. split; [exact M1|]. split.
    + constructor; [exact M2|]. intros x. rewrite M3, (er_lk _ _ _ R). rewrite in_list_app.
      assert (HA : hlist x (es ++ [(ids, o)]) = hlist x es ++ if in_list x ids then [e'] else []).
      { unfold hlist. rewrite filter_app, map_app. cbn [filter fst]. destruct (in_list x ids); reflexivity. }
      rewrite HA. destruct (in_list x ids) eqn:XI; cbn [orb map].
      * f_equal. f_equal. destruct (in_list x ls) eqn:XL; [reflexivity|]. symmetry. apply (hlist_unlisted x es ls); assumption.
      * rewrite app_nil_r. reflexivity.
    + constructor.
      * intros x i Hx Hi. rewrite in_list_app. apply in_app_or in Hx. destruct Hx as [Hx|[<-|[]]].
        -- rewrite (eo_listed _ _ H x i Hx Hi). apply orb_true_r.
        -- cbn [fst] in Hi. apply in_list_iff in Hi. rewrite Hi. reflexivity.
      * intros x Hx. apply in_app_or in Hx. destruct Hx as [Hx|[<-|[]]]; [exact (eo_nodup _ _ H x Hx)|exact HN].
      * pose proof (eo_diff _ _ H) as D. clear -D X. induction D as [|a l D1 D2 IH]; cbn [app]; [repeat constructor|].
        cbn [existsb] in X. apply orb_false_elim in X. destruct X as [X1 X2]. constructor; [|apply IH; exact X2].
        apply Forall_forall. intros z Hz. apply in_app_or in Hz. destruct Hz as [Hz|[<-|[]]]; [rewrite Forall_forall in D1; apply D1; exact Hz|].
        cbn [fst]. rewrite same_members_sym. exact X1.
Qed.

(** remove_edge *)
Lemma find_drop {X} (f : X -> bool) l : find f (drop f l) = None.
Proof. apply find_none_filter. unfold drop. apply filter_none. intros x Hx. apply filter_In in Hx. destruct Hx as [_ Hx]. apply negb_true_iff in Hx. exact Hx. Qed.
Lemma drop_idem {X} (f : X -> bool) l : drop f (drop f l) = drop f l.
Proof. unfold drop at 1. apply filter_all. intros x Hx. apply filter_In in Hx. apply Hx. Qed.
Lemma drop_none {X} (f : X -> bool) l : find f l = None -> drop f l = l.
Proof. intros H. apply filter_all. intros x Hx. apply negb_true_iff. exact (find_none _ _ H x Hx). Qed.
Lemma filter_drop {X} (f : X -> bool) l : filter f (drop f l) = [].
Proof. apply find_none_filter, find_drop. Qed.

Definition found (t : hedge) (i : N) (m : emap) : option hedge :=
  match lkN i m with Some l => find (fun x => hedge_eq x t) l | None => None end.
Lemma remove_loop_ok t todo : forall (m : emap) acc, kuniq N.eqb m ->
  (forall i, In i todo -> lkN i m <> None) ->
  (forall i l, lkN i m = Some l -> (length (filter (fun x => hedge_eq x t) l) <= 1)%nat) ->
  exists m' r, h_remove_loop t todo m acc = Some (m', r) /\ kuniq N.eqb m' /\
    (forall x, lkN x m' = if in_list x todo then option_map (drop (fun x => hedge_eq x t)) (lkN x m) else lkN x m) /\
    ((forall i, In i todo -> found t i m = None) -> r = acc) /\
    (forall y, (forall i, In i todo -> found t i m = Some y \/ found t i m = None) ->
               (acc = Some y \/ exists i, In i todo /\ found t i m = Some y) -> r = Some y).
Proof.
  induction todo as [|i todo IH]; intros m acc U HL HU; cbn [h_remove_loop].
  - exists m, acc. split; [reflexivity|]. split; [exact U|]. split; [reflexivity|]. split; [reflexivity|].
    intros y _ [-> | (i & [] & _)]. reflexivity.
  - change (val_of i m) with (lkN i m). pose proof (HL i (or_introl eq_refl)) as Hi. destruct (lkN i m) as [l|] eqn:F; [|contradiction].
    pose proof (remove_first_spec (fun x => hedge_eq x t) l) as RF. pose proof (HU i l F) as U1.
    destruct (remove_first (fun x => hedge_eq x t) l) as [[x l']|].
    + destruct RF as [F1 ->]. rewrite without_first_drop by exact U1. set (m1 := hm_modify N.eqb i (fun _ => drop (fun x0 => hedge_eq x0 t) l) m).
      assert (L1 : forall z, lkN z m1 = if z =? i then Some (drop (fun x0 => hedge_eq x0 t) l) else lkN z m).
      { intros z. unfold m1. rewrite (lk_modify _ Neq). destruct (z =? i) eqn:A; [|reflexivity]. apply N.eqb_eq in A. subst z. rewrite F. reflexivity. }
      assert (FO : forall j, found t j m1 = if j =? i then None else found t j m).
      { intros j. unfold found. rewrite L1. destruct (j =? i); [apply find_drop|reflexivity]. }
      destruct (IH m1 (Some x)) as (m' & r & E1 & U' & L' & A' & B').
      { apply kuniq_modify. exact U. }
      { intros j Hj. rewrite L1. destruct (j =? i); [discriminate|]. apply HL. right. exact Hj. }
      { intros j l0. rewrite L1. destruct (j =? i); [|apply HU]. intros G. injection G as <-. rewrite filter_drop. cbn. lia. }
      exists m', r. split; [exact E1|]. split; [exact U'|]. split; [|split].
      * intros z. rewrite L', L1. change (in_list z (i :: todo)) with ((z =? i) || in_list z todo).
        destruct (z =? i) eqn:A; cbn [orb]; [|reflexivity]. apply N.eqb_eq in A. subst z. rewrite F. destruct (in_list i todo); cbn [option_map]; [rewrite drop_idem|]; reflexivity.
      * intros H. exfalso. specialize (H i (or_introl eq_refl)). unfold found in H. rewrite F, F1 in H. discriminate.
      * intros y H1 _. apply B'.
        -- intros j Hj. rewrite FO. destruct (j =? i); [right; reflexivity|]. apply H1. right. exact Hj.
        -- left. destruct (H1 i (or_introl eq_refl)) as [G|G]; unfold found in G; rewrite F, F1 in G; [exact G|discriminate].
    + destruct RF as [F1 F2]. destruct (IH m acc U) as (m' & r & E1 & U' & L' & A' & B').
      { intros j Hj. apply HL. right. exact Hj. } { exact HU. }
      assert (FI : found t i m = None) by (unfold found; rewrite F; exact F1).
      exists m', r. split; [exact E1|]. split; [exact U'|]. split; [|split].
      * intros z. rewrite L'. change (in_list z (i :: todo)) with ((z =? i) || in_list z todo). destruct (z =? i) eqn:A; cbn [orb]; [|reflexivity].
        apply N.eqb_eq in A. subst z. rewrite F. cbn [option_map]. rewrite drop_none by exact F1. destruct (in_list i todo); reflexivity.
      * intros H. apply A'. intros j Hj. apply H. right. exact Hj.
      * intros y H1 H2. apply B'; [intros j Hj; apply H1; right; exact Hj|]. destruct H2 as [H2|(j & [<-|Hj] & H2)]; [left; exact H2|congruence|right; exists j; split; assumption].
Qed.

Lemma hlist_drop x t (es : list aedge) : (forall e, In e es -> NoDup (fst e)) -> NoDup t ->
  hlist x (drop (fun e => same_members t (fst e)) es) =
  if in_list x t then drop (fun h => hs_eq (h_nodes h) t) (hlist x es) else hlist x es.
Proof.
  intros HN Ht. unfold hlist, drop. induction es as [|e es IH]; [destruct (in_list x t); reflexivity|].
  assert (HN' : forall e, In e es -> NoDup (fst e)) by (intros y Hy; apply HN; right; exact Hy). specialize (IH HN').
  pose proof (hs_eq_same (fst e) t (HN e (or_introl eq_refl)) Ht) as Q. rewrite same_members_sym in Q.
  cbn [filter]. destruct (same_members t (fst e)) eqn:S; cbn [negb].
  - assert (XX : in_list x (fst e) = in_list x t).
    { pose proof (proj1 (same_members_iff _ _) S x) as G. destruct (in_list x t) eqn:A; [apply in_list_iff in A; apply in_list_iff; tauto|apply in_list_false in A; apply in_list_false; tauto]. }
    rewrite XX, IH. destruct (in_list x t); [|reflexivity]. cbn [map filter]. change (h_nodes (hshown e)) with (fst e). rewrite Q. reflexivity.
  - cbn [filter]. destruct (in_list x (fst e)); [|exact IH]. cbn [map]. rewrite IH. destruct (in_list x t); [|reflexivity].
    cbn [filter]. change (h_nodes (hshown e)) with (fst e). rewrite Q. reflexivity.
Qed.
Lemma hlist_count x t (es : list aedge) : ForallOrdPairs (fun a b : aedge => same_members (fst a) (fst b) = false) es ->
  (forall e, In e es -> NoDup (fst e)) -> NoDup t -> (length (filter (fun h => hs_eq (h_nodes h) t) (hlist x es)) <= 1)%nat.
Proof.
  intros D HN Ht.
  assert (Q : length (filter (fun h => hs_eq (h_nodes h) t) (hlist x es)) = length (filter (fun e => hs_eq (fst e) t) (filter (fun e => in_list x (fst e)) es))).
  { unfold hlist. induction (filter (fun e => in_list x (fst e)) es) as [|e l IH]; [reflexivity|]. cbn [map filter]. change (h_nodes (hshown e)) with (fst e). destruct (hs_eq (fst e) t); cbn [length]; congruence. }
  rewrite Q.
  assert (D' : ForallOrdPairs (fun a b : aedge => same_members (fst a) (fst b) = false) (filter (fun e => in_list x (fst e)) es)) by (apply diff_filter; exact D).
  assert (HN' : forall e, In e (filter (fun e => in_list x (fst e)) es) -> NoDup (fst e)) by (intros e He; apply filter_In in He; apply HN, He).
  clear Q D HN. revert D' HN'. generalize (filter (fun e => in_list x (fst e)) es). intros l D HN. induction D as [|a l D1 D2 IH]; [cbn; lia|].
  cbn [filter]. destruct (hs_eq (fst a) t) eqn:A; [|apply IH; intros e He; apply HN; right; exact He].
  rewrite filter_none; [cbn; lia|]. intros b Hb. apply not_true_is_false. intros B.
  rewrite (hs_eq_same _ _ (HN a (or_introl eq_refl)) Ht) in A. rewrite (hs_eq_same _ _ (HN b (or_intror Hb)) Ht), same_members_sym in B.
  rewrite Forall_forall in D1. specialize (D1 b Hb). rewrite (same_members_trans _ _ _ A B) in D1. discriminate.
Qed.

Lemma remove_erep m es ls (t : hedge) todo : erep m es ls -> eok es ls -> NoDup (h_nodes t) ->
  (forall i, In i todo <-> In i (h_nodes t)) -> (forall i, In i todo -> in_list i ls = true) ->
  exists m' r, h_remove_loop t todo m None = Some (m', r) /\
    erep m' (drop (fun e => same_members (h_nodes t) (fst e)) es) ls /\
    (todo <> [] -> r = option_map hshown (find (fun e => same_members (h_nodes t) (fst e)) es)).
Proof.
  intros R H Ht HT HL.
  destruct (remove_loop_ok t todo m None (er_u _ _ _ R)) as (m' & r & E1 & U' & L' & A' & B').
  { intros i Hi. rewrite (er_lk _ _ _ R), (HL i Hi). discriminate. }
  { intros i l. rewrite (er_lk _ _ _ R). destruct (in_list i ls); [|discriminate]. intros F. injection F as <-.
    apply hlist_count; [apply (eo_diff _ _ H)|apply (eo_nodup _ _ H)|exact Ht]. }
  exists m', r. split; [exact E1|]. split.
  - constructor; [exact U'|]. intros x. rewrite L', (er_lk _ _ _ R), (hlist_drop x (h_nodes t) es (eo_nodup _ _ H) Ht).
    assert (XX : in_list x todo = in_list x (h_nodes t)).
    { destruct (in_list x (h_nodes t)) eqn:A; [apply in_list_iff in A; apply in_list_iff, HT, A|apply in_list_false in A; apply in_list_false; rewrite HT; exact A]. }
    rewrite XX. destruct (in_list x (h_nodes t)); destruct (in_list x ls); reflexivity.
  - intros Hne.
    assert (FO : forall i, In i todo -> found t i m = option_map hshown (find (fun e => same_members (h_nodes t) (fst e)) es)).
    { intros i Hi. unfold found. rewrite (er_lk _ _ _ R), (HL i Hi). unfold hedge_eq. apply find_hlist; [apply (eo_nodup _ _ H)|exact Ht|apply HT; exact Hi]. }
    destruct (find (fun e => same_members (h_nodes t) (fst e)) es) as [y|]; cbn [option_map] in *.
    + apply B'; [intros i Hi; left; apply FO; exact Hi|]. right. destruct todo as [|i todo]; [contradiction|]. exists i. split; [left; reflexivity|apply FO; left; reflexivity].
    + apply A'. exact FO.
Qed.

(** remove_object *)
Lemma eok_drop es ls P : eok es ls -> eok (drop P es) ls.
Proof. apply eok_filter. Qed.
Lemma remove_all_erep it ls : (forall l, Permutation (it l) l) -> forall (ps : list aedge) m es, erep m es ls -> eok es ls ->
  (forall p, In p ps -> NoDup (fst p)) -> (forall p j, In p ps -> In j (fst p) -> in_list j ls = true) ->
  exists m', h_remove_all it (map hshown ps) m = Some m' /\ erep m' (drop (fun e => existsb (fun p => same_members (fst p) (fst e)) ps) es) ls.
Proof.
  intros HI. induction ps as [|p ps IH]; intros m es R H HN HL; cbn [map h_remove_all].
  - exists m. split; [reflexivity|]. rewrite drop_none; [exact R|]. clear. induction es as [|e es IH]; [reflexivity|exact IH].
  - change (h_nodes (hshown p)) with (fst p).
    destruct (remove_erep m es ls (hshown p) (it (fst p)) R H (HN p (or_introl eq_refl))) as (m1 & r & E1 & R1 & _).
    { intros i. split; apply Permutation_in; [apply HI|apply Permutation_sym, HI]. }
    { intros i Hi. apply (HL p i (or_introl eq_refl)). apply (Permutation_in i (HI (fst p))). exact Hi. }
    rewrite E1. destruct (IH m1 _ R1 (eok_drop _ _ _ H)) as (m' & E2 & R2).
    { intros q Hq. apply HN. right. exact Hq. } { intros q j Hq. apply (HL q j). right. exact Hq. }
    exists m'. split; [exact E2|]. change (h_nodes (hshown p)) with (fst p) in R2.
    assert (Q : drop (fun e => existsb (fun q => same_members (fst q) (fst e)) (p :: ps)) es =
                drop (fun e => existsb (fun q => same_members (fst q) (fst e)) ps) (drop (fun e => same_members (fst p) (fst e)) es)).
    { unfold drop. clear. induction es as [|e es IH]; [reflexivity|]. cbn [filter existsb]. destruct (same_members (fst p) (fst e)); cbn [orb negb filter]; [exact IH|].
      destruct (existsb _ ps); cbn [negb]; [exact IH|]. f_equal. exact IH. }
    rewrite Q. exact R2.
Qed.

(** ** Names *)
Record nrep (n2i : list (O * N)) (i2n : list (N * O)) (l : list (N * O)) : Prop := NRep {
  nr_un : kuniq eqo n2i;
  nr_ui : kuniq N.eqb i2n;
  nr_len : length n2i = length l;
  nr_obj : forall i, lkN i i2n = hobject i l;
  nr_id : forall u, lk eqo u n2i = hid eqo u l
}.
Record nok (l : list (N * O)) : Prop := NOk {
  no_ids : NoDup (map fst l);
  no_objs : ForallOrdPairs (fun x y => eqo x y = false) (map snd l)
}.
(** As a network without edges. *)
Local Notation bare l := (AGraph (L := unit) (W := unit) l [] []).
Lemma nrep_rep n2i i2n l : nrep n2i i2n l -> rep (L := unit) (W := unit) eqo true (Graph n2i i2n []) (bare l).
Proof. intros [A B C D F]. constructor; cbn [NetModel.n2i NetModel.i2n adj]; try assumption; [constructor|]. intros i. reflexivity. Qed.
Lemma rep_nrep (g : NetModel.graph O unit unit) a : rep eqo true g a -> nrep (n2i g) (i2n g) (nodes a).
Proof. intros [A B C D F G I]. constructor; assumption. Qed.
Lemma nok_ok l : nok l -> ok (L := unit) (W := unit) eqo true (bare l).
Proof. intros [A B]. constructor; cbn [nodes edges]; try assumption; try (intros; contradiction); try (intros; discriminate). Qed.
Lemma ok_nok a : ok (L := unit) (W := unit) eqo true a -> nok (nodes a).
Proof. intros [A B C D F G]. constructor; assumption. Qed.

Lemma add_names n2i i2n l u : nrep n2i i2n l -> nok l -> hid eqo u l = None -> hobject (N.of_nat (length l)) l = None -> N.of_nat (length l) < 4294967296 ->
  nrep (fst (hm_insert eqo u (N.of_nat (length n2i) mod 4294967296) n2i)) (fst (hm_insert N.eqb (N.of_nat (length n2i) mod 4294967296) u i2n)) (l ++ [(N.of_nat (length l), u)]) /\
  nok (l ++ [(N.of_nat (length l), u)]) /\ N.of_nat (length n2i) mod 4294967296 = N.of_nat (length l).
Proof.
  intros R H H1 H2 H3. pose proof (nrep_rep _ _ _ R) as R'. pose proof (nok_ok _ H) as H'.
  destruct (add_node_ref eqo E true (Net (Graph n2i i2n []) (Graph n2i i2n []) true) (bare l) u R' H' H1 H2 H3) as (A & B & _).
  split; [exact (rep_nrep _ _ A)|]. split; [exact (ok_nok _ B)|]. rewrite (nr_len _ _ _ R). apply N.mod_small. exact H3.
Qed.
Lemma update_names n2i i2n l u : nrep n2i i2n l -> nok l ->
  nrep n2i (match lk eqo u n2i with None => i2n | Some i => hm_modify N.eqb i (fun _ => u) i2n end) (map (fun p => if eqo u (snd p) then (fst p, u) else p) l) /\
  nok (map (fun p => if eqo u (snd p) then (fst p, u) else p) l).
Proof.
  intros R H. pose proof (nrep_rep _ _ _ R) as R'. pose proof (nok_ok _ H) as H'.
  destruct (update_node_ref eqo E true (Net (Graph n2i i2n []) (Graph n2i i2n []) true) (bare l) u R' H') as (A & B & _).
  split; [|exact (ok_nok _ B)]. apply rep_nrep in A. unfold update_node, id_of in A. cbn [nw NetModel.n2i] in A. unfold lk.
  destruct (option_map snd (hm_find eqo u n2i)); exact A.
Qed.
Lemma hid_iff u i l : nok l -> (hid eqo u l = Some i <-> exists x, In (i, x) l /\ eqo u x = true).
Proof. intros H. exact (id_in_iff eqo E true u i _ (nok_ok _ H)). Qed.
Lemma hobject_iff i x l : nok l -> (hobject i l = Some x <-> In (i, x) l).
Proof. intros H. exact (object_in_iff eqo true i x _ (nok_ok _ H)). Qed.
Lemma nok_filter l P : nok l -> nok (filter P l).
Proof.
  intros [A B]. constructor.
  - induction l as [|p l IH]; [constructor|]. cbn [map] in A, B. inversion A as [|? ? A1 A2]; subst. inversion B as [|? ? B1 B2]; subst. cbn [filter].
    destruct (P p); [|apply IH; assumption]. cbn [map]. constructor; [|apply IH; assumption]. intros F. apply A1. apply in_map_iff in F. destruct F as (q & F1 & F2).
    apply filter_In in F2. rewrite <- F1. apply in_map, F2.
  - induction l as [|p l IH]; [constructor|]. cbn [map] in A, B. inversion A as [|? ? A1 A2]; subst. inversion B as [|? ? B1 B2]; subst. cbn [filter].
    destruct (P p); [|apply IH; assumption]. cbn [map]. constructor; [|apply IH; assumption]. apply Forall_forall. intros x Hx. apply in_map_iff in Hx. destruct Hx as (q & <- & Hq).
    apply filter_In in Hq. rewrite Forall_forall in B1. apply B1, in_map, Hq.
Qed.
Lemma option_ext {X} (a b : option X) : (forall x, a = Some x <-> b = Some x) -> a = b.
Proof. intros H. destruct a as [x|]; [symmetry; apply H; reflexivity|]. destruct b as [x|]; [|reflexivity]. apply H. reflexivity. Qed.
Lemma same_id_obj l i x y : nok l -> In (i, x) l -> In (i, y) l -> x = y.
Proof. intros H A B. apply hobject_iff in A; [|exact H]. apply hobject_iff in B; [|exact H]. congruence. Qed.
Lemma remove_names n2i i2n l u i : nrep n2i i2n l -> nok l -> hid eqo u l = Some i ->
  nrep (fst (hm_remove eqo u n2i)) (fst (hm_remove N.eqb i i2n)) (drop (fun p => fst p =? i) l) /\ nok (drop (fun p => fst p =? i) l).
Proof.
  intros R H HI. assert (H' : nok (drop (fun p => fst p =? i) l)) by (apply nok_filter; exact H). split; [|exact H'].
  apply hid_iff in HI; [|exact H]. destruct HI as (x & X1 & X2). constructor.
  - apply kuniq_remove, (nr_un _ _ _ R).
  - apply kuniq_remove, (nr_ui _ _ _ R).
  - rewrite length_remove, (nr_id _ _ _ R). assert (G : hid eqo u l = Some i) by (apply hid_iff; [exact H|]; exists x; split; assumption). rewrite G, (nr_len _ _ _ R).
    destruct H as [A _]. clear -X1 A. unfold drop. induction l as [|p l IH]; [destruct X1|]. cbn [map] in A. inversion A as [|? ? A1 A2]; subst. cbn [filter length pred].
    destruct X1 as [->|X1].
    + cbn [fst]. rewrite N.eqb_refl. cbn [negb]. f_equal. symmetry. apply filter_all. intros q Hq. apply negb_true_iff, N.eqb_neq. intros <-. apply A1. cbn [fst]. exact (in_map fst _ _ Hq).
    + destruct (fst p =? i) eqn:F; [apply N.eqb_eq in F; subst i; exfalso; apply A1; exact (in_map fst _ _ X1)|]. cbn [negb length]. rewrite <- IH by assumption.
      destruct l; [destruct X1|reflexivity].
  - intros j. rewrite (lk_remove _ Neq) by apply (nr_ui _ _ _ R). rewrite (nr_obj _ _ _ R). apply option_ext. intros y. rewrite (hobject_iff j y _ H'). unfold drop. rewrite filter_In. cbn [fst].
    destruct (j =? i) eqn:A; cbn [negb]; [split; [discriminate|intros [_ F]; discriminate]|]. rewrite (hobject_iff j y l H). tauto.
  - intros v. rewrite (lk_remove _ E) by apply (nr_un _ _ _ R). rewrite (nr_id _ _ _ R). apply option_ext. intros j. rewrite (hid_iff v j _ H'). unfold drop.
    split.
    + destruct (eqo v u) eqn:A; [discriminate|]. intros F. apply hid_iff in F; [|exact H]. destruct F as (y & Y1 & Y2). exists y. split; [|exact Y2].
      apply filter_In. split; [exact Y1|]. cbn [fst]. apply negb_true_iff, N.eqb_neq. intros ->. rewrite (same_id_obj l i y x H Y1 X1) in Y2.
      rewrite (eq_trans_ _ E v x u Y2 (eq_sym_ _ E _ _ X2)) in A. discriminate.
    + intros (y & Y1 & Y2). apply filter_In in Y1. destruct Y1 as [Y1 Y3]. cbn [fst] in Y3.
      assert (F : hid eqo v l = Some j) by (apply hid_iff; [exact H|]; exists y; split; assumption).
      destruct (eqo v u) eqn:A; [|exact F]. exfalso.
      assert (G : hid eqo v l = Some i) by (apply hid_iff; [exact H|]; exists x; split; [exact X1|exact (eq_trans_ _ E v u x A X2)]).
      rewrite F in G. injection G as ->. rewrite N.eqb_refl in Y3. discriminate.
Qed.

(** ** States *)
Record hsim (g : hnet O L W) (s : hstate O L W) : Prop := HSim {
  s_names : nrep (h_n2i g) (h_i2n g) (cur_nodes s);
  s_nok : nok (cur_nodes s);
  s_robj : forall i, lkN i (h_ri2n g) = hobject i (pub_nodes s);
  s_edges : erep (h_edges g) (cur_edges s) (cur_lists s);
  s_eok : eok (cur_edges s) (cur_lists s);
  s_known : forall e i, In e (cur_edges s) -> In i (fst e) -> In i (map fst (cur_nodes s));
  s_redges : erep (h_redges g) (pub_edges s) (pub_lists s);
  s_reok : eok (pub_edges s) (pub_lists s)
}.
Lemma new_hsim : hsim hnet_new hs_new.
Proof. constructor; try (intros; contradiction); try (constructor; try constructor; try (intros; contradiction); try (intros; reflexivity)); try (intros; reflexivity). Qed.

Lemma ids_of_ok g s us : hsim g s -> ids_of eqo g us = hids eqo us (cur_nodes s).
Proof.
  intros S. induction us as [|u us IH]; [reflexivity|]. cbn [ids_of hids]. change (id_of eqo u (h_n2i g)) with (lk eqo u (h_n2i g)).
  rewrite (nr_id _ _ _ (s_names _ _ S)), IH. destruct (hid eqo u (cur_nodes s)); [|reflexivity]. destruct (hids eqo us (cur_nodes s)); reflexivity.
Qed.
Lemma hids_known us l is : nok l -> hids eqo us l = Some is -> forall i, In i is -> In i (map fst l).
Proof.
  intros H. revert is. induction us as [|u us IH]; intros is HI i Hi; cbn [hids] in HI; [injection HI as <-; destruct Hi|].
  destruct (hid eqo u l) as [k|] eqn:F; [|discriminate]. destruct (hids eqo us l) as [is'|]; [|discriminate]. injection HI as <-.
  destruct Hi as [<-|Hi]; [|apply (IH _ eq_refl i Hi)]. apply hid_iff in F; [|exact H]. destruct F as (x & F & _). exact (in_map fst _ _ F).
Qed.
Lemma hids_nil us l : us <> [] -> hids eqo us l <> Some [].
Proof. destruct us as [|u us]; [intros H; contradiction|]. intros _. cbn [hids]. destruct (hid eqo u l); [|discriminate]. destruct (hids eqo us l); discriminate. Qed.

Lemma hcall_ref g s c : hsim g s -> hgood eqo s c -> exists g', hnet_call eqo g c = Some (g', hanswer eqo s c) /\ hsim g' (hnext eqo s c).
Proof.
  intros S G. pose proof S as [Sn Sk Sr Se So Sw Sre Sro].
  destruct c as [u|us o|us| |u it|u| | |us|u|i|u]; cbn [hnet_call hnext hanswer hgood] in *.
  - destruct G as (G1 & G2 & G3). destruct (add_names _ _ _ u Sn Sk G1 G2 G3) as (A & B & C). eexists. split; [reflexivity|]. unfold h_add_node. rewrite C in *.
    set (n := N.of_nat (length (cur_nodes s))) in *.
    assert (NE : hlist n (cur_edges s) = []).
    { unfold hlist. rewrite filter_none; [reflexivity|]. intros e He. apply in_list_false. intros Hi. pose proof (Sw e n He Hi) as K. apply in_map_iff in K. destruct K as ((k & x) & K1 & K2).
      cbn [fst] in K1. subst k. apply (hobject_iff n x _ Sk) in K2. congruence. }
    constructor; cbn [h_n2i h_i2n h_ri2n h_edges h_redges cur_nodes cur_edges cur_lists pub_nodes pub_edges pub_lists]; try assumption.
    + destruct Se as [U LK]. pose proof (LK n) as LN. unfold lk in LN.
      assert (IL : forall x, in_list x (n :: cur_lists s) = (x =? n) || in_list x (cur_lists s)) by reflexivity.
      destruct (hm_find N.eqb n (h_edges g)) as [q|] eqn:F; cbn [option_map] in LN.
      * constructor; [exact U|]. intros x. rewrite LK, IL. destruct (x =? n) eqn:X; [|reflexivity]. apply N.eqb_eq in X. subst x.
        destruct (in_list n (cur_lists s)); [reflexivity|discriminate].
      * constructor; [apply kuniq_insert; [exact Neq|exact U]|]. intros x. rewrite (lk_insert _ Neq), LK, IL. destruct (x =? n) eqn:X; [|reflexivity]. apply N.eqb_eq in X. subst x. rewrite NE. reflexivity.
    + constructor; [|apply (eo_nodup _ _ So)|apply (eo_diff _ _ So)]. intros e j He Hj. change (in_list j (n :: cur_lists s)) with ((j =? n) || in_list j (cur_lists s)).
      rewrite (eo_listed _ _ So e j He Hj). apply orb_true_r.
    + intros e j He Hj. rewrite map_app. apply in_or_app. left. exact (Sw e j He Hj).
  - unfold h_add_edge. destruct us as [|u0 us'] eqn:EU; [exists g; split; [reflexivity|exact S]|]. rewrite <- EU in *. rewrite (ids_of_ok g s us S).
    destruct (hids eqo us (cur_nodes s)) as [[|i is]|] eqn:F.
    + exfalso. apply (hids_nil us (cur_nodes s)); [rewrite EU; discriminate|exact F].
    + pose proof (add_edge_erep _ _ _ (i :: is) o Se So (G _ eq_refl) ltac:(discriminate)) as K. cbn zeta in K.
      destruct (existsb (fun x => same_members (i :: is) (fst x)) (cur_edges s)).
      * rewrite K. exists (with_h_edges g (h_edges g)). split; [reflexivity|]. destruct g. exact S.
      * destruct K as (m' & -> & K1 & K2). eexists. split; [reflexivity|].
        constructor; cbn [with_h_edges h_n2i h_i2n h_ri2n h_edges h_redges cur_nodes cur_edges cur_lists pub_nodes pub_edges pub_lists]; try assumption.
        intros e j He Hj. apply in_app_or in He. destruct He as [He|[<-|[]]]; [exact (Sw e j He Hj)|]. cbn [fst] in Hj. exact (hids_known _ _ _ Sk F j Hj).
    + exists g. split; [reflexivity|exact S].
  - unfold h_remove_edge. destruct us as [|u0 us'] eqn:EU; [exists g; split; [reflexivity|exact S]|]. rewrite <- EU in *. rewrite (ids_of_ok g s us S).
    destruct (hids eqo us (cur_nodes s)) as [[|i is]|] eqn:F.
    + exfalso. apply (hids_nil us (cur_nodes s)); [rewrite EU; discriminate|exact F].
    + destruct (dedup_ok (i :: is) [] (NoDup_nil _)) as [D1 D2].
      assert (D3 : forall j, In j (h_nodes (hedge_new (L := L) (W := W) (i :: is) Simple)) <-> In j (i :: is)).
      { intros j. rewrite hedge_new_nodes, D2. cbn [In]. tauto. }
      destruct (remove_erep _ _ _ (hedge_new (i :: is) Simple) (i :: is) Se So) as (m' & r & E1 & R1 & R2).
      { rewrite hedge_new_nodes. exact D1. } { intros j. symmetry. apply D3. } { intros j Hj. exact (G _ eq_refl j Hj). }
      rewrite E1. cbn [option_map fst snd]. eexists.
      assert (SM : forall e : aedge, same_members (h_nodes (hedge_new (L := L) (W := W) (i :: is) Simple)) (fst e) = same_members (i :: is) (fst e)).
      { intros e. apply same_members_cong. exact D3. }
      assert (FC : r = option_map hshown (find (fun e : aedge => same_members (i :: is) (fst e)) (cur_edges s))).
      { rewrite (R2 ltac:(discriminate)). f_equal. apply find_cong. intros e _. apply SM. }
      split; [rewrite FC; reflexivity|].
      assert (DR : drop (fun e : aedge => same_members (h_nodes (hedge_new (L := L) (W := W) (i :: is) Simple)) (fst e)) (cur_edges s) = drop (fun e => same_members (i :: is) (fst e)) (cur_edges s)).
      { apply filter_ext. intros e. rewrite SM. reflexivity. }
      rewrite DR in R1. constructor; cbn [with_h_edges h_n2i h_i2n h_ri2n h_edges h_redges cur_nodes cur_edges cur_lists pub_nodes pub_edges pub_lists]; try assumption.
      * apply eok_drop. exact So.
      * intros e j He. apply filter_In in He. apply Sw. apply He.
    + exists g. split; [reflexivity|exact S].
  - eexists. split; [reflexivity|]. constructor; cbn [h_remove_all_edges with_h_edges h_n2i h_i2n h_ri2n h_edges h_redges cur_nodes cur_edges cur_lists pub_nodes pub_edges pub_lists]; try assumption.
    + constructor; [constructor|reflexivity].
    + constructor; try (intros; contradiction). constructor.
    + intros; contradiction.
  - unfold h_remove_object, h_get_edges. change (id_of eqo u (h_n2i g)) with (lk eqo u (h_n2i g)). rewrite (nr_id _ _ _ Sn).
    destruct (hid eqo u (cur_nodes s)) as [i|] eqn:F; [|exists g; split; [reflexivity|exact S]]. destruct G as [GI G]. destruct (G i eq_refl) as [G1 G2].
    change (val_of i (h_redges g)) with (lkN i (h_redges g)). rewrite (er_lk _ _ _ Sre).
    assert (LP : match (if in_list i (pub_lists s) then Some (hlist i (pub_edges s)) else None) with Some es => es | None => [] end = hlist i (pub_edges s)).
    { destruct (in_list i (pub_lists s)) eqn:FL; [reflexivity|]. symmetry. apply (hlist_unlisted i _ _ Sro FL). }
    rewrite LP. unfold hlist.
    destruct (remove_all_erep it (cur_lists s) GI (filter (fun e => in_list i (fst e)) (pub_edges s)) _ _ Se So) as (m' & E1 & R1).
    { intros p Hp. apply filter_In in Hp. apply (eo_nodup _ _ Sro), Hp. }
    { intros p j Hp Hj. apply filter_In in Hp. destruct Hp. apply (G2 p j); assumption. }
    rewrite E1. cbn [option_map fst snd]. eexists. split; [reflexivity|]. destruct (remove_names _ _ _ u i Sn Sk F) as [N1 N2].
    assert (DR : drop (fun e => existsb (fun p => same_members (fst p) (fst e)) (filter (fun e0 => in_list i (fst e0)) (pub_edges s))) (cur_edges s) =
                 drop (fun e => in_list i (fst e)) (cur_edges s)).
    { unfold drop. apply filter_ext_in. intros e He. f_equal. destruct (in_list i (fst e)) eqn:FE.
      - apply existsb_exists. destruct (G1 e He FE) as (p & P1 & P2). exists p. split; [|exact P2]. apply filter_In. split; [exact P1|].
        apply in_list_iff. apply in_list_iff in FE. pose proof (proj1 (same_members_iff _ _) P2 i) as SM_. cbn [fst] in SM_. tauto.
      - apply not_true_is_false. intros K. apply existsb_exists in K. destruct K as (p & P1 & P2). apply filter_In in P1. destruct P1 as [_ P1].
        apply in_list_iff in P1. apply in_list_false in FE. pose proof (proj1 (same_members_iff _ _) P2 i) as SM_. cbn [fst] in SM_. tauto. }
    rewrite DR in R1. constructor; cbn [h_n2i h_i2n h_ri2n h_edges h_redges cur_nodes cur_edges cur_lists pub_nodes pub_edges pub_lists]; try assumption.
    + apply eok_drop. exact So.
    + intros e j He Hj. apply filter_In in He. destruct He as [He Hn]. pose proof (Sw e j He Hj) as K. apply in_map_iff in K. destruct K as (q & K1 & K2).
      apply in_map_iff. exists q. split; [exact K1|]. apply filter_In. split; [exact K2|]. apply negb_true_iff, N.eqb_neq. intros Q. apply negb_true_iff, in_list_false in Hn. apply Hn. congruence.
  - destruct (update_names _ _ _ u Sn Sk) as [N1 N2]. eexists. split; [reflexivity|].
    unfold h_update_node. change (id_of eqo u (h_n2i g)) with (lk eqo u (h_n2i g)).
    assert (MF : map fst (map (fun p => if eqo u (snd p) then (fst p, u) else p) (cur_nodes s)) = map fst (cur_nodes s)).
    { rewrite map_map. apply map_ext. intros q. destruct (eqo u (snd q)); reflexivity. }
    destruct (lk eqo u (h_n2i g)); constructor; cbn [h_n2i h_i2n h_ri2n h_edges h_redges cur_nodes cur_edges cur_lists pub_nodes pub_edges pub_lists]; try assumption; rewrite MF; exact Sw.
  - eexists. split; [reflexivity|]. constructor; cbn [h_update h_n2i h_i2n h_ri2n h_edges h_redges cur_nodes cur_edges cur_lists pub_nodes pub_edges pub_lists]; try assumption. apply (nr_obj _ _ _ Sn).
  - eexists. split; [reflexivity|]. constructor; cbn [h_update h_n2i h_i2n h_ri2n h_edges h_redges cur_nodes cur_edges cur_lists pub_nodes pub_edges pub_lists]; try assumption. apply (nr_obj _ _ _ Sn).
  - exists g. split; [|exact S]. do 2 f_equal. unfold h_get_edge. destruct us as [|u0 us'] eqn:EU; [reflexivity|]. rewrite <- EU in *. rewrite (ids_of_ok g s us S).
    destruct (hids eqo us (cur_nodes s)) as [[|i is]|]; [reflexivity| |reflexivity].
    change (val_of i (h_redges g)) with (lkN i (h_redges g)). rewrite (er_lk _ _ _ Sre).
    destruct (dedup_ok (i :: is) [] (NoDup_nil _)) as [D1 D2].
    assert (D3 : forall j, In j (h_nodes (hedge_new (L := L) (W := W) (i :: is) Simple)) <-> In j (i :: is)).
    { intros j. rewrite hedge_new_nodes, D2. cbn [In]. tauto. }
    assert (FC : find (fun e : aedge => same_members (h_nodes (hedge_new (L := L) (W := W) (i :: is) Simple)) (fst e)) (pub_edges s) = find (fun e => same_members (i :: is) (fst e)) (pub_edges s)).
    { apply find_cong. intros e _. apply same_members_cong. exact D3. }
    destruct (in_list i (pub_lists s)) eqn:LI.
    + f_equal. unfold hedge_eq. rewrite (find_hlist i (h_nodes (hedge_new (i :: is) Simple)) (pub_edges s)), FC; [reflexivity|apply (eo_nodup _ _ Sro)| |apply D3; left; reflexivity].
      rewrite hedge_new_nodes. exact D1.
    + f_equal. destruct (find (fun e => same_members (i :: is) (fst e)) (pub_edges s)) as [e|] eqn:FE; [|reflexivity]. exfalso. apply find_some in FE. destruct FE as [E1 E2].
      rewrite (eo_listed _ _ Sro e i E1) in LI; [discriminate|]. pose proof (proj1 (same_members_iff _ _) E2 i) as SM_. cbn [fst] in SM_. apply SM_. left. reflexivity.
  - exists g. split; [|exact S]. do 2 f_equal. unfold h_get_edges. change (id_of eqo u (h_n2i g)) with (lk eqo u (h_n2i g)). rewrite (nr_id _ _ _ Sn).
    destruct (hid eqo u (cur_nodes s)) as [i|]; [|reflexivity]. change (val_of i (h_redges g)) with (lkN i (h_redges g)). rewrite (er_lk _ _ _ Sre). reflexivity.
  - exists g. split; [|exact S]. do 2 f_equal. unfold h_get_object. change (val_of i (h_ri2n g)) with (lkN i (h_ri2n g)). rewrite Sr. reflexivity.
  - exists g. split; [|exact S]. do 2 f_equal. unfold h_get_id. change (id_of eqo u (h_n2i g)) with (lk eqo u (h_n2i g)). rewrite (nr_id _ _ _ Sn). reflexivity.
Qed.

Lemma hrun_ref cs : forall g s, hsim g s -> hgood_run eqo s cs ->
  exists g', hnet_run eqo g cs = Some (g', hanswers eqo s cs) /\ hsim g' (hs_run eqo s cs).
Proof.
  induction cs as [|c cs IH]; intros g s S G; [exists g; split; [reflexivity|exact S]|]. destruct G as [G1 G2].
  destruct (hcall_ref g s c S G1) as (g1 & E1 & S1). destruct (IH _ _ S1 G2) as (g2 & E2 & S2). exists g2. cbn [hnet_run hanswers hs_run]. rewrite E1, E2. split; [reflexivity|exact S2].
Qed.
End HNet.
