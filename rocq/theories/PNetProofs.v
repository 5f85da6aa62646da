(** * The parallel Network refines its specification *)
From Coq Require Import List Bool NArith Arith Lia Permutation.
From Verif Require Import DashModel DashSpec DashProofs DashRun DashView NetModel NetSpec NetProofs NetRef NetRun PNetModel PNetSpec.
Import ListNotations.
Local Open Scope N_scope.

Section PN.
Context {O L W : Type}.
Variable eqo : O -> O -> bool.
Variable E : equivalence eqo.
Variable hash : N -> N.
Variable n : nat.
Variable d : bool.

Local Notation edge := (edge L W).
Local Notation opts := (edge_options L W).
Local Notation graph := (graph O L W).
Local Notation agraph := (agraph O L W).
Local Notation net := (net O L W).
Local Notation pnet := (pnet O L W).
Local Notation lkN := (lk N.eqb).
Local Notation rep := (rep eqo d).
Local Notation ok := (ok eqo d).
Local Notation id_in := (@id_in O L W eqo).
Local Notation rv := (rv N.eqb hash).
Local Notation wv := (wv N.eqb hash).
Local Notation wf := (wf N.eqb hash n).

Lemma LN : lawful N.eqb hash.
Proof.
  constructor; intros; repeat match goal with H : (_ =? _) = true |- _ => apply N.eqb_eq in H; subst end;
    try apply N.eqb_refl; reflexivity.
Qed.

(** ** The write buffers as association lists *)
Definition wl {V} (m : dmap N V) : list (N * V) := concat (d_shards m).
Lemma wl_lk {V} (m : dmap N V) i : wf m -> lkN i (wl m) = option_map snd (wv m i).
Proof.
  intros (_ & Hw & _).
  destruct (concat_lists N.eqb hash LN _ n _ (wl m) Hw (Permutation_refl _)) as [HL HU].
  destruct (wv m i) as [p|] eqn:F.
  - apply HL in F. destruct F as [F1 F2]. apply N.eqb_eq in F2. subst i. destruct p as [k v]. cbn [fst option_map snd].
    apply lk_in_some; [exact Neq|exact HU|exact F1].
  - destruct (lkN i (wl m)) as [v|] eqn:G; [|reflexivity]. apply lk_some_in in G. destruct G as (k & G1 & G2).
    pose proof (proj2 (HL i (k, v)) (conj G1 G2)) as X. unfold DashView.wv in F. congruence.
Qed.
Lemma wl_uniq {V} (m : dmap N V) : wf m -> kuniq N.eqb (wl m).
Proof.
  intros (_ & Hw & _).
  destruct (concat_lists N.eqb hash LN _ n _ (wl m) Hw (Permutation_refl _)) as [_ HU]. exact HU.
Qed.
Definition wg (p : pnet) : graph := Graph (p_n2i p) (wl (p_i2n p)) (wl (p_edges p)).
Definition sq (p : pnet) : net := Net (wg p) (wg p) (p_direct p).

Lemma rep_ext (g g' : graph) a : rep g a -> kuniq eqo (n2i g') -> kuniq N.eqb (i2n g') -> kuniq N.eqb (adj g') ->
  length (n2i g') = length (n2i g) -> (forall u, lk eqo u (n2i g') = lk eqo u (n2i g)) ->
  (forall i, lkN i (i2n g') = lkN i (i2n g)) -> (forall i, lkN i (adj g') = lkN i (adj g)) -> rep g' a.
Proof.
  intros R U1 U2 U3 HL H1 H2 H3. constructor; try assumption.
  - rewrite HL. apply (r_len _ _ _ _ R).
  - intros i. rewrite H2. apply (r_obj _ _ _ _ R).
  - intros u. rewrite H1. apply (r_id _ _ _ _ R).
  - intros i. rewrite H3. apply (r_adj _ _ _ _ R).
Qed.

(** ** A parallel network and a sequential one that has the same lookups.  [p0] is the
    network before the call: what is published does not change. *)
Record like (p0 p : pnet) (g : net) : Prop := Like {
  l_we : wf (p_edges p);
  l_wi : wf (p_i2n p);
  l_pd : p_direct p = p_direct p0;
  l_d : p_direct p = direct g;
  l_nr : p_n2i p = n2i (nr g);
  l_nw : p_n2i p = n2i (nw g);
  l_e : forall i, option_map snd (wv (p_edges p) i) = lkN i (adj (nw g));
  l_i : forall i, option_map snd (wv (p_i2n p) i) = lkN i (i2n (nw g));
  l_u : kuniq N.eqb (adj (nw g));
  l_re : forall i, rv (p_edges p) i = rv (p_edges p0) i;
  l_ri : p_i2n p = p_i2n p0
}.
Lemma like_sq p : wf (p_edges p) -> wf (p_i2n p) -> like p p (sq p).
Proof.
  intros H1 H2. constructor; try assumption; try reflexivity; try (intros i; symmetry; apply wl_lk; assumption).
  apply wl_uniq. exact H1.
Qed.
Lemma like_rep p0 p g a : like p0 p g -> rep (nw g) a -> rep (wg p) a.
Proof.
  intros H R. apply (rep_ext (nw g)); cbn [wg n2i i2n adj]; try exact R.
  - rewrite (l_nw _ _ _ H). apply (r_un _ _ _ _ R).
  - apply wl_uniq, (l_wi _ _ _ H).
  - apply wl_uniq, (l_we _ _ _ H).
  - rewrite (l_nw _ _ _ H). reflexivity.
  - intros u. rewrite (l_nw _ _ _ H). reflexivity.
  - intros i. rewrite wl_lk by apply (l_wi _ _ _ H). apply (l_i _ _ _ H).
  - intros i. rewrite wl_lk by apply (l_we _ _ _ H). apply (l_e _ _ _ H).
Qed.

Lemma remove_edge_like p0 p g u v : like p0 p g ->
  match remove_edge eqo g u v with
  | None => pn_remove_edge eqo hash p u v = None
  | Some (g', r) => exists p', pn_remove_edge eqo hash p u v = Some (p', r) /\ like p0 p' g'
  end.
Proof.
  intros H. unfold remove_edge, pn_remove_edge. rewrite <- (l_nr _ _ _ H).
  destruct (id_of eqo u (p_n2i p)) as [i|]; [|exists p; split; [reflexivity|exact H]].
  destruct (id_of eqo v (p_n2i p)) as [j|]; [|exists p; split; [reflexivity|exact H]].
  destruct (v_get_write N.eqb hash LN n (p_edges p) i
    (fun es => match remove_first (joins i j) es with Some (_, es') => es' | None => es end) (l_we _ _ _ H)) as (m & Em & Wm & Rm & Vm).
  rewrite Em, (l_e _ _ _ H). change (val_of i (adj (nw g))) with (lkN i (adj (nw g))).
  destruct (lkN i (adj (nw g))) as [es|] eqn:Hes; [|reflexivity].
  assert (Hw : option_map snd (wv (p_edges p) i) = Some es) by (rewrite (l_e _ _ _ H); exact Hes).
  destruct (remove_first (joins i j) es) as [[e es']|] eqn:RF.
  - set (a := hm_modify N.eqb i (fun _ => es') (adj (nw g))).
    assert (Va : forall k, option_map snd (wv m k) = lkN k a).
    { intros k. rewrite Vm. unfold a. rewrite (lk_modify _ Neq), <- (l_e _ _ _ H). destruct (k =? i) eqn:A; [|reflexivity].
      apply N.eqb_eq in A. subst k. destruct (wv (p_edges p) i) as [[k0 es0]|]; [|reflexivity]. cbn [option_map snd] in *.
      injection Hw as ->. rewrite RF. reflexivity. }
    rewrite (l_d _ _ _ H). destruct (direct g) eqn:D.
    + eexists. split; [reflexivity|]. constructor; cbn [with_e p_edges p_i2n p_n2i p_direct set_w direct nr nw n2i i2n adj];
        try first [exact Wm|exact Va|apply kuniq_modify, (l_u _ _ _ H)|apply H].
      intros k. rewrite Rm. apply (l_re _ _ _ H).
    + destruct (v_get_write N.eqb hash LN n m j (filter (fun e => negb (joins i j e))) Wm) as (m' & Em' & Wm' & Rm' & Vm').
      rewrite Em', Va. change (val_of j a) with (lkN j a). destruct (lkN j a) as [ej|]; [|reflexivity].
      eexists. split; [reflexivity|]. constructor; cbn [with_e p_edges p_i2n p_n2i p_direct set_w direct nr nw n2i i2n adj];
        try first [exact Wm'|apply kuniq_modify, kuniq_modify, (l_u _ _ _ H)|apply H].
      * intros k. rewrite Vm', (lk_modify _ Neq), <- Va. destruct (k =? j); [|reflexivity]. destruct (wv m k) as [[? ?]|]; reflexivity.
      * intros k. rewrite Rm', Rm. apply (l_re _ _ _ H).
  - eexists. split; [reflexivity|]. constructor; cbn [with_e p_edges p_i2n p_n2i p_direct]; try first [exact Wm|apply H].
    + intros k. rewrite Vm, <- (l_e _ _ _ H). destruct (k =? i) eqn:A; [|reflexivity]. apply N.eqb_eq in A. subst k.
      destruct (wv (p_edges p) i) as [[k0 es0]|]; [|reflexivity]. cbn [option_map snd] in *. injection Hw as ->. rewrite RF. reflexivity.
    + intros k. rewrite Rm. apply (l_re _ _ _ H).
Qed.

Lemma object_like p0 p g k : like p0 p g -> pn_object hash p k = pn_object hash p0 k.
Proof. intros H. unfold pn_object. rewrite (l_ri _ _ _ H). reflexivity. Qed.

Lemma loop_like p0 flip u i l : (forall k x, In (k, x) l -> pn_object hash p0 k = Some x) ->
  forall p g, like p0 p g ->
  match remove_loop eqo flip g u i l with
  | None => pn_remove_loop eqo hash flip p u i (map fst l) = None
  | Some (g', r) => exists p', pn_remove_loop eqo hash flip p u i (map fst l) = Some (p', r) /\ like p0 p' g'
  end.
Proof.
  induction l as [|[k x] l IH]; intros HO p g H; cbn [remove_loop pn_remove_loop map fst].
  - exists p. split; [reflexivity|exact H].
  - assert (HO' : forall k x, In (k, x) l -> pn_object hash p0 k = Some x) by (intros k' x' F; apply HO; right; exact F).
    destruct (k =? i); [apply IH; assumption|].
    rewrite (object_like _ _ _ k H), (HO k x (or_introl eq_refl)).
    assert (HR : match (if flip then remove_edge eqo g u x else remove_edge eqo g x u) with
                 | None => (if flip then pn_remove_edge eqo hash p u x else pn_remove_edge eqo hash p x u) = None
                 | Some (g', r) => exists p', (if flip then pn_remove_edge eqo hash p u x else pn_remove_edge eqo hash p x u) = Some (p', r) /\ like p0 p' g'
                 end).
    { destruct flip; apply remove_edge_like; exact H. }
    destruct (if flip then remove_edge eqo g u x else remove_edge eqo g x u) as [[g1 r]|].
    + destruct HR as (p1 & E1 & H1). rewrite E1. specialize (IH HO' p1 g1 H1).
      destruct (remove_loop eqo flip g1 u i l) as [[g' rs]|]; cbn [option_map].
      * destruct IH as (p' & E2 & H2). rewrite E2. exists p'. split; [reflexivity|exact H2].
      * rewrite IH. reflexivity.
    + rewrite HR. reflexivity.
Qed.
Lemma drop_like p0 p g i : like p0 p g ->
  exists p', pn_drop_list hash p i = Some p' /\ like p0 p' (drop_list g i).
Proof.
  intros H. pose proof (l_u _ _ _ H) as U. unfold pn_drop_list. destruct (v_remove N.eqb hash LN n (p_edges p) i (l_we _ _ _ H)) as (m & Em & Wm & Rm & Vm).
  rewrite Em. eexists. split; [reflexivity|].
  constructor; cbn [with_e p_edges p_i2n p_n2i p_direct drop_list set_w direct nr nw n2i i2n adj fst]; try first [exact Wm|apply kuniq_remove; exact U|apply H].
  - intros k. rewrite Vm, (lk_remove _ Neq) by exact U. destruct (k =? i); [reflexivity|apply (l_e _ _ _ H)].
  - intros k. rewrite Rm. apply (l_re _ _ _ H).
Qed.

(** ** The simulation *)
Record psim (p : pnet) (s : pstate O L W) : Prop := PSim {
  s_d : p_direct p = d;
  s_we : wf (p_edges p);
  s_wi : wf (p_i2n p);
  s_rep : rep (wg p) (now s);
  s_ok : ok (now s);
  s_re : forall i, option_map snd (rv (p_edges p) i) = slist s i;
  s_ri : forall i, option_map snd (rv (p_i2n p) i) = sobj s i;
  s_pub : forall i, slist s i <> None -> sobj s i <> None;
  s_src : forall i es e, slist s i = Some es -> In e es -> e_u e = i
}.
Lemma psim_like p s p' g a : psim p s -> like p p' g -> rep (nw g) a -> ok a -> psim p' (set_now s a).
Proof.
  intros S H R Ho. constructor; cbn [set_now now sobj slist].
  - rewrite (l_pd _ _ _ H). apply (s_d _ _ S).
  - apply (l_we _ _ _ H).
  - apply (l_wi _ _ _ H).
  - exact (like_rep _ _ _ _ H R).
  - exact Ho.
  - intros i. rewrite (l_re _ _ _ H). apply (s_re _ _ S).
  - intros i. rewrite (l_ri _ _ _ H). apply (s_ri _ _ S).
  - apply (s_pub _ _ S).
  - apply (s_src _ _ S).
Qed.
Lemma psim_new cpus : (1 <= cpus)%N -> (cpus * 4 <= 2 ^ 63)%N -> n = N.to_nat (shard_amount cpus) -> psim (pn_new cpus d) p_new.
Proof.
  intros H1 H2 Hn. destruct (@v_new N (list edge) N.eqb hash cpus H1 H2) as [W1 F1]. destruct (@v_new N O N.eqb hash cpus H1 H2) as [W2 F2].
  rewrite <- Hn in W1, W2. constructor; cbn [pn_new p_direct p_edges p_i2n p_new now sobj slist]; try assumption; try reflexivity.
  - constructor; cbn [wg pn_new p_n2i p_edges p_i2n n2i i2n adj].
    + constructor.
    + apply wl_uniq. exact W2.
    + apply wl_uniq. exact W1.
    + reflexivity.
    + intros i. rewrite wl_lk by exact W2. destruct (F2 i) as [_ ->]. reflexivity.
    + reflexivity.
    + intros i. rewrite wl_lk by exact W1. destruct (F1 i) as [_ ->]. reflexivity.
  - apply ok_nil.
  - intros i. destruct (F1 i) as [-> _]. reflexivity.
  - intros i. destruct (F2 i) as [-> _]. reflexivity.
  - intros i F. contradiction.
  - intros i es e F. discriminate.
Qed.

Lemma id_of_now p s u : psim p s -> id_of eqo u (p_n2i p) = id_in u (now s).
Proof. intros S. exact (r_id _ _ _ _ (s_rep _ _ S) u). Qed.
Lemma read_list p s i : psim p s -> get_read N.eqb hash i (p_edges p) = Some (slist s i).
Proof. intros S. rewrite (v_get_read N.eqb hash n) by apply (s_we _ _ S). rewrite (s_re _ _ S). reflexivity. Qed.
Lemma read_obj p s i : psim p s -> get_read N.eqb hash i (p_i2n p) = Some (sobj s i).
Proof. intros S. rewrite (v_get_read N.eqb hash n) by apply (s_wi _ _ S). rewrite (s_ri _ _ S). reflexivity. Qed.
Lemma object_now p s i : psim p s -> pn_object hash p i = sobj s i.
Proof. intros S. unfold pn_object. rewrite (read_obj _ _ _ S). destruct (sobj s i); reflexivity. Qed.

(** *** add_edge *)
Lemma push_like (m : dmap N (list edge)) a i e : wf m -> (forall k, option_map snd (wv m k) = lkN k a) ->
  exists m', pn_push hash i e m = Some m' /\ wf m' /\ (forall k, rv m' k = rv m k) /\
    forall k, option_map snd (wv m' k) = lkN k (push_edge i e a).
Proof.
  intros Wm Va. unfold pn_push. destruct (v_get_write N.eqb hash LN n m i (fun es => es ++ [e]) Wm) as (m1 & -> & W1 & R1 & V1).
  destruct (wv m i) as [[k0 es]|] eqn:F; cbn [option_map snd].
  - exists m1. split; [reflexivity|]. split; [exact W1|]. split; [exact R1|]. intros k. rewrite V1, lk_push, <- !Va, F. cbn [option_map snd].
    destruct (k =? i) eqn:A; [|reflexivity]. apply N.eqb_eq in A. subst. rewrite F. reflexivity.
  - destruct (v_insert N.eqb hash LN n m1 i [e] W1) as (m2 & -> & W2 & R2 & V2). exists m2. split; [reflexivity|]. split; [exact W2|].
    split; [intros k; rewrite R2; apply R1|]. intros k. rewrite V2, V1, lk_push, <- !Va, F. cbn [option_map snd app].
    destruct (k =? i); reflexivity.
Qed.
Lemma add_edge_like p u v o : wf (p_edges p) -> wf (p_i2n p) ->
  exists p', pn_add_edge eqo hash p u v o = Some (p', snd (add_edge eqo (sq p) u v o)) /\ like p p' (fst (add_edge eqo (sq p) u v o)).
Proof.
  intros We Wi. pose proof (like_sq p We Wi) as H. unfold pn_add_edge, add_edge. cbn [sq nw wg n2i direct].
  destruct (id_of eqo u (p_n2i p)) as [i|]; [|exists p; split; [reflexivity|exact H]].
  destruct (id_of eqo v (p_n2i p)) as [j|]; [|exists p; split; [reflexivity|exact H]].
  destruct (push_like (p_edges p) (wl (p_edges p)) i (edge_new i j o) We) as (m & -> & Wm & Rm & Vm).
  { intros k. symmetry. apply wl_lk. exact We. }
  destruct (p_direct p) eqn:D.
  - eexists. split; [reflexivity|]. constructor; cbn [with_e p_edges p_i2n p_n2i p_direct fst set_w direct nr nw n2i i2n adj]; try first [exact Wm|exact Vm|exact Rm|apply kuniq_push, wl_uniq; exact We|apply H]; try reflexivity.
  - destruct (push_like m _ j (edge_new j i o) Wm Vm) as (m' & -> & Wm' & Rm' & Vm').
    eexists. split; [reflexivity|]. constructor; cbn [with_e p_edges p_i2n p_n2i p_direct fst set_w direct nr nw n2i i2n adj]; try first [exact Wm'|exact Vm'|apply kuniq_push, kuniq_push, wl_uniq; exact We|apply H]; try reflexivity.
    + intros k. rewrite Rm'. apply Rm.
Qed.
Lemma add_edge_psim p s u v o : psim p s ->
  exists p', pn_add_edge eqo hash p u v o = Some (p', match id_in u (now s), id_in v (now s) with Some _, Some _ => (true, negb d) | _, _ => (false, false) end) /\
    psim p' (set_now s (a_add_edge eqo d u v o (now s))).
Proof.
  intros S. destruct (add_edge_like p u v o (s_we _ _ S) (s_wi _ _ S)) as (p' & E1 & H1).
  destruct (add_edge_ref eqo E d (sq p) (now s) u v o (s_d _ _ S) (s_rep _ _ S) (s_ok _ _ S)) as (R1 & O1 & _ & _ & A1).
  exists p'. rewrite <- A1. split; [exact E1|]. exact (psim_like _ _ _ _ _ S H1 R1 O1).
Qed.

(** *** add_node *)
Lemma add_node_psim p s u : psim p s -> p_good eqo d s (PAddNode u) ->
  exists p', pn_add_node eqo hash p u = Some p' /\ psim p' (set_now s (a_add_node u (now s))).
Proof.
  intros S (G1 & G2 & G3 & G4). pose proof (s_rep _ _ S) as R.
  destruct (add_node_ref eqo E d (sq p) (now s) u R (s_ok _ _ S) G1 G2 G4) as (R1 & O1 & _ & _).
  unfold pn_add_node. pose proof (r_len _ _ _ _ R) as RL. cbn [wg n2i] in RL.
  unfold add_node in R1. cbn [sq nw wg n2i i2n adj set_w] in R1.
  rewrite RL, N.mod_small in R1 |- * by exact G4. set (i := N.of_nat (length (nodes (now s)))) in *.
  destruct (v_insert N.eqb hash LN n (p_i2n p) i u (s_wi _ _ S)) as (o & -> & Wo & Ro & Vo).
  rewrite (read_list _ _ _ S), G3.
  destruct (v_insert N.eqb hash LN n (p_edges p) i [] (s_we _ _ S)) as (m & -> & Wm & Rm & Vm). cbn [option_map fst].
  assert (LF : hm_find N.eqb i (wl (p_edges p)) = None).
  { pose proof (r_adj _ _ _ _ R i) as F. cbn [wg adj] in F.
    assert (LI : is_listed i (now s) = false).
    { destruct (is_listed i (now s)) eqn:A; [|reflexivity]. apply (ok_listed _ _ _ (s_ok _ _ S)) in A. apply object_in_none in G2. contradiction. }
    rewrite LI in F. unfold lk in F. destruct (hm_find N.eqb i (wl (p_edges p))); [discriminate|reflexivity]. }
  rewrite LF in R1.
  eexists. split; [reflexivity|]. constructor; cbn [set_now now sobj slist p_direct p_edges p_i2n].
  - apply (s_d _ _ S).
  - exact Wm.
  - exact Wo.
  - apply (rep_ext _ _ _ R1); cbn [wg p_n2i p_edges p_i2n n2i i2n adj].
    + apply kuniq_insert; [exact E|apply (r_un _ _ _ _ R)].
    + apply wl_uniq. exact Wo.
    + apply wl_uniq. exact Wm.
    + reflexivity.
    + reflexivity.
    + intros k. rewrite wl_lk by exact Wo. rewrite Vo, (lk_insert _ Neq), wl_lk by apply (s_wi _ _ S). destruct (k =? i); reflexivity.
    + intros k. rewrite wl_lk by exact Wm. rewrite Vm, (lk_insert _ Neq), wl_lk by apply (s_we _ _ S). destruct (k =? i); reflexivity.
  - exact O1.
  - intros k. rewrite Rm. apply (s_re _ _ S).
  - intros k. rewrite Ro. apply (s_ri _ _ S).
  - apply (s_pub _ _ S).
  - apply (s_src _ _ S).
Qed.

(** *** remove_edge *)
Lemma remove_edge_psim p s u v i j : psim p s -> id_in u (now s) = Some i -> id_in v (now s) = Some j ->
  is_listed i (now s) = true -> d = true \/ (count_between d i j (now s) <= 1)%nat ->
  exists p', pn_remove_edge eqo hash p u v =
      Some (p', option_map (fun e => shown i j (snd e)) (find (between d i j) (edges (now s)))) /\
    psim p' (set_now s (a_remove_edge d i j (now s))).
Proof.
  intros S Hu Hv Hl Hc. pose proof (s_rep _ _ S) as R.
  destruct (remove_edge_ref eqo d (sq p) (now s) (now s) u v i j (s_d _ _ S) R R (s_ok _ _ S) Hu Hv Hl Hc) as (g' & E1 & R1 & O1 & _).
  pose proof (remove_edge_like p p (sq p) u v (like_sq p (s_we _ _ S) (s_wi _ _ S))) as F. rewrite E1 in F. destruct F as (p' & F & HL).
  exists p'. split; [exact F|]. exact (psim_like _ _ _ _ _ S HL R1 O1).
Qed.
Lemma remove_edge_psim_none p s u v : psim p s -> id_in u (now s) = None \/ id_in v (now s) = None ->
  pn_remove_edge eqo hash p u v = Some (p, None).
Proof.
  intros S H. unfold pn_remove_edge. rewrite !(id_of_now p s) by exact S.
  destruct (id_in u (now s)); [|reflexivity]. destruct (id_in v (now s)); [|reflexivity]. destruct H; discriminate.
Qed.

(** *** The published nodes that have a list, in the order of the loops *)
Lemma keys_nodes p s it (m : dmap N (list edge)) : psim p s -> reorders it -> wf m -> (forall i, rv m i = rv (p_edges p) i) ->
  exists l, keys it m = map fst l /\
    forall k x, In (k, x) l <-> slist s k <> None /\ sobj s k = Some x.
Proof.
  intros S P Wm Rm. destruct (v_keys N.eqb hash LN n m it Wm P) as (l & [HL _] & HK).
  assert (KS : forall k, In k (map fst l) <-> slist s k <> None).
  { intros k. rewrite <- (s_re _ _ S), <- Rm. split.
    - intros F. apply in_map_iff in F. destruct F as (q & <- & F).
      rewrite (proj2 (HL (fst q) q) (conj F (N.eqb_refl _))). discriminate.
    - intros F. destruct (rv m k) as [q|] eqn:A; [|contradiction]. apply HL in A. destruct A as [A1 A2].
      apply N.eqb_eq in A2. subst k. apply in_map. exact A1. }
  rewrite HK. clear HK HL. induction (map fst l) as [|k ks IH].
  - exists []. split; [reflexivity|]. intros k x. split; [intros []|]. intros [F _]. apply KS in F. destruct F.
  - clear IH.
    assert (G : forall ks', (forall k', In k' ks' -> slist s k' <> None) -> exists l', ks' = map fst l' /\ forall k' x, In (k', x) l' <-> In k' ks' /\ sobj s k' = Some x).
    { clear ks k KS l. induction ks' as [|k ks' IH]; intros F.
      - exists []. split; [reflexivity|]. intros k' x. split; [intros []|intros [[] _]].
      - destruct IH as (l' & E1 & F1); [intros k' A; apply F; right; exact A|].
        destruct (sobj s k) as [x|] eqn:Sx.
        2:{ exfalso. exact (s_pub _ _ S k (F k (or_introl eq_refl)) Sx). }
        exists ((k, x) :: l'). split; [cbn [map fst]; rewrite E1; reflexivity|]. intros k' y. cbn [In]. rewrite F1. split.
        + intros [A|[A B]]; [injection A as <- <-; auto|auto].
        + intros [[A|A] B]; [left; subst; congruence|right; auto]. }
    destruct (G (k :: ks)) as (l' & E1 & F1); [intros k' A; apply KS; exact A|].
    exists l'. split; [exact E1|]. intros k' x. rewrite F1, KS. reflexivity.
Qed.

(** *** remove_outgoing_edges and remove_incoming_edges *)
Lemma remove_all_psim flip p s u it i : psim p s -> reorders it -> id_in u (now s) = Some i -> is_listed i (now s) = true ->
  p_stable eqo s -> p_reached eqo s i (dir_edges d flip i) -> p_single s i (dir_edges d flip i) ->
  exists p' rs, pn_remove_all_of eqo hash flip p u it = Some (p', Some rs) /\
    psim p' (set_now s (with_edges (now s) (drop (dir_edges d flip i) (edges (now s))))) /\
    Permutation rs (map (fun e => dir_shown flip i (the_other i e) (snd e)) (filter (dir_edges d flip i) (edges (now s)))).
Proof.
  intros S P Hu Hi G1 G2 G3. pose proof (s_rep _ _ S) as R. pose proof (s_ok _ _ S) as Ho.
  destruct (keys_nodes p s it _ S P (s_we _ _ S) (fun _ => eq_refl)) as (l & EK & HK).
  destruct (remove_loop_ref eqo d flip (sq p) (now s) (now s) u i (s_d _ _ S) R Ho R Ho Hu Hi l) as (g' & rs & E1 & R1 & O1 & _ & _ & P1).
  { intros k x F _. apply HK in F. destruct F as [F1 F2]. exact (G1 k x F1 F2). }
  { exact G3. }
  assert (HH : forall e, In e (edges (now s)) -> hits eqo d flip (now s) i l e = dir_edges d flip i e).
  { intros e He. unfold hits. destruct (dir_edges d flip i e) eqn:F; cbn [andb].
    - destruct (G2 e He F) as [K1 K2]. pose proof (s_pub _ _ S _ K1) as K3. destruct (sobj s (the_other i e)) as [x|] eqn:Sx; [|contradiction].
      apply existsb_exists. exists (the_other i e, x). split; [apply HK; auto|]. cbn [fst snd]. rewrite (K2 x eq_refl), N.eqb_refl.
      assert (K4 : the_other i e <> i).
      { destruct e as [[x' y'] o']. unfold the_other. destruct (x' =? i) eqn:A; [|apply N.eqb_neq; exact A]. intros ->. apply N.eqb_eq in A. subst x'.
        unfold dir_edges in F. destruct flip; unfold leaves, enters in F; rewrite N.eqb_refl in F; cbn [negb andb orb] in F;
          rewrite !andb_false_r in F; discriminate. }
      rewrite (proj2 (N.eqb_neq _ _) K4). reflexivity.
    - destruct (existsb _ _) eqn:X; [|reflexivity]. apply existsb_exists in X. destruct X as (z & _ & X). rewrite andb_false_r in X. discriminate. }
  rewrite (drop_ext _ _ _ HH) in R1, O1. rewrite (filter_ext_in _ _ _ HH) in P1.
  pose proof (loop_like p flip u i l) as F. specialize (F (fun k x Hk => eq_trans (object_now p s k S) (proj2 (proj1 (HK k x) Hk))) p (sq p) (like_sq p (s_we _ _ S) (s_wi _ _ S))).
  rewrite E1 in F. destruct F as (p' & F & HL). exists p', rs. unfold pn_remove_all_of. rewrite (id_of_now p s u S), Hu, EK, F.
  split; [reflexivity|]. split; [exact (psim_like _ _ _ _ _ S HL R1 O1)|exact P1].
Qed.

(** *** remove_node *)
Lemma remove_node_psim p s u it it' i : psim p s -> reorders it -> reorders it' -> id_in u (now s) = Some i -> is_listed i (now s) = true ->
  p_stable eqo s -> p_reached eqo s i (enters d i) -> (d = true -> p_single s i (enters d i)) ->
  exists p', pn_remove_node eqo hash p u it it' = Some (p', true) /\ psim p' (set_now s (a_remove_node i (now s))).
Proof.
  intros S P P' Hu Hi G1 G2 G3. pose proof (s_rep _ _ S) as R. pose proof (s_ok _ _ S) as Ho.
  assert (LISTS : forall l, (forall k x, In (k, x) l <-> slist s k <> None /\ sobj s k = Some x) ->
    (forall k x, In (k, x) l -> pn_object hash p k = Some x) /\
    (forall k x, In (k, x) l -> k <> i -> id_in x (now s) = None \/ (id_in x (now s) = Some k /\ is_listed k (now s) = true)) /\
    (forall k e, k <> i -> In e (incident d k (now s)) -> e_v e = i -> published_in eqo (now s) l k = true)).
  { intros l HK. split; [|split].
    - intros k x F. rewrite (object_now p s k S). apply (HK k x). exact F.
    - intros k x F _. apply HK in F. destruct F as [F1 F2]. exact (G1 k x F1 F2).
    - intros k e Hk He Hv. destruct (inc_to d k i e (now s) Hk He Hv) as (x & X1 & X2 & X3 & X4).
      destruct (G2 x X1 X4) as [K1 K2]. rewrite X3 in K1, K2. pose proof (s_pub _ _ S _ K1) as K3.
      destruct (sobj s k) as [y|] eqn:Sy; [|contradiction]. unfold published_in. apply existsb_exists. exists (k, y).
      split; [apply HK; auto|]. cbn [fst snd]. rewrite N.eqb_refl, (K2 y eq_refl). reflexivity. }
  destruct (keys_nodes p s it _ S P (s_we _ _ S) (fun _ => eq_refl)) as (l1 & EK1 & HK1).
  destruct (LISTS l1 HK1) as (OB1 & A1 & B1).
  destruct (remove_node_lists eqo E d (sq p) (now s) (now s) u i l1 l1 (s_d _ _ S) R R Ho Hu Hu Hi G3) as (g1 & rs & _ & _ & E1 & _).
  { intros l [-> | ->]; auto. }
  pose proof (loop_like p true u i l1 OB1 p (sq p) (like_sq p (s_we _ _ S) (s_wi _ _ S))) as F. rewrite E1 in F. destruct F as (p1 & F1 & L1).
  destruct (drop_like p p1 g1 i L1) as (p2 & F2 & L2).
  destruct (keys_nodes p s it' (p_edges p2) S P' (l_we _ _ _ L2) (l_re _ _ _ L2)) as (l2 & EK2 & HK2).
  destruct (LISTS l2 HK2) as (OB2 & A2 & B2).
  destruct (remove_node_lists eqo E d (sq p) (now s) (now s) u i l1 l2 (s_d _ _ S) R R Ho Hu Hu Hi G3)
    as (g1' & rs' & g2 & rs2 & E1' & E2 & FI1 & FR1 & FN2 & FI2 & FR2 & FD2 & R2 & OK2).
  { intros l [-> | ->]; auto. }
  rewrite E1 in E1'. injection E1' as <- <-.
  pose proof (loop_like p false u i l2 OB2 p2 (drop_list g1 i) L2) as F. rewrite E2 in F. destruct F as (p3 & F3 & L3).
  destruct (drop_like p p3 g2 i L3) as (p4 & F4 & L4).
  destruct (v_remove N.eqb hash LN n (p_i2n p4) i (l_wi _ _ _ L4)) as (o & Eo & Wo & Ro & Vo).
  assert (NN2 : p_n2i p2 = p_n2i p).
  { rewrite (l_nr _ _ _ L2). cbn [drop_list set_w nr]. rewrite FR1. reflexivity. }
  assert (NN4 : p_n2i p4 = p_n2i p).
  { rewrite (l_nr _ _ _ L4). cbn [drop_list set_w nr]. rewrite FR2. reflexivity. }
  unfold pn_remove_node, pn_remove_all_of. rewrite (id_of_now p s u S), Hu, EK1, F1. cbn [option_map fst snd].
  rewrite F2, NN2, (id_of_now p s u S), Hu, EK2, F3. cbn [option_map fst snd]. rewrite F4, Eo, NN4. cbn [option_map fst].
  eexists. split; [reflexivity|]. constructor; cbn [set_now now sobj slist p_direct p_edges p_i2n].
  - rewrite (l_pd _ _ _ L4). apply (s_d _ _ S).
  - apply (l_we _ _ _ L4).
  - exact Wo.
  - unfold after_loops in R2. apply (rep_ext _ _ _ R2); cbn [wg p_n2i p_edges p_i2n n2i i2n adj drop_list set_w nw].
    + apply kuniq_remove, (r_un _ _ _ _ R).
    + apply wl_uniq. exact Wo.
    + apply wl_uniq, (l_we _ _ _ L4).
    + rewrite FN2. reflexivity.
    + intros x. rewrite FN2. reflexivity.
    + intros k. rewrite wl_lk by exact Wo. rewrite Vo, (lk_remove _ Neq).
      * destruct (k =? i); [reflexivity|]. apply (l_i _ _ _ L4).
      * rewrite FI2. apply (r_ui _ _ _ _ R).
    + intros k. rewrite wl_lk by apply (l_we _ _ _ L4). apply (l_e _ _ _ L4).
  - exact OK2.
  - intros k. rewrite (l_re _ _ _ L4). apply (s_re _ _ S).
  - intros k. rewrite Ro, (l_ri _ _ _ L4). apply (s_ri _ _ S).
  - apply (s_pub _ _ S).
  - apply (s_src _ _ S).
Qed.

(** *** update_node *)
Lemma update_node_psim p s u : psim p s ->
  exists p', pn_update_node eqo hash p u = Some p' /\ psim p' (set_now s (a_update_node eqo u (now s))).
Proof.
  intros S. pose proof (s_rep _ _ S) as R. pose proof (s_ok _ _ S) as Ho.
  destruct (update_node_ref eqo E d (sq p) (now s) u R Ho) as (R1 & O1 & _ & _).
  unfold pn_update_node. unfold update_node in R1. change (n2i (nw (sq p))) with (p_n2i p) in R1.
  rewrite (id_of_now p s u S) in R1 |- *. destruct (id_in u (now s)) as [i|] eqn:Hu.
  - destruct (v_get_write N.eqb hash LN n (p_i2n p) i (fun _ => u) (s_wi _ _ S)) as (o & -> & Wo & Ro & Vo).
    pose proof Hu as Hx. apply (id_in_iff eqo E d) in Hx; [|exact Ho]. destruct Hx as (x & H1 & H2). apply (object_in_iff eqo d) in H1; [|exact Ho].
    assert (WX : option_map snd (wv (p_i2n p) i) = Some x).
    { rewrite <- wl_lk by apply (s_wi _ _ S). rewrite <- H1. apply (r_obj _ _ _ _ R). }
    rewrite WX.
    assert (IX : lk eqo x (p_n2i p) = Some i).
    { rewrite <- (lk_cong eqo E u x _ H2). rewrite <- Hu. apply (id_of_now p s u S). }
    destruct (hm_remove eqo x (p_n2i p)) as [m r] eqn:HR.
    assert (Em : m = fst (hm_remove eqo x (p_n2i p))) by (rewrite HR; reflexivity).
    assert (Lm : forall y, lk eqo y m = if eqo y x then None else lk eqo y (p_n2i p)).
    { intros y. rewrite Em. apply (lk_remove _ E), (r_un _ _ _ _ R). }
    assert (Um : kuniq eqo m) by (rewrite Em; apply kuniq_remove, (r_un _ _ _ _ R)).
    assert (Hr : exists z, r = Some z).
    { assert (RS : forall l : list (O * N), lk eqo x l <> None -> snd (hm_remove eqo x l) <> None).
      { clear. induction l as [|q l IH]; [intros F; contradiction|]. rewrite lk_cons. cbn [hm_remove]. destruct (eqo x (fst q)); [discriminate|].
        intros F. specialize (IH F). destruct (hm_remove eqo x l) as [? ?]. exact IH. }
      specialize (RS (p_n2i p)). rewrite IX, HR in RS. cbn [snd] in RS. destruct r as [z|]; [exists z; reflexivity|].
      exfalso. apply RS; [discriminate|reflexivity]. }
    destruct Hr as [z ->]. eexists. split; [reflexivity|].
    assert (LI : forall y, lk eqo y (fst (hm_insert eqo u i m)) = lk eqo y (p_n2i p)).
    { intros y. rewrite (lk_insert _ E), Lm, (eqk_sym eqo E y u), (eqk_cong eqo E u x y H2), (eqk_sym eqo E x y).
      destruct (eqo y x) eqn:A; [|reflexivity]. rewrite (lk_cong eqo E y x _ A). symmetry. exact IX. }
    constructor; cbn [set_now now sobj slist p_direct p_edges p_i2n].
    + apply (s_d _ _ S).
    + apply (s_we _ _ S).
    + exact Wo.
    + apply (rep_ext _ _ _ R1); cbn [wg p_n2i p_edges p_i2n n2i i2n adj set_w nw sq].
      * apply kuniq_insert; [exact E|exact Um].
      * apply wl_uniq. exact Wo.
      * apply wl_uniq, (s_we _ _ S).
      * rewrite length_insert, Lm, (eqk_sym eqo E u x), (eq_sym_ _ E _ _ H2), Em, length_remove, IX.
        destruct (p_n2i p) as [|q l] eqn:Q; [unfold lk in IX; cbn in IX; discriminate|reflexivity].
      * exact LI.
      * intros k. rewrite wl_lk by exact Wo. rewrite Vo, (lk_modify _ Neq), wl_lk by apply (s_wi _ _ S).
        destruct (k =? i); [|reflexivity]. destruct (wv (p_i2n p) k); reflexivity.
      * reflexivity.
    + exact O1.
    + apply (s_re _ _ S).
    + intros k. rewrite Ro. apply (s_ri _ _ S).
    + apply (s_pub _ _ S).
    + apply (s_src _ _ S).
  - exists p. split; [reflexivity|]. constructor; cbn [set_now now sobj slist]; try apply S; assumption.
Qed.

(** *** update *)
Lemma update_psim p s it it' : psim p s -> reorders it -> reorders it' ->
  exists p', pn_update it it' n p = Some p' /\ psim p' (p_publish d s).
Proof.
  intros S P P'. pose proof (s_rep _ _ S) as R. pose proof (s_ok _ _ S) as Ho. unfold pn_update.
  destruct (v_update N.eqb hash LN n (p_edges p) it (s_we _ _ S) P) as (m & -> & Wm & Rm & Vm).
  destruct (v_update N.eqb hash LN n (p_i2n p) it' (s_wi _ _ S) P') as (o & -> & Wo & Ro & Vo).
  assert (LE : forall i, option_map snd (wv (p_edges p) i) = if is_listed i (now s) then Some (incident d i (now s)) else None).
  { intros i. rewrite <- wl_lk by apply (s_we _ _ S). apply (r_adj _ _ _ _ R). }
  assert (LO : forall i, option_map snd (wv (p_i2n p) i) = object_in i (now s)).
  { intros i. rewrite <- wl_lk by apply (s_wi _ _ S). apply (r_obj _ _ _ _ R). }
  eexists. split; [reflexivity|]. constructor; cbn [p_publish now sobj slist p_direct p_edges p_i2n]; try assumption.
  - apply (s_d _ _ S).
  - apply (rep_ext _ _ _ R); cbn [wg p_n2i p_edges p_i2n n2i i2n adj]; try reflexivity.
    + apply (r_un _ _ _ _ R).
    + apply wl_uniq. exact Wo.
    + apply wl_uniq. exact Wm.
    + intros k. rewrite !wl_lk by first [exact Wo|apply (s_wi _ _ S)]. rewrite Vo. reflexivity.
    + intros k. rewrite !wl_lk by first [exact Wm|apply (s_we _ _ S)]. rewrite Vm. reflexivity.
  - intros i. rewrite Rm. specialize (LE i). rewrite <- (s_re _ _ S).
    destruct (wv (p_edges p) i) as [q|]; destruct (is_listed i (now s)); try discriminate; [exact LE|reflexivity].
  - intros i. rewrite Ro. specialize (LO i). rewrite <- (s_ri _ _ S).
    destruct (wv (p_i2n p) i) as [q|]; destruct (object_in i (now s)); try discriminate; [exact LO|reflexivity].
  - intros i F. destruct (is_listed i (now s)) eqn:A.
    + apply (ok_listed _ _ _ Ho) in A. destruct (object_in i (now s)) eqn:B; [discriminate|]. apply object_in_none in B. contradiction.
    + destruct (object_in i (now s)); [discriminate|]. apply (s_pub _ _ S). exact F.
  - intros i es e F He. destruct (is_listed i (now s)).
    + injection F as <-. exact (incident_src d i (now s) e He).
    + exact (s_src _ _ S i es e F He).
Qed.

(** *** get_edge *)
Lemma get_edge_psim p s u v : psim p s -> p_good eqo d s (PGetEdge u v) ->
  pn_get_edge eqo hash p u v = Some (match id_in u (now s), id_in v (now s) with
                 | Some i, Some j =>
                     match slist s i with Some es => find (fun e => e_v e =? j) es | None => None end
                 | _, _ => None
                 end).
Proof.
  intros S G. unfold pn_get_edge. rewrite !(id_of_now p s) by exact S. cbn [p_good] in G.
  destruct (id_in u (now s)) as [i|] eqn:Hu; [|reflexivity]. rewrite (read_list p s i S).
  destruct (slist s i) as [es|] eqn:Hes; [|destruct (id_in v (now s)); reflexivity].
  destruct (id_in v (now s)) as [j|] eqn:Hv; [|reflexivity].
  assert (G' : forall e, In e es -> e_u e = i /\ exists x, sobj s (e_v e) = Some x /\ id_in x (now s) = Some (e_v e)).
  { intros e He. split; [exact (s_src _ _ S i es e Hes He)|]. apply (G i es e); auto. discriminate. }
  clear G Hes. induction es as [|e es IH]; [reflexivity|]. cbn [pn_edge_loop find].
  destruct (G' e (or_introl eq_refl)) as (G1 & x & G2 & G3). rewrite (object_now p s (e_v e) S), G2, (id_of_now p s x S), G3, G1, N.eqb_refl.
  cbn [andb]. destruct (e_v e =? j) eqn:A; cbn [orb]; [reflexivity|].
  assert (B : (negb (p_direct p) && (e_v e =? i) && (i =? j)) = false).
  { destruct (e_v e =? i) eqn:B; [|rewrite andb_false_r; reflexivity]. destruct (i =? j) eqn:C; [|rewrite andb_false_r; reflexivity].
    apply N.eqb_eq in B, C. apply N.eqb_neq in A. congruence. }
  rewrite B. apply IH. intros e' He'. apply G'. right. exact He'.
Qed.

(** ** All calls *)
Lemma pcall_ref p s c : psim p s -> p_good eqo d s c ->
  exists p' r, pn_call eqo hash n p c = Some (p', r) /\ p_answer eqo d s c r /\ psim p' (p_next eqo d s c).
Proof.
  intros S G. destruct c as [u|u v o|u v| |u it|u it|u it it'|u|it it'|u v|u|i]; cbn [pn_call p_answer p_next].
  - destruct (add_node_psim p s u S G) as (p' & -> & S'). eexists. eexists. split; [reflexivity|]. split; [reflexivity|exact S'].
  - destruct (add_edge_psim p s u v o S) as (p' & -> & S'). eexists. eexists. split; [reflexivity|]. cbn [fst snd].
    split; [|exact S']. destruct (id_in u (now s)); [|reflexivity]. destruct (id_in v (now s)); reflexivity.
  - cbn [p_good] in G. destruct (id_in u (now s)) as [i|] eqn:Hu.
    2:{ rewrite (remove_edge_psim_none p s u v S (or_introl Hu)). eexists. eexists. split; [reflexivity|]. split; [reflexivity|exact S]. }
    destruct (id_in v (now s)) as [j|] eqn:Hv.
    2:{ rewrite (remove_edge_psim_none p s u v S (or_intror Hv)). eexists. eexists. split; [reflexivity|]. split; [reflexivity|exact S]. }
    destruct (G i j eq_refl eq_refl) as [G1 G2].
    destruct (remove_edge_psim p s u v i j S Hu Hv G1 G2) as (p' & -> & S'). eexists. eexists. split; [reflexivity|]. split; [reflexivity|exact S'].
  - eexists. eexists. split; [reflexivity|]. split; [reflexivity|].
    destruct (v_clear N.eqb hash n (p_edges p) (s_we _ _ S)) as (Wm & Rm & Vm). pose proof (s_rep _ _ S) as R. pose proof (s_ok _ _ S) as Ho.
    constructor; cbn [pn_remove_all_edges with_e set_now now sobj slist p_direct p_edges p_i2n].
    + apply (s_d _ _ S).
    + exact Wm.
    + apply (s_wi _ _ S).
    + constructor; cbn [wg pn_remove_all_edges with_e p_n2i p_edges p_i2n n2i i2n adj];
        [apply (r_un _ _ _ _ R)|apply (r_ui _ _ _ _ R)|apply wl_uniq; exact Wm|apply (r_len _ _ _ _ R)|apply (r_obj _ _ _ _ R)|apply (r_id _ _ _ _ R)|].
      intros i. rewrite wl_lk by exact Wm. rewrite Vm. reflexivity.
    + constructor; cbn [nodes edges listed]; [apply (ok_ids _ _ _ Ho)|apply (ok_objs _ _ _ Ho)|intros x y o []|intros x y o []|intros x y o []|discriminate].
    + intros i. rewrite Rm. apply (s_re _ _ S).
    + apply (s_ri _ _ S).
    + apply (s_pub _ _ S).
    + apply (s_src _ _ S).
  - destruct G as [P G]. destruct (id_in u (now s)) as [i|] eqn:Hu.
    + destruct (G i eq_refl) as (G1 & G2 & G3 & G4).
      destruct (remove_all_psim false p s u it i S P Hu G1 G2 G3 G4) as (p' & rs & -> & S' & P1).
      eexists. eexists. split; [reflexivity|]. split; [exists rs; split; [reflexivity|exact P1]|exact S'].
    + unfold pn_remove_all_of. rewrite (id_of_now p s u S), Hu. eexists. eexists. split; [reflexivity|]. split; [reflexivity|exact S].
  - destruct G as [P G]. destruct (id_in u (now s)) as [i|] eqn:Hu.
    + destruct (G i eq_refl) as (G1 & G2 & G3 & G4).
      destruct (remove_all_psim true p s u it i S P Hu G1 G2 G3 G4) as (p' & rs & -> & S' & P1).
      eexists. eexists. split; [reflexivity|]. split; [exists rs; split; [reflexivity|exact P1]|exact S'].
    + unfold pn_remove_all_of. rewrite (id_of_now p s u S), Hu. eexists. eexists. split; [reflexivity|]. split; [reflexivity|exact S].
  - destruct G as (P & P' & G). destruct (id_in u (now s)) as [i|] eqn:Hu.
    + destruct (G i eq_refl) as (G1 & G2 & G3 & G4).
      destruct (remove_node_psim p s u it it' i S P P' Hu G1 G2 G3 G4) as (p' & -> & S').
      eexists. eexists. split; [reflexivity|]. split; [reflexivity|exact S'].
    + unfold pn_remove_node. rewrite (id_of_now p s u S), Hu. eexists. eexists. split; [reflexivity|]. split; [reflexivity|exact S].
  - destruct (update_node_psim p s u S) as (p' & -> & S'). eexists. eexists. split; [reflexivity|]. split; [reflexivity|exact S'].
  - destruct G as [P P']. destruct (update_psim p s it it' S P P') as (p' & -> & S'). eexists. eexists. split; [reflexivity|]. split; [reflexivity|exact S'].
  - rewrite (get_edge_psim p s u v S G). eexists. eexists. split; [reflexivity|]. split; [reflexivity|exact S].
  - unfold pn_get_edges. rewrite (id_of_now p s u S). destruct (id_in u (now s)) as [i|].
    + rewrite (read_list p s i S). eexists. eexists. split; [reflexivity|]. split; [reflexivity|exact S].
    + eexists. eexists. split; [reflexivity|]. split; [reflexivity|exact S].
  - unfold pn_get_object. rewrite (read_obj p s i S). eexists. eexists. split; [reflexivity|]. split; [reflexivity|exact S].
Qed.

Lemma prun_ref cs : forall p s, psim p s -> p_good_run eqo d s cs ->
  exists p' rs, pn_run eqo hash n p cs = Some (p', rs) /\ p_answers eqo d s cs rs /\ psim p' (p_run eqo d s cs).
Proof.
  induction cs as [|c cs IH]; intros p s S G.
  - exists p, []. split; [reflexivity|]. split; [exact I|exact S].
  - cbn [p_good_run pn_run p_run] in *. destruct G as [G1 G2]. destruct (pcall_ref p s c S G1) as (p1 & r & E1 & A1 & S1). rewrite E1.
    destruct (IH p1 _ S1 G2) as (p' & rs & E2 & A2 & S2). rewrite E2. exists p', (r :: rs). split; [reflexivity|]. split; [split; assumption|exact S2].
Qed.
End PN.
