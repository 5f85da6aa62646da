(** * Proofs about the sparse object grid *)
From Coq Require Import List Bool ZArith NArith Arith Lia Permutation.
From Verif Require Import Grid DashModel DashSpec DashProofs NumModel NumSpec NumProofs ObjModel ObjSpec ObjProofs.
Import ListNotations.
Open Scope Z_scope.

Section Sparse.
Context {O : Type}.
Variable eqo : O -> O -> bool.
Implicit Types g : osparse O.

Notation bags := (list (loc * list O)).
Notation uniq := (ForallOrdPairs (fun p q : loc * list O => loc_eqb (fst p) (fst q) = false)).
Notation find1 := (hm_find loc_eqb).
Notation LL := loc_lawful.

(** The bag of a location. *)
Definition bag (m : bags) (l : loc) : option (list O) := option_map snd (find1 l m).
Definition full_bags (m : bags) : Prop := Forall (fun p => snd p <> []) m.
Definition mwf (m : bags) : Prop := uniq m /\ full_bags m.
Definition oswf g : Prop := mwf (os_read g) /\ mwf (os_write g).

Lemma bag_full m l : full_bags m -> bag m l <> Some [].
Proof.
  intros H E. unfold bag, hm_find in E. destruct (find _ m) as [p|] eqn:F; [|discriminate].
  apply find_some in F. destruct F as [F _]. unfold full_bags in H. rewrite Forall_forall in H.
  specialize (H p F). cbn in E. congruence.
Qed.

Lemma bag_iff m l b : uniq m -> (bag m l = Some b <-> In (l, b) m).
Proof.
  intros Hu. unfold bag. split.
  - destruct (find1 l m) as [[l' b']|] eqn:E; [|discriminate]. cbn. intros H. injection H as ->.
    apply (find1_iff loc_eqb _ LL) in E; [|exact Hu]. destruct E as [E1 E2]. apply loc_eqb_eq in E2. cbn in E2. subst. exact E1.
  - intros H. assert (E : find1 l m = Some (l, b)); [|rewrite E; reflexivity].
    apply (find1_iff loc_eqb _ LL); [exact Hu|]. split; [exact H|apply loc_eqb_refl].
Qed.

Lemma bag_cons p m x : bag (p :: m) x = if loc_eqb x (fst p) then Some (snd p) else bag m x.
Proof. unfold bag. rewrite (find1_cons loc_eqb). destruct (loc_eqb x (fst p)); reflexivity. Qed.

Lemma full_modify l (f : list O -> list O) m : (forall b, b <> [] -> f b <> []) -> full_bags m ->
  full_bags (hm_modify loc_eqb l f m).
Proof.
  intros Hf H. induction H as [|p m Hp Hm IH]; cbn; [constructor|].
  destruct (loc_eqb l (fst p)); constructor; cbn; auto.
Qed.
Lemma full_insert l b (m : bags) : b <> [] -> full_bags m -> full_bags (fst (hm_insert loc_eqb l b m)).
Proof.
  intros Hb H. induction H as [|p m Hp Hm IH]; cbn [hm_insert]; [cbn; constructor; [exact Hb|constructor]|].
  destruct (loc_eqb l (fst p)); [cbn; constructor; auto|].
  destruct (hm_insert loc_eqb l b m) as [m' r]. cbn in *. constructor; auto.
Qed.
Lemma full_remove l (m : bags) : full_bags m -> full_bags (fst (hm_remove loc_eqb l m)).
Proof.
  intros H. induction H as [|p m Hp Hm IH]; cbn [hm_remove]; [constructor|].
  destruct (loc_eqb l (fst p)); [exact Hm|]. destruct (hm_remove loc_eqb l m) as [m' r]. cbn in *. constructor; auto.
Qed.

Lemma bag_modify l f m x : uniq m ->
  bag (hm_modify loc_eqb l f m) x = if loc_eqb x l then option_map f (bag m x) else bag m x.
Proof.
  intros Hu. unfold bag. rewrite (find1_modify loc_eqb _ LL) by exact Hu.
  destruct (loc_eqb x l); [|reflexivity]. destruct (find1 x m); reflexivity.
Qed.
Lemma bag_insert l b m x : uniq m ->
  bag (fst (hm_insert loc_eqb l b m)) x = if loc_eqb x l then Some b else bag m x.
Proof.
  intros Hu. unfold bag. destruct (hm_insert_cases l b m Hu) as (_ & _ & F). rewrite F.
  destruct (loc_eqb x l); reflexivity.
Qed.
Lemma bag_remove l m x : uniq m ->
  bag (fst (hm_remove loc_eqb l m)) x = if loc_eqb x l then None else bag m x.
Proof.
  intros Hu. unfold bag. rewrite (proj1 (hm_remove_eq loc_eqb _ LL l m Hu)).
  rewrite (find1_filter loc_eqb _ LL). destruct (loc_eqb x l); reflexivity.
Qed.
Lemma remove_uniq l (m : bags) : uniq m -> uniq (fst (hm_remove loc_eqb l m)).
Proof.
  intros Hu. rewrite (proj1 (hm_remove_eq loc_eqb _ LL l m Hu)). apply (uniq_filter loc_eqb). exact Hu.
Qed.

(** *** Calls *)
Lemma os_set_ok g o l : oswf g ->
  oswf (os_set g o l) /\ os_read (os_set g o l) = os_read g /\
  forall x, bag (os_write (os_set g o l)) x =
    if loc_eqb x l then Some (match bag (os_write g) x with Some b => b | None => [] end ++ [o])
    else bag (os_write g) x.
Proof.
  intros [Wr [U F]]. unfold os_set. cbn [os_read os_write]. destruct (find1 l (os_write g)) as [[l' b]|] eqn:E.
  - split; [|split; [reflexivity|]].
    + split; [exact Wr|]. split; [apply (modify_uniq loc_eqb _ LL); exact U|].
      apply full_modify; [|exact F]. intros c _ Hc. apply app_eq_nil in Hc. destruct Hc; discriminate.
    + intros x. rewrite bag_modify by exact U. destruct (loc_eqb x l) eqn:Ex; [|reflexivity].
      apply loc_eqb_eq in Ex. subst x. unfold bag. rewrite E. reflexivity.
  - split; [|split; [reflexivity|]].
    + split; [exact Wr|]. split; [apply hm_insert_cases; exact U|]. apply full_insert; [discriminate|exact F].
    + intros x. rewrite bag_insert by exact U. destruct (loc_eqb x l) eqn:Ex; [|reflexivity].
      apply loc_eqb_eq in Ex. subst x. unfold bag. rewrite E. reflexivity.
Qed.

Lemma os_remove_ok g o l : oswf g ->
  oswf (os_remove eqo g o l) /\ os_read (os_remove eqo g o l) = os_read g /\
  forall x, bag (os_write (os_remove eqo g o l)) x =
    if loc_eqb x l then match bag (os_write g) x with Some b => nonempty (without eqo o b) | None => None end
    else bag (os_write g) x.
Proof.
  intros [Wr [U F]]. unfold os_remove. cbn [os_read os_write].
  destruct (find1 l (os_write g)) as [[l' b]|] eqn:E.
  - destruct (without eqo o b) as [|c cs] eqn:Eb.
    + split; [|split; [reflexivity|]].
      * split; [exact Wr|]. split; [apply remove_uniq; exact U|apply full_remove; exact F].
      * intros x. rewrite bag_remove by exact U. destruct (loc_eqb x l) eqn:Ex; [|reflexivity].
        apply loc_eqb_eq in Ex. subst x. unfold bag. rewrite E. cbn [option_map snd]. rewrite Eb. reflexivity.
    + split; [|split; [reflexivity|]].
      * split; [exact Wr|]. split; [apply (modify_uniq loc_eqb _ LL); exact U|].
        apply full_modify; [discriminate|exact F].
      * intros x. rewrite bag_modify by exact U. destruct (loc_eqb x l) eqn:Ex; [|reflexivity].
        apply loc_eqb_eq in Ex. subst x. unfold bag. rewrite E. cbn [option_map snd]. rewrite Eb. reflexivity.
  - split; [split; [exact Wr|split; assumption]|]. split; [reflexivity|].
    intros x. destruct (loc_eqb x l) eqn:Ex; [|reflexivity]. apply loc_eqb_eq in Ex. subst x.
    unfold bag. rewrite E. reflexivity.
Qed.

Lemma mwf_nil : mwf [].
Proof. split; constructor. Qed.

Lemma oswf_new w h : oswf (os_new w h).
Proof. split; exact mwf_nil. Qed.

Lemma full_perm (m m' : bags) : Permutation m m' -> full_bags m -> full_bags m'.
Proof. intros P H. unfold full_bags in *. rewrite Forall_forall in *. intros p Hp. apply H. rewrite P. exact Hp. Qed.

Lemma full_extend (l : bags) : forall m, full_bags l -> full_bags m -> full_bags (hm_extend loc_eqb m l).
Proof.
  induction l as [|p l IH]; intros m Hl Hm; [exact Hm|].
  change (hm_extend loc_eqb m (p :: l)) with (hm_extend loc_eqb (fst (hm_insert loc_eqb (fst p) (snd p) m)) l).
  inversion Hl; subst. apply IH; [assumption|]. apply full_insert; assumption.
Qed.

Lemma os_update_ok it g : oswf g -> iteration it ->
  oswf (os_update it g) /\ os_write (os_update it g) = [] /\
  forall x, bag (os_read (os_update it g)) x = bag (os_write g) x.
Proof.
  intros [Wr [U F]] Hit. unfold os_update. cbn [os_read os_write].
  assert (Ui : uniq (it (os_write g))) by (apply (uniq_perm loc_eqb _ LL) with (os_write g); [symmetry; apply Hit|exact U]).
  destruct (hm_extend_ok (it (os_write g)) [] Ui ltac:(constructor)) as [U2 F2].
  split; [|split; [reflexivity|]].
  - split; [|exact mwf_nil]. split; [exact U2|]. apply full_extend; [|constructor].
    apply full_perm with (os_write g); [symmetry; apply Hit|exact F].
  - intros x. unfold bag. cbn [os_read]. rewrite F2. rewrite (find1_perm loc_eqb _ LL x (it (os_write g)) (os_write g)) by (auto; apply Hit).
    destruct (find1 x (os_write g)); reflexivity.
Qed.

(** *** apply_to_all_values *)
Lemma mapM_length {X Y} (f : X -> option Y) l l' : mapM f l = Some l' -> length l' = length l.
Proof.
  revert l'. induction l as [|x l IH]; intros l' H; cbn in H; [injection H as <-; reflexivity|].
  destruct (f x); [|discriminate]. destruct (mapM f l) as [l1|]; [|discriminate]. injection H as <-. cbn. f_equal. auto.
Qed.
Lemma mapM_nonempty {X Y} (f : X -> option Y) l l' : mapM f l = Some l' -> l <> [] -> l' <> [].
Proof. intros H Hl ->. apply mapM_length in H. destruct l; [congruence|discriminate]. Qed.

Lemma mapM_bags f (m m' : bags) : mapM (apply_bag f) m = Some m' -> mwf m ->
  mwf m' /\ forall x, match bag m x with
                      | Some b => exists b', mapM (f x) b = Some b' /\ bag m' x = Some b'
                      | None => bag m' x = None
                      end.
Proof.
  intros H [Hu Hf]. revert m' H. induction m as [|p m IH]; intros m' H; cbn in H.
  - injection H as <-. split; [split; constructor|reflexivity].
  - inversion Hu as [|? ? Hp Hu']; inversion Hf as [|? ? Hfp Hf']; subst.
    destruct (apply_bag f p) as [q|] eqn:Eq; [|discriminate].
    destruct (mapM (apply_bag f) m) as [m1|] eqn:E; [|discriminate]. injection H as <-.
    destruct (IH Hu' Hf' m1 eq_refl) as [[U1 F1] H1]. unfold apply_bag in Eq.
    destruct (mapM (f (fst p)) (snd p)) as [b'|] eqn:Eb; [|discriminate]. injection Eq as <-.
    split; [split|].
    + constructor; [|exact U1]. rewrite Forall_forall in *. intros [l b] Hq. cbn.
      apply bag_iff in Hq; [|exact U1]. specialize (H1 l).
      destruct (bag m l) as [c|] eqn:Ec; [|congruence]. apply bag_iff in Ec; [|exact Hu']. exact (Hp _ Ec).
    + constructor; [|exact F1]. cbn. apply (mapM_nonempty _ _ _ Eb). exact Hfp.
    + intros x. unfold bag. rewrite !(find1_cons loc_eqb). cbn [fst]. destruct (loc_eqb x (fst p)) eqn:Ex.
      * apply loc_eqb_eq in Ex. subst x. cbn. eauto.
      * exact (H1 x).
Qed.

Lemma mapM_total {X Y} (f : X -> option Y) l : (forall x, In x l -> exists y, f x = Some y) ->
  exists l', mapM f l = Some l'.
Proof.
  induction l as [|x l IH]; intros H; cbn; [eauto|]. destruct (H x (or_introl eq_refl)) as [y ->].
  destruct IH as [l' ->]; [intros z Hz; apply H; right; exact Hz|]. cbn. eauto.
Qed.
Lemma mapM_map {X Y} (f : X -> Y) l : mapM (fun x => Some (f x)) l = Some (map f l).
Proof. induction l as [|x l IH]; cbn; [reflexivity|]. rewrite IH. reflexivity. Qed.
Lemma mapM_none {X Y} (f : X -> option Y) l x : In x l -> f x = None -> mapM f l = None.
Proof.
  induction l as [|y l IH]; intros [] Hf; cbn.
  - subst. rewrite Hf. reflexivity.
  - destruct (f y); [|reflexivity]. rewrite IH by assumption. reflexivity.
Qed.

(** READWRITE *)
Definition rw_sparse (f : loc -> O -> option O) (x : loc) (b : list O) (c : option (list O)) : option (list O) :=
  match c with
  | Some c => mapM (f x) c
  | None => match rev b with [] => None | o :: _ => option_map (fun y => [y]) (f x o) end
  end.

Lemma foldM_last (f : loc -> O -> option O) l : forall b m m', mwf m ->
  foldM (fun ws o => option_map (fun x => fst (hm_insert loc_eqb l [x] ws)) (f l o)) b m = Some m' ->
  mwf m' /\ forall x, bag m' x = if loc_eqb x l then
      match rev b with [] => bag m x | o :: _ => option_map (fun y => [y]) (f l o) end else bag m x.
Proof.
  induction b as [|o b IH]; intros m m' Hm H; cbn [foldM] in H.
  - injection H as <-. split; [exact Hm|]. intros x. cbn. destruct (loc_eqb x l); reflexivity.
  - destruct (f l o) as [y|] eqn:Ef; [|discriminate]. cbn [option_map] in H. destruct Hm as [U F].
    assert (M1 : mwf (fst (hm_insert loc_eqb l [y] m))).
    { split; [apply hm_insert_cases; exact U|apply full_insert; [discriminate|exact F]]. }
    destruct (IH _ _ M1 H) as [W H']. split; [exact W|]. intros x. rewrite H', !bag_insert by exact U. cbn [rev].
    destruct (loc_eqb x l); [|reflexivity]. destruct (rev b) as [|z zs]; cbn; [rewrite Ef; reflexivity|reflexivity].
Qed.

Lemma os_apply_rw_ok f m p m' : mwf m -> snd p <> [] -> os_apply_rw f m p = Some m' ->
  mwf m' /\ forall x, bag m' x = if loc_eqb x (fst p) then rw_sparse f x (snd p) (bag m x) else bag m x.
Proof.
  intros Hm Hp H. unfold os_apply_rw in H. destruct (find1 (fst p) m) as [[l c]|] eqn:E.
  - destruct (mapM (f (fst p)) c) as [c'|] eqn:Ec; [|discriminate]. injection H as <-. destruct Hm as [U F]. split.
    + split; [apply (modify_uniq loc_eqb _ LL); exact U|]. apply full_modify; [|exact F]. intros _ _.
      apply (mapM_nonempty _ _ _ Ec). intros ->. apply (bag_full m (fst p) F). unfold bag. rewrite E. reflexivity.
    + intros x. rewrite bag_modify by exact U. destruct (loc_eqb x (fst p)) eqn:Ex; [|reflexivity].
      apply loc_eqb_eq in Ex. subst x. unfold bag. rewrite E. cbn. congruence.
  - apply foldM_last in H; [|exact Hm]. destruct H as [W H]. split; [exact W|]. intros x. rewrite H.
    destruct (loc_eqb x (fst p)) eqn:Ex; [|reflexivity]. apply loc_eqb_eq in Ex. subst x.
    unfold bag at 2. rewrite E. cbn. unfold rw_sparse. destruct (rev (snd p)) eqn:Er; [|reflexivity].
    apply (f_equal (@rev O)) in Er. rewrite rev_involutive in Er. cbn in Er. congruence.
Qed.

Lemma os_rw_fold f (l : bags) : forall m m', uniq l -> full_bags l -> mwf m ->
  foldM (os_apply_rw f) l m = Some m' ->
  mwf m' /\ forall x, bag m' x = match bag l x with Some b => rw_sparse f x b (bag m x) | None => bag m x end.
Proof.
  induction l as [|p l IH]; intros m m' Hl Fl Hm H; cbn [foldM] in H.
  - injection H as <-. split; [exact Hm|reflexivity].
  - destruct (os_apply_rw f m p) as [m1|] eqn:E; [|discriminate].
    inversion Hl as [|? ? Hp Hl']; inversion Fl as [|? ? Hfp Fl']; subst.
    destruct (os_apply_rw_ok f m p m1 Hm Hfp E) as [W1 H1]. destruct (IH m1 m' Hl' Fl' W1 H) as [W2 H2].
    split; [exact W2|]. intros x. rewrite H2, H1, bag_cons.
    destruct (loc_eqb x (fst p)) eqn:Ex; [|reflexivity]. apply loc_eqb_eq in Ex. subst x.
    assert (Hn : bag l (fst p) = None).
    { unfold bag. replace (find1 (fst p) l) with (@None (loc * list O)); [reflexivity|]. symmetry.
      apply (find1_none loc_eqb). rewrite Forall_forall in Hp. auto. }
    rewrite Hn. reflexivity.
Qed.

Lemma bag_perm (m m' : bags) x : Permutation m m' -> uniq m -> bag m x = bag m' x.
Proof. intros P U. unfold bag. rewrite (find1_perm loc_eqb _ LL x m m') by assumption. reflexivity. Qed.

Lemma os_apply_ok it g op f g' : oswf g -> iteration it -> os_apply it g op f = Some g' ->
  oswf g' /\
  match op with
  | READ => os_write g' = os_write g /\
      forall x, match bag (os_read g) x with
                | Some b => exists b', mapM (f x) b = Some b' /\ bag (os_read g') x = Some b'
                | None => bag (os_read g') x = None
                end
  | WRITE => os_read g' = os_read g /\
      forall x, match bag (os_write g) x with
                | Some b => exists b', mapM (f x) b = Some b' /\ bag (os_write g') x = Some b'
                | None => bag (os_write g') x = None
                end
  | READWRITE => os_read g' = os_read g /\
      forall x, bag (os_write g') x =
        match bag (os_read g) x with
        | Some b => rw_sparse f x b (bag (os_write g) x)
        | None => bag (os_write g) x
        end
  end.
Proof.
  intros [Wr Ww] Hit H. unfold os_apply in H. destruct op.
  - destruct (mapM (apply_bag f) (os_read g)) as [m|] eqn:E; [|discriminate]. injection H as <-.
    destruct (mapM_bags f _ _ E Wr) as [W H]. cbn. split; [split; assumption|]. split; [reflexivity|exact H].
  - destruct (mapM (apply_bag f) (os_write g)) as [m|] eqn:E; [|discriminate]. injection H as <-.
    destruct (mapM_bags f _ _ E Ww) as [W H]. cbn. split; [split; assumption|]. split; [reflexivity|exact H].
  - destruct (foldM (os_apply_rw f) (it (os_read g)) (os_write g)) as [m|] eqn:E; [|discriminate]. injection H as <-.
    destruct Wr as [Ur Fr].
    assert (Ui : uniq (it (os_read g))) by (apply (uniq_perm loc_eqb _ LL) with (os_read g); [symmetry; apply Hit|exact Ur]).
    destruct (os_rw_fold f _ _ _ Ui (full_perm _ _ (Permutation_sym (Hit (os_read g))) Fr) Ww E) as [W H].
    cbn. split; [split; [split; assumption|exact W]|]. split; [reflexivity|].
    intros x. rewrite H. rewrite (bag_perm (it (os_read g)) (os_read g)) by (auto; apply Hit). reflexivity.
Qed.

(** *** Runs *)
Lemma os_call_wf it g c g' r : oswf g -> iteration it -> os_call eqo it g c = Some (g', r) ->
  oswf g' /\ os_w g' = os_w g /\ os_h g' = os_h g.
Proof.
  intros W Hit H. destruct c; cbn in H; try (injection H as <- <-; auto; fail).
  - injection H as <- <-. split; [apply os_set_ok; exact W|auto].
  - injection H as <- <-. split; [apply os_remove_ok; exact W|auto].
  - injection H as <- <-. split; [|auto]. split; [exact (proj2 W)|exact mwf_nil].
  - injection H as <- <-. split; [apply os_update_ok; assumption|auto].
  - destruct (os_apply it g op f) as [g1|] eqn:E; [|discriminate]. injection H as <- <-.
    split; [apply (os_apply_ok it g op f); assumption|].
    unfold os_apply in E. destruct op.
    + destruct (mapM (apply_bag f) (os_read g)); [|discriminate]. injection E as <-. auto.
    + destruct (mapM (apply_bag f) (os_write g)); [|discriminate]. injection E as <-. auto.
    + destruct (foldM (os_apply_rw f) (it (os_read g)) (os_write g)); [|discriminate]. injection E as <-. auto.
  - destruct (os_random_empty g draws) as [[x|]|]; try discriminate. injection H as <- <-. auto.
Qed.

Lemma os_run_wf cs : forall g g' rs, oswf g -> Forall (fun p => iteration (snd p)) cs ->
  os_run eqo g cs = Some (g', rs) -> oswf g' /\ os_w g' = os_w g /\ os_h g' = os_h g.
Proof.
  induction cs as [|[c it] cs IH]; intros g g' rs W Hit H; cbn in H; [injection H as <- <-; auto|].
  inversion Hit as [|? ? Hi Hit']; subst. cbn in Hi. destruct (os_call eqo it g c) as [[g1 r]|] eqn:E; [|discriminate].
  destruct (os_run eqo g1 cs) as [[g2 rs2]|] eqn:E2; [|discriminate]. cbn in H. injection H as <- <-.
  destruct (os_call_wf it g c g1 r W Hi E) as (W1 & E3 & E4).
  destruct (IH g1 _ _ W1 Hit' E2) as (W2 & E5 & E6). split; [exact W2|]. split; congruence.
Qed.

Lemma os_reachable_wf w h g : os_reachable eqo w h g -> oswf g /\ os_w g = w /\ os_h g = h.
Proof.
  intros (cs & rs & Hit & H). exact (os_run_wf cs _ _ _ (oswf_new w h) Hit H).
Qed.

Lemma os_run_app g cs cs' : os_run eqo g (cs ++ cs') =
  match os_run eqo g cs with
  | None => None
  | Some (g1, rs) => option_map (fun p => (fst p, rs ++ snd p)) (os_run eqo g1 cs')
  end.
Proof.
  revert g. induction cs as [|[c it] cs IH]; intros g; cbn; [destruct (os_run eqo g cs') as [[? ?]|]; reflexivity|].
  destruct (os_call eqo it g c) as [[g1 r]|]; [|reflexivity]. rewrite IH.
  destruct (os_run eqo g1 cs) as [[g2 rs]|]; [|reflexivity]. cbn.
  destruct (os_run eqo g2 cs') as [[? ?]|]; reflexivity.
Qed.

(** *** History *)
Notation cs_ := (cancels_sparse eqo).
Lemma placed_sparse_set l e o l' : placed cs_ l (e ++ [OSet o l']) =
  if loc_eqb l' l then placed cs_ l e ++ [o] else placed cs_ l e.
Proof.
  rewrite placed_snoc. cbn [placed cancels_sparse existsb negb]. rewrite filter_true by reflexivity.
  destruct (loc_eqb l' l); cbn [andb negb]; [reflexivity|apply app_nil_r].
Qed.
Lemma placed_sparse_remove l e o l' : placed cs_ l (e ++ [ORemove o l']) =
  if loc_eqb l' l then without eqo o (placed cs_ l e) else placed cs_ l e.
Proof.
  rewrite placed_snoc. cbn [placed cancels_sparse]. rewrite app_nil_r. unfold without.
  destruct (loc_eqb l' l); cbn [andb negb]; [reflexivity|]. rewrite filter_true by reflexivity. reflexivity.
Qed.
Lemma placed_sparse_other l e c : (match c with OSet _ _ | ORemove _ _ => False | _ => True end) ->
  placed cs_ l (e ++ [c]) = placed cs_ l e.
Proof.
  intros H. rewrite placed_snoc. destruct c; try destruct H; cbn [placed cancels_sparse negb];
    rewrite app_nil_r, filter_true; reflexivity.
Qed.

Lemma os_history w h cs g rs : Forall (fun p => iteration (snd p)) cs ->
  Forall (fun p => o_no_apply (fst p)) cs -> os_run eqo (os_new w h) cs = Some (g, rs) ->
  forall l, os_get g l = nonempty (placed cs_ l (published_epoch (rev (map fst cs)))) /\
            os_get_unbuffered g l = nonempty (placed cs_ l (since_publication (rev (map fst cs)))).
Proof.
  revert g rs. induction cs as [|[c it] cs IH] using rev_ind; intros g rs Hit Hna H l.
  - cbn in H. injection H as <- <-. split; reflexivity.
  - apply Forall_app in Hit, Hna. destruct Hit as [Hit Hi], Hna as [Hna Hc].
    inversion_clear Hi as [|? ? Hi' _]. inversion_clear Hc as [|? ? Hc' _]. cbn [fst snd] in Hi', Hc'.
    rewrite os_run_app in H. destruct (os_run eqo (os_new w h) cs) as [[g1 rs1]|] eqn:E; [|discriminate].
    cbn [os_run] in H. destruct (os_call eqo it g1 c) as [[g2 r]|] eqn:E2; [|discriminate].
    cbn in H. injection H as <- <-.
    destruct (os_run_wf cs _ _ _ (oswf_new w h) Hit E) as (W & _). pose proof (IH g1 rs1 Hit Hna eq_refl) as IH'.
    rewrite map_app, rev_app_distr. cbn [map fst rev app].
    assert (Q : (match c with OSet _ _ | ORemove _ _ | OLazyUpdate | OUpdate => False | _ => True end) -> g2 = g1 ->
       os_get g2 l = nonempty (placed cs_ l (published_epoch (c :: rev (map fst cs)))) /\
       os_get_unbuffered g2 l = nonempty (placed cs_ l (since_publication (c :: rev (map fst cs))))).
    { intros Hq ->. destruct (IH' l) as [-> ->]. destruct c; try destruct Hq; cbn [published_epoch since_publication];
        rewrite placed_sparse_other; auto. }
    destruct c; cbn in E2, Hc'; try destruct Hc'; try (injection E2 as <- <-; apply Q; [exact I|reflexivity]).
    + injection E2 as <- <-. destruct (os_set_ok g1 o l0 W) as (_ & Er & Ew). destruct (IH' l) as [I1 I2].
      cbn [published_epoch since_publication]. split.
      * unfold os_get. rewrite Er. exact I1.
      * change (os_get_unbuffered (os_set g1 o l0) l) with (bag (os_write (os_set g1 o l0)) l). rewrite Ew, placed_sparse_set.
        change (bag (os_write g1) l) with (os_get_unbuffered g1 l). rewrite I2.
        destruct (loc_eqb l l0) eqn:EL.
        -- apply loc_eqb_eq in EL. subst l0. rewrite loc_eqb_refl.
           destruct (placed cs_ l (since_publication (rev (map fst cs)))) as [|a b]; reflexivity.
        -- replace (loc_eqb l0 l) with false; [reflexivity|]. symmetry. apply loc_eqb_neq. apply loc_eqb_neq in EL. congruence.
    + injection E2 as <- <-. destruct (os_remove_ok g1 o l0 W) as (_ & Er & Ew). destruct (IH' l) as [I1 I2].
      cbn [published_epoch since_publication]. split.
      * unfold os_get. rewrite Er. exact I1.
      * change (os_get_unbuffered (os_remove eqo g1 o l0) l) with (bag (os_write (os_remove eqo g1 o l0)) l). rewrite Ew, placed_sparse_remove.
        change (bag (os_write g1) l) with (os_get_unbuffered g1 l). rewrite I2.
        destruct (loc_eqb l l0) eqn:EL.
        -- apply loc_eqb_eq in EL. subst l0. rewrite loc_eqb_refl.
           destruct (placed cs_ l (since_publication (rev (map fst cs)))) as [|a b]; reflexivity.
        -- replace (loc_eqb l0 l) with false; [reflexivity|]. symmetry. apply loc_eqb_neq. apply loc_eqb_neq in EL. congruence.
    + injection E2 as <- <-. destruct (IH' l) as [_ I2]. split; [exact I2|reflexivity].
    + injection E2 as <- <-. destruct (os_update_ok it g1 W Hi') as (_ & Ew & Er). destruct (IH' l) as [_ I2]. split.
      * change (os_get (os_update it g1) l) with (bag (os_read (os_update it g1)) l). rewrite Er. exact I2.
      * unfold os_get_unbuffered. rewrite Ew. reflexivity.
    + destruct (os_random_empty g1 draws) as [[x|]|]; try discriminate. injection E2 as <- <-. apply Q; [exact I|reflexivity].
Qed.

(** *** Queries *)
Lemma os_search_ok it (m : bags) o : uniq m -> iteration it ->
  match os_search eqo it m o with
  | Some l => exists b, bag m l = Some b /\ has eqo o b = true
  | None => forall l b, bag m l = Some b -> has eqo o b = false
  end.
Proof.
  intros U Hit. unfold os_search. destruct (find _ (it m)) as [[l b]|] eqn:E; cbn.
  - apply find_some in E. destruct E as [Hin Hb]. exists b. split; [|exact Hb]. apply bag_iff; [exact U|].
    apply (Permutation_in _ (Hit m)). exact Hin.
  - intros l b Hb. apply bag_iff in Hb; [|exact U].
    apply (find_none _ _ E (l, b)). apply (Permutation_in _ (Permutation_sym (Hit m))). exact Hb.
Qed.

Lemma os_empty_ok g : oswf g -> NoDup (os_empty_bags g) /\
  forall l, In l (os_empty_bags g) <-> in_range (os_w g) (os_h g) l /\ os_get g l = None.
Proof.
  intros [[U F] _]. split; [apply NoDup_filter, cells_NoDup|]. intros l. unfold os_empty_bags.
  rewrite filter_In, cells_In. pose proof (bag_full _ l F) as Hb. unfold bag in Hb. unfold os_get.
  destruct (find1 l (os_read g)) as [[l' [|x b]]|]; cbn in *; intuition congruence.
Qed.

Lemma os_random_ok g draws : oswf g -> 0 < os_w g -> 0 < os_h g -> Forall (in_range (os_w g) (os_h g)) draws ->
  exists r, os_random_empty g draws = Some r /\
    (forall x, r = Some x -> exists l, x = Some l /\ In l (os_empty_bags g)) /\
    (r = None <-> forall l, In l draws -> ~ In l (os_empty_bags g)).
Proof.
  intros W Hw Hh Hd. unfold os_random_empty. destruct (Z.leb_spec (os_w g) 0), (Z.leb_spec (os_h g) 0); try lia. cbn [orb].
  eexists. split; [reflexivity|]. destruct (os_empty_ok g W) as [_ HE]. rewrite Forall_forall in Hd.
  destruct (find _ draws) as [l|] eqn:E; cbn.
  - apply find_some in E. destruct E as [Hin Hl].
    assert (In l (os_empty_bags g)).
    { apply HE. split; [auto|]. unfold os_get. destruct (find1 l (os_read g)); [discriminate|reflexivity]. }
    split; [intros x Hx; injection Hx as <-; eauto|]. split; [discriminate|]. intros Hno. exfalso. exact (Hno l Hin H1).
  - split; [intros x Hx; discriminate|]. split; [|reflexivity]. intros _ l Hin Hl. apply HE in Hl. destruct Hl as [_ Hl].
    pose proof (find_none _ _ E l Hin) as Hf. cbn in Hf. unfold os_get in Hl. destruct (find1 l (os_read g)); discriminate.
Qed.

Lemma calls_In (m : bags) l o : uniq m -> (In (l, o) (calls m) <-> exists b, bag m l = Some b /\ In o b).
Proof.
  intros U. unfold calls. rewrite in_flat_map. split.
  - intros ([l' b] & Hin & Ho). cbn in Ho. apply in_map_iff in Ho. destruct Ho as (o' & E & Ho). injection E as -> ->.
    exists b. split; [apply bag_iff; assumption|exact Ho].
  - intros (b & Hb & Ho). exists (l, b). apply bag_iff in Hb; [|exact U]. split; [exact Hb|]. cbn. apply in_map. exact Ho.
Qed.

(** The calls made for one location are its objects, in bag order. *)
Lemma calls_at (m : bags) l : uniq m ->
  filter (fun p => loc_eqb (fst p) l) (calls m) = match bag m l with Some b => map (pair l) b | None => [] end.
Proof.
  intros U. induction m as [|[l' b] m IH]; [reflexivity|]. inversion U as [|? ? Hp U']; subst. rewrite Forall_forall in Hp.
  unfold calls. cbn [flat_map fst snd]. rewrite filter_app. unfold bag. rewrite (find1_cons loc_eqb). cbn [fst].
  fold (calls m). rewrite (IH U').
  assert (E : loc_eqb l' l = loc_eqb l l').
  { unfold loc_eqb. f_equal; apply Z.eqb_sym. }
  destruct (loc_eqb l l') eqn:El.
  - apply loc_eqb_eq in El. subst l'. cbn. unfold bag.
    assert (Hn : find1 l m = None) by (apply (find1_none loc_eqb); exact Hp). rewrite Hn. cbn. rewrite app_nil_r.
    clear. induction b as [|x b IH]; cbn [map filter fst]; [reflexivity|]. rewrite loc_eqb_refl, IH. reflexivity.
  - replace (filter _ (map (pair l') b)) with (@nil (loc * O)); [reflexivity|].
    clear -E El. induction b as [|x b IH]; cbn [map filter fst]; [reflexivity|]. rewrite E. exact IH.
Qed.
End Sparse.
