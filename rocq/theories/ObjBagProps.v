(** * Property theorems: histories of object grids with [apply_to_all_values] (C26) *)
From Coq Require Import List Bool ZArith NArith Arith Lia Permutation.
From Verif Require Import Grid DashModel DashSpec DashProofs NumModel NumSpec NumProofs ObjModel ObjSpec ObjProofs ObjSparse ObjBagSpec.
Import ListNotations.
Open Scope Z_scope.

Section Bags.
Context {O : Type}.
Variable eqo : O -> O -> bool.
Notation uniq := (ForallOrdPairs (fun p q : loc * list O => loc_eqb (fst p) (fst q) = false)).

Lemma keep_out_without o (b : list O) : without eqo o b = keep_out eqo o b.
Proof. unfold without. induction b as [|x b IH]; cbn; [reflexivity|]. destruct (eqo x o); cbn; rewrite IH; reflexivity. Qed.
Lemma results_filter_map (f : O -> option O) b : filter_map f b = results f b.
Proof. unfold filter_map. induction b as [|x b IH]; cbn; [reflexivity|]. destruct (f x); cbn; rewrite IH; reflexivity. Qed.
Lemma results_mapM (f : O -> option O) b b' : mapM f b = Some b' -> b' = results f b.
Proof.
  revert b'. induction b as [|x b IH]; intros b' H; cbn in *; [injection H as <-; reflexivity|].
  destruct (f x); [|discriminate]. destruct (mapM f b) as [c|]; [|discriminate]. injection H as <-. rewrite (IH c eq_refl). reflexivity.
Qed.
Lemma distinct_push b : forall b0, fold_left (push_new eqo) b b0 = distinct eqo b0 b.
Proof. induction b as [|x b IH]; intros b0; cbn; [reflexivity|]. unfold push_new at 2, has. destruct (existsb _ b0); apply IH. Qed.
Lemma bag_snoc dense w h l (os : list (oop O)) o :
  bag_after eqo dense w h l (os ++ [o]) = bag_call eqo dense w h l (bag_after eqo dense w h l os) o.
Proof. unfold bag_after. rewrite fold_left_app. reflexivity. Qed.

(** One call of the dense grid. *)
Lemma dense_call w h g c g' res : owf w h g -> size_ok w h -> o_in w h c -> od_call eqo g c = Some (g', res) ->
  owf w h g' /\ forall l r x, in_range w h l -> rbag g l = Some r -> wbag g l = Some x ->
    rbag g' l = Some (fst (bag_call eqo true w h l (r, x) c)) /\ wbag g' l = Some (snd (bag_call eqo true w h l (r, x) c)).
Proof.
  intros W Hs Hc H. split; [exact (od_call_wf eqo w h g c g' res W Hs Hc H)|]. intros l r x Hl Hr Hx.
  assert (Q : forall X (o : option X) (k : X -> ores O), option_map (fun y => (g, k y)) o = Some (g', res) -> rbag g' l = Some r /\ wbag g' l = Some x).
  { intros X o k Hk. destruct o; [|discriminate]. injection Hk as <- <-. auto. }
  destruct c; cbn in Hc, H; try (cbn [bag_call fst snd]; eapply Q; exact H); clear Q.
  - unfold od_set in H. destruct (od_edit_ok w h g l0 (fun b => without eqo o b ++ [o]) W Hs Hc) as (g1 & b & E & _ & _ & _ & Hb & HE).
    rewrite E in H. injection H as <- <-. destruct (HE l Hl) as [-> ->]. cbn [bag_call]. destruct (loc_eqb l l0) eqn:El; cbn [fst snd]; [|auto].
    apply loc_eqb_eq in El. subst l0. rewrite <- keep_out_without. split; [exact Hr|congruence].
  - unfold od_remove in H. destruct (od_edit_ok w h g l0 (without eqo o) W Hs Hc) as (g1 & b & E & _ & _ & _ & Hb & HE).
    rewrite E in H. injection H as <- <-. destruct (HE l Hl) as [-> ->]. cbn [bag_call]. destruct (loc_eqb l l0) eqn:El; cbn [fst snd]; [|auto].
    apply loc_eqb_eq in El. subst l0. rewrite <- keep_out_without. split; [exact Hr|congruence].
  - injection H as <- <-. destruct (od_lazy_ok w h g W Hs) as [_ HE]. destruct (HE l Hl) as [-> ->]. cbn. auto.
  - destruct (od_update_ok w h g W Hs) as (g1 & E & _ & _ & _ & HE). rewrite E in H. injection H as <- <-. destruct (HE l Hl) as [-> ->]. cbn. auto.
  - destruct (od_apply eqo g op f) as [g1|] eqn:E; [|discriminate]. injection H as <- <-.
    destruct (od_apply_ok eqo w h g op f g1 W Hs E) as (_ & _ & _ & HE). specialize (HE l r x Hl Hr Hx).
    change (shown_location true w h l) with (told w h l) in *. unfold bag_call. change (shown_location true w h l) with (told w h l).
    destruct op; destruct HE as [-> ->]; cbn [bag_apply fst snd]; rewrite ?results_filter_map; split; try reflexivity.
    unfold rw_bag. destruct x; rewrite ?results_filter_map, ?distinct_push; reflexivity.
Qed.

Lemma bag_shown_nonempty (b : list O) : nonempty b = bag_shown b.
Proof. destruct b; reflexivity. Qed.

(** Dense grids: whatever the program, as long as it does not panic, each cell holds what its own
    history says, and so are the answers. *)
Theorem C26_dense_history_partial : forall w h (os : list (oop O)) g0 g rs, size_ok w h -> Forall (o_in w h) os ->
  od_new w h = Some g0 -> od_run eqo g0 os = Some (g, rs) ->
  length rs = length os /\
  (forall l, in_range w h l ->
    od_get g l = Some (bag_shown (fst (bag_after eqo true w h l os))) /\
    od_get_unbuffered g l = Some (bag_shown (snd (bag_after eqo true w h l os)))) /\
  forall pre o post r, os = pre ++ o :: post -> nth_error rs (length pre) = Some r -> bag_answer eqo true w h pre o r.
Proof.
  intros w h os g0 g rs Hs Hin Hn Hr.
  cut (owf w h g /\ length rs = length os /\
       (forall l, in_range w h l -> rbag g l = Some (fst (bag_after eqo true w h l os)) /\ wbag g l = Some (snd (bag_after eqo true w h l os))) /\
       forall pre o post r, os = pre ++ o :: post -> nth_error rs (length pre) = Some r -> bag_answer eqo true w h pre o r).
  { intros (_ & Len & Hb & Ha). split; [exact Len|]. split; [|exact Ha]. intros l Hl. destruct (Hb l Hl) as [E1 E2].
    unfold od_get, od_get_unbuffered. unfold rbag, wbag in *. rewrite E1, E2. cbn [option_map]. rewrite !bag_shown_nonempty. auto. }
  revert g rs Hr. induction os as [|o os IH] using rev_ind; intros g rs Hr.
  - cbn in Hr. injection Hr as <- <-. destruct (@od_new_ok O w h Hs) as (g1 & E & W & _ & _ & Hg). rewrite Hn in E. injection E as <-.
    split; [exact W|]. split; [reflexivity|]. split; [exact Hg|]. intros pre o post r K. destruct pre; discriminate.
  - apply Forall_app in Hin. destruct Hin as [Hin1 Hin2]. inversion Hin2 as [|? ? Hio _]; subst.
    rewrite od_run_app in Hr. destruct (od_run eqo g0 os) as [[g1 rs1]|] eqn:E1; [|discriminate].
    cbn [od_run] in Hr. destruct (od_call eqo g1 o) as [[g2 res]|] eqn:Ec; [|discriminate]. cbn in Hr. injection Hr as <- <-.
    destruct (IH Hin1 g1 rs1 eq_refl) as (W & Len & Hg & Ha). destruct (dense_call w h g1 o g2 res W Hs Hio Ec) as [W2 Hc].
    split; [exact W2|]. split; [rewrite !app_length; cbn; lia|]. split.
    + intros l Hl. destruct (Hg l Hl) as [Hp Hw]. rewrite bag_snoc. destruct (bag_after eqo true w h l os) as [r x]. exact (Hc l r x Hl Hp Hw).
    + intros pre o' post r K N. destruct post as [|y post] using rev_ind.
      * apply app_inj_tail in K. destruct K as [<- <-]. rewrite nth_error_app2 in N by lia. rewrite Len, Nat.sub_diag in N. injection N as <-.
        destruct o as [v l|v l| | |op f|l|l|v|v| |i draws| |]; cbn [bag_answer]; cbn [od_call] in Ec; try exact I.
        -- destruct (od_set eqo g1 v l); [injection Ec as _ <-; reflexivity|discriminate].
        -- destruct (od_remove eqo g1 v l); [injection Ec as _ <-; reflexivity|discriminate].
        -- injection Ec as _ <-. reflexivity.
        -- destruct (od_update g1); [injection Ec as _ <-; reflexivity|discriminate].
        -- destruct (od_apply eqo g1 op f); [injection Ec as _ <-; reflexivity|discriminate].
        -- destruct (Hg l Hio) as [Hp _]. unfold od_get in Ec. unfold rbag in Hp. rewrite Hp in Ec. injection Ec as _ <-. rewrite bag_shown_nonempty. reflexivity.
        -- destruct (Hg l Hio) as [_ Hp]. unfold od_get_unbuffered in Ec. unfold wbag in Hp. rewrite Hp in Ec. injection Ec as _ <-. rewrite bag_shown_nonempty. reflexivity.
      * clear IHpost. rewrite app_comm_cons, app_assoc in K. apply app_inj_tail in K. destruct K as [-> _].
        rewrite nth_error_app1 in N by (rewrite Len, app_length; cbn; lia). eapply Ha; [reflexivity|exact N].
Qed.

(** ** Sparse *)
Lemma shown_some (r : list O) b : nonempty r = Some b -> r = b /\ r <> [].
Proof. destruct r; cbn; intros E; [discriminate|injection E as <-; split; [reflexivity|discriminate]]. Qed.
Lemma shown_none (r : list O) : nonempty r = None -> r = [].
Proof. destruct r; cbn; congruence. Qed.
Lemma nonempty_ne (r : list O) : r <> [] -> nonempty r = Some r.
Proof. destruct r; [intros H; contradiction|reflexivity]. Qed.

(** When the sparse grid panics. *)
Lemma mapM_panics {X Y} (f : X -> option Y) b : mapM f b = None <-> exists o, In o b /\ f o = None.
Proof.
  induction b as [|x b IH]; cbn; [split; [discriminate|intros (o & [] & _)]|]. destruct (f x) as [y|] eqn:E.
  - destruct (mapM f b) as [c|] eqn:Em; cbn.
    + split; [discriminate|]. intros (o & [->|Hi] & Hn); [congruence|]. destruct IH as [_ IH]. discriminate IH. eauto.
    + split; [intros _|reflexivity]. destruct IH as [IH _]. destruct (IH eq_refl) as (o & Hi & Hn). eauto.
  - split; [intros _; eauto|reflexivity].
Qed.
Lemma insert_panics (f : loc -> O -> option O) l b : forall m : list (loc * list O),
  foldM (fun ws o => option_map (fun x => fst (hm_insert loc_eqb l [x] ws)) (f l o)) b m = None <-> mapM (f l) b = None.
Proof.
  induction b as [|x b IH]; intros m; cbn [foldM mapM]; [split; discriminate|]. destruct (f l x) as [y|]; cbn [option_map].
  - rewrite IH. destruct (mapM (f l) b); cbn; split; congruence.
  - split; reflexivity.
Qed.
Lemma rw_panics (f : loc -> O -> option O) (l : list (loc * list O)) : forall m, uniq l -> full_bags l -> mwf m ->
  (foldM (os_apply_rw f) l m = None <->
   exists p, In p l /\ mapM (f (fst p)) (match bag m (fst p) with Some c => c | None => snd p end) = None).
Proof.
  induction l as [|p l IH]; intros m Hl Fl Hm; cbn [foldM]; [split; [discriminate|intros (p & [] & _)]|].
  inversion Hl as [|? ? Hp Hl']; inversion Fl as [|? ? Hfp Fl']; subst.
  assert (Hone : os_apply_rw f m p = None <-> mapM (f (fst p)) (match bag m (fst p) with Some c => c | None => snd p end) = None).
  { unfold os_apply_rw, bag. destruct (hm_find loc_eqb (fst p) m) as [[l' c]|]; cbn [option_map snd].
    - destruct (mapM (f (fst p)) c); cbn; split; congruence.
    - apply insert_panics. }
  destruct (os_apply_rw f m p) as [m1|] eqn:E.
  - destruct (os_apply_rw_ok f m p m1 Hm Hfp E) as [W1 H1]. rewrite (IH m1 Hl' Fl' W1).
    assert (Hsame : forall q, In q l -> bag m1 (fst q) = bag m (fst q)).
    { intros q Hq. rewrite H1. rewrite Forall_forall in Hp. specialize (Hp q Hq). destruct (loc_eqb (fst q) (fst p)) eqn:Eq; [|reflexivity].
      apply loc_eqb_eq in Eq. rewrite Eq in Hp. rewrite (proj2 (loc_eqb_eq _ _) eq_refl) in Hp. discriminate. }
    split.
    + intros (q & Hq & Hn). exists q. rewrite <- (Hsame q Hq). cbn. auto.
    + intros (q & [<-|Hq] & Hn); [apply Hone in Hn; discriminate|]. exists q. rewrite (Hsame q Hq). auto.
  - split; [intros _|reflexivity]. exists p. split; [left; reflexivity|]. apply Hone. reflexivity.
Qed.
Lemma apply_panics it (g : osparse O) op f : oswf g -> iteration it ->
  (os_apply it g op f = None <-> exists l (r x : list O), bag (os_read g) l = nonempty r /\ bag (os_write g) l = nonempty x /\
     exists o : O, In o (handed op (r, x)) /\ f l o = None).
Proof.
  intros [Wr Ww] Hit.
  assert (Hmap : forall m, mwf m -> (mapM (apply_bag f) m = None <-> exists l b, bag m l = nonempty b /\ exists o, In o b /\ f l o = None)).
  { intros m Hm. rewrite mapM_panics. split.
    - intros ((l & b) & Hp & Hn). unfold apply_bag in Hn. cbn in Hn. destruct (mapM (f l) b) eqn:Em; [discriminate|].
      apply mapM_panics in Em. exists l, b. split; [|exact Em]. apply bag_iff in Hp; [|apply Hm]. rewrite Hp. symmetry. apply nonempty_ne.
      intros ->. apply (bag_full m l (proj2 Hm) Hp).
    - intros (l & b & Hb & o & Ho & Hn). destruct b as [|y b]; [destruct Ho|]. cbn in Hb. apply bag_iff in Hb; [|apply Hm].
      exists (l, y :: b). split; [exact Hb|]. unfold apply_bag. cbn [fst snd].
      assert (mapM (f l) (y :: b) = None) as -> by (apply mapM_panics; eauto). reflexivity. }
  assert (Hsome : forall (m : list (loc * list O)) l, mwf m -> exists b, bag m l = nonempty b).
  { intros m l Hm. destruct (bag m l) as [b|] eqn:Eb; [exists b|exists []; reflexivity]. symmetry. apply nonempty_ne. intros ->. apply (bag_full m l (proj2 Hm) Eb). }
  unfold os_apply. destruct op; cbn [handed].
  - destruct (mapM (apply_bag f) (os_read g)) as [m|] eqn:E; cbn [option_map].
    + split; [discriminate|]. intros (l & r & x & Hr & _ & Hn). destruct (Hmap _ Wr) as [_ Hm]. rewrite E in Hm. discriminate Hm. eauto.
    + split; [intros _|reflexivity]. apply (Hmap _ Wr) in E. destruct E as (l & b & Hb & Hn). destruct (Hsome _ l Ww) as [x Hx]. exists l, b, x. auto.
  - destruct (mapM (apply_bag f) (os_write g)) as [m|] eqn:E; cbn [option_map].
    + split; [discriminate|]. intros (l & r & x & _ & Hx & Hn). destruct (Hmap _ Ww) as [_ Hm]. rewrite E in Hm. discriminate Hm. eauto.
    + split; [intros _|reflexivity]. apply (Hmap _ Ww) in E. destruct E as (l & b & Hb & Hn). destruct (Hsome _ l Wr) as [x Hx]. exists l, x, b. auto.
  - destruct Wr as [Ur Fr].
    assert (Ui : uniq (it (os_read g))) by (apply (uniq_perm loc_eqb _ loc_lawful) with (os_read g); [symmetry; apply Hit|exact Ur]).
    pose proof (rw_panics f (it (os_read g)) (os_write g) Ui (full_perm _ _ (Permutation_sym (Hit (os_read g))) Fr) Ww) as HP.
    assert (HQ : (exists p, In p (it (os_read g)) /\ mapM (f (fst p)) (match bag (os_write g) (fst p) with Some c => c | None => snd p end) = None) <->
      exists l r x, bag (os_read g) l = nonempty r /\ bag (os_write g) l = nonempty x /\ exists o, In o (handed READWRITE (r, x)) /\ f l o = None).
    { split.
      - intros ((l & b) & Hp & Hn). cbn [fst snd] in Hn. apply (Permutation_in _ (Hit _)) in Hp. apply bag_iff in Hp; [|exact Ur].
        assert (Hb : b <> []) by (intros ->; apply (bag_full _ l Fr Hp)).
        destruct (Hsome _ l Ww) as [x Hx]. exists l, b, x. rewrite Hp. split; [symmetry; apply nonempty_ne; exact Hb|]. split; [exact Hx|].
        rewrite Hx in Hn. apply mapM_panics in Hn. destruct b as [|y b]; [contradiction|]. destruct x as [|z x]; exact Hn.
      - intros (l & r & x & Hr & Hx & o & Ho & Hn). destruct r as [|y r]; [destruct Ho|]. cbn in Hr. apply bag_iff in Hr; [|exact Ur].
        exists (l, y :: r). split; [apply (Permutation_in _ (Permutation_sym (Hit _))); exact Hr|]. cbn [fst snd]. rewrite Hx. apply mapM_panics. exists o.
        destruct x as [|z x]; auto. }
    rewrite <- HQ, <- HP. destruct (foldM _ _ _); cbn; split; congruence.
Qed.

Lemma sparse_call w h it g c g' res : oswf g -> iteration it -> os_call eqo it g c = Some (g', res) ->
  oswf g' /\ forall l r x, bag (os_read g) l = nonempty r -> bag (os_write g) l = nonempty x ->
    bag (os_read g') l = nonempty (fst (bag_call eqo false w h l (r, x) c)) /\
    bag (os_write g') l = nonempty (snd (bag_call eqo false w h l (r, x) c)).
Proof.
  intros W Hit H. split; [apply (os_call_wf eqo it g c g' res W Hit H)|]. intros l r x Hr Hx.
  destruct c; cbn in H; try (injection H as <- <-; cbn [bag_call fst snd]; auto; fail).
  - injection H as <- <-. destruct (os_set_ok g o l0 W) as (_ & -> & HE). rewrite HE. cbn [bag_call].
    destruct (loc_eqb l l0) eqn:El; cbn [fst snd]; [|auto]. split; [exact Hr|]. rewrite Hx. destruct x; reflexivity.
  - injection H as <- <-. destruct (os_remove_ok eqo g o l0 W) as (_ & -> & HE). rewrite HE. cbn [bag_call].
    destruct (loc_eqb l l0) eqn:El; cbn [fst snd]; [|auto]. split; [exact Hr|]. rewrite Hx, <- keep_out_without. destruct x; reflexivity.
  - injection H as <- <-. destruct (os_update_ok it g W Hit) as (_ & -> & HE). rewrite HE. cbn [bag_call fst snd]. cbn. auto.
  - destruct (os_apply it g op f) as [g1|] eqn:E; [|discriminate]. injection H as <- <-.
    destruct (os_apply_ok it g op f g1 W Hit E) as [W1 HE]. unfold bag_call, shown_location.
    destruct op; destruct HE as [-> HE]; specialize (HE l); cbn [bag_apply fst snd].
    + split; [|exact Hx]. rewrite Hr in HE. destruct (nonempty r) as [b|] eqn:Er.
      * apply shown_some in Er. destruct Er as [-> Hne]. destruct HE as (b' & Em & ->). rewrite nonempty_ne by (rewrite <- (results_mapM _ _ _ Em); apply (mapM_nonempty _ _ _ Em Hne)).
        rewrite (results_mapM _ _ _ Em). reflexivity.
      * apply shown_none in Er. subst r. exact HE.
    + split; [exact Hr|]. rewrite Hx in HE. destruct (nonempty x) as [b|] eqn:Er.
      * apply shown_some in Er. destruct Er as [-> Hne]. destruct HE as (b' & Em & ->). rewrite nonempty_ne by (rewrite <- (results_mapM _ _ _ Em); apply (mapM_nonempty _ _ _ Em Hne)).
        rewrite (results_mapM _ _ _ Em). reflexivity.
      * apply shown_none in Er. subst x. exact HE.
    + split; [exact Hr|]. rewrite Hr, Hx in HE. rewrite HE. unfold rw_sparse. destruct (nonempty r) as [b|] eqn:Er.
      2:{ apply shown_none in Er. subst r. reflexivity. }
      apply shown_some in Er. destruct Er as [-> Hne]. destruct (rev b) as [|o rb] eqn:Eb.
      { apply (f_equal (@rev O)) in Eb. rewrite rev_involutive in Eb. cbn in Eb. contradiction. }
      destruct x as [|y x].
      * cbn [nonempty results]. destruct (f l o); reflexivity.
      * cbn [nonempty]. cbn [nonempty] in HE. unfold rw_sparse in HE.
        assert (Wb : bag (os_write g1) l <> Some []) by (apply bag_full; apply W1).
        destruct (mapM (f l) (y :: x)) as [b'|] eqn:Em.
        -- rewrite <- (results_mapM _ _ _ Em). rewrite nonempty_ne; [reflexivity|]. congruence.
        -- exfalso. assert (N : os_apply it g READWRITE f = None); [|congruence]. apply (apply_panics it g READWRITE f W Hit).
           exists l, b, (y :: x). split; [rewrite Hr, nonempty_ne; auto|]. split; [exact Hx|]. apply mapM_panics in Em.
           destruct b as [|z b]; [contradiction|]. exact Em.
  - destruct (os_random_empty g draws) as [[y|]|]; try discriminate. injection H as <- <-. cbn [bag_call fst snd]. auto.
Qed.

(** Sparse grids: the same for every program that has not panicked... *)
Theorem C26_sparse_history_partial : forall w h (os : list (oop O * (list (loc * list O) -> list (loc * list O)))) g rs,
  Forall (fun p => iteration (snd p)) os -> os_run eqo (os_new w h) os = Some (g, rs) ->
  length rs = length os /\
  (forall l, os_get g l = bag_shown (fst (bag_after eqo false w h l (map fst os))) /\
             os_get_unbuffered g l = bag_shown (snd (bag_after eqo false w h l (map fst os)))) /\
  (forall pre o post r, map fst os = pre ++ o :: post -> nth_error rs (length pre) = Some r -> bag_answer eqo false w h pre o r) /\
  (** ... and one more call panics exactly when the closure answers [None] for an object it is
      handed. *)
  forall it op f, iteration it ->
    (os_call eqo it g (OApply op f) = None <->
     exists l o, In o (handed op (bag_after eqo false w h l (map fst os))) /\ f l o = None).
Proof.
  intros w h os g rs Hit Hr.
  cut (oswf g /\ length rs = length os /\
       (forall l, bag (os_read g) l = nonempty (fst (bag_after eqo false w h l (map fst os))) /\
                  bag (os_write g) l = nonempty (snd (bag_after eqo false w h l (map fst os)))) /\
       (forall pre o post r, map fst os = pre ++ o :: post -> nth_error rs (length pre) = Some r -> bag_answer eqo false w h pre o r)).
  { intros (W & Len & Hb & Ha). split; [exact Len|]. split.
    { intros l. rewrite <- !bag_shown_nonempty. exact (Hb l). }
    split; [exact Ha|]. intros it op f Hi. cbn [os_call].
    assert (K : os_apply it g op f = None <-> exists l o, In o (handed op (bag_after eqo false w h l (map fst os))) /\ f l o = None).
    { rewrite (apply_panics it g op f W Hi). split.
      - intros (l & r & x & E1 & E2 & o & Ho & Hn). exists l, o. split; [|exact Hn]. destruct (Hb l) as [B1 B2]. rewrite B1 in E1. rewrite B2 in E2.
        destruct (bag_after eqo false w h l (map fst os)) as [r' x']. cbn [fst snd] in *.
        assert (Inj : forall u v : list O, nonempty u = nonempty v -> u = v) by (intros [] []; cbn; congruence).
        apply Inj in E1, E2. subst. exact Ho.
      - intros (l & o & Ho & Hn). exists l, (fst (bag_after eqo false w h l (map fst os))), (snd (bag_after eqo false w h l (map fst os))).
        destruct (Hb l) as [B1 B2]. rewrite <- surjective_pairing. eauto. }
    rewrite <- K. destruct (os_apply it g op f); cbn; split; congruence. }
  revert g rs Hr. induction os as [|[o it] os IH] using rev_ind; intros g rs Hr.
  - cbn in Hr. injection Hr as <- <-. split; [apply oswf_new|]. split; [reflexivity|]. split; [intros l; split; reflexivity|].
    intros pre o post r K. destruct pre; discriminate.
  - apply Forall_app in Hit. destruct Hit as [Hit1 Hit2]. inversion Hit2 as [|? ? Hi _]; subst. cbn in Hi.
    rewrite os_run_app in Hr. destruct (os_run eqo (os_new w h) os) as [[g1 r1]|] eqn:E1; [|discriminate].
    cbn [os_run] in Hr. destruct (os_call eqo it g1 o) as [[g2 r2]|] eqn:Ec; [|discriminate]. cbn in Hr. injection Hr as <- <-.
    destruct (IH Hit1 g1 r1 eq_refl) as (W & Len & Hg & Ha). destruct (sparse_call w h it g1 o g2 r2 W Hi Ec) as [W2 Hc].
    split; [exact W2|]. split; [rewrite !app_length; cbn; lia|]. rewrite map_app. cbn [map fst]. split.
    + intros l. rewrite bag_snoc. destruct (Hg l) as [Hp Hw]. destruct (bag_after eqo false w h l (map fst os)) as [a x]. exact (Hc l a x Hp Hw).
    + intros pre o' post r K N. destruct post as [|y post] using rev_ind.
      * apply app_inj_tail in K. destruct K as [<- <-]. rewrite map_length in N. rewrite nth_error_app2 in N by lia. rewrite Len, Nat.sub_diag in N. injection N as <-.
        destruct o as [v l|v l| | |op f|l|l|v|v| |i draws| |]; cbn [bag_answer]; cbn [os_call] in Ec; try exact I.
        5:{ destruct (os_apply it g1 op f); [injection Ec as _ <-; reflexivity|discriminate]. }
        all: injection Ec as _ <-; try reflexivity; f_equal; rewrite <- bag_shown_nonempty; apply Hg.
      * clear IHpost. rewrite app_comm_cons, app_assoc in K. apply app_inj_tail in K. destruct K as [K _].
        rewrite nth_error_app1 in N. { eapply Ha; [exact K|exact N]. }
        rewrite Len, <- (map_length fst os), K, app_length. cbn. lia.
Qed.
End Bags.
Print Assumptions C26_dense_history_partial.
Print Assumptions C26_sparse_history_partial.

(** A 3 x 2 grid of numbers.  The dense grid calls the closure for the objects of cell (1, 0),
    the third bag, with the location (2, 0). *)
Example C26_history_concrete :
  let f := fun (l : loc) o => if Z.eqb o 7 then None else Some (100 * fst l + o) in
  let os := [OSet 5 (1, 0); OSet 7 (1, 0); OSet 5 (1, 0); OLazyUpdate; OSet 7 (0, 0); OApply READWRITE f; OGetUnbuffered (1, 0)] in
  let g := match od_new 3 2 with Some g0 => od_run Z.eqb g0 os | None => None end in
  Forall (o_in 3 2) os /\ (g = None -> False) /\
  map (fun l => bag_after Z.eqb true 3 2 l os) [(1, 0); (0, 0)] = [([7; 5], [205]); ([], [7])] /\
  map (fun l => bag_after Z.eqb false 3 2 l os) [(1, 0); (0, 0)] = [([5; 7; 5], [105]); ([], [7])].
Proof. split; [repeat constructor; cbn; lia|]. split; [vm_compute; discriminate|]. split; vm_compute; reflexivity. Qed.
