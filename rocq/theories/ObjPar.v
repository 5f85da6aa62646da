(** * Proofs about the parallel object grids *)
From Coq Require Import List Bool ZArith NArith Arith Lia Permutation.
From Verif Require Import Grid DashModel DashSpec DashProofs DashRun NumModel NumSpec NumProofs NumPar
  ObjModel ObjSpec ObjProofs.
Import ListNotations.
Open Scope Z_scope.

Section Par.
Context {O : Type}.
Variable eqo : O -> O -> bool.
Variable hash_o : O -> N.
Variable hash_l : loc -> N.
Hypothesis L : lawful eqo hash_o.
Notation LL := (loc_lawful_any hash_l).
Implicit Types g : opar O.

(** Read and write bags of a location, read and write location of an object. *)
Definition rl g l := option_map snd (absl loc_eqb hash_l (d_shift (op_objs g)) (d_rshards (op_objs g)) l).
Definition wl g l := option_map snd (absl loc_eqb hash_l (d_shift (op_objs g)) (d_shards (op_objs g)) l).
Definition ro g o := option_map snd (absl eqo hash_o (d_shift (op_locs g)) (d_rshards (op_locs g)) o).
Definition wo g o := option_map snd (absl eqo hash_o (d_shift (op_locs g)) (d_shards (op_locs g)) o).
Definition opwf (n : nat) g : Prop :=
  wf loc_eqb hash_l n (op_objs g) /\ wf eqo hash_o n (op_locs g).

Lemma op_new_ok cpus : (1 <= cpus)%N -> (cpus * 4 <= 2 ^ 63)%N ->
  opwf (N.to_nat (shard_amount cpus)) (op_new cpus) /\
  (forall l, rl (op_new cpus) l = None /\ wl (op_new cpus) l = None) /\
  (forall o, ro (op_new cpus) o = None /\ wo (op_new cpus) o = None).
Proof.
  intros H1 H2. destruct (@dash_new_wf O loc eqo hash_o cpus H1 H2) as [W1 [E1 E2]].
  destruct (@dash_new_wf loc (list O) loc_eqb hash_l cpus H1 H2) as [W2 [E3 E4]].
  split; [split; assumption|]. unfold rl, wl, ro, wo. cbn [op_new op_objs op_locs]. split.
  - intros l. pose proof (E3 l) as F3. pose proof (E4 l) as F4.
    cbn [abs rd wr] in F3, F4. unfold fempty in *. rewrite F3, F4. auto.
  - intros o. pose proof (E1 o) as F1. pose proof (E2 o) as F2.
    cbn [abs rd wr] in F1, F2. unfold fempty in *. rewrite F1, F2. auto.
Qed.

Lemma read_eq {K V} (eqk : K -> K -> bool) hash n (d : dmap K V) k : wf eqk hash n d ->
  get_read eqk hash k d = Some (option_map snd (absl eqk hash (d_shift d) (d_rshards d) k)).
Proof.
  intros (Hi & _ & Hr). unfold get_read, absl, shard_of.
  destruct (wfs_get eqk hash _ _ _ k Hr (Hi k)) as (m & Hm & _). unfold idx in *. rewrite Hm. reflexivity.
Qed.

Lemma op_get_eq n g l : opwf n g ->
  op_get hash_l g l = Some (match rl g l with Some b => nonempty b | None => None end).
Proof. intros [W _]. unfold op_get. rewrite (read_eq _ _ _ _ _ W). reflexivity. Qed.
Lemma op_get_unbuffered_eq n g l : opwf n g ->
  op_get_unbuffered hash_l g l = Some (match wl g l with Some b => nonempty b | None => None end).
Proof.
  intros [W _]. unfold op_get_unbuffered.
  destruct (get_write_ok loc_eqb hash_l LL n (op_objs g) l (fun b => b) W) as (d' & -> & _). reflexivity.
Qed.
Lemma op_location_eq n g o : opwf n g -> op_location eqo hash_o g o = Some (ro g o).
Proof. intros [_ W]. unfold op_location. rewrite (read_eq _ _ _ _ _ W). reflexivity. Qed.
Lemma op_location_unbuffered_eq n g o : opwf n g -> op_location_unbuffered eqo hash_o g o = Some (wo g o).
Proof.
  intros [_ W]. unfold op_location_unbuffered.
  destruct (get_write_ok eqo hash_o L n (op_locs g) o (fun b => b) W) as (d' & -> & _). reflexivity.
Qed.

(** The bag after [o] is placed. *)
Definition placing (o : O) (b : option (list O)) : list O :=
  without eqo o (match b with Some b => b | None => [] end) ++ [o].

Lemma place_ok n g o l : opwf n g ->
  exists d r, get_write loc_eqb hash_l l (fun b => without eqo o b ++ [o]) (op_objs g) = Some (d, r) /\
    r = wl g l /\ wf loc_eqb hash_l n d /\
    (forall x, rl (OPar (op_locs g) d) x = rl g x) /\
    (forall x, wl (OPar (op_locs g) d) x =
       if loc_eqb x l then option_map (fun b => placing o (Some b)) (wl g x) else wl g x).
Proof.
  intros [W _]. destruct (get_write_ok loc_eqb hash_l LL n (op_objs g) l (fun b => without eqo o b ++ [o]) W)
    as (d & E & W' & Sh & R & F).
  exists d, (wl g l). split; [exact E|]. split; [reflexivity|]. split; [exact W'|].
  unfold rl, wl. cbn [op_objs]. rewrite Sh, R. split; [reflexivity|]. intros x. rewrite (F x).
  destruct (loc_eqb x l); [|reflexivity].
  destruct (absl loc_eqb hash_l (d_shift (op_objs g)) (d_shards (op_objs g)) x); reflexivity.
Qed.

Lemma insert_objs_ok n g l b : opwf n g ->
  exists d r, insert loc_eqb hash_l l b (op_objs g) = Some (d, r) /\ wf loc_eqb hash_l n d /\
    (forall x, rl (OPar (op_locs g) d) x = rl g x) /\
    (forall x, wl (OPar (op_locs g) d) x = if loc_eqb x l then Some b else wl g x).
Proof.
  intros [W _]. destruct (insert_ok loc_eqb hash_l LL n (op_objs g) l b W) as (d & E & W' & Sh & R & F).
  exists d, None. split; [exact E|]. split; [exact W'|]. unfold rl, wl. cbn [op_objs]. rewrite Sh, R.
  split; [reflexivity|]. intros x. rewrite (F x). unfold fput. destruct (loc_eqb x l); reflexivity.
Qed.

Lemma insert_locs_ok n g o l : opwf n g ->
  exists d r, insert eqo hash_o o l (op_locs g) = Some (d, r) /\ wf eqo hash_o n d /\
    (forall x, ro (OPar d (op_objs g)) x = ro g x) /\
    (forall x, wo (OPar d (op_objs g)) x = if eqo x o then Some l else wo g x).
Proof.
  intros [_ W]. destruct (insert_ok eqo hash_o L n (op_locs g) o l W) as (d & E & W' & Sh & R & F).
  exists d, None. split; [exact E|]. split; [exact W'|]. unfold ro, wo. cbn [op_locs]. rewrite Sh, R.
  split; [reflexivity|]. intros x. rewrite (F x). unfold fput. destruct (eqo x o); reflexivity.
Qed.

Lemma op_set_ok n g o l : opwf n g ->
  exists g', op_set eqo hash_o hash_l g o l = Some g' /\ opwf n g' /\
    (forall x, rl g' x = rl g x) /\ (forall x, ro g' x = ro g x) /\
    (forall x, wl g' x = if loc_eqb x l then Some (placing o (wl g x)) else wl g x) /\
    (forall x, wo g' x = if eqo x o then Some l else wo g x).
Proof.
  intros W. unfold op_set. destruct (place_ok n g o l W) as (d & r & -> & -> & W1 & R1 & F1).
  assert (Wd : opwf n (OPar (op_locs g) d)) by (split; [exact W1|exact (proj2 W)]).
  destruct (insert_locs_ok n g o l W) as (e & re & Ee & We & Re & Fe). rewrite Ee.
  destruct (wl g l) as [b|] eqn:Eb.
  - cbn [option_map fst]. exists (OPar e d). split; [reflexivity|]. split; [split; assumption|].
    split; [exact R1|]. split; [exact Re|]. split; [|exact Fe]. intros x.
    change (wl (OPar e d) x) with (wl (OPar (op_locs g) d) x). rewrite (F1 x).
    destruct (loc_eqb x l) eqn:Ex; [|reflexivity]. apply loc_eqb_eq in Ex. subst x. rewrite Eb. reflexivity.
  - destruct (insert_objs_ok n _ l [o] Wd) as (d2 & r2 & E2 & W2 & R2 & F2). cbn [op_objs] in E2. rewrite E2.
    cbn [option_map fst]. exists (OPar e d2). split; [reflexivity|]. split; [split; assumption|].
    split; [intros x; change (rl (OPar e d2) x) with (rl (OPar (op_locs (OPar (op_locs g) d)) d2) x); rewrite R2; apply R1|].
    split; [exact Re|]. split; [|exact Fe]. intros x.
    change (wl (OPar e d2) x) with (wl (OPar (op_locs (OPar (op_locs g) d)) d2) x). rewrite (F2 x).
    destruct (loc_eqb x l) eqn:Ex; [|rewrite (F1 x), Ex; reflexivity].
    apply loc_eqb_eq in Ex. subst x. rewrite Eb. reflexivity.
Qed.

Lemma op_remove_at_ok n g o l : opwf n g ->
  exists g', op_remove_at eqo hash_l g o l = Some g' /\ opwf n g' /\
    (forall x, rl g' x = rl g x) /\ (forall x, ro g' x = ro g x) /\
    (forall x, wl g' x = if loc_eqb x l then option_map (without eqo o) (wl g x) else wl g x) /\
    (forall x, wo g' x = wo g x).
Proof.
  intros [W Wo]. unfold op_remove_at.
  destruct (get_write_ok loc_eqb hash_l LL n (op_objs g) l (without eqo o) W) as (d & E & W' & Sh & R & F).
  rewrite E. cbn [option_map fst]. eexists. split; [reflexivity|]. split; [split; assumption|].
  unfold rl, ro, wl, wo. cbn [op_objs op_locs]. rewrite Sh, R. repeat (split; [reflexivity|]). split; [|reflexivity].
  intros x. rewrite (F x). destruct (loc_eqb x l); [|reflexivity].
  destruct (absl loc_eqb hash_l (d_shift (op_objs g)) (d_shards (op_objs g)) x); reflexivity.
Qed.

Lemma op_lazy_ok n g : opwf n g ->
  exists g', op_lazy_update n g = Some g' /\ opwf n g' /\
    (forall x, rl g' x = wl g x) /\ (forall x, ro g' x = wo g x) /\
    (forall x, wl g' x = None) /\ (forall x, wo g' x = None).
Proof.
  intros [W Wo]. unfold op_lazy_update.
  destruct (lazy_update_ok eqo hash_o n (op_locs g) Wo) as (a & Ea & Wa & Sa & Ra & Ha).
  destruct (lazy_update_ok loc_eqb hash_l n (op_objs g) W) as (b & Eb & Wb & Sb & Rb & Hb).
  rewrite Ea, Eb. eexists. split; [reflexivity|]. split; [split; assumption|].
  unfold rl, ro, wl, wo. cbn [op_objs op_locs]. rewrite Sa, Sb, Ra, Rb, Ha, Hb.
  split; [reflexivity|]. split; [reflexivity|]. split; intros x; rewrite absl_empty; reflexivity.
Qed.

Lemma op_update_ok n g it it' : opwf n g -> iteration it -> iteration it' ->
  exists g', op_update eqo it it' n g = Some g' /\ opwf n g' /\
    (forall x, rl g' x = match wl g x with Some b => Some b | None => rl g x end) /\
    (forall x, ro g' x = match wo g x with Some b => Some b | None => ro g x end) /\
    (forall x, wl g' x = wl g x) /\ (forall x, wo g' x = wo g x).
Proof.
  intros [W Wo] Hi Hi'. unfold op_update.
  destruct (update_ok eqo hash_o L n (op_locs g) it Wo Hi) as (a & Ea & Wa & Sa & Ra & Ha).
  destruct (update_ok loc_eqb hash_l LL n (op_objs g) it' W Hi') as (b & Eb & Wb & Sb & Rb & Hb).
  rewrite Ea, Eb. eexists. split; [reflexivity|]. split; [split; assumption|].
  unfold rl, ro, wl, wo. cbn [op_objs op_locs]. rewrite Sa, Sb, Ra, Rb.
  split; [|split; [|split; reflexivity]]; intros x.
  - rewrite (Hb x). destruct (absl loc_eqb hash_l (d_shift (op_objs g)) (d_shards (op_objs g)) x); reflexivity.
  - rewrite (Ha x). destruct (absl eqo hash_o (d_shift (op_locs g)) (d_shards (op_locs g)) x); reflexivity.
Qed.

(** [remove_object]: panics unless the bag of the published location was touched since
    the last publication. *)
Lemma op_remove_spec n g o : opwf n g ->
  match ro g o with
  | None => exists g', op_remove eqo hash_o hash_l g o = Some g' /\ opwf n g' /\
      (forall x, rl g' x = rl g x) /\ (forall x, ro g' x = ro g x) /\ (forall x, wl g' x = wl g x) /\
      (forall x, wo g' x = if eqo x o then None else wo g x)
  | Some l =>
      match wl g l with
      | None => op_remove eqo hash_o hash_l g o = None
      | Some _ => exists g', op_remove eqo hash_o hash_l g o = Some g' /\ opwf n g' /\
          (forall x, rl g' x = rl g x) /\ (forall x, ro g' x = ro g x) /\
          (forall x, wl g' x = if loc_eqb x l then option_map (without eqo o) (wl g x) else wl g x) /\
          (forall x, wo g' x = if eqo x o then None else wo g x)
      end
  end.
Proof.
  intros [W Wo]. unfold op_remove. rewrite (read_eq _ _ _ _ _ Wo). fold (ro g o).
  destruct (remove_ok eqo hash_o L n (op_locs g) o Wo) as (e & Ee & We & Se & Re & Fe). rewrite Ee.
  assert (Fo : forall d x, wo (OPar e d) x = if eqo x o then None else wo g x).
  { intros d x. unfold wo. cbn [op_locs]. rewrite Se, (Fe x). unfold fdel. destruct (eqo x o); reflexivity. }
  assert (Ro : forall d x, ro (OPar e d) x = ro g x).
  { intros d x. unfold ro. cbn [op_locs]. rewrite Se, Re. reflexivity. }
  destruct (ro g o) as [l|].
  - destruct (get_write_ok loc_eqb hash_l LL n (op_objs g) l (without eqo o) W) as (d & E & W' & Sh & R & F).
    rewrite E. fold (wl g l). destruct (wl g l) as [b|]; [|reflexivity].
    cbn [option_map fst]. eexists. split; [reflexivity|]. split; [split; assumption|].
    split; [intros x; unfold rl; cbn [op_objs]; rewrite Sh, R; reflexivity|]. split; [apply Ro|]. split; [|apply Fo].
    intros x. unfold wl. cbn [op_objs]. rewrite Sh, (F x). destruct (loc_eqb x l); [|reflexivity].
    destruct (absl loc_eqb hash_l (d_shift (op_objs g)) (d_shards (op_objs g)) x); reflexivity.
  - cbn [option_map fst]. eexists. split; [reflexivity|]. split; [split; assumption|].
    split; [reflexivity|]. split; [apply Ro|]. split; [reflexivity|apply Fo].
Qed.

(** *** History *)
Notation pd := (placed (cancels_dense eqo)).
Definition bag_is (b : option (list O)) (l : list O) : Prop := match b with Some b => b | None => [] end = l.

Lemma op_history n g0 cs : opwf n g0 ->
  (forall l, rl g0 l = None /\ wl g0 l = None) /\ (forall o, ro g0 o = None /\ wo g0 o = None) ->
  Forall p_plain cs ->
  exists g rs, op_run eqo hash_o hash_l n g0 cs = Some (g, rs) /\ opwf n g /\
    let hist := rev (map as_oop cs) in
    (forall l, bag_is (rl g l) (pd l (published_epoch hist)) /\ bag_is (wl g l) (pd l (since_publication hist))) /\
    (forall o, ro g o = last_location eqo o (published_epoch hist) /\
               wo g o = last_location eqo o (since_publication hist)).
Proof.
  intros W0 E0. cbv zeta.
  assert (RA : forall g0 cs c, op_run eqo hash_o hash_l n g0 (cs ++ [c]) =
     match op_run eqo hash_o hash_l n g0 cs with
     | None => None
     | Some (g1, rs) => option_map (fun p => (fst p, rs ++ [snd p])) (op_call eqo hash_o hash_l n g1 c)
     end).
  { clear. intros g0 cs c. revert g0. induction cs as [|d cs IH]; intros g0; cbn [app op_run].
    - destruct (op_call eqo hash_o hash_l n g0 c) as [[? ?]|]; reflexivity.
    - destruct (op_call eqo hash_o hash_l n g0 d) as [[g1 r]|]; [|reflexivity]. rewrite IH.
      destruct (op_run eqo hash_o hash_l n g1 cs) as [[g2 rs]|]; [|reflexivity]. cbn [option_map fst snd].
      destruct (op_call eqo hash_o hash_l n g2 c) as [[? ?]|]; reflexivity. }
  induction cs as [|c cs IH] using rev_ind; intros Hp.
  - exists g0, []. split; [reflexivity|]. split; [exact W0|]. destruct E0 as [E1 E2].
    split; [intros l; destruct (E1 l) as [-> ->]|intros o; destruct (E2 o) as [-> ->]]; repeat split.
  - apply Forall_app in Hp. destruct Hp as [Hp Hc]. inversion_clear Hc as [|? ? Hc' _].
    destruct (IH Hp) as (g & rs & E & W & Ha & Hb). rewrite RA, E. rewrite map_app, rev_app_distr. cbn [map rev app].
    assert (Q : (match c with PSet _ _ | PRemoveAt _ _ | PLazyUpdate => False | _ => p_plain c end) ->
      (forall l, bag_is (rl g l) (pd l (published_epoch (as_oop c :: rev (map as_oop cs)))) /\
       bag_is (wl g l) (pd l (since_publication (as_oop c :: rev (map as_oop cs))))) /\
      (forall o, ro g o = last_location eqo o (published_epoch (as_oop c :: rev (map as_oop cs))) /\
       wo g o = last_location eqo o (since_publication (as_oop c :: rev (map as_oop cs))))).
    { intros Hq. split; [intros l; destruct (Ha l) as [H1 H2]|intros o; destruct (Hb o) as [H3 H4]];
        destruct c; try destruct Hq; cbn [as_oop published_epoch since_publication];
        rewrite ?placed_dense_other by exact I; unfold last_location; rewrite ?fold_left_app; cbn [fold_left]; auto. }
    destruct c as [o l|o l|o| |it it'|it f|l|l|o|o]; cbn [p_plain] in Hc'; try destruct Hc'; cbn [op_call].
    + destruct (op_set_ok n g o l W) as (g' & -> & W' & R1 & R2 & F1 & F2). cbn [option_map fst snd].
      exists g', (rs ++ [OUnit]). split; [reflexivity|]. split; [exact W'|]. cbn [as_oop published_epoch since_publication].
      split; [intros x; destruct (Ha x) as [H1 H2]; rewrite R1, F1, placed_dense_set|
        intros y; destruct (Hb y) as [H3 H4]; rewrite R2, F2; unfold last_location; rewrite fold_left_app; cbn [fold_left];
        fold (last_location eqo y (since_publication (rev (map as_oop cs))));
        split; [exact H3|destruct (eqo y o); [reflexivity|exact H4]]].
      split; [exact H1|].
      destruct (loc_eqb x l) eqn:Ex.
      * apply loc_eqb_eq in Ex. subst x. rewrite loc_eqb_refl. unfold bag_is, placing in *. rewrite H2. reflexivity.
      * replace (loc_eqb l x) with false; [exact H2|]. symmetry. apply loc_eqb_neq. apply loc_eqb_neq in Ex. congruence.
    + destruct (op_remove_at_ok n g o l W) as (g' & -> & W' & R1 & R2 & F1 & F2). cbn [option_map fst snd].
      exists g', (rs ++ [OUnit]). split; [reflexivity|]. split; [exact W'|]. cbn [as_oop published_epoch since_publication].
      split; [intros x; destruct (Ha x) as [H1 H2]; rewrite R1, F1, placed_dense_remove|
        intros y; destruct (Hb y) as [H3 H4]; rewrite R2, F2; unfold last_location; rewrite fold_left_app; cbn [fold_left];
        split; [exact H3|exact H4]].
      split; [exact H1|].
      destruct (loc_eqb x l) eqn:Ex.
      * apply loc_eqb_eq in Ex. subst x. rewrite loc_eqb_refl. unfold bag_is in *. rewrite <- H2.
        destruct (wl g l); reflexivity.
      * replace (loc_eqb l x) with false; [exact H2|]. symmetry. apply loc_eqb_neq. apply loc_eqb_neq in Ex. congruence.
    + destruct (op_lazy_ok n g W) as (g' & -> & W' & R1 & R2 & F1 & F2). cbn [option_map fst snd].
      exists g', (rs ++ [OUnit]). split; [reflexivity|]. split; [exact W'|]. cbn [as_oop published_epoch since_publication].
      split; [intros x; destruct (Ha x) as [H1 H2]; rewrite R1, F1|intros y; destruct (Hb y) as [H3 H4]; rewrite R2, F2];
        repeat split; assumption.
    + rewrite (op_get_eq n g l W). cbn [option_map fst snd]. eexists _, _. split; [reflexivity|]. split; [exact W|]. exact (Q I).
    + rewrite (op_get_unbuffered_eq n g l W). cbn [option_map fst snd]. eexists _, _. split; [reflexivity|]. split; [exact W|]. exact (Q I).
    + rewrite (op_location_eq n g o W). cbn [option_map fst snd]. eexists _, _. split; [reflexivity|]. split; [exact W|]. exact (Q I).
    + rewrite (op_location_unbuffered_eq n g o W). cbn [option_map fst snd]. eexists _, _. split; [reflexivity|]. split; [exact W|]. exact (Q I).
Qed.

(** *** Several threads placing objects *)
Lemma has_placing o o' b : has eqo o b = true -> has eqo o (placing o' (Some b)) = true.
Proof.
  unfold has, placing. intros H. apply existsb_exists in H. destruct H as (x & Hx & Ex).
  apply existsb_exists. destruct (eqo x o') eqn:E.
  - exists o'. split; [apply in_or_app; right; left; reflexivity|].
    apply (eqk_trans _ _ L) with x; [apply (eqk_sym _ _ L); exact E|exact Ex].
  - exists x. split; [|exact Ex]. apply in_or_app. left. apply filter_In. rewrite E. auto.
Qed.
Lemma has_placed o b : has eqo o (placing o b) = true.
Proof.
  unfold has, placing. apply existsb_exists. exists o. split; [apply in_or_app; right; left; reflexivity|].
  apply (eqk_refl _ _ L).
Qed.

(** What still has to be done by the threads. *)
Definition todo (th : pthread) (o : O) (l : loc) : Prop :=
  In (o, l) (pt_rest th) \/ pt_pc th = PcInsert o l.

Lemma nth_set_nth {X} (ths : list X) t x t' y : nth_error (set_nth t x ths) t' = Some y ->
  (t' = t /\ y = x) \/ (t' <> t /\ nth_error ths t' = Some y).
Proof.
  revert t t'. induction ths as [|z ths IH]; intros t t' H.
  - destruct t; cbn in H; destruct t'; discriminate.
  - destruct t, t'; cbn in *; auto.
    + left. split; [reflexivity|congruence].
    + destruct (IH _ _ H) as [[-> ->]|[? ?]]; [left; auto|right; split; [congruence|assumption]].
Qed.

Lemma nth_set_same {X} (ths : list X) t th x : nth_error ths t = Some th -> nth_error (set_nth t x ths) t = Some x.
Proof. revert t. induction ths as [|z ths IH]; intros [|t] H; cbn in *; try discriminate; auto. Qed.
Lemma nth_set_other {X} (ths : list X) t t' x : t' <> t -> nth_error (set_nth t x ths) t' = nth_error ths t'.
Proof.
  revert t t'. induction ths as [|z ths IH]; intros [|t] [|t'] H; cbn; try reflexivity; [congruence|].
  apply IH. congruence.
Qed.

Lemma set_nth_map {X Y} (f : X -> Y) ths t x : map f (set_nth t x ths) = set_nth t (f x) (map f ths).
Proof. revert t. induction ths as [|z ths IH]; intros [|t]; cbn; [reflexivity|reflexivity|reflexivity|f_equal; apply IH]. Qed.

(** Starting with a bag at [l], all objects placed there are found there at the end. *)
Lemma existing_bag n l inter : forall g ths, opwf n g -> (exists b, wl g l = Some b) ->
  (forall t th o, nth_error ths t = Some th -> pt_pc th <> PcInsert o l) ->
  let c' := pexec eqo hash_o hash_l inter (g, ths) in
  opwf n (fst c') /\
  exists b', wl (fst c') l = Some b' /\
    (forall b o, wl g l = Some b -> has eqo o b = true -> has eqo o b' = true) /\
    (forall t th o, nth_error ths t = Some th -> In (o, l) (pt_rest th) ->
       has eqo o b' = true \/ exists th', nth_error (snd c') t = Some th' /\ In (o, l) (pt_rest th')).
Proof.
  induction inter as [|t inter IH]; intros g ths W [b Hb] Hpc; cbv zeta.
  - cbn. split; [exact W|]. exists b. split; [exact Hb|]. split; [intros b0 o E; congruence|].
    intros t th o Ht Hin. right. eauto.
  - cbn [pexec]. destruct (pmicro eqo hash_o hash_l t (g, ths)) as [[g1 ths1]|] eqn:E; [|apply IH; eauto].
    assert (S : opwf n g1 /\ (exists b1, wl g1 l = Some b1 /\ (forall o, has eqo o b = true -> has eqo o b1 = true) /\
       (forall t' th' o, nth_error ths t' = Some th' -> In (o, l) (pt_rest th') ->
          has eqo o b1 = true \/ exists th1, nth_error ths1 t' = Some th1 /\ In (o, l) (pt_rest th1))) /\
       (forall t' th1 o, nth_error ths1 t' = Some th1 -> pt_pc th1 <> PcInsert o l)).
    { unfold pmicro in E. destruct (nth_error ths t) as [th|] eqn:Et; [|discriminate].
      destruct (pt_pc th) as [|o0 l0|o0 l0] eqn:Epc.
      - destruct (pt_rest th) as [|[o0 l0] rest] eqn:Er; [discriminate|].
        destruct (place_ok n g o0 l0 W) as (d & r & Ed & -> & Wd & Rd & Fd). rewrite Ed in E. injection E as <- <-.
        split; [split; [exact Wd|exact (proj2 W)]|]. split.
        + rewrite Fd. destruct (loc_eqb l l0) eqn:El.
          * apply loc_eqb_eq in El. subst l0. rewrite Hb. cbn [option_map]. eexists. split; [reflexivity|].
            split; [intros o; apply has_placing|]. intros t' th' o Ht' Hin.
            destruct (Nat.eq_dec t' t) as [->|Hne].
            -- rewrite Et in Ht'. injection Ht' as <-. rewrite Er in Hin. destruct Hin as [Ho|Hin].
               ++ injection Ho as ->. left. apply has_placed.
               ++ right. eexists. split; [exact (nth_set_same _ _ _ _ Et)|exact Hin].
            -- right. exists th'. split; [|exact Hin]. rewrite nth_set_other by exact Hne. exact Ht'.
          * exists b. split; [exact Hb|]. split; [auto|]. intros t' th' o Ht' Hin. right.
            destruct (Nat.eq_dec t' t) as [->|Hne].
            -- rewrite Et in Ht'. injection Ht' as <-. rewrite Er in Hin. destruct Hin as [Ho|Hin].
               ++ injection Ho as -> ->. rewrite loc_eqb_refl in El. discriminate.
               ++ eexists. split; [exact (nth_set_same _ _ _ _ Et)|exact Hin].
            -- exists th'. split; [|exact Hin]. rewrite nth_set_other by exact Hne. exact Ht'.
        + intros t' th1 o H1. apply nth_set_nth in H1. destruct H1 as [[-> ->]|[_ H1]]; [|exact (Hpc _ _ _ H1)].
          cbn [pt_pc]. destruct (wl g l0) eqn:E0; [discriminate|]. intros Hx. injection Hx as -> ->. congruence.
      - assert (Hl : l0 <> l) by (intros ->; exact (Hpc t th o0 Et Epc)).
        destruct (insert_objs_ok n g l0 [o0] W) as (d & r & Ed & Wd & Rd & Fd). rewrite Ed in E. injection E as <- <-. cbn [fst].
        split; [split; [exact Wd|exact (proj2 W)]|]. split.
        + exists b. rewrite Fd. replace (loc_eqb l l0) with false by (symmetry; apply loc_eqb_neq; congruence).
          split; [exact Hb|]. split; [auto|]. intros t' th' o Ht' Hin. right. destruct (Nat.eq_dec t' t) as [->|Hne].
          * rewrite Et in Ht'. injection Ht' as <-. eexists. split; [exact (nth_set_same _ _ _ _ Et)|exact Hin].
          * exists th'. split; [|exact Hin]. rewrite nth_set_other by exact Hne. exact Ht'.
        + intros t' th1 o H1. apply nth_set_nth in H1. destruct H1 as [[-> ->]|[_ H1]]; [discriminate|exact (Hpc _ _ _ H1)].
      - destruct (insert_locs_ok n g o0 l0 W) as (d & r & Ed & Wd & Rd & Fd). rewrite Ed in E. injection E as <- <-. cbn [fst].
        split; [split; [exact (proj1 W)|exact Wd]|]. split.
        + exists b. split; [exact Hb|]. split; [auto|]. intros t' th' o Ht' Hin. right. destruct (Nat.eq_dec t' t) as [->|Hne].
          * rewrite Et in Ht'. injection Ht' as <-. eexists. split; [exact (nth_set_same _ _ _ _ Et)|exact Hin].
          * exists th'. split; [|exact Hin]. rewrite nth_set_other by exact Hne. exact Ht'.
        + intros t' th1 o H1. apply nth_set_nth in H1. destruct H1 as [[-> ->]|[_ H1]]; [discriminate|exact (Hpc _ _ _ H1)]. }
    destruct S as (W1 & (b1 & Hb1 & Hk & Hr) & Hpc1).
    destruct (IH g1 ths1 W1 (ex_intro _ b1 Hb1) Hpc1) as (W2 & b2 & Hb2 & Hk2 & Hr2).
    split; [exact W2|]. exists b2. split; [exact Hb2|]. split.
    + intros b0 o E0 Ho. rewrite Hb in E0. injection E0 as <-. apply (Hk2 b1 o Hb1). apply Hk. exact Ho.
    + intros t' th' o Ht' Hin. destruct (Hr t' th' o Ht' Hin) as [Ho|(th1 & Ht1 & Hin1)].
      * left. exact (Hk2 b1 o Hb1 Ho).
      * exact (Hr2 t' th1 o Ht1 Hin1).
Qed.
End Par.
