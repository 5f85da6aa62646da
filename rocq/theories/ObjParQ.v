(** * Proofs about the queries of the parallel object grids: [get], [get_unbuffered],
    [iter_objects], [get_empty_bags] *)
From Coq Require Import List Bool ZArith NArith Arith Lia Permutation.
From Verif Require Import Grid DashModel DashSpec DashProofs DashRun NumModel NumSpec NumProofs NumPar
  ObjModel ObjSpec ObjProofs ObjPar.
Import ListNotations.
Open Scope Z_scope.

Section ParQ.
Context {O : Type}.
Variable eqo : O -> O -> bool.
Variable hash_o : O -> N.
Variable hash_l : loc -> N.
Hypothesis L : lawful eqo hash_o.
Notation LL := (loc_lawful_any hash_l).
Implicit Types g : opar O.

(** The stored keys of [obj2loc]. *)
Definition rk g o := option_map fst (absl eqo hash_o (d_shift (op_locs g)) (d_rshards (op_locs g)) o).
Definition wk g o := option_map fst (absl eqo hash_o (d_shift (op_locs g)) (d_shards (op_locs g)) o).

Lemma insert_keys n g o l : opwf eqo hash_o hash_l n g -> forall d r,
  insert eqo hash_o o l (op_locs g) = Some (d, r) ->
  (forall x, option_map fst (absl eqo hash_o (d_shift d) (d_rshards d) x) = rk g x) /\
  (forall x, option_map fst (absl eqo hash_o (d_shift d) (d_shards d) x) = if eqo x o then Some o else wk g x).
Proof.
  intros [_ W] d r E. destruct (insert_ok eqo hash_o L n (op_locs g) o l W) as (d' & E' & _ & Sh & R & F).
  rewrite E in E'. injection E' as <- _. rewrite Sh, R. split; [reflexivity|].
  intros x. rewrite (F x). unfold fput. destruct (eqo x o); reflexivity.
Qed.

Lemma op_set_keys n g o l g' : opwf eqo hash_o hash_l n g -> op_set eqo hash_o hash_l g o l = Some g' ->
  (forall x, rk g' x = rk g x) /\ (forall x, wk g' x = if eqo x o then Some o else wk g x).
Proof.
  intros W E. unfold op_set in E.
  destruct (get_write loc_eqb hash_l l _ (op_objs g)) as [[d r]|]; [|discriminate].
  destruct (match r with Some _ => Some d | None => _ end) as [d'|]; [|discriminate].
  destruct (insert eqo hash_o o l (op_locs g)) as [[e re]|] eqn:Ee; [|discriminate].
  cbn [option_map fst] in E. injection E as <-. exact (insert_keys n g o l W _ _ Ee).
Qed.

Lemma op_lazy_keys n g g' : opwf eqo hash_o hash_l n g -> op_lazy_update n g = Some g' ->
  (forall x, rk g' x = wk g x) /\ (forall x, wk g' x = None).
Proof.
  intros [_ W] E. unfold op_lazy_update in E.
  destruct (lazy_update_ok eqo hash_o n (op_locs g) W) as (a & Ea & Wa & Sa & Ra & Ha). rewrite Ea in E.
  destruct (lazy_update n (op_objs g)) as [b|]; [|discriminate]. injection E as <-.
  unfold rk, wk. cbn [op_locs]. rewrite Sa, Ra, Ha. split; [reflexivity|]. intros x. rewrite absl_empty. reflexivity.
Qed.

Lemma op_remove_at_keys g o l g' : op_remove_at eqo hash_l g o l = Some g' -> op_locs g' = op_locs g.
Proof.
  unfold op_remove_at. destruct (get_write _ _ _ _ _) as [[d r]|]; [|discriminate]. intros E. injection E as <-. reflexivity.
Qed.

Lemma op_run_snoc n : forall cs g0 c, op_run eqo hash_o hash_l n g0 (cs ++ [c]) =
     match op_run eqo hash_o hash_l n g0 cs with
     | None => None
     | Some (g1, rs) => option_map (fun p => (fst p, rs ++ [snd p])) (op_call eqo hash_o hash_l n g1 c)
     end.
Proof.
  induction cs as [|d cs IH]; intros g0 c; cbn [app op_run].
  - destruct (op_call eqo hash_o hash_l n g0 c) as [[? ?]|]; reflexivity.
  - destruct (op_call eqo hash_o hash_l n g0 d) as [[g1 r]|]; [|reflexivity]. rewrite IH.
    destruct (op_run eqo hash_o hash_l n g1 cs) as [[g2 rs]|]; [|reflexivity]. cbn [option_map fst snd].
    destruct (op_call eqo hash_o hash_l n g2 c) as [[? ?]|]; reflexivity.
Qed.

Definition some {X} (o : option X) : bool := match o with Some _ => true | None => false end.

Lemma touched_snoc l (e : list (oop O)) c : touched l (e ++ [c]) =
  match c with OSet _ l' => touched l e || loc_eqb l' l | _ => touched l e end.
Proof. unfold touched. rewrite existsb_app. cbn. destruct c; rewrite ?orb_false_r; reflexivity. Qed.

Lemma last_object_snoc o e c : last_object eqo o (e ++ [c]) =
  match c with OSet o' _ => if eqo o o' then Some o' else last_object eqo o e | _ => last_object eqo o e end.
Proof. unfold last_object. rewrite fold_left_app. reflexivity. Qed.

Lemma op_history_q n g0 cs : opwf eqo hash_o hash_l n g0 ->
  (forall l, rl hash_l g0 l = None /\ wl hash_l g0 l = None) /\
  (forall o, ro eqo hash_o g0 o = None /\ wo eqo hash_o g0 o = None) ->
  Forall p_plain cs -> forall g rs, op_run eqo hash_o hash_l n g0 cs = Some (g, rs) ->
  let hist := rev (map as_oop cs) in
  (forall l, some (rl hash_l g l) = touched l (published_epoch hist) /\
             some (wl hash_l g l) = touched l (since_publication hist)) /\
  (forall o, rk g o = last_object eqo o (published_epoch hist) /\ wk g o = last_object eqo o (since_publication hist)).
Proof.
  intros W0 E0. cbv zeta.
  induction cs as [|c cs IH] using rev_ind; intros Hp g rs E.
  - injection E as <- <-. destruct E0 as [E1 E2].
    split; [intros l; destruct (E1 l) as [-> ->]; split; reflexivity|intros o; destruct (E2 o) as [A B]].
    unfold ro, wo, rk, wk in *.
    destruct (absl eqo hash_o (d_shift (op_locs g0)) (d_rshards (op_locs g0)) o); [discriminate|].
    destruct (absl eqo hash_o (d_shift (op_locs g0)) (d_shards (op_locs g0)) o); [discriminate|]. split; reflexivity.
  - apply Forall_app in Hp. destruct Hp as [Hp Hc]. inversion_clear Hc as [|? ? Hc' _].
    destruct (op_history eqo hash_o hash_l L n g0 cs W0 E0 Hp) as (g1 & rs1 & E1 & W & _).
    rewrite op_run_snoc, E1 in E. destruct (IH Hp g1 rs1 E1) as [Ha Hb].
    rewrite map_app, rev_app_distr. cbn [map rev app].
    assert (Q : forall r, Some (g1, r) = op_call eqo hash_o hash_l n g1 c ->
       match c with PSet _ _ | PLazyUpdate | PRemoveAt _ _ => False | _ => p_plain c end ->
      (forall l, some (rl hash_l g l) = touched l (published_epoch (as_oop c :: rev (map as_oop cs))) /\
                 some (wl hash_l g l) = touched l (since_publication (as_oop c :: rev (map as_oop cs)))) /\
      (forall o, rk g o = last_object eqo o (published_epoch (as_oop c :: rev (map as_oop cs))) /\
                 wk g o = last_object eqo o (since_publication (as_oop c :: rev (map as_oop cs))))).
    { intros r Er Hq. rewrite <- Er in E. cbn [option_map fst snd] in E. injection E as <- _.
      split; [intros l; destruct (Ha l) as [H1 H2]|intros o; destruct (Hb o) as [H3 H4]];
        destruct c; try destruct Hq; cbn [as_oop published_epoch since_publication];
        rewrite ?touched_snoc, ?last_object_snoc; auto. }
    destruct c as [o l|o l|o| |it it'|it f|l|l|o|o]; cbn [p_plain] in Hc'; try destruct Hc'; cbn [op_call] in E.
    + destruct (op_set_ok eqo hash_o hash_l L n g1 o l W) as (g' & Es & W' & R1 & R2 & F1 & F2). rewrite Es in E.
      destruct (op_set_keys n g1 o l g' W Es) as [K1 K2].
      cbn [option_map fst snd] in E. injection E as <- _. cbn [as_oop published_epoch since_publication].
      split; [intros x; destruct (Ha x) as [H1 H2]|intros y; destruct (Hb y) as [H3 H4]].
      * rewrite R1, F1, touched_snoc. split; [exact H1|]. rewrite <- H2. destruct (loc_eqb x l) eqn:Ex.
        -- apply loc_eqb_eq in Ex. subst x. rewrite loc_eqb_refl. destruct (some _); reflexivity.
        -- replace (loc_eqb l x) with false; [rewrite orb_false_r; reflexivity|]. symmetry. apply loc_eqb_neq.
           apply loc_eqb_neq in Ex. congruence.
      * rewrite K1, K2, last_object_snoc. split; [exact H3|]. destruct (eqo y o); [reflexivity|exact H4].
    + destruct (op_remove_at_ok eqo hash_o hash_l n g1 o l W) as (g' & Es & W' & R1 & R2 & F1 & F2). rewrite Es in E.
      pose proof (op_remove_at_keys g1 o l g' Es) as K.
      cbn [option_map fst snd] in E. injection E as <- _. cbn [as_oop published_epoch since_publication].
      split; [intros x; destruct (Ha x) as [H1 H2]|intros y; destruct (Hb y) as [H3 H4]].
      * rewrite R1, F1, touched_snoc. split; [exact H1|]. rewrite <- H2. destruct (loc_eqb x l); [|reflexivity].
        destruct (wl hash_l g1 x); reflexivity.
      * unfold rk, wk in *. rewrite K, last_object_snoc. split; assumption.
    + destruct (op_lazy_ok eqo hash_o hash_l n g1 W) as (g' & Es & W' & R1 & R2 & F1 & F2). rewrite Es in E.
      destruct (op_lazy_keys n g1 g' W Es) as [K1 K2].
      cbn [option_map fst snd] in E. injection E as <- _. cbn [as_oop published_epoch since_publication].
      split; [intros x; destruct (Ha x) as [H1 H2]; rewrite R1, F1|intros y; destruct (Hb y) as [H3 H4]; rewrite K1, K2];
        (split; [assumption|reflexivity]).
    + apply (Q (OBag (match rl hash_l g1 l with Some b => nonempty b | None => None end))); [|exact I]. cbn [op_call].
      rewrite (op_get_eq eqo hash_o hash_l n g1 l W). reflexivity.
    + apply (Q (OBag (match wl hash_l g1 l with Some b => nonempty b | None => None end))); [|exact I]. cbn [op_call].
      rewrite (op_get_unbuffered_eq eqo hash_o hash_l n g1 l W). reflexivity.
    + apply (Q (OLoc (ro eqo hash_o g1 o))); [|exact I]. cbn [op_call].
      rewrite (op_location_eq eqo hash_o hash_l n g1 o W). reflexivity.
    + apply (Q (OLoc (wo eqo hash_o g1 o))); [|exact I]. cbn [op_call].
      rewrite (op_location_unbuffered_eq eqo hash_o hash_l L n g1 o W). reflexivity.
Qed.

Lemma get_object_eq n g o : opwf eqo hash_o hash_l n g -> op_get_object eqo hash_o g o = Some (rk g o).
Proof.
  intros [_ (Hi & _ & Hr)]. unfold op_get_object, get_key_value, rk, absl, shard_of.
  destruct (wfs_get eqo hash_o _ _ _ o Hr (Hi o)) as (m & Hm & _). unfold idx in *. rewrite Hm. reflexivity.
Qed.

Lemma get_object_unbuffered_eq n g o : opwf eqo hash_o hash_l n g ->
  op_get_object_unbuffered eqo hash_o hash_l g o =
  match wo eqo hash_o g o with
  | None => Some None
  | Some l => match wl hash_l g l with Some b => Some (find (fun x => eqo x o) b) | None => None end
  end.
Proof.
  intros [W Wo]. unfold op_get_object_unbuffered.
  destruct (get_write_ok eqo hash_o L n (op_locs g) o (fun l => l) Wo) as (d & -> & _). fold (wo eqo hash_o g o).
  destruct (wo eqo hash_o g o) as [l|]; [|reflexivity].
  destruct (get_write_ok loc_eqb hash_l LL n (op_objs g) l (fun b => b) W) as (d' & -> & _). fold (wl hash_l g l).
  destruct (wl hash_l g l); reflexivity.
Qed.

Lemma mapM_all {X Y} (f : X -> option Y) (h : X -> Y) l : (forall x, f x = Some (h x)) -> mapM f l = Some (map h l).
Proof. intros H. induction l as [|x l IH]; cbn; [reflexivity|]. rewrite H, IH. reflexivity. Qed.

Lemma iter_eq n g w h : opwf eqo hash_o hash_l n g -> op_iter hash_l g w h =
  Some (flat_map (fun c => map (pair c) (match rl hash_l g c with Some b => b | None => [] end)) (cells w h)).
Proof.
  intros [W _]. unfold op_iter. rewrite (mapM_all _ (fun c => map (pair c) (match rl hash_l g c with Some b => b | None => [] end))).
  - cbn [option_map]. rewrite flat_map_concat_map. reflexivity.
  - intros c. rewrite (read_eq _ _ _ _ _ W). cbn [option_map]. fold (rl hash_l g c). destruct (rl hash_l g c); reflexivity.
Qed.

Lemma empty_eq n g w h : opwf eqo hash_o hash_l n g -> op_empty_bags hash_l g w h =
  Some (filter (fun c => negb (some (rl hash_l g c))) (cells w h)).
Proof.
  intros [W _]. unfold op_empty_bags. rewrite (mapM_all _ (fun c => if some (rl hash_l g c) then [] else [c])).
  - cbn [option_map]. f_equal. generalize (cells w h) as l. intros l. induction l as [|c l IH]; cbn; [reflexivity|].
    rewrite IH. destruct (some (rl hash_l g c)); reflexivity.
  - intros c. rewrite (read_eq _ _ _ _ _ W). cbn [option_map]. fold (rl hash_l g c). destruct (rl hash_l g c); reflexivity.
Qed.
End ParQ.
