(** * Property theorems: the parallel Field2D (C87-C91) *)
From Coq Require Import List Bool ZArith NArith Arith Permutation Reals Lia Lra.
From Verif Require Import F32 F32Facts F32Real F32Ops Grid DashModel DashSpec DashView ObjModel FieldModel FieldSpec FieldProofs FieldReal FieldF32 FieldProps
  PFieldModel PFieldSpec PFieldProofs PFieldConc.
Import ListNotations.
Local Open Scope Z_scope.

Notation shards cpus := (N.to_nat (shard_amount cpus)).
(** A number of processors for which the shards can be counted. *)
Definition cpus_ok (cpus : N) : Prop := (1 <= cpus)%N /\ (cpus * 4 <= 2 ^ 63)%N.

(** ** Concrete vocabulary: objects are numbered, equal when their numbers are, and carry
    their f32 location; 4 shards. *)
Definition hobj (o : obj) : N := (N.of_nat (fst o) * 2 ^ 50)%N.
Definition hcell (l : loc) : N := (Z.to_N (Z.abs (fst l) + 7 * Z.abs (snd l)) * 2 ^ 49)%N.
Lemma obj_lawful : lawful same_obj hobj.
Proof.
  split; unfold same_obj, hobj; intros.
  - apply Nat.eqb_refl.
  - rewrite Nat.eqb_sym. assumption.
  - apply Nat.eqb_eq in H, H0. apply Nat.eqb_eq. congruence.
  - apply Nat.eqb_eq in H. congruence.
Qed.
Notation qop := (pfop FA (O := obj)).
Notation place o := (QSet (A := FA) (o : obj) (snd (o : obj))).
Notation publish_lazy := (QLazyUpdate (A := FA) (O := obj)).
Notation publish_update := (QUpdate (A := FA) (O := obj) (fun x => x) (fun x => x) (fun x => x)).
Notation pfld := (pfield FA (O := obj)).
Definition fresh (t : bool) : pfld := pf_new FA 1 (z 10) (z 10) (z 1) t.
(** The answer to a query after a history; objects of 24 bytes. *)
Definition after {X} (cs : list qop) (q : pfld -> option X) : option X :=
  match pf_run FA same_obj hobj hcell snd 24 (shards 1) (fresh false) cs with Some (f, _) => q f | None => None end.
Definition ids (l : list obj) : list nat := map fst l.
Definition q_objects l (f : pfld) := option_map ids (pf_objects FA hcell f l).
Definition q_location o (f : pfld) := pf_location FA same_obj hobj f o.
Definition q_near l dist (f : pfld) := option_map ids (pf_neighbors FA hcell snd 24 f l dist).

(** ** C87: reads are what was published *)
Theorem C87_history :
  forall (A : arith) (O : Type) (eqo : O -> O -> bool) hash_o hash_l location osize cpus w h d t cs f rs,
    lawful eqo hash_o -> cpus_ok cpus -> Forall (pf_ok A) cs ->
    pf_run A eqo hash_o hash_l location osize (shards cpus) (pf_new A cpus w h d t) cs = Some (f, rs) ->
    let hist := rev cs in
    (forall l, pf_objects A hash_l f l = Some (shown_bag A d (discretize A d l) hist) /\
               pf_count A hash_l f l = Some (length (shown_bag A d (discretize A d l) hist))) /\
    (forall o, pf_location A eqo hash_o f o = Some (option_map snd (shown_place A eqo o hist)) /\
               pf_get A eqo hash_o f o = Some (option_map fst (shown_place A eqo o hist))) /\
    counts_shown A eqo hist (pf_num A f) /\
    (forall n, counts_shown A eqo hist n -> n = pf_num A f).
Proof.
  intros A O eqo hash_o hash_l location osize cpus w h d t cs f rs L [H1 H2] K E.
  destruct (new_state A eqo hash_o hash_l w h d t cpus H1 H2) as [W0 S0].
  destruct (run_state A eqo hash_o hash_l L w h d t location osize _ cs _ [] f rs W0 S0 K E) as [W S]. rewrite app_nil_r in S.
  cbv zeta. split; [|split; [|split]].
  - intros l. rewrite (objects_eq A eqo hash_o hash_l w h d t _ f l W), (count_eq A eqo hash_o hash_l w h d t _ f l W).
    destruct S as [_ Sc]. destruct (Sc (discretize A d l)) as [-> _]. rewrite orempty_entry. auto.
  - intros o. rewrite (location_eq A eqo hash_o hash_l w h d t _ f o W), (get_eq A eqo hash_o hash_l w h d t _ f o W).
    destruct S as [So _]. destruct (So o) as (-> & _). auto.
  - exact (num_ok A eqo hash_o hash_l L w h d t _ f (rev cs) W S).
  - intros n Hn. pose proof (num_ok A eqo hash_o hash_l L w h d t _ f (rev cs) W S) as Hm.
    apply Nat.le_antisymm; eapply (counts_le A eqo hash_o hash_l L location); eassumption.
Qed.
Print Assumptions C87_history.

(** Placing, publishing and these queries never panic. *)
Theorem C87_no_panic :
  forall (A : arith) (O : Type) (eqo : O -> O -> bool) hash_o hash_l location osize cpus w h d t cs,
    lawful eqo hash_o -> cpus_ok cpus -> Forall (pf_ok A) cs -> Forall (pf_calm A) cs ->
    exists f rs, pf_run A eqo hash_o hash_l location osize (shards cpus) (pf_new A cpus w h d t) cs = Some (f, rs) /\
      length rs = length cs.
Proof.
  intros A O eqo hash_o hash_l location osize cpus w h d t cs L [H1 H2] K C.
  destruct (new_state A eqo hash_o hash_l w h d t cpus H1 H2) as [W0 S0].
  exact (run_calm A eqo hash_o hash_l L w h d t location osize _ cs _ [] W0 S0 K C).
Qed.
Print Assumptions C87_no_panic.

(** With [lazy_update] only, [get_objects] answers like the sequential field. *)
Theorem C87_same_as_sequential :
  forall (A : arith) (O : Type) (eqo : O -> O -> bool) hash_o hash_l location osize cpus w h d t cs f rs,
    lawful eqo hash_o -> cpus_ok cpus -> good_size A w h d -> Forall (no_update A) cs ->
    Forall (f_in A w h d) (filter_map (as_fop A) cs) ->
    pf_run A eqo hash_o hash_l location osize (shards cpus) (pf_new A cpus w h d t) cs = Some (f, rs) ->
    exists g rs', f_run A eqo location (f_new A w h d t) (filter_map (as_fop A) cs) = Some (g, rs') /\
      forall l, in_field A w h d l -> pf_objects A hash_l f l = f_get A g l /\ pf_count A hash_l f l = f_count A g l.
Proof.
  intros A O eqo hash_o hash_l location osize cpus w h d t cs f rs L C GS U I E.
  assert (K : Forall (pf_ok A) cs) by (revert U; apply Forall_impl; intros c; destruct c; cbn; tauto).
  destruct (C87_history A O eqo hash_o hash_l location osize cpus w h d t cs f rs L C K E) as (Hb & _).
  assert (Ur : Forall (no_update A) (rev cs)) by (apply Forall_rev; exact U).
  destruct (epochs A eqo d cs U) as [_ Ep].
  assert (EX : forall l, in_field A w h d l -> exists g rs', f_run A eqo location (f_new A w h d t) (filter_map (as_fop A) cs) = Some (g, rs') /\
     f_get A g l = Some (shown_bag A d (discretize A d l) (rev cs)) /\ f_count A g l = Some (length (shown_bag A d (discretize A d l) (rev cs)))).
  { intros l Hl. destruct (C28_cells A O eqo location w h d t (filter_map (as_fop A) cs) l GS I Hl) as (g & rs' & E1 & _ & E2 & _ & E3).
    exists g, rs'. split; [exact E1|]. rewrite E2, E3. rewrite shown_published by exact Ur. unfold readable. rewrite Ep. auto. }
  destruct (history A eqo location w h d t GS (filter_map (as_fop A) cs) I) as (g & rs' & Eg & _). exists g, rs'. split; [exact Eg|].
  intros l Hl. destruct (EX l Hl) as (g' & rs'' & E1 & E2 & E3). rewrite Eg in E1. injection E1 as <- <-.
  destruct (Hb l) as [-> ->]. rewrite E2, E3. auto.
Qed.
Print Assumptions C87_same_as_sequential.

Definition ex_calls : list qop :=
  [place (at_ 1%nat 2 2); place (at_ 2%nat 2 2); place (at_ 1%nat 5 5); publish_lazy;
   place (at_ 3%nat 2 2); place (at_ 2%nat 9 9); publish_update; place (at_ 4%nat 0 0)].
Example C87_concrete :
  cpus_ok 1 /\ lawful same_obj hobj /\ Forall (pf_ok FA) ex_calls /\ Forall (pf_calm FA) ex_calls /\
  after ex_calls (q_objects (z 2, z 2)) = Some [3]%nat /\
  after ex_calls (q_objects (z 5, z 5)) = Some [1]%nat /\
  after ex_calls (q_objects (z 9, z 9)) = Some [2]%nat /\
  after ex_calls (fun f => Some (pf_num FA f)) = Some 3%nat /\
  after ex_calls (q_location (at_ 4%nat 0 0)) = Some None.
Proof.
  split; [split; [reflexivity|apply N.leb_le; vm_compute; reflexivity]|]. split; [exact obj_lawful|].
  split; [repeat constructor; intros x; apply Permutation_refl|]. split; [repeat constructor|].
  repeat split; vm_compute; reflexivity.
Qed.

(** ** C88: an object is read where it was last placed, and only there *)
(** [lazy_update] only, and no object placed twice between two publications. *)
Theorem C88_one_place_partial :
  forall (A : arith) (O : Type) (eqo : O -> O -> bool) hash_o hash_l location osize cpus w h d t cs f rs,
    lawful eqo hash_o -> cpus_ok cpus -> Forall (no_update A) cs ->
    ForallOrdPairs (fun p q => eqo (fst p) (fst q) = false) (published A (rev cs)) ->
    pf_run A eqo hash_o hash_l location osize (shards cpus) (pf_new A cpus w h d t) cs = Some (f, rs) ->
    forall o l b, pf_objects A hash_l f l = Some b ->
    ForallOrdPairs (fun x y => eqo x y = false) b /\
    (has eqo o b = true <->
     exists l', pf_location A eqo hash_o f o = Some (Some l') /\ discretize A d l' = discretize A d l).
Proof.
  intros A O eqo hash_o hash_l location osize cpus w h d t cs f rs L C U D E o l b Eb.
  assert (K : Forall (pf_ok A) cs) by (revert U; apply Forall_impl; intros c; destruct c; cbn; tauto).
  destruct (C87_history A O eqo hash_o hash_l location osize cpus w h d t cs f rs L C K E) as (Hb & Ho & _).
  assert (Ur : Forall (no_update A) (rev cs)) by (apply Forall_rev; exact U).
  destruct (Hb l) as [Hb1 _]. rewrite Hb1 in Eb. injection Eb as <-. rewrite shown_published by exact Ur.
  destruct (Ho o) as [-> _]. rewrite place_published by exact Ur. unfold in_bag. clear -D L.
  assert (EQ : forall x y, eqo x y = eqo y x).
  { intros x y. destruct (eqo x y) eqn:E; [symmetry; apply (eqk_sym _ _ L); exact E|].
    destruct (eqo y x) eqn:E'; [apply (eqk_sym _ _ L) in E'; congruence|reflexivity]. }
  induction D as [|q ps Hq D [IH1 IH2]]; cbn [filter map].
  - split; [constructor|]. split; [discriminate|]. intros (l' & H & _). discriminate.
  - rewrite last_place_cons. rewrite Forall_forall in Hq.
    assert (HN : forall x, has eqo x (map fst (filter (fun p => loc_eqb (discretize A d (snd p)) (discretize A d l)) ps)) = true ->
       exists p, In p ps /\ eqo (fst p) x = true).
    { intros x Hx. unfold has in Hx. apply existsb_exists in Hx. destruct Hx as (y & Hy & Ey). apply in_map_iff in Hy.
      destruct Hy as (p & <- & Hp). apply filter_In in Hp. exists p. tauto. }
    assert (LN : eqo o (fst q) = true -> last_place A eqo o ps = None).
    { intros Eo. apply last_place_none. intros p Hp. specialize (Hq p Hp). destruct (eqo o (fst p)) eqn:Ep; [|reflexivity].
      rewrite (eqk_trans _ _ L (fst q) o (fst p)) in Hq; [discriminate| |exact Ep]. rewrite EQ. exact Eo. }
    destruct (loc_eqb (discretize A d (snd q)) (discretize A d l)) eqn:Ec; cbn [map].
    + apply loc_eqb_eq in Ec. split.
      * constructor; [|exact IH1]. apply Forall_forall. intros x Hx. apply in_map_iff in Hx. destruct Hx as (p & <- & Hp).
        apply filter_In in Hp. apply Hq. tauto.
      * unfold has in *. cbn [existsb]. destruct (eqo (fst q) o) eqn:Eo; cbn [orb].
        -- split; [|reflexivity]. intros _. rewrite EQ in Eo. rewrite (LN Eo), Eo. exists (snd q). auto.
        -- rewrite EQ in Eo. rewrite Eo. destruct (last_place A eqo o ps); exact IH2.
    + split; [exact IH1|]. destruct (eqo o (fst q)) eqn:Eo.
      * rewrite (LN eq_refl). split.
        -- intros Hx. apply HN in Hx. destruct Hx as (p & Hp & Ep). specialize (Hq p Hp).
           rewrite (eqk_trans _ _ L (fst q) o (fst p)) in Hq; [discriminate|rewrite EQ; exact Eo|rewrite EQ; exact Ep].
        -- intros (l' & Hl & Hd). injection Hl as <-. exfalso. rewrite Hd, loc_eqb_refl in Ec. discriminate.
      * destruct (last_place A eqo o ps); exact IH2.
Qed.
Print Assumptions C88_one_place_partial.

Example C88_concrete :
  let cs := [place (at_ 1%nat 2 2); place (at_ 2%nat 2 2); publish_lazy; place (at_ 1%nat 3 3); publish_lazy] in
  Forall (no_update FA) cs /\ ForallOrdPairs (fun p q => same_obj (fst p) (fst q) = false) (published FA (rev cs)) /\
  after cs (q_objects (z 2, z 2)) = Some [] /\ after cs (q_objects (z 3, z 3)) = Some [1]%nat.
Proof. cbv zeta. split; [repeat constructor|]. split; [repeat constructor|]. split; vm_compute; reflexivity. Qed.

(** Placed twice before a publication, the object is read at both places; at one place it
    is listed twice. *)
Theorem C88_moved_refuted :
  let cs := [place (at_ 1%nat 2 2); place (at_ 1%nat 5 5); place (at_ 1%nat 5 5); publish_lazy] in
  after cs (q_objects (z 2, z 2)) = Some [1]%nat /\ after cs (q_objects (z 5, z 5)) = Some [1; 1]%nat /\
  after cs (q_location (at_ 1%nat 2 2)) = Some (Some (z 5, z 5)) /\ after cs (fun f => Some (pf_num FA f)) = Some 1%nat.
Proof. cbv zeta. repeat split; vm_compute; reflexivity. Qed.
Print Assumptions C88_moved_refuted.

(** With [update], an object that moved between publications is still read where it was. *)
Theorem C88_update_refuted :
  let cs := [place (at_ 1%nat 2 2); publish_update; place (at_ 1%nat 5 5); publish_update] in
  after cs (q_objects (z 2, z 2)) = Some [1]%nat /\ after cs (q_objects (z 5, z 5)) = Some [1]%nat /\
  after cs (q_location (at_ 1%nat 2 2)) = Some (Some (z 5, z 5)).
Proof. cbv zeta. repeat split; vm_compute; reflexivity. Qed.
Print Assumptions C88_update_refuted.

(** With [update] after [lazy_update], an object that has a location is in no bag. *)
Theorem C88_vanished_refuted :
  let cs := [place (at_ 1%nat 2 2); publish_lazy; place (at_ 2%nat 2 2); publish_update] in
  after cs (q_location (at_ 1%nat 2 2)) = Some (Some (z 2, z 2)) /\ after cs (q_objects (z 2, z 2)) = Some [2]%nat /\
  after cs (fun f => Some (pf_num FA f)) = Some 2%nat.
Proof. cbv zeta. repeat split; vm_compute; reflexivity. Qed.
Print Assumptions C88_vanished_refuted.

(** ** C89: neighbour queries *)
(** The queries reserve room before they look: at least one object must be published and
    the room asked for must be a possible size. *)
Definition room_ok (A : arith) (osize : N) (w h dist : num A) (published_objects : nat) : bool :=
  match N.of_nat published_objects with
  | 0%N => false
  | n => ((as_usize A (mul A w h) / n * as_usize A (mul A dist dist)) mod 2 ^ 64 * osize <=? 9223372036854775807)%N
  end.

Lemma room_capacity A O eqo hash_o hash_l osize w h d t n (f : pfield A (O := O)) dist :
  pfwf A eqo hash_o hash_l w h d t n f ->
  if room_ok A osize w h dist (pf_num A f)
  then exists m, pf_capacity A f dist = Some m /\ capacity_ok osize m = true
  else match pf_capacity A f dist with None => True | Some m => capacity_ok osize m = false end.
Proof.
  intros W. rewrite (capacity_eq A eqo hash_o hash_l w h d t n f dist W). unfold room_ok, capacity_ok.
  destruct (N.of_nat (pf_num A f)) as [|m]; [exact I|].
  destruct ((as_usize A (mul A w h) / N.pos m * as_usize A (mul A dist dist)) mod 2 ^ 64 * osize <=? 9223372036854775807)%N eqn:E.
  - eexists. split; [reflexivity|first [exact E|reflexivity]].
  - reflexivity.
Qed.

Lemma no_room A O eqo hash_o hash_l location osize w h d t n (f : pfield A (O := O)) l dist :
  pfwf A eqo hash_o hash_l w h d t n f -> room_ok A osize w h dist (pf_num A f) = false ->
  pf_neighbors A hash_l location osize f l dist = None /\ pf_relax A hash_l osize f l dist = None.
Proof.
  intros W R. pose proof (room_capacity A O eqo hash_o hash_l osize w h d t n f dist W) as H. rewrite R in H.
  unfold pf_neighbors, pf_relax. destruct (pf_capacity A f dist) as [m|]; [rewrite H|]; auto.
Qed.

Theorem C89_same_as_sequential :
  forall (A : arith) (O : Type) (eqo : O -> O -> bool) hash_o hash_l location osize cpus w h d t cs f rs,
    lawful eqo hash_o -> cpus_ok cpus -> good_size A w h d -> Forall (no_update A) cs ->
    Forall (f_in A w h d) (filter_map (as_fop A) cs) ->
    pf_run A eqo hash_o hash_l location osize (shards cpus) (pf_new A cpus w h d t) cs = Some (f, rs) ->
    exists g rs', f_run A eqo location (f_new A w h d t) (filter_map (as_fop A) cs) = Some (g, rs') /\
      forall l dist,
      pf_neighbors A hash_l location osize f l dist =
        (if room_ok A osize w h dist (pf_num A f) then f_neighbors A location g l dist else None) /\
      pf_relax A hash_l osize f l dist =
        (if room_ok A osize w h dist (pf_num A f) then f_relax A g l dist else None).
Proof.
  intros A O eqo hash_o hash_l location osize cpus w h d t cs f rs L [H1 H2] GS U I E.
  assert (K : Forall (pf_ok A) cs) by (revert U; apply Forall_impl; intros c; destruct c; cbn; tauto).
  assert (Ur : Forall (no_update A) (rev cs)) by (apply Forall_rev; exact U).
  destruct (new_state A eqo hash_o hash_l w h d t cpus H1 H2) as [W0 S0].
  destruct (run_state A eqo hash_o hash_l L w h d t location osize _ cs _ [] f rs W0 S0 K E) as [W [_ Sc]]. rewrite app_nil_r in Sc.
  destruct (epochs A eqo d cs U) as [_ Ep].
  destruct (history A eqo location w h d t GS (filter_map (as_fop A) cs) I) as (g & rs' & Eg & _ & Wg & Sg). exists g, rs'.
  split; [exact Eg|]. intros l dist. pose proof (room_capacity A O eqo hash_o hash_l osize w h d t _ f dist W) as R.
  destruct (room_ok A osize w h dist (pf_num A f)).
  - destruct R as (m & Em & Cm).
    apply (queries_eq A eqo hash_o hash_l location osize w h d t _ f g (fun c => in_bag A d c (published A (rev cs))) l dist W GS Wg) with m; [| |exact Em|exact Cm].
    + intros c Hc. destruct (Sg c Hc) as [-> _]. unfold readable. rewrite Ep. reflexivity.
    + intros c. destruct (Sc c) as [-> _]. rewrite orempty_entry. apply shown_published. exact Ur.
  - unfold pf_neighbors, pf_relax. destruct (pf_capacity A f dist) as [m|]; [rewrite R|]; auto.
Qed.
Print Assumptions C89_same_as_sequential.

(** So, with exact numbers on the plane: what is returned lies within the distance, ... *)
Theorem C89_plane_exact :
  forall (O : Type) (eqo : O -> O -> bool) hash_o hash_l location osize cpus w h d cs f rs l dist r o,
    lawful eqo hash_o -> cpus_ok cpus -> usable_R w h d -> Forall (no_update RA) cs ->
    Forall (f_inside RA w h) (filter_map (as_fop RA) cs) -> Forall (placed_at_home RA location) (filter_map (as_fop RA) cs) ->
    pf_run RA eqo hash_o hash_l location osize (shards cpus) (pf_new RA cpus w h d false) cs = Some (f, rs) ->
    pf_neighbors RA hash_l location osize f l dist = Some r -> In o r ->
    exists l', In (o, l') (published RA (rev cs)) /\ (plane_distance l l' <= dist)%R.
Proof.
  intros O eqo hash_o hash_l location osize cpus w h d cs f rs l dist r o L C UR U I P E En Ho.
  destruct (C89_same_as_sequential RA O eqo hash_o hash_l location osize cpus w h d false cs f rs L C
    ltac:(destruct UR as (? & ? & ? & ? & ? & ?); apply good_size_R; auto) U (calls_in_R w h d _ UR I) E) as (g & rs' & Eg & Hq).
  destruct (Hq l dist) as [Hn _]. rewrite En in Hn. destruct (room_ok RA osize w h dist (pf_num RA f)); [|discriminate].
  destruct (C29_plane_exact O eqo location w h d _ g rs' l dist r o UR I P Eg (eq_sym Hn) Ho) as (l' & Hl & Hd).
  exists l'. split; [|exact Hd]. unfold readable in Hl. destruct (epochs RA eqo d cs U) as [_ Ep]. rewrite Ep in Hl. exact Hl.
Qed.
Print Assumptions C89_plane_exact.

(** ... and in f32, by the same notion of distance, when the discretization is a power of two; ... *)
Theorem C89_f32_partial :
  forall (O : Type) (eqo : O -> O -> bool) hash_o hash_l location osize cpus w h d cs f rs l dist r o,
    lawful eqo hash_o -> cpus_ok cpus -> usable w h d -> power_of_two d ->
    (f2R w + f2R d < fmax)%R -> (f2R h + f2R d < fmax)%R -> Forall (no_update FA) cs ->
    Forall (call_ok w h) (filter_map (as_fop FA) cs) -> Forall (placed_at_home FA location) (filter_map (as_fop FA) cs) ->
    pf_run FA eqo hash_o hash_l location osize (shards cpus) (pf_new FA cpus w h d false) cs = Some (f, rs) ->
    fok (fst l) -> fok (snd l) -> fok dist ->
    pf_neighbors FA hash_l location osize f l dist = Some r -> In o r ->
    exists l', In (o, l') (published FA (rev cs)) /\ fleb (distance FA l l' w h false) dist = true.
Proof.
  intros O eqo hash_o hash_l location osize cpus w h d cs f rs l dist r o L C UR P2 Mw Mh U I P E K1 K2 K3 En Ho.
  destruct (C89_same_as_sequential FA O eqo hash_o hash_l location osize cpus w h d false cs f rs L C
    (usable_good w h d UR) U (calls_in w h d _ UR I) E) as (g & rs' & Eg & Hq).
  destruct (Hq l dist) as [Hn _]. rewrite En in Hn. destruct (room_ok FA osize w h dist (pf_num FA f)); [|discriminate].
  destruct (C29_f32_partial O eqo location w h d _ g rs' l dist r o UR P2 Mw Mh I P Eg K1 K2 K3 (eq_sym Hn) Ho) as (l' & Hl & Hd).
  exists l'. split; [|exact Hd]. unfold readable in Hl. destruct (epochs FA eqo d cs U) as [_ Ep]. rewrite Ep in Hl. exact Hl.
Qed.
Print Assumptions C89_f32_partial.

(** ... and what lies at least one bag within the distance is returned, where there is room. *)
Theorem C89_inner_partial :
  forall (O : Type) (eqo : O -> O -> bool) hash_o hash_l location osize cpus w h d t cs f rs (l : R * R) dist o,
    lawful eqo hash_o -> cpus_ok cpus -> usable_R w h d -> Forall (no_update RA) cs ->
    Forall (f_inside RA w h) (filter_map (as_fop RA) cs) ->
    pf_run RA eqo hash_o hash_l location osize (shards cpus) (pf_new RA cpus w h d t) cs = Some (f, rs) ->
    (Rabs (fst l) <= 2 ^ 29 * d)%R -> (Rabs (snd l) <= 2 ^ 29 * d)%R -> (0 < dist <= 2 ^ 29 * d)%R ->
    In (o, location o) (published RA (rev cs)) -> (0 <= fst (location o) < w)%R -> (0 <= snd (location o) < h)%R ->
    (plane_distance l (location o) <= dist - d)%R ->
    room_ok RA osize w h dist (pf_num RA f) = true ->
    exists r, pf_neighbors RA hash_l location osize f l dist = Some r /\ In o r.
Proof.
  intros O eqo hash_o hash_l location osize cpus w h d t cs f rs l dist o L C UR U I E Lx Ly Ld Ho Ox Oy Hp Hr.
  destruct (C89_same_as_sequential RA O eqo hash_o hash_l location osize cpus w h d t cs f rs L C
    ltac:(destruct UR as (? & ? & ? & ? & ? & ?); apply good_size_R; auto) U (calls_in_R w h d _ UR I) E) as (g & rs' & Eg & Hq).
  destruct (Hq l dist) as [Hn _]. rewrite Hr in Hn.
  destruct (C30_inner_partial O eqo location w h d t _ g rs' l dist o UR I Eg Lx Ly Ld) as (r & Er & Hin); [|exact Ox|exact Oy|exact Hp|].
  - unfold readable. destruct (epochs RA eqo d cs U) as [_ Ep]. rewrite Ep. exact Ho.
  - exists r. rewrite Hn. auto.
Qed.
Print Assumptions C89_inner_partial.

(** Whatever the history, they panic where there is no room. *)
Theorem C89_no_room_refuted :
  forall (A : arith) (O : Type) (eqo : O -> O -> bool) hash_o hash_l location osize cpus w h d t cs f rs l dist,
    lawful eqo hash_o -> cpus_ok cpus -> Forall (pf_ok A) cs ->
    pf_run A eqo hash_o hash_l location osize (shards cpus) (pf_new A cpus w h d t) cs = Some (f, rs) ->
    room_ok A osize w h dist (pf_num A f) = false ->
    pf_neighbors A hash_l location osize f l dist = None /\ pf_relax A hash_l osize f l dist = None.
Proof.
  intros A O eqo hash_o hash_l location osize cpus w h d t cs f rs l dist L [H1 H2] K E.
  destruct (new_state A eqo hash_o hash_l w h d t cpus H1 H2) as [W0 S0].
  destruct (run_state A eqo hash_o hash_l L w h d t location osize _ cs _ [] f rs W0 S0 K E) as [W _].
  apply (no_room A O eqo hash_o hash_l location osize w h d t _ f l dist W).
Qed.
Print Assumptions C89_no_room_refuted.

(** An empty field: the queries panic, whatever is asked, ... *)
Theorem C89_empty_refuted :
  forall (A : arith) (O : Type) hash_l (location : O -> num A * num A) osize cpus w h d t l dist,
    pf_neighbors A hash_l location osize (pf_new A cpus w h d t) l dist = None /\
    pf_relax A (O := O) hash_l osize (pf_new A cpus w h d t) l dist = None.
Proof.
  intros A O hash_l location osize cpus w h d t l dist.
  assert (E : pf_capacity A (pf_new A (O := O) cpus w h d t) dist = None).
  { unfold pf_capacity. cbn [pf_new pf_index]. replace (r_len (dash_new (K := O) (V := loc) cpus)) with 0%nat; [reflexivity|].
    unfold r_len, dash_new. cbn [d_rshards]. induction (N.to_nat (shard_amount cpus)) as [|k IH]; [reflexivity|exact IH]. }
  unfold pf_neighbors, pf_relax. rewrite E. auto.
Qed.
Print Assumptions C89_empty_refuted.

(** ... also after a step in which no object was placed, and when the distance is large
    (here 2^32), where the sequential field answers. *)
Definition big : f32 := f_of_Z (2 ^ 32).
Theorem C89_panic_refuted :
  after [place (at_ 1%nat 2 2); publish_lazy; publish_lazy] (q_near (z 2, z 2) (z 1)) = None /\
  after [place (at_ 1%nat 2 2); publish_lazy] (q_near (z 2, z 2) (z 1)) = Some [1]%nat /\
  after [place (at_ 1%nat 2 2); publish_lazy] (fun f => Some (room_ok FA 24 (z 10) (z 10) big (pf_num FA f))) = Some false /\
  after [place (at_ 1%nat 2 2); publish_lazy] (q_near (z 2, z 2) big) = None.
Proof.
  split; [vm_compute; reflexivity|]. split; [vm_compute; reflexivity|]. split; [vm_compute; reflexivity|].
  unfold after. destruct (pf_run _ _ _ _ _ _ _ _ _) as [[f rs]|] eqn:E; [|reflexivity].
  destruct (new_state FA same_obj hobj hcell (z 10) (z 10) (z 1) false 1 ltac:(reflexivity) ltac:(discriminate)) as [W0 S0].
  assert (K : Forall (pf_ok FA) [place (at_ 1%nat 2 2); publish_lazy]) by (repeat constructor).
  destruct (run_state FA same_obj hobj hcell obj_lawful (z 10) (z 10) (z 1) false snd 24 _ _ _ [] f rs W0 S0 K E) as [W _].
  assert (N1 : pf_num FA f = 1%nat).
  { assert (H : after [place (at_ 1%nat 2 2); publish_lazy] (fun f => Some (pf_num FA f)) = Some 1%nat) by (vm_compute; reflexivity).
    unfold after in H. rewrite E in H. injection H as H. exact H. }
  assert (R : room_ok FA 24 (z 10) (z 10) big (pf_num FA f) = false) by (rewrite N1; vm_compute; reflexivity).
  destruct (no_room FA obj same_obj hobj hcell snd 24 (z 10) (z 10) (z 1) false _ f (z 2, z 2) big W R) as [En _].
  exact (f_equal (option_map ids) En).
Qed.
Print Assumptions C89_panic_refuted.

Example C89_concrete :
  let cs := [place (at_ 1%nat 2 2); place (at_ 2%nat 3 2); place (at_ 3%nat 9 9); publish_lazy] in
  usable (z 10) (z 10) (z 1) /\ Forall (no_update FA) cs /\ Forall (call_ok (z 10) (z 10)) (filter_map (as_fop FA) cs) /\
  room_ok FA 24 (z 10) (z 10) (z 2) 3 = true /\
  after cs (q_near (z 2, z 2) (z 2)) = Some [1; 2]%nat.
Proof.
  cbv zeta. split.
  { split; [apply pos_int; lia|]. split; [apply pos_int; lia|]. split; [apply pos_int; lia|].
    change (cols FA (z 10) (z 1)) with 11. lia. }
  split; [repeat constructor|]. split; [repeat constructor; vm_compute; reflexivity|].
  split; vm_compute; reflexivity.
Qed.

(** ** C90: unbuffered queries see the placements being made *)
Theorem C90_unbuffered :
  forall (A : arith) (O : Type) (eqo : O -> O -> bool) hash_o hash_l location osize cpus w h d t cs f rs,
    lawful eqo hash_o -> cpus_ok cpus -> Forall (pf_ok A) cs ->
    pf_run A eqo hash_o hash_l location osize (shards cpus) (pf_new A cpus w h d t) cs = Some (f, rs) ->
    forall o,
    match last_place A eqo o (recent A (rev cs)) with
    | None => pf_get_unbuffered A eqo hash_o hash_l f o = Some None /\ pf_location_unbuffered A eqo hash_o f o = None
    | Some (o', l) =>
        pf_location_unbuffered A eqo hash_o f o = Some (Some l) /\
        exists o'', pf_get_unbuffered A eqo hash_o hash_l f o = Some (Some o'') /\ eqo o o'' = true /\
          In o'' (in_bag A d (discretize A d l) (recent A (rev cs)))
    end.
Proof.
  intros A O eqo hash_o hash_l location osize cpus w h d t cs f rs L [H1 H2] K E o.
  destruct (new_state A eqo hash_o hash_l w h d t cpus H1 H2) as [W0 S0].
  destruct (run_state A eqo hash_o hash_l L w h d t location osize _ cs _ [] f rs W0 S0 K E) as [W [So Sc]]. rewrite app_nil_r in So, Sc.
  rewrite (get_unbuffered_eq A eqo hash_o hash_l L w h d t _ f o W), (location_unbuffered_eq A eqo hash_o hash_l L w h d t _ f o W).
  destruct (So o) as (_ & -> & _). destruct (last_place A eqo o (recent A (rev cs))) as [[o' l]|] eqn:El; [|auto]. cbn [snd].
  split; [reflexivity|]. destruct (Sc (discretize A d l)) as [_ ->].
  apply last_place_In in El. destruct El as [El1 El2]. cbn [fst] in El2. apply in_bag_In with (d := d) in El1.
  destruct (find (fun x => eqo x o) (in_bag A d (discretize A d l) (recent A (rev cs)))) as [o''|] eqn:Ef.
  - exists o''. destruct (in_bag A d (discretize A d l) (recent A (rev cs))) as [|x b] eqn:Eb; [destruct El1|]. cbn [bag_entry].
    rewrite Ef. split; [reflexivity|]. apply find_some in Ef. split; [apply (eqk_sym _ _ L); tauto|tauto].
  - exfalso. pose proof (find_none _ _ Ef o' El1) as C. cbv beta in C. rewrite (eqk_sym _ _ L o o' El2) in C. discriminate.
Qed.
Print Assumptions C90_unbuffered.

(** ** C87 again: the answers given along the way are the same ones *)
Lemma run_split A O eqo hash_o hash_l location osize n (cs1 cs2 : list (pfop A (O := O))) f0 f rs :
  pf_run A eqo hash_o hash_l location osize n f0 (cs1 ++ cs2) = Some (f, rs) ->
  exists f1 rs1 rs2, pf_run A eqo hash_o hash_l location osize n f0 cs1 = Some (f1, rs1) /\
    pf_run A eqo hash_o hash_l location osize n f1 cs2 = Some (f, rs2) /\ rs = rs1 ++ rs2 /\ length rs1 = length cs1.
Proof.
  revert f0 rs. induction cs1 as [|c cs1 IH]; intros f0 rs E; [exists f0, [], rs; auto|].
  cbn [app pf_run] in *. destruct (pf_step A eqo hash_o hash_l location osize n f0 c) as [[f' r]|]; [|discriminate].
  destruct (pf_run A eqo hash_o hash_l location osize n f' (cs1 ++ cs2)) as [[f'' rs']|] eqn:E'; [|discriminate].
  cbn [option_map fst snd] in E. injection E as -> <-.
  destruct (IH f' rs' E') as (f1 & rs1 & rs2 & -> & E2 & -> & E4). exists f1, (r :: rs1), rs2. cbn [option_map fst snd app length].
  rewrite E4. auto.
Qed.

Theorem C87_answers :
  forall (A : arith) (O : Type) (eqo : O -> O -> bool) hash_o hash_l location osize cpus w h d t cs1 c cs2 f rs,
    lawful eqo hash_o -> cpus_ok cpus -> Forall (pf_ok A) (cs1 ++ c :: cs2) ->
    pf_run A eqo hash_o hash_l location osize (shards cpus) (pf_new A cpus w h d t) (cs1 ++ c :: cs2) = Some (f, rs) ->
    exists r, nth_error rs (length cs1) = Some r /\ answers A eqo d (rev cs1) c r.
Proof.
  intros A O eqo hash_o hash_l location osize cpus w h d t cs1 c cs2 f rs L C K E.
  destruct (run_split _ _ _ _ _ _ _ _ _ _ _ _ _ E) as (f1 & rs1 & rs2 & E1 & E2 & -> & E4).
  apply Forall_app in K. destruct K as [K1 K2].
  destruct (C87_history A O eqo hash_o hash_l location osize cpus w h d t cs1 f1 rs1 L C K1 E1) as (Hb & Ho & Hn & _).
  pose proof (C90_unbuffered A O eqo hash_o hash_l location osize cpus w h d t cs1 f1 rs1 L C K1 E1) as Hu.
  cbn [pf_run] in E2. destruct (pf_step A eqo hash_o hash_l location osize (shards cpus) f1 c) as [[f' r]|] eqn:Es; [|discriminate].
  destruct (pf_run A eqo hash_o hash_l location osize (shards cpus) f' cs2) as [[f'' rs']|]; [|discriminate].
  cbn [option_map fst snd] in E2. injection E2 as -> <-.
  exists r. split; [rewrite nth_error_app2 by lia; rewrite E4, Nat.sub_diag; reflexivity|].
  destruct c as [o l| |it it' it''|o|l|l|o|o|o| |l dist|l dist]; cbn [pf_step] in Es.
  - destruct (pf_set A eqo hash_o hash_l f1 o l); [|discriminate]. injection Es as _ <-. exact I.
  - destruct (pf_lazy_update A (shards cpus) f1); [|discriminate]. injection Es as _ <-. exact I.
  - destruct (pf_update A eqo it it' it'' (shards cpus) f1); [|discriminate]. injection Es as _ <-. exact I.
  - destruct (Ho o) as [_ Eo]. rewrite Eo in Es. injection Es as _ <-. reflexivity.
  - destruct (Hb l) as [Eb _]. rewrite Eb in Es. injection Es as _ <-. reflexivity.
  - destruct (Hb l) as [_ Eb]. rewrite Eb in Es. injection Es as _ <-. reflexivity.
  - destruct (Ho o) as [Eo _]. rewrite Eo in Es. injection Es as _ <-. reflexivity.
  - specialize (Hu o). cbn [answers].
    destruct (last_place A eqo o (recent A (rev cs1))) as [[o' l]|]; [destruct Hu as [Eu _]|destruct Hu as [_ Eu]]; rewrite Eu in Es; [|discriminate].
    injection Es as _ <-. cbn [answers option_map snd]. split; [discriminate|reflexivity].
  - specialize (Hu o). cbn [answers].
    destruct (last_place A eqo o (recent A (rev cs1))) as [[o' l]|]; [destruct Hu as (_ & o'' & Eu & H1 & H2)|destruct Hu as [Eu _]]; rewrite Eu in Es; injection Es as _ <-.
    + exists o''. auto.
    + reflexivity.
  - injection Es as _ <-. exact Hn.
  - destruct (pf_neighbors A hash_l location osize f1 l dist); [|discriminate]. injection Es as _ <-. exact I.
  - destruct (pf_relax A hash_l osize f1 l dist); [|discriminate]. injection Es as _ <-. exact I.
Qed.
Print Assumptions C87_answers.

(** [get_location_unbuffered] answers [None] for no object: it panics instead, for instance
    for every object right after a publication. *)
Theorem C90_panic_refuted :
  forall (A : arith) (O : Type) (eqo : O -> O -> bool) hash_o hash_l location osize cpus w h d t o l,
    lawful eqo hash_o -> cpus_ok cpus ->
    pf_run A eqo hash_o hash_l location osize (shards cpus) (pf_new A cpus w h d t)
      [QSet o l; QLazyUpdate; QLocationUnbuffered o] = None.
Proof.
  intros A O eqo hash_o hash_l location osize cpus w h d t o l L C.
  destruct (C87_no_panic A O eqo hash_o hash_l location osize cpus w h d t [QSet o l; QLazyUpdate] L C
    ltac:(repeat constructor) ltac:(repeat constructor)) as (f & rs & E & _).
  pose proof (C90_unbuffered A O eqo hash_o hash_l location osize cpus w h d t [QSet o l; QLazyUpdate] f rs L C ltac:(repeat constructor) E o) as H.
  cbn [rev app recent last_place find] in H. destruct H as [_ H].
  cbn [pf_run] in *. destruct (pf_step A eqo hash_o hash_l location osize (shards cpus) _ (QSet o l)) as [[f1 r1]|]; [|discriminate].
  destruct (pf_step A eqo hash_o hash_l location osize (shards cpus) f1 QLazyUpdate) as [[f2 r2]|]; [|discriminate].
  cbn [option_map fst snd] in E. injection E as -> _. cbn [pf_step]. rewrite H. reflexivity.
Qed.
Print Assumptions C90_panic_refuted.

(** [get_unbuffered] returns the object placed first in the bag, not the one placed last. *)
Theorem C90_old_refuted :
  let cs := [place (at_ 1%nat 2 2); QSet (A := FA) (1%nat, (z 3, z 3)) (z 2, z 2)] in
  after cs (fun f => pf_get_unbuffered FA same_obj hobj hcell f (at_ 1%nat 0 0)) = Some (Some (at_ 1%nat 2 2)) /\
  after (cs ++ [publish_lazy]) (fun f => pf_get FA same_obj hobj f (at_ 1%nat 0 0)) = Some (Some (at_ 1%nat 3 3)).
Proof. cbv zeta. split; vm_compute; reflexivity. Qed.
Print Assumptions C90_old_refuted.

Example C90_concrete :
  let cs := [place (at_ 1%nat 2 2); publish_lazy; place (at_ 2%nat 3 3)] in
  after cs (fun f => pf_get_unbuffered FA same_obj hobj hcell f (at_ 2%nat 0 0)) = Some (Some (at_ 2%nat 3 3)) /\
  after cs (fun f => pf_location_unbuffered FA same_obj hobj f (at_ 2%nat 0 0)) = Some (Some (z 3, z 3)) /\
  after cs (fun f => pf_get_unbuffered FA same_obj hobj hcell f (at_ 1%nat 0 0)) = Some None.
Proof. cbv zeta. repeat split; vm_compute; reflexivity. Qed.

(** ** C91: threads placing objects at the same time *)
(** What the threads left, once published. *)
Definition settled (A : arith) {O} (n : nat) (c : pfield A (O := O) * list (fthread A (O := O))) (g : pfield A) : Prop :=
  ffinished A c = true /\ pf_lazy_update A n (fst c) = Some g.

Section C91.
Variable A : arith.
Context {O : Type}.
Variable eqo : O -> O -> bool.
Variable hash_o : O -> N.
Variable hash_l : loc -> N.
Variable location : O -> num A * num A.
Variables (osize cpus : N) (w h d : num A) (t : bool).
Hypothesis L : lawful eqo hash_o.
Hypothesis C : cpus_ok cpus.
Variables (cs : list (pfop A (O := O))) (f : pfield A (O := O)) (rs : list (pfres A (O := O))).
Hypothesis K : Forall (pf_ok A) cs.
Hypothesis E : pf_run A eqo hash_o hash_l location osize (shards cpus) (pf_new A cpus w h d t) cs = Some (f, rs).
Variable progs : list (list (O * (num A * num A))).
Variable inter : list nat.
Let c := fexec A eqo hash_o hash_l inter (fstart A f progs).
Variable g : pfield A (O := O).
Hypothesis F : settled A (shards cpus) c g.

Lemma start_wf : pfwf A eqo hash_o hash_l w h d t (shards cpus) f /\ state_is A eqo hash_o hash_l d (rev cs) f.
Proof.
  destruct C as [H1 H2]. destruct (new_state A eqo hash_o hash_l w h d t cpus H1 H2) as [W0 S0].
  destruct (run_state A eqo hash_o hash_l L w h d t location osize _ cs _ [] f rs W0 S0 K E) as [W S]. rewrite app_nil_r in S. auto.
Qed.
Lemma finished_rest th : In th (snd c) -> ft_pc th = FNext /\ ft_rest th = [].
Proof.
  destruct F as [Hf _]. unfold ffinished in Hf. rewrite forallb_forall in Hf. intros H. specialize (Hf th H).
  destruct (ft_pc th); try discriminate. destruct (ft_rest th); [auto|discriminate].
Qed.
Lemma finished_pend x th : In th (snd c) -> pend A d x th = [].
Proof. intros H. destruct (finished_rest th H) as [E1 E2]. unfold pend, in_call. rewrite E1, E2. reflexivity. Qed.
Lemma finished_pends x : flat_map (pend A (O := O) d x) (snd c) = [].
Proof.
  assert (H : forall th, In th (snd c) -> pend A d x th = []) by (intros th; apply finished_pend).
  induction (snd c) as [|th l IH]; [reflexivity|]. cbn [flat_map]. rewrite (H th (or_introl eq_refl)). apply IH. intros y Hy. apply H. right. exact Hy.
Qed.
Lemma end_wf : pfwf A eqo hash_o hash_l w h d t (shards cpus) (fst c) /\ pfwf A eqo hash_o hash_l w h d t (shards cpus) g /\
  (forall x, rv eqo hash_o (pf_loc g) x = wv eqo hash_o (pf_loc (fst c)) x) /\
  (forall x, option_map snd (rv loc_eqb hash_l (pf_bag g) x) = option_map snd (wv loc_eqb hash_l (pf_bag (fst c)) x)).
Proof.
  destruct start_wf as [W _].
  destruct (exec_ind A eqo hash_o hash_l L w h d t (shards cpus) (fun _ => True) ltac:(auto) inter f (map (FThread FNext) progs) W I) as [Wc _].
  split; [exact Wc|]. destruct F as [_ Fl].
  destruct (lazy_ok A eqo hash_o hash_l w h d t (shards cpus) (fst c) Wc) as (g' & Eg & Wg & R1 & _ & _ & _ & R2 & _). rewrite Eg in Fl. injection Fl as <-.
  auto.
Qed.
Lemma pend_start x (prog : list (O * (num A * num A))) : pend A d x (FThread FNext prog) = in_bag A d x prog.
Proof. reflexivity. Qed.
Lemma pends_start x : flat_map (pend A (O := O) d x) (map (FThread FNext) progs) = flat_map (in_bag A (O := O) d x) progs.
Proof. clear. induction progs as [|p ps IH]; [reflexivity|]. cbn [map flat_map]. rewrite IH. reflexivity. Qed.

Lemma c91_existing l : in_bag A d (discretize A d l) (recent A (rev cs)) <> [] ->
  exists b, pf_objects A hash_l g l = Some b /\
    Permutation b (in_bag A d (discretize A d l) (recent A (rev cs)) ++ flat_map (in_bag A (O := O) d (discretize A d l)) progs).
Proof.
  intros Hb. destruct start_wf as [W S]. destruct end_wf as (_ & Wg & _ & R).
  destruct S as [_ Sc]. destruct (Sc (discretize A d l)) as [_ Eb].
  destruct (existing_bag A eqo hash_o hash_l L w h d t (shards cpus) (discretize A d l) (in_bag A d (discretize A d l) (recent A (rev cs)))
    (flat_map (pend A (O := O) d (discretize A d l)) (map (FThread FNext) progs)) inter f (map (FThread FNext) progs) W) as (b & E1 & E2).
  - rewrite Eb. destruct (in_bag A d (discretize A d l) (recent A (rev cs))); [congruence|reflexivity].
  - intros th Hth. apply in_map_iff in Hth. destruct Hth as (p & <- & _). reflexivity.
  - reflexivity.
  - exists b. rewrite (objects_eq A eqo hash_o hash_l w h d t _ g l Wg), R. fold (fstart A f progs) in E1, E2. fold c in E1, E2. rewrite E1.
    split; [reflexivity|]. rewrite finished_pends, app_nil_r, pends_start in E2. exact E2.
Qed.

Lemma c91_single l i prog : nth_error progs i = Some prog ->
  (forall j p, nth_error progs j = Some p -> j <> i -> in_bag A d (discretize A d l) p = []) ->
  pf_objects A hash_l g l = Some (in_bag A d (discretize A d l) (recent A (rev cs) ++ prog)).
Proof.
  intros Ei Hj. destruct start_wf as [W S]. destruct end_wf as (_ & Wg & _ & R).
  destruct S as [_ Sc]. destruct (Sc (discretize A d l)) as [_ Eb].
  destruct (single_writer A eqo hash_o hash_l L w h d t (shards cpus) (discretize A d l) (in_bag A d (discretize A d l) (recent A (rev cs)))
    inter f (map (FThread FNext) progs) i (FThread FNext prog) W) as (th & E1 & E2).
  - rewrite Eb. apply orempty_entry.
  - rewrite nth_error_map, Ei. reflexivity.
  - reflexivity.
  - intros j th Hth Hne. rewrite nth_error_map in Hth. destruct (nth_error progs j) as [p|] eqn:Ep; [|discriminate].
    injection Hth as <-. exact (Hj j p Ep Hne).
  - fold (fstart A f progs) in E1, E2. fold c in E1, E2. rewrite (objects_eq A eqo hash_o hash_l w h d t _ g l Wg), R.
    rewrite (finished_pend _ th (nth_error_In _ _ E1)), app_nil_r in E2. rewrite E2, in_bag_app. reflexivity.
Qed.

Lemma c91_only l b o : pf_objects A hash_l g l = Some b -> In o b ->
  In o (in_bag A d (discretize A d l) (recent A (rev cs))) \/ exists prog, In prog progs /\ In o (in_bag A d (discretize A d l) prog).
Proof.
  intros Hb Ho. destruct start_wf as [W S]. destruct end_wf as (_ & Wg & _ & R).
  destruct S as [_ Sc]. destruct (Sc (discretize A d l)) as [_ Eb].
  rewrite (objects_eq A eqo hash_o hash_l w h d t _ g l Wg), R in Hb. injection Hb as <-.
  pose proof (only_placed A eqo hash_o hash_l L w h d t (shards cpus) (discretize A d l) inter f (map (FThread FNext) progs) W) as H.
  cbv zeta in H. specialize (H o). fold (fstart A f progs) in H. fold c in H. rewrite in_app_iff in H. specialize (H (or_introl Ho)).
  rewrite Eb, orempty_entry, pends_start in H. apply in_app_or in H. destruct H as [H|H]; [left; exact H|right].
  apply in_flat_map in H. exact H.
Qed.

Lemma c91_place o : exists r, pf_location A eqo hash_o g o = Some r /\
  ((forall prog p, In prog progs -> In p prog -> eqo o (fst p) = false) -> r = option_map snd (last_place A eqo o (recent A (rev cs)))) /\
  ((exists prog p, In prog progs /\ In p prog /\ eqo o (fst p) = true) ->
     exists prog p, In prog progs /\ In p prog /\ eqo o (fst p) = true /\ r = Some (snd p)) /\
  (forall i prog p, nth_error progs i = Some prog -> last_place A eqo o prog = Some p ->
     (forall j q, nth_error progs j = Some q -> j <> i -> last_place A eqo o q = None) -> r = Some (snd p)).
Proof.
  destruct start_wf as [W [So _]]. destruct end_wf as (_ & Wg & R & _). destruct (So o) as (_ & Ew & _).
  eexists. split; [apply (location_eq A eqo hash_o hash_l w h d t _ g o Wg)|]. rewrite R.
  pose proof (some_place A eqo hash_o hash_l L w h d t (shards cpus) o inter f (map (FThread FNext) progs) W) as SP. cbv zeta in SP.
  fold (fstart A f progs) in SP. fold c in SP.
  split; [|split].
  - intros Hn. destruct SP as [[SP _]|(p & th & H1 & H2 & H3 & _)]; [rewrite SP, Ew; reflexivity|].
    apply in_map_iff in H1. destruct H1 as (prog & <- & H1). cbn [ft_rest] in H2. rewrite (Hn prog p H1 H2) in H3. discriminate.
  - intros (prog & p & H1 & H2 & H3). destruct SP as [[_ SP]|(q & th & J1 & J2 & J3 & J4)].
    + exfalso.
      assert (Z : flat_map (fun th : fthread A => filter (fun p => eqo o (fst p)) (ft_rest th)) (snd c) = []).
      { assert (H : forall th, In th (snd c) -> ft_rest th = []) by (intros th Hth; apply finished_rest; exact Hth).
        clear -H. induction (snd c) as [|th l IH]; [reflexivity|]. cbn [flat_map]. rewrite (H th (or_introl eq_refl)).
        apply IH. intros y Hy. apply H. right. exact Hy. }
      rewrite Z in SP.
      assert (Hin : In p (flat_map (fun th : fthread A => filter (fun p => eqo o (fst p)) (ft_rest th)) (map (FThread FNext) progs))).
      { apply in_flat_map. exists (FThread FNext prog). split; [apply in_map; exact H1|]. cbn [ft_rest]. apply filter_In. auto. }
      rewrite <- SP in Hin. destruct Hin.
    + apply in_map_iff in J1. destruct J1 as (prog' & <- & J1). cbn [ft_rest] in J2. exists prog', q. rewrite J4. auto.
  - intros i prog p Ei El Hj.
    destruct (single_place A eqo hash_o hash_l L w h d t (shards cpus) o inter f (map (FThread FNext) progs) i (FThread FNext prog) W) as (th & E1 & E2).
    + rewrite nth_error_map, Ei. reflexivity.
    + intros j th Hth Hne. rewrite nth_error_map in Hth. destruct (nth_error progs j) as [q|] eqn:Eq; [|discriminate].
      injection Hth as <-. exact (Hj j q Eq Hne).
    + fold (fstart A f progs) in E1, E2. fold c in E1, E2. cbn [ft_rest] in E2. rewrite El in E2.
      rewrite (proj2 (finished_rest th (nth_error_In _ _ E1))) in E2. cbn [later] in E2. unfold later, last_place in E2. cbn [rev find] in E2.
      rewrite E2. reflexivity.
Qed.
End C91.

(** Any history by one thread, then any number of threads placing objects, interleaved in
    any way at the granularity of the accesses to the maps, then a publication. *)

(** A cell into which at most one of the threads places: nothing is lost, the order is kept. *)
Theorem C91_single_writer_partial :
  forall (A : arith) (O : Type) (eqo : O -> O -> bool) hash_o hash_l location osize cpus w h d t cs f rs progs inter g,
    lawful eqo hash_o -> cpus_ok cpus -> Forall (pf_ok A) cs ->
    pf_run A eqo hash_o hash_l location osize (shards cpus) (pf_new A cpus w h d t) cs = Some (f, rs) ->
    settled A (shards cpus) (fexec A eqo hash_o hash_l inter (fstart A f progs)) g ->
    forall l i prog, nth_error progs i = Some prog ->
    (forall j p, nth_error progs j = Some p -> j <> i -> in_bag A d (discretize A d l) p = []) ->
    pf_objects A hash_l g l = Some (in_bag A d (discretize A d l) (recent A (rev cs) ++ prog)).
Proof. intros A O eqo hash_o hash_l location osize cpus w h d t cs f rs progs inter g L C K E F. exact (c91_single A eqo hash_o hash_l location osize cpus w h d t L C cs f rs K E progs inter g F). Qed.
Print Assumptions C91_single_writer_partial.

(** A cell into which something was already placed since the last publication: nothing is lost. *)
Theorem C91_existing_bag_partial :
  forall (A : arith) (O : Type) (eqo : O -> O -> bool) hash_o hash_l location osize cpus w h d t cs f rs progs inter g,
    lawful eqo hash_o -> cpus_ok cpus -> Forall (pf_ok A) cs ->
    pf_run A eqo hash_o hash_l location osize (shards cpus) (pf_new A cpus w h d t) cs = Some (f, rs) ->
    settled A (shards cpus) (fexec A eqo hash_o hash_l inter (fstart A f progs)) g ->
    forall l, in_bag A d (discretize A d l) (recent A (rev cs)) <> [] ->
    exists b, pf_objects A hash_l g l = Some b /\
      Permutation b (in_bag A d (discretize A d l) (recent A (rev cs)) ++ flat_map (in_bag A (O := O) d (discretize A d l)) progs).
Proof. intros A O eqo hash_o hash_l location osize cpus w h d t cs f rs progs inter g L C K E F. exact (c91_existing A eqo hash_o hash_l location osize cpus w h d t L C cs f rs K E progs inter g F). Qed.
Print Assumptions C91_existing_bag_partial.

(** Any cell: only objects placed there are read there.  Any object: its location is that
    of one of its placements, and of its last one when a single thread places it. *)
Theorem C91_only_placed :
  forall (A : arith) (O : Type) (eqo : O -> O -> bool) hash_o hash_l location osize cpus w h d t cs f rs progs inter g,
    lawful eqo hash_o -> cpus_ok cpus -> Forall (pf_ok A) cs ->
    pf_run A eqo hash_o hash_l location osize (shards cpus) (pf_new A cpus w h d t) cs = Some (f, rs) ->
    settled A (shards cpus) (fexec A eqo hash_o hash_l inter (fstart A f progs)) g ->
    (forall l b o, pf_objects A hash_l g l = Some b -> In o b ->
       In o (in_bag A d (discretize A d l) (recent A (rev cs))) \/
       exists prog, In prog progs /\ In o (in_bag A d (discretize A d l) prog)) /\
    (forall o, exists r, pf_location A eqo hash_o g o = Some r /\
       ((forall prog p, In prog progs -> In p prog -> eqo o (fst p) = false) -> r = option_map snd (last_place A eqo o (recent A (rev cs)))) /\
       ((exists prog p, In prog progs /\ In p prog /\ eqo o (fst p) = true) ->
          exists prog p, In prog progs /\ In p prog /\ eqo o (fst p) = true /\ r = Some (snd p)) /\
       (forall i prog p, nth_error progs i = Some prog -> last_place A eqo o prog = Some p ->
          (forall j q, nth_error progs j = Some q -> j <> i -> last_place A eqo o q = None) -> r = Some (snd p))).
Proof.
  intros A O eqo hash_o hash_l location osize cpus w h d t cs f rs progs inter g L C K E F. split.
  - intros l b o. exact (c91_only A eqo hash_o hash_l location osize cpus w h d t L C cs f rs K E progs inter g F l b o).
  - exact (c91_place A eqo hash_o hash_l location osize cpus w h d t L C cs f rs K E progs inter g F).
Qed.
Print Assumptions C91_only_placed.

(** No thread panics while placing: one that has something left can go on. *)
Theorem C91_no_panic :
  forall (A : arith) (O : Type) (eqo : O -> O -> bool) hash_o hash_l location osize cpus w h d t cs f rs progs inter,
    lawful eqo hash_o -> cpus_ok cpus -> Forall (pf_ok A) cs ->
    pf_run A eqo hash_o hash_l location osize (shards cpus) (pf_new A cpus w h d t) cs = Some (f, rs) ->
    let c := fexec A eqo hash_o hash_l inter (fstart A f progs) in
    forall i th, nth_error (snd c) i = Some th ->
    fmicro A eqo hash_o hash_l i c = None -> ft_pc th = FNext /\ ft_rest th = [].
Proof.
  intros A O eqo hash_o hash_l location osize cpus w h d t cs f rs progs inter L C K E c i th Hth Hm.
  destruct (start_wf A eqo hash_o hash_l location osize cpus w h d t L C cs f rs K E) as [W _].
  destruct (exec_ind A eqo hash_o hash_l L w h d t (shards cpus) (fun _ => True) ltac:(auto) inter f (map (FThread FNext) progs) W I) as [Wc _].
  fold (fstart A f progs) in Wc. fold c in Wc. destruct (idle A th) eqn:Ei.
  - unfold idle in Ei. destruct (ft_pc th); try discriminate. destruct (ft_rest th); [auto|discriminate].
  - destruct c as [fc ths]. destruct (micro_total A eqo hash_o hash_l L w h d t (shards cpus) i fc ths th Wc Hth Ei) as (c' & E'). congruence.
Qed.
Print Assumptions C91_no_panic.

(** Two threads place different objects in the same, so far empty, cell: one is lost,
    although its location is known. *)
Definition together (inter : list nat) (progs : list (list obj)) : pfld * list (fthread FA (O := obj)) :=
  fexec FA same_obj hobj hcell inter (fstart FA (fresh false) (map (map (fun o => (o, snd o))) progs)).
Theorem C91_lost_refuted :
  let c := together [0; 0; 1; 1; 0; 1; 0; 1]%nat [[at_ 1%nat 2 2]; [at_ 2%nat 2 2]] in
  ffinished FA c = true /\
  match pf_lazy_update FA (shards 1) (fst c) with Some g => q_objects (z 2, z 2) g | None => None end = Some [2]%nat /\
  match pf_lazy_update FA (shards 1) (fst c) with Some g => q_location (at_ 1%nat 2 2) g | None => None end = Some (Some (z 2, z 2)).
Proof. cbv zeta. repeat split; vm_compute; reflexivity. Qed.
Print Assumptions C91_lost_refuted.

(** A thread asking for an object with [get_unbuffered] while another is placing it can panic. *)
Theorem C91_reader_panic_refuted :
  let c := together [0; 0]%nat [[at_ 1%nat 2 2]] in
  match pf_get_unbuffered FA same_obj hobj hcell (fst c) (at_ 1%nat 2 2) with None => true | Some _ => false end = true.
Proof. cbv zeta. vm_compute. reflexivity. Qed.
Print Assumptions C91_reader_panic_refuted.

Example C91_concrete :
  let c := together [0; 1; 1; 0; 0; 0; 1; 1; 0; 1; 0; 1; 0; 1; 0; 1]%nat [[at_ 1%nat 2 2; at_ 3%nat 2 2]; [at_ 2%nat 5 5; at_ 2%nat 6 6]] in
  ffinished FA c = true /\
  match pf_lazy_update FA (shards 1) (fst c) with Some g => q_objects (z 2, z 2) g | None => None end = Some [1; 3]%nat /\
  match pf_lazy_update FA (shards 1) (fst c) with Some g => q_location (at_ 2%nat 0 0) g | None => None end = Some (Some (z 6, z 6)).
Proof. cbv zeta. repeat split; vm_compute; reflexivity. Qed.
