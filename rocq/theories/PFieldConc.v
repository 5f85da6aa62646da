(** * Proofs about the parallel Field2D: the sequential field, and threads *)
From Coq Require Import List Bool ZArith NArith Arith Lia Permutation.
From Verif Require Import F32 Grid DashModel DashSpec DashProofs DashRun DashView NumModel NumSpec NumProofs NumPar
  ObjModel ObjSpec ObjProofs FieldModel FieldSpec FieldProofs PFieldModel PFieldSpec PFieldProofs.
Import ListNotations.
Open Scope Z_scope.

Section Seq.
Variable A : arith.
Notation T := (num A).
Notation pt := (num A * num A)%type.
Context {O : Type}.
Variable eqo : O -> O -> bool.
Variable hash_o : O -> N.
Variable hash_l : loc -> N.
Variable location : O -> num A * num A.
Variable osize : N.
Hypothesis L : lawful eqo hash_o.
Notation pfield := (pfield A (O := O)).
Notation pfop := (pfop A (O := O)).
Variables w h d : T.
Variable t : bool.

(** ** The sequential field holds the same placements *)
Notation fcalls cs := (filter_map (as_fop A) cs).

Lemma filter_map_snoc {X Y} (g : X -> option Y) l x :
  filter_map g (l ++ [x]) = filter_map g l ++ (match g x with Some y => [y] | None => [] end).
Proof. unfold filter_map. rewrite flat_map_app. cbn [flat_map]. rewrite app_nil_r. reflexivity. Qed.

Lemma live_no_remove (e : list (fop A (O := O))) c : live A eqo d (e ++ [c]) =
  filter (fun p => negb (takes_back A eqo d (fst p) (snd p) c)) (live A eqo d e) ++ live A eqo d [c].
Proof. apply live_snoc. Qed.

Lemma epochs (cs : list pfop) : Forall (no_update A) cs ->
  live A eqo d (current_epoch A (rev (fcalls cs))) = recent A (rev cs) /\
  live A eqo d (previous_epoch A (rev (fcalls cs))) = published A (rev cs).
Proof.
  induction cs as [|c cs IH] using rev_ind; intros U; [split; reflexivity|].
  apply Forall_app in U. destruct U as [U Uc]. inversion_clear Uc as [|? ? Hc _]. destruct (IH U) as [I1 I2].
  rewrite filter_map_snoc, !rev_app_distr. cbn [rev app].
  destruct c as [o l| |it it' it''|o|l|l|o|o|o| |l dist|l dist]; cbn [no_update] in Hc; try contradiction;
    cbn [as_fop rev app current_epoch previous_epoch recent published]; try (split; assumption).
  - rewrite live_no_remove, I1. cbn [takes_back]. rewrite filter_true by reflexivity. split; [reflexivity|exact I2].
  - split; [reflexivity|exact I1].
  - rewrite live_no_remove, I1. cbn [takes_back live]. rewrite filter_true, app_nil_r by reflexivity. split; [reflexivity|exact I2].
  - rewrite live_no_remove, I1. cbn [takes_back live]. rewrite filter_true, app_nil_r by reflexivity. split; [reflexivity|exact I2].
  - rewrite live_no_remove, I1. cbn [takes_back live]. rewrite filter_true, app_nil_r by reflexivity. split; [reflexivity|exact I2].
  - rewrite live_no_remove, I1. cbn [takes_back live]. rewrite filter_true, app_nil_r by reflexivity. split; [reflexivity|exact I2].
Qed.

Lemma shown_published c (hs : list pfop) : Forall (no_update A) hs -> shown_bag A d c hs = in_bag A d c (published A hs).
Proof. induction 1 as [|x hs Hx _ IH]; [reflexivity|]. destruct x; cbn [no_update shown_bag published] in *; try contradiction; auto. Qed.
Lemma place_published o (hs : list pfop) : Forall (no_update A) hs -> shown_place A eqo o hs = last_place A eqo o (published A hs).
Proof. induction 1 as [|x hs Hx _ IH]; [reflexivity|]. destruct x; cbn [no_update shown_place published] in *; try contradiction; auto. Qed.

Lemma capacity_eq n f dist : pfwf A eqo hash_o hash_l w h d t n f ->
  pf_capacity A f dist =
  match N.of_nat (pf_num A f) with
  | 0%N => None
  | m => Some ((as_usize A (mul A w h) / m * as_usize A (mul A dist dist)) mod 2 ^ 64)%N
  end.
Proof. intros (_ & _ & _ & E1 & E2 & _). unfold pf_capacity, pf_num. rewrite E1, E2. reflexivity. Qed.

(** Both queries, given the published bags. *)
Lemma queries_eq n f (g : field2d A) (bag : loc -> list O) l dist : pfwf A eqo hash_o hash_l w h d t n f ->
  good_size A w h d -> fwf A w h d t g ->
  (forall c, in_range (cols A w d) (cols A h d) c -> vget (f_read g) (cell_index (cols A h d) c) = Some (bag c)) ->
  (forall c, orempty (option_map snd (rv loc_eqb hash_l (pf_bag f) c)) = bag c) ->
  forall m, pf_capacity A f dist = Some m -> capacity_ok osize m = true ->
  pf_neighbors A hash_l location osize f l dist = f_neighbors A location g l dist /\
  pf_relax A hash_l osize f l dist = f_relax A g l dist.
Proof.
  intros W GS Wg Hg Hb m Em Cm. unfold pf_neighbors, pf_relax. rewrite Em, Cm. cbn [negb].
  destruct (le A dist (of_int A 0)) eqn:Hd.
  { unfold f_neighbors, f_relax. rewrite Hd. auto. }
  destruct (neighbors_eq A location w h d t GS g l dist bag Wg Hg Hd) as (ids & E & F & -> & ->).
  assert (Ew : pf_window A f l dist = Some ids).
  { rewrite <- E. unfold pf_window, window. destruct W as (_ & _ & _ & -> & -> & -> & ->).
    destruct Wg as (-> & -> & -> & -> & _). reflexivity. }
  rewrite Ew.
  assert (E4 : pf_width f = w /\ pf_height f = h /\ pf_disc f = d /\ pf_toroidal f = t) by (destruct W as (_ & _ & _ & E4); exact E4).
  destruct E4 as (-> & -> & -> & ->). clear E Ew F. induction ids as [|c ids [IH1 IH2]]; [split; reflexivity|].
  cbn [mapM flat_map]. rewrite (read_bag_eq A eqo hash_o hash_l w h d t n f c W), Hb. cbn [option_map].
  revert IH1 IH2. destruct (mapM _ ids) as [ys|]; [|discriminate]. destruct (mapM _ ids) as [zs|]; [|discriminate].
  intros IH1 IH2. cbn [option_map concat] in *. injection IH1 as IH1. injection IH2 as IH2. rewrite IH1, IH2. split; reflexivity.
Qed.
End Seq.

(** ** Threads *)
Lemma set_nth_split {X} (t : nat) (x y : X) l : nth_error l t = Some x ->
  exists l1 l2, l = l1 ++ x :: l2 /\ set_nth t y l = l1 ++ y :: l2 /\ length l1 = t.
Proof.
  revert l. induction t as [|t IH]; intros [|a l] E; try discriminate; cbn [nth_error] in E.
  - injection E as ->. exists [], l. auto.
  - destruct (IH l E) as (l1 & l2 & -> & E2 & E3). exists (a :: l1), l2. cbn [set_nth app length]. rewrite E2, E3. auto.
Qed.

Section Threads.
Variable A : arith.
Notation T := (num A).
Notation pt := (num A * num A)%type.
Context {O : Type}.
Variable eqo : O -> O -> bool.
Variable hash_o : O -> N.
Variable hash_l : loc -> N.
Hypothesis L : lawful eqo hash_o.
Notation pfield := (pfield A (O := O)).
Notation fthread := (fthread A (O := O)).
Variables w h d : T.
Variable t : bool.
Variable n : nat.
Notation ok := (pfwf A eqo hash_o hash_l w h d t n).
Notation wL f o := (wv eqo hash_o (pf_loc f) o).
Notation wB f c := (option_map snd (wv loc_eqb hash_l (pf_bag f) c)).
Notation rB f c := (option_map snd (rv loc_eqb hash_l (pf_bag f) c)).
Notation micro := (fmicro A eqo hash_o hash_l).
Notation exec := (fexec A eqo hash_o hash_l).
Implicit Types f : pfield.
Implicit Types th : fthread.

(** The placement a thread is in the middle of, and the objects it has still to put into
    cell [c]. *)
Definition in_call th : list (O * pt) :=
  match ft_pc th with FNext => [] | FIndex o l | FPush o l | FInsert o l => [(o, l)] end.
Definition pend (c : loc) th : list O := in_bag A d c (in_call th ++ ft_rest th).
Definition inserting (c : loc) th : bool :=
  match ft_pc th with FInsert _ l => loc_eqb (discretize A d l) c | _ => false end.

Lemma in_bag_app c (a b : list (O * pt)) : in_bag A d c (a ++ b) = in_bag A d c a ++ in_bag A d c b.
Proof. unfold in_bag. rewrite filter_app, map_app. reflexivity. Qed.
Lemma in_bag_one c (o : O) l : in_bag A d c [(o, l)] = if loc_eqb (discretize A d l) c then [o] else [].
Proof. unfold in_bag. cbn [filter snd]. destruct (loc_eqb (discretize A d l) c); reflexivity. Qed.

Lemma micro_ok i f ths f' ths' : ok f -> micro i (f, ths) = Some (f', ths') ->
  ok f' /\ exists th th', nth_error ths i = Some th /\ ths' = set_nth i th' ths /\
  (forall c, rB f' c = rB f c) /\
  (forall c,
     (wB f' c = wB f c /\ pend c th' = pend c th /\ (inserting c th' = true -> wB f c = None) /\ (inserting c th = true -> inserting c th' = true)) \/
     (exists o, pend c th = o :: pend c th' /\ inserting c th' = false /\
        wB f' c = Some ((if inserting c th then [] else orempty (wB f c)) ++ [o]) /\
        (inserting c th = false -> wB f c <> None))) /\
  ((ft_rest th' = ft_rest th /\ forall x, wL f' x = wL f x) \/
   (exists o l, ft_rest th = (o, l) :: ft_rest th' /\ forall x, wL f' x = if eqo x o then Some (o, l) else wL f x)).
Proof.
  intros W E. unfold fmicro in E. destruct (nth_error ths i) as [th|] eqn:Et; [|discriminate].
  destruct (ft_pc th) as [|o l|o l|o l] eqn:Ep.
  - destruct (ft_rest th) as [|[o l] rest] eqn:Er; [discriminate|].
    destruct (set1_ok A eqo hash_o hash_l L w h d t n f o l W) as (f1 & E1 & W1 & R & F & I1 & G1). rewrite E1 in E. injection E as <- <-.
    split; [exact W1|]. exists th, (FThread (FIndex o l) rest). split; [reflexivity|]. split; [reflexivity|]. rewrite G1.
    split; [reflexivity|]. split.
    + intros c. left. split; [reflexivity|]. unfold pend, in_call, inserting. rewrite Ep. cbn [ft_pc ft_rest]. rewrite Er.
      repeat split; discriminate.
    + right. exists o, l. cbn [ft_rest]. split; [exact Er|exact F].
  - destruct (set2_ok A eqo hash_o hash_l L w h d t n f o l W) as (f1 & E1 & W1 & R & F & I1 & G1). rewrite E1 in E. injection E as <- <-.
    split; [exact W1|]. exists th, (FThread (FPush o l) (ft_rest th)). split; [reflexivity|]. split; [reflexivity|]. rewrite G1, I1.
    split; [reflexivity|]. split.
    + intros c. left. split; [reflexivity|]. unfold pend, in_call, inserting. rewrite Ep. cbn [ft_pc ft_rest].
      repeat split; discriminate.
    + left. cbn [ft_rest]. auto.
  - destruct (set3_ok A eqo hash_o hash_l w h d t n f o l W) as (f1 & E1 & W1 & R & F & I1 & G1). rewrite E1 in E. injection E as <- <-.
    split; [exact W1|]. eexists th, _. split; [reflexivity|]. split; [reflexivity|]. rewrite I1. split; [exact R|]. split.
    2:{ left. cbn [ft_rest]. auto. }
    intros c. rewrite F. unfold pend, in_call, inserting. rewrite Ep. cbn [snd ft_rest ft_pc].
    destruct (loc_eqb c (discretize A d l)) eqn:Ec.
    + apply loc_eqb_eq in Ec. subst c. destruct (wB f (discretize A d l)) as [b|] eqn:Eb; cbn [ft_pc].
      * right. exists o. rewrite in_bag_app, in_bag_one, loc_eqb_refl. repeat split. discriminate.
      * left. rewrite ?Eb. repeat split; auto. discriminate.
    + left. split; [reflexivity|]. rewrite (loc_eqb_sym c) in Ec.
      destruct (wB f (discretize A d l)) as [b|]; cbn [ft_pc]; rewrite !in_bag_app, ?in_bag_one, ?Ec; repeat split; discriminate.
  - destruct (set4_ok A eqo hash_o hash_l w h d t n f o l W) as (f1 & E1 & W1 & R & F & I1 & G1). rewrite E1 in E. injection E as <- <-.
    split; [exact W1|]. eexists th, _. split; [reflexivity|]. split; [reflexivity|]. rewrite I1. split; [exact R|]. split.
    2:{ left. cbn [ft_rest]. auto. }
    intros c. rewrite F. unfold pend, in_call, inserting. rewrite Ep. cbn [ft_pc ft_rest]. rewrite (loc_eqb_sym c).
    rewrite !in_bag_app, in_bag_one. destruct (loc_eqb (discretize A d l) c) eqn:Ec.
    + right. exists o. repeat split. discriminate.
    + left. repeat split; discriminate.
Qed.

(** A thread that has something left can always go on: no panic. *)
Definition idle th : bool := match ft_pc th, ft_rest th with FNext, [] => true | _, _ => false end.
Lemma micro_total i f ths th : ok f -> nth_error ths i = Some th -> idle th = false -> exists c', micro i (f, ths) = Some c'.
Proof.
  intros W Et Hi. unfold fmicro. rewrite Et. unfold idle in Hi. destruct (ft_pc th) as [|o l|o l|o l].
  - destruct (ft_rest th) as [|[o l] rest]; [discriminate|].
    destruct (set1_ok A eqo hash_o hash_l L w h d t n f o l W) as (f1 & -> & _). eexists. reflexivity.
  - destruct (set2_ok A eqo hash_o hash_l L w h d t n f o l W) as (f1 & -> & _). eexists. reflexivity.
  - destruct (set3_ok A eqo hash_o hash_l w h d t n f o l W) as (f1 & -> & _). eexists. reflexivity.
  - destruct (set4_ok A eqo hash_o hash_l w h d t n f o l W) as (f1 & -> & _). eexists. reflexivity.
Qed.

Lemma exec_ind (P : pfield * list fthread -> Prop) :
  (forall i f ths f' ths', ok f -> P (f, ths) -> micro i (f, ths) = Some (f', ths') -> P (f', ths')) ->
  forall inter f ths, ok f -> P (f, ths) -> let c := exec inter (f, ths) in ok (fst c) /\ P c.
Proof.
  intros HP inter. induction inter as [|i inter IH]; intros f ths W Hp; cbn [fexec]; [auto|].
  destruct (micro i (f, ths)) as [[f' ths']|] eqn:E; [|apply IH; assumption].
  apply IH; [exact (proj1 (micro_ok i f ths f' ths' W E))|exact (HP _ _ _ _ _ W Hp E)].
Qed.

(** *** A cell that has a bag when the threads start *)
Lemma existing_bag c b0 rest0 inter f ths : ok f -> wB f c = Some b0 ->
  (forall th, In th ths -> inserting c th = false) -> rest0 = flat_map (pend c) ths ->
  let r := exec inter (f, ths) in
  exists b, wB (fst r) c = Some b /\ Permutation (b ++ flat_map (pend c) (snd r)) (b0 ++ rest0).
Proof.
  intros W Eb Hi ->.
  pose (P := fun r : pfield * list fthread => (forall th, In th (snd r) -> inserting c th = false) /\
    exists b, wB (fst r) c = Some b /\ Permutation (b ++ flat_map (pend c) (snd r)) (b0 ++ flat_map (pend c) ths)).
  assert (HP : P (exec inter (f, ths))).
  { apply (exec_ind P); [|exact W|].
    - intros i g gs g' gs' Wg (Hn & b & Hb & Hp) E. cbn [fst snd] in *.
      destruct (micro_ok i g gs g' gs' Wg E) as (_ & th & th' & Et & -> & _ & Hc & _).
      destruct (set_nth_split i th th' gs Et) as (l1 & l2 & El & Es & _). unfold P. cbn [fst snd]. rewrite Es.
      assert (Hth : inserting c th = false) by (apply Hn; rewrite El; apply in_or_app; right; left; reflexivity).
      destruct (Hc c) as [(E1 & E2 & E3 & E4)|(o & E1 & E2 & E3 & E4)].
      + split.
        * intros x Hx. apply in_app_or in Hx. destruct Hx as [Hx|[<-|Hx]]; [apply Hn; rewrite El; apply in_or_app; tauto| |apply Hn; rewrite El; apply in_or_app; right; right; exact Hx].
          destruct (inserting c th'); [|reflexivity]. specialize (E3 eq_refl). congruence.
        * exists b. split; [congruence|]. rewrite flat_map_app in *. cbn [flat_map] in *. rewrite E2, <- Hp, El, flat_map_app. reflexivity.
      + split.
        * intros x Hx. apply in_app_or in Hx. destruct Hx as [Hx|[<-|Hx]]; [apply Hn; rewrite El; apply in_or_app; tauto|exact E2|apply Hn; rewrite El; apply in_or_app; right; right; exact Hx].
        * exists (b ++ [o]). split; [rewrite E3, Hth, Hb; reflexivity|]. rewrite <- Hp, El, !flat_map_app. cbn [flat_map]. rewrite E1.
          rewrite <- !app_assoc. cbn [app]. apply Permutation_app_head. rewrite Permutation_middle. reflexivity.
    - unfold P. cbn [fst snd]. split; [exact Hi|]. exists b0. split; [exact Eb|reflexivity]. }
  destruct HP as (_ & b & E & Hp). exists b. auto.
Qed.

(** *** A cell into which only thread [i] places *)
Lemma single_writer c b0 inter f ths i th0 : ok f -> orempty (wB f c) = b0 ->
  nth_error ths i = Some th0 -> inserting c th0 = false ->
  (forall j th, nth_error ths j = Some th -> j <> i -> pend c th = []) ->
  let r := exec inter (f, ths) in
  exists th, nth_error (snd r) i = Some th /\ orempty (wB (fst r) c) ++ pend c th = b0 ++ pend c th0.
Proof.
  intros W <- Ei Hi Ho.
  pose (P := fun r : pfield * list fthread =>
    (forall j th, nth_error (snd r) j = Some th -> j <> i -> pend c th = []) /\
    exists th, nth_error (snd r) i = Some th /\ (inserting c th = true -> wB (fst r) c = None) /\
      orempty (wB (fst r) c) ++ pend c th = orempty (wB f c) ++ pend c th0).
  assert (HP : P (exec inter (f, ths))).
  { apply (exec_ind P); [|exact W|].
    - intros j g gs g' gs' Wg (Hn & th & Hth & Hins & He) E. cbn [fst snd] in *.
      destruct (micro_ok j g gs g' gs' Wg E) as (_ & thj & thj' & Et & -> & _ & Hc & _).
      unfold P. cbn [fst snd]. destruct (Nat.eq_dec j i) as [->|Hne].
      + rewrite Et in Hth. injection Hth as <-. split.
        * intros k x Hk Hki. rewrite set_nth_other in Hk by congruence. exact (Hn k x Hk Hki).
        * exists thj'. split; [apply (set_nth_same _ _ _ _ Et)|].
          destruct (Hc c) as [(E1 & E2 & E3 & E4)|(o & E1 & E2 & E3 & E4)].
          -- rewrite E1, E2. auto.
          -- rewrite E2. split; [discriminate|]. rewrite E3, <- He, E1. cbn [orempty].
             destruct (inserting c thj) eqn:Ej; [rewrite (Hins eq_refl); reflexivity|]. rewrite <- app_assoc. reflexivity.
      + assert (Hj : pend c thj = []) by (apply (Hn j); assumption).
        destruct (Hc c) as [(E1 & E2 & E3 & E4)|(o & E1 & _)]; [|rewrite Hj in E1; discriminate].
        split.
        * intros k x Hk Hki. destruct (Nat.eq_dec j k) as [<-|Hjk].
          -- rewrite (set_nth_same _ _ _ _ Et) in Hk. injection Hk as <-. rewrite E2. exact Hj.
          -- rewrite set_nth_other in Hk by exact Hjk. exact (Hn k x Hk Hki).
        * exists th. rewrite set_nth_other by exact Hne. rewrite E1. auto.
    - unfold P. cbn [fst snd]. split; [exact Ho|]. exists th0. split; [exact Ei|]. split; [congruence|reflexivity]. }
  destruct HP as (_ & th & E & _ & He). exists th. auto.
Qed.

(** *** Nothing is put into a cell that was not placed there *)
Lemma only_placed c inter f ths : ok f ->
  let r := exec inter (f, ths) in
  incl (orempty (wB (fst r) c) ++ flat_map (pend c) (snd r)) (orempty (wB f c) ++ flat_map (pend c) ths).
Proof.
  intros W.
  pose (P := fun r : pfield * list fthread =>
    incl (orempty (wB (fst r) c) ++ flat_map (pend c) (snd r)) (orempty (wB f c) ++ flat_map (pend c) ths)).
  apply (exec_ind P); [|exact W|unfold P; cbn [fst snd]; apply incl_refl].
  intros i g gs g' gs' Wg Hi E. unfold P in *. cbn [fst snd] in *.
  destruct (micro_ok i g gs g' gs' Wg E) as (_ & th & th' & Et & -> & _ & Hc & _).
  destruct (set_nth_split i th th' gs Et) as (l1 & l2 & El & Es & _). rewrite Es. subst gs.
  intros x Hx. apply Hi. revert Hx. rewrite !flat_map_app. cbn [flat_map]. rewrite !in_app_iff.
  destruct (Hc c) as [(E1 & E2 & _)|(o & E1 & E2 & E3 & E4)]; [rewrite E1, E2; tauto|]. rewrite E3, E1. cbn [orempty].
  destruct (inserting c th); rewrite ?in_app_iff; cbn [In]; tauto.
Qed.

(** *** Locations *)
Definition later (o : O) (a b : option (O * pt)) : option (O * pt) := match b with Some p => Some p | None => a end.

Lemma last_place_cons o (q : O * pt) ps : last_place A eqo o (q :: ps) =
  match last_place A eqo o ps with Some p => Some p | None => if eqo o (fst q) then Some q else None end.
Proof.
  unfold last_place. cbn [rev]. induction (rev ps) as [|x l IH]; cbn [app find]; [reflexivity|].
  destruct (eqo o (fst x)); [reflexivity|exact IH].
Qed.
Lemma last_place_none o (ps : list (O * pt)) : (forall p, In p ps -> eqo o (fst p) = false) <-> last_place A eqo o ps = None.
Proof.
  induction ps as [|q ps IH]; [split; [reflexivity|intros _ p []]|]. rewrite last_place_cons. split.
  - intros H. rewrite (proj1 IH) by (intros p Hp; apply H; right; exact Hp). rewrite (H q (or_introl eq_refl)). reflexivity.
  - intros H. destruct (last_place A eqo o ps) eqn:E; [discriminate|]. intros p [<-|Hp]; [|exact (proj2 IH eq_refl p Hp)].
    destruct (eqo o (fst q)); [discriminate|reflexivity].
Qed.

(** An object that only thread [i] places. *)
Lemma single_place o inter f ths i th0 : ok f -> nth_error ths i = Some th0 ->
  (forall j th, nth_error ths j = Some th -> j <> i -> last_place A eqo o (ft_rest th) = None) ->
  let r := exec inter (f, ths) in
  exists th, nth_error (snd r) i = Some th /\
    later o (wL (fst r) o) (last_place A eqo o (ft_rest th)) = later o (wL f o) (last_place A eqo o (ft_rest th0)).
Proof.
  intros W Ei Ho.
  pose (P := fun r : pfield * list fthread =>
    (forall j th, nth_error (snd r) j = Some th -> j <> i -> last_place A eqo o (ft_rest th) = None) /\
    exists th, nth_error (snd r) i = Some th /\
      later o (wL (fst r) o) (last_place A eqo o (ft_rest th)) = later o (wL f o) (last_place A eqo o (ft_rest th0))).
  assert (HP : P (exec inter (f, ths))).
  { apply (exec_ind P); [|exact W|].
    - intros j g gs g' gs' Wg (Hn & th & Hth & He) E. cbn [fst snd] in *.
      destruct (micro_ok j g gs g' gs' Wg E) as (_ & thj & thj' & Et & -> & _ & _ & Hl).
      unfold P. cbn [fst snd]. destruct (Nat.eq_dec j i) as [->|Hne].
      + rewrite Et in Hth. injection Hth as <-. split.
        * intros k x Hk Hki. rewrite set_nth_other in Hk by congruence. exact (Hn k x Hk Hki).
        * exists thj'. split; [apply (set_nth_same _ _ _ _ Et)|]. rewrite <- He.
          destruct Hl as [[E1 E2]|(o' & l' & E1 & E2)]; [rewrite E1, E2; reflexivity|]. rewrite E1, last_place_cons, E2. cbn [fst].
          destruct (last_place A eqo o (ft_rest thj')); [reflexivity|]. destruct (eqo o o'); reflexivity.
      + pose proof (Hn j thj Et Hne) as Hj. split.
        * intros k x Hk Hki. destruct (Nat.eq_dec j k) as [<-|Hjk].
          -- rewrite (set_nth_same _ _ _ _ Et) in Hk. injection Hk as <-. destruct Hl as [[E1 _]|(o' & l' & E1 & _)].
             ++ rewrite E1. exact Hj.
             ++ rewrite E1, last_place_cons in Hj. destruct (last_place A eqo o (ft_rest thj')); [discriminate|reflexivity].
          -- rewrite set_nth_other in Hk by exact Hjk. exact (Hn k x Hk Hki).
        * exists th. rewrite set_nth_other by exact Hne. split; [exact Hth|]. rewrite <- He.
          destruct Hl as [[E1 E2]|(o' & l' & E1 & E2)]; rewrite E2; [reflexivity|].
          rewrite E1, last_place_cons in Hj. cbn [fst] in Hj. destruct (last_place A eqo o (ft_rest thj')); [discriminate|].
          destruct (eqo o o'); [discriminate|reflexivity].
    - unfold P. cbn [fst snd]. split; [exact Ho|]. exists th0. auto. }
  destruct HP as (_ & th & E & He). exists th. auto.
Qed.

(** Any object: its location is the one of some placement that was made. *)
Lemma some_place o inter f ths : ok f ->
  let r := exec inter (f, ths) in
  (wL (fst r) o = wL f o /\ flat_map (fun th => filter (fun p => eqo o (fst p)) (ft_rest th)) (snd r)
                           = flat_map (fun th => filter (fun p => eqo o (fst p)) (ft_rest th)) ths) \/
  exists p th, In th ths /\ In p (ft_rest th) /\ eqo o (fst p) = true /\ wL (fst r) o = Some p.
Proof.
  intros W. cbv zeta.
  pose (todo := fun x : fthread => filter (fun p : O * pt => eqo o (fst p)) (ft_rest x)).
  pose (P := fun r : pfield * list fthread =>
    (forall p th, In th (snd r) -> In p (ft_rest th) -> exists th0, In th0 ths /\ In p (ft_rest th0)) /\
    ((wL (fst r) o = wL f o /\ flat_map todo (snd r) = flat_map todo ths) \/
     exists p th, In th ths /\ In p (ft_rest th) /\ eqo o (fst p) = true /\ wL (fst r) o = Some p)).
  assert (HP : P (exec inter (f, ths))).
  { apply (exec_ind P); [|exact W|].
    - intros i g gs g' gs' Wg (Hin & He) E. cbn [fst snd] in *.
      destruct (micro_ok i g gs g' gs' Wg E) as (_ & th & th' & Et & -> & _ & _ & Hl).
      destruct (set_nth_split i th th' gs Et) as (l1 & l2 & El & Es & _). unfold P. cbn [fst snd]. rewrite Es.
      assert (Hsub : forall p, In p (ft_rest th') -> In p (ft_rest th)).
      { destruct Hl as [[-> _]|(o' & l' & -> & _)]; [auto|]. intros p Hp. right. exact Hp. }
      split.
      + intros p x Hx Hp. apply in_app_or in Hx. destruct Hx as [Hx|[<-|Hx]].
        * apply (Hin p x); [rewrite El; apply in_or_app; left; exact Hx|exact Hp].
        * apply (Hin p th); [rewrite El; apply in_or_app; right; left; reflexivity|apply Hsub; exact Hp].
        * apply (Hin p x); [rewrite El; apply in_or_app; right; right; exact Hx|exact Hp].
      + destruct Hl as [[E1 E2]|(o' & l' & E1 & E2)].
        * rewrite E2. destruct He as [[He1 He2]|He]; [left|right; exact He]. split; [exact He1|]. rewrite <- He2, El, !flat_map_app.
          cbn [flat_map]. unfold todo at 2 5. rewrite E1. reflexivity.
        * rewrite E2. destruct (eqo o o') eqn:Eo.
          -- right. destruct (Hin (o', l') th) as (th0 & H1 & H2); [rewrite El; apply in_or_app; right; left; reflexivity|rewrite E1; left; reflexivity|].
             exists (o', l'), th0. auto.
          -- destruct He as [[He1 He2]|He]; [left|right; exact He]. split; [exact He1|]. rewrite <- He2, El, !flat_map_app.
             cbn [flat_map]. unfold todo at 2 5. rewrite E1. cbn [filter fst]. rewrite Eo. reflexivity.
    - unfold P. cbn [fst snd]. split; [intros p th H1 H2; exists th; auto|left; auto]. }
  exact (proj2 HP).
Qed.
End Threads.
