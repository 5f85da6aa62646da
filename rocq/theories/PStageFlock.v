(** * Both builds move the same flock, if agents do not look at the order of their neighbours *)
From Coq Require Import List Bool ZArith NArith Arith Lia Permutation.
From Verif Require Import F32 Grid DashModel DashSpec DashProofs DashRun DashView ObjModel FieldModel FieldSpec FieldProofs
  PFieldModel PFieldSpec PFieldProofs PFieldConc PFieldProps SchedModel ParModel ParProofs SimModel OrderSpec OrderProofs
  FlockModel FlockSpec FlockProofs StageModel StageSpec PStageModel PStageSpec PStageProofs PStageSpace PStageSame.
Import ListNotations.
Local Open Scope Z_scope.

Section Flock.
Variable A : arith.
Context {O K : Type}.
Variable eqo : O -> O -> bool.
Variable hash_o : O -> N.
Variable hash_l : loc -> N.
Variable key : O -> K.
Variable location : O -> num A * num A.
Variable radius : O -> num A.
Variable osize : N.
Variable rule : O -> list O -> O.
Variable stops : O -> bool.
Variable ends : @field2d A O -> bool.
Variable ends' : @pfield A O -> bool.
Variable agents : list O.
Variables w h d : num A.
Variable t : bool.
Variable cpus : N.
Variable threads : nat.
Hypothesis L : lawful eqo hash_o.
Hypothesis Cp : cpus_ok cpus.
Hypothesis Th : threads <> 0%nat.
Hypothesis GS : good_size A w h d.
Hypothesis Eq : forall a b, eqo a b = true <-> key a = key b.
Hypothesis Kept : forall o v, key (rule o v) = key o.
Hypothesis Un : NoDup (map key agents).
Hypothesis Few : (N.of_nat (length agents) < 4294967296)%N.
Hypothesis Home : Forall (fun o => in_field A w h d (location o)) agents.
Hypothesis Stays : forall o l, in_field A w h d (location o) -> in_field A w h d (location (rule o l)).
Hypothesis Rm : forall o k, (1 <= k <= length agents)%nat -> room_ok A osize w h (radius o) k = true.
Hypothesis Blind : forall o v v', Permutation v v' -> rule o v = rule o v'.
Notation n := (shards cpus).
Notation u := (flock_user A location radius rule stops ends agents).
Notation u' := (pfield_user eqo hash_o hash_l n A location radius osize rule stops ends' agents).
Notation wf' := (pfwf A eqo hash_o hash_l w h d t n).
Notation reads' := (freads eqo hash_o hash_l key A location d).
Notation writes' := (fwrites eqo hash_o hash_l key A location d).
Notation see' := (fun f o => pf_neighbors A hash_l location osize f (location o) (radius o)).
Notation seqreads := (FlockProofs.reads A location w h d).

Lemma pneighbors_eq (f : @pfield A O) p o ids : wf' f -> reads' f p -> p <> [] -> (length p <= length agents)%nat ->
  le A (radius o) (of_int A 0) = false -> window A (f_new A w h d t : @field2d A O) (location o) (radius o) = Some ids ->
  pf_neighbors A hash_l location osize f (location o) (radius o) =
    Some (flat_map (fun c => filter (keeps A location w h d t (location o) (radius o) c) (FlockProofs.here A location d c p)) ids).
Proof.
  intros W R Np Le Hd Ei. destruct (fnum_range eqo hash_o hash_l key L Eq A location radius w h d t n f p W R) as (B1 & B2 & _). specialize (B2 Np).
  pose proof (room_capacity A O eqo hash_o hash_l osize w h d t n f (radius o) W) as C. rewrite Rm in C by lia.
  destruct C as (c & Ec & Cc). unfold pf_neighbors. rewrite Ec, Cc, Hd. cbn [negb].
  destruct (new_ok A w h d t GS (O := O)) as (Wn & _).
  assert (Ew : pf_window A f (location o) (radius o) = Some ids).
  { rewrite <- Ei. unfold pf_window, window. destruct W as (_ & _ & _ & -> & -> & -> & ->).
    destruct Wn as (-> & -> & -> & -> & _). reflexivity. }
  rewrite Ew. destruct R as (R & _). pose proof W as (_ & _ & _ & E1 & E2 & E3 & E4). rewrite E1, E2, E3, E4. clear Ew Ei.
  induction ids as [|i ids IH]; [reflexivity|]. cbn [mapM flat_map].
  rewrite (read_bag_eq A eqo hash_o hash_l w h d t n f i W), (R i). cbn [option_map].
  revert IH. destruct (mapM _ ids) as [ys|]; [|discriminate]. cbn [option_map concat]. intros [= <-]. reflexivity.
Qed.

Lemma flat_map_perm {X Y} (f g : X -> list Y) l : (forall x, Permutation (f x) (g x)) -> Permutation (flat_map f l) (flat_map g l).
Proof. intros H. induction l as [|x l IH]; [constructor|]. cbn. apply Permutation_app; auto. Qed.

Lemma flocks_agree f p (f' : @pfield A O) p' o : fwf A w h d t f -> seqreads f p -> wf' f' -> reads' f' p' -> Permutation p p' ->
  p' <> [] -> (length p' <= length agents)%nat ->
  moved A location radius rule f o = pnext see' rule f' o.
Proof.
  intros W R W' R' P Np Le. unfold moved, pnext, around.
  destruct (le A (radius o) (of_int A 0)) eqn:Hd.
  - destruct (fsee eqo hash_o hash_l key L Eq A location radius osize w h d t n GS f' p' o (length agents) W' R' Np Le (Rm o)) as [v Ev].
    rewrite Ev. unfold f_neighbors. rewrite Hd. unfold pf_neighbors in Ev. rewrite Hd in Ev.
    destruct (pf_capacity A f' (radius o)); [|discriminate]. destruct (negb _); [discriminate|]. injection Ev as <-. reflexivity.
  - destruct (neighbors_eq A location w h d t GS f (location o) (radius o) (fun c => FlockProofs.here A location d c p) W R Hd) as (ids & Ei & _ & En & _).
    rewrite En. assert (Ei' : window A (f_new A w h d t : @field2d A O) (location o) (radius o) = Some ids).
    { rewrite <- Ei. unfold window. destruct (new_ok A w h d t GS (O := O)) as (Wn & _).
      destruct W as (-> & -> & -> & -> & _). destruct Wn as (-> & -> & -> & -> & _). reflexivity. }
    rewrite (pneighbors_eq f' p' o ids W' R' Np Le Hd Ei'). apply Blind. apply flat_map_perm. intros c. apply Permutation_filter.
    unfold FlockProofs.here. apply Permutation_filter. exact P.
Qed.

Notation place' := (fun (f : @pfield A O) o => pf_set A eqo hash_o hash_l f o (location o)).
Notation betw := (pbetween stops agents key (fun _ => True) wf' reads' writes').

Lemma same_flock : forall l chs c', length chs = length l -> (N.of_nat (length l) < 18446744073709551616)%N ->
  par_played u' threads (pf_new A cpus w h d t) l = Some c' ->
  let c := simulated u w h d t chs in
  exists p p', population A location stops agents w h d t key (length l) p (fst c) (w_st (snd c)) /\
    betw (N.of_nat (length l)) p' (fst c') (w_st (snd c')) /\
    Permutation p p' /\ Permutation (queued (fst c)) (queued (fst c')).
Proof.
  assert (HomeT : Forall (fun _ : O => True) agents) by (apply Forall_forall; auto).
  destruct (fnew eqo hash_o hash_l key A location w h d t n cpus Cp eq_refl) as [W0 Z0].
  assert (Rd : pready wf' writes' (pf_new A cpus w h d t, false)) by (split; [reflexivity|split; assumption]).
  pose proof (fun g p o W H (_ : True) => fplace eqo hash_o hash_l key L Eq A location w h d t n g p o W H) as Place.
  pose proof (fpublish eqo hash_o hash_l key A location w h d t n) as Publish.
  pose proof (fun g p o W R Np Le (_ : True) => fsee eqo hash_o hash_l key L Eq A location radius osize w h d t n GS g p o (length agents) W R Np Le (Rm o)) as See.
  pose proof (fun g g' o => fsee_same eqo hash_o hash_l key L Eq A location radius osize w h d t n g g' o) as See_same.
  pose proof (fun g p W R (_ : Forall (fun _ : O => True) p) => fshows eqo hash_o hash_l key L Eq A location radius w h d t n g p W R) as Shows.
  set (good := fun _ : O => True) in *. set (same := fsame eqo hash_o hash_l A) in *. set (shows' := pfield_shows eqo hash_o hash_l A location d) in *.
  assert (StaysT : forall (o : O) (v : list O), good o -> good (rule o v)) by (intros; exact I).
  assert (Refl : forall g, same g g) by (intros g; split; reflexivity).
  assert (Trans : forall g1 g2 g3, same g1 g2 -> same g2 g3 -> same g1 g3).
  { intros g1 g2 g3 [X1 X2] [Y1 Y2]. split; intros; [rewrite X1; apply Y1|rewrite X2; apply Y2]. }
  intros l. induction l as [|x l IH] using rev_ind; intros chs c' Le Bn E c; subst c.
  - destruct chs; [|discriminate]. exists agents, agents.
    pose proof (start_population A location radius rule stops ends agents w h d t GS Home Stays Few key
      (World (f_new A w h d t, false) []) (new_ready A location w h d t GS)) as P.
    injection E as <-.
    pose proof (start_pbetween place' (pf_lazy_update A n) see' rule stops ends' agents key good wf' reads' writes' same shows'
      HomeT StaysT Refl Trans Place Publish See See_same Few Kept Shows (World (pf_new A cpus w h d t, false) []) Rd) as B.
    split; [exact P|]. split; [exact B|]. split; [reflexivity|].
    destruct P as (_ & Q & _). destruct B as (_ & _ & _ & _ & _ & _ & _ & Q' & _). cbn in Q'. unfold simulated. cbn [after_steps]. 
    etransitivity; [exact Q|]. symmetry. exact Q'.
  - destruct chs as [|ch chs _] using rev_ind; [rewrite app_length in Le; cbn in Le; lia|].
    rewrite !app_length in *. cbn [length] in *.
    unfold par_played in E. rewrite par_steps_snoc in E. fold (par_played u' threads (pf_new A cpus w h d t) l) in E.
    destruct (par_played u' threads (pf_new A cpus w h d t) l) as [c1|] eqn:E1; [|discriminate].
    destruct (par_step u' threads (fst x) (snd x) (fst c1) (snd c1)) as [?| |?|sc' w'] eqn:Es; try discriminate. injection E as <-.
    destruct (IH chs c1 ltac:(lia) ltac:(lia) eq_refl) as (p & p' & P & B & Pp & Pq).
    set (c := simulated u w h d t chs) in *.
    assert (Ec : simulated u w h d t (chs ++ [ch]) = step u ch (fst c) (snd c)).
    { apply (after_snoc A location radius rule stops ends agents). }
    rewrite Ec.
    destruct (population_step A location radius rule stops ends agents w h d t GS Stays Few key Kept
      (length l) p _ _ ch ltac:(lia) P) as (q & P1 & P2).
    destruct (pstep_between place' (pf_lazy_update A n) see' rule stops ends' agents key good wf' reads' writes' same shows'
      StaysT Refl Trans Place Publish See See_same Few Kept Un Shows threads (N.of_nat (length l)) p' c1 (fst x) (snd x) sc' w' ltac:(lia) B Es) as (q' & B1 & B2).
    assert (X : Permutation q q').
    { rewrite P2, B2. rewrite <- Pq. destruct (queued (fst c)) as [|o0 qs] eqn:Eq0; [reflexivity|].
      assert (Np : p' <> []).
      { intros ->. destruct B as (_ & _ & _ & _ & _ & _ & _ & Q' & _). assert (Z : Permutation (queued (fst c1)) []) by (destruct (N.of_nat (length l) =? 0)%N; exact Q').
        rewrite Z in Pq. symmetry in Pq. apply Permutation_nil in Pq. discriminate. }
      destruct (pbetween_found place' (pf_lazy_update A n) see' rule stops ends' agents key good wf' reads' writes' same shows' Place Publish See Few Un Shows _ p' c1 B) as (_ & Wg & Rg & _).
      destruct (pbetween_keys place' (pf_lazy_update A n) see' stops agents key good wf' reads' writes' same shows' Place Publish See Few Un Shows _ _ _ _ B) as [_ Lp].
      destruct (step_between A location radius rule stops ends agents w h d t GS Stays (N.of_nat (length l)) p (fst c) (snd c) ch ltac:(lia) (proj1 P)) as (Wf & Rf & _).
      erewrite map_ext_in; [reflexivity|]. intros o Ho. cbv beta.
      apply (flocks_agree _ p _ p' o); assumption. }
    exists q, q'. replace (length l + 1)%nat with (Datatypes.S (length l)) by lia. split; [exact P1|].
    split; [replace (N.of_nat (Datatypes.S (length l))) with (N.of_nat (length l) + 1)%N by lia; exact B1|]. split; [exact X|].
    destruct P1 as (_ & Q & _). destruct B1 as (_ & _ & _ & _ & _ & _ & _ & Q' & _).
    replace (N.of_nat (length l) + 1 =? 0)%N with false in Q' by (symmetry; apply N.eqb_neq; lia).
    rewrite Q, Q'. apply Permutation_filter. exact X.
Qed.

Lemma same_flock_shown : forall l chs c', length chs = length l -> (N.of_nat (length l) < 18446744073709551616)%N ->
  par_played u' threads (pf_new A cpus w h d t) l = Some c' ->
  let c := simulated u w h d t chs in
  Permutation (queued (fst c)) (queued (fst c')) /\
  exists p p', Permutation p p' /\
    FlockSpec.shows A location w h d (looked_at (fst c) (fst (w_st (snd c)))) p /\
    pfield_shows eqo hash_o hash_l A location d (par_found (pf_lazy_update A n) c') p'.
Proof.
  intros l chs c' Le Bn E c. destruct (same_flock l chs c' Le Bn E) as (p & p' & P & B & Pp & Pq).
  split; [exact Pq|]. exists p, p'. split; [exact Pp|]. split.
  - exact (proj2 (population_shows A location stops agents w h d t GS key _ _ _ _ P)).
  - refine (proj2 (proj2 (proj2 (proj2 (pbetween_found (fun (f : @pfield A O) o => pf_set A eqo hash_o hash_l f o (location o)) (pf_lazy_update A n) see' rule stops ends' agents key (fun _ => True) wf' reads' writes'
      (fsame eqo hash_o hash_l A) (pfield_shows eqo hash_o hash_l A location d)
      (fun g p o W H (_ : True) => fplace eqo hash_o hash_l key L Eq A location w h d t n g p o W H)
      (fpublish eqo hash_o hash_l key A location w h d t n)
      (fun g p o W R Np Le (_ : True) => fsee eqo hash_o hash_l key L Eq A location radius osize w h d t n GS g p o (length agents) W R Np Le (Rm o))
      Few Un (fun g p W R _ => fshows eqo hash_o hash_l key L Eq A location radius w h d t n g p W R) _ p' c' B))))).
Qed.
End Flock.
