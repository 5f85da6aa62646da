(** * Property theorems: simulations of the parallel build, from [init] on (C127) *)
From Coq Require Import List Bool ZArith NArith Arith Lia Permutation.
From Verif Require Import F32 SchedModel ParModel ParProofs SimModel Grid DashModel DashSpec DashProofs NumSpec NumModel ObjModel ObjSpec ObjProofs ObjPar ObjSparse
  FieldModel FieldSpec FieldProofs PFieldModel PFieldSpec PFieldProofs FieldReal FieldF32 FieldProps PFieldProps
  OrderSpec OrderProofs FlockModel FlockSpec FlockProofs StageModel StageSpec StageProofs StageGrid StageProps
  PStageModel PStageSpec PStageProofs PStageSpace PStageSame PStageLoop PStageFlock.
Import ListNotations.
Local Open Scope Z_scope.

(** ** C127: a simulation of the parallel build in which every agent is placed and scheduled
    in [init], moves by looking around, and [update] calls [lazy_update], is a synchronous
    one, whatever the interleaving of its threads.

    [par_in_step], [par_conserved], [pgrid_shows] and [pfield_shows] are in PStageSpec.v,
    [identified] in StageSpec.v. *)

(** What an agent sees, and its next version. *)
Definition pgrid_next {O} (hash_l : loc -> N) look (rule : O -> list (option (list O)) -> O) (g : opar O) (o : O) : O :=
  match mapM (op_get hash_l g) (look o) with Some v => rule o v | None => o end.
Definition pfield_next (A : arith) {O} (hash_l : loc -> N) (location : O -> num A * num A) (radius : O -> num A) (osize : N)
    (rule : O -> list O -> O) (f : @pfield A O) (o : O) : O :=
  match pf_neighbors A hash_l location osize f (location o) (radius o) with Some v => rule o v | None => o end.

Theorem C127_grid :
  forall O K (eqo : O -> O -> bool) (hash_o : O -> N) (hash_l : loc -> N) (location : O -> loc) look (key : O -> K)
    rule stops ends agents cpus threads,
  lawful eqo hash_o -> cpus_ok cpus -> threads <> 0%nat ->
  identified eqo key rule agents ->
  (N.of_nat (length agents) < 2 ^ 32)%N ->
  let g := op_new cpus in
  let u := pgrid_user eqo hash_o hash_l (shards cpus) location look rule stops ends agents in
  par_in_step u threads g (op_lazy_update (shards cpus)) (pgrid_shows eqo hash_o hash_l location)
    (pgrid_next hash_l look rule) stops agents /\
  par_conserved key u threads g (pgrid_shows eqo hash_o hash_l location) stops agents.
Proof.
  intros O K eqo hash_o hash_l location look key rule stops ends agents cpus threads L Cp Th [Eq Kept Un] Few g u.
  set (n := shards cpus) in *.
  assert (Home : Forall (fun _ : O => True) agents) by (apply Forall_forall; auto).
  destruct (gnew eqo hash_o hash_l key location n cpus Cp eq_refl) as [W0 Z0].
  assert (Rd : pready (opwf eqo hash_o hash_l n) (gwrites eqo hash_o hash_l key location) (g, false)) by (split; [reflexivity|split; assumption]).
  split.
  - refine (pstage_in_step (fun g o => op_set eqo hash_o hash_l g o (location o)) (op_lazy_update n) (fun g o => mapM (op_get hash_l g) (look o))
      rule stops ends agents key (fun _ => True) (opwf eqo hash_o hash_l n) (greads eqo hash_o hash_l key location) (gwrites eqo hash_o hash_l key location) (gsame hash_l) (pgrid_shows eqo hash_o hash_l location)
      Home (fun _ _ _ => I) (fun _ _ => eq_refl) (fun _ _ _ A B l => eq_trans (A l) (B l))
      (fun g p o W H _ => gplace eqo hash_o hash_l key L Eq location n g p o W H) (gpublish eqo hash_o hash_l key location n)
      (fun g p o W _ _ _ _ => gsee eqo hash_o hash_l look n g o W) (fun g g' o => gsee_same eqo hash_o hash_l look n g g' o)
      Few Kept Un (fun g p W R _ => gshows eqo hash_o hash_l key location n g p W R) threads Th g Rd).
  - refine (pstage_conserved (fun g o => op_set eqo hash_o hash_l g o (location o)) (op_lazy_update n) (fun g o => mapM (op_get hash_l g) (look o))
      rule stops ends agents key (fun _ => True) (opwf eqo hash_o hash_l n) (greads eqo hash_o hash_l key location) (gwrites eqo hash_o hash_l key location) (gsame hash_l) (pgrid_shows eqo hash_o hash_l location)
      Home (fun _ _ _ => I) (fun _ _ => eq_refl) (fun _ _ _ A B l => eq_trans (A l) (B l))
      (fun g p o W H _ => gplace eqo hash_o hash_l key L Eq location n g p o W H) (gpublish eqo hash_o hash_l key location n)
      (fun g p o W _ _ _ _ => gsee eqo hash_o hash_l look n g o W) (fun g g' o => gsee_same eqo hash_o hash_l look n g g' o)
      Few Kept Un (fun g p W R _ => gshows eqo hash_o hash_l key location n g p W R) threads Th g Rd).
Qed.
Print Assumptions C127_grid.

(** The agents of the field ask for neighbours within a radius for which the query does not
    panic (C121), however many of the agents are there. *)
Theorem C127_field :
  forall (A : arith) O K (eqo : O -> O -> bool) (hash_o : O -> N) (hash_l : loc -> N) (location : O -> num A * num A) radius osize (key : O -> K)
    rule stops ends agents w h d t cpus threads,
  lawful eqo hash_o -> cpus_ok cpus -> threads <> 0%nat -> good_size A w h d ->
  identified eqo key rule agents ->
  (forall o k, (1 <= k <= length agents)%nat -> room_ok A osize w h (radius o) k = true) ->
  (N.of_nat (length agents) < 2 ^ 32)%N ->
  let f := pf_new A cpus w h d t in
  let u := pfield_user eqo hash_o hash_l (shards cpus) A location radius osize rule stops ends agents in
  par_in_step u threads f (pf_lazy_update A (shards cpus)) (pfield_shows eqo hash_o hash_l A location d)
    (pfield_next A hash_l location radius osize rule) stops agents /\
  par_conserved key u threads f (pfield_shows eqo hash_o hash_l A location d) stops agents.
Proof.
  intros A O K eqo hash_o hash_l location radius osize key rule stops ends agents w h d t cpus threads L Cp Th GS [Eq Kept Un] Rm Few f u.
  set (n := shards cpus) in *.
  assert (Home : Forall (fun _ : O => True) agents) by (apply Forall_forall; auto).
  destruct (fnew eqo hash_o hash_l key A location w h d t n cpus Cp eq_refl) as [W0 Z0].
  assert (Rd : pready (pfwf A eqo hash_o hash_l w h d t n) (fwrites eqo hash_o hash_l key A location d) (f, false)) by (split; [reflexivity|split; assumption]).
  split.
  - refine (pstage_in_step (fun f o => pf_set A eqo hash_o hash_l f o (location o)) (pf_lazy_update A n)
      (fun f o => pf_neighbors A hash_l location osize f (location o) (radius o))
      rule stops ends agents key (fun _ => True) (pfwf A eqo hash_o hash_l w h d t n)
      (freads eqo hash_o hash_l key A location d) (fwrites eqo hash_o hash_l key A location d) (fsame eqo hash_o hash_l A)
      (pfield_shows eqo hash_o hash_l A location d)
      Home (fun _ _ _ => I) (fun _ => conj (fun _ => eq_refl) (fun _ => eq_refl))
      (fun _ _ _ X Y => conj (fun c => eq_trans (proj1 X c) (proj1 Y c)) (fun c => eq_trans (proj2 X c) (proj2 Y c)))
      (fun g p o W H _ => fplace eqo hash_o hash_l key L Eq A location w h d t n g p o W H)
      (fpublish eqo hash_o hash_l key A location w h d t n)
      (fun g p o W R Np Le _ => fsee eqo hash_o hash_l key L Eq A location radius osize w h d t n GS g p o (length agents) W R Np Le (Rm o))
      (fun g g' o => fsee_same eqo hash_o hash_l key L Eq A location radius osize w h d t n g g' o)
      Few Kept Un (fun g p W R _ => fshows eqo hash_o hash_l key L Eq A location radius w h d t n g p W R) threads Th f Rd).
  - refine (pstage_conserved (fun f o => pf_set A eqo hash_o hash_l f o (location o)) (pf_lazy_update A n)
      (fun f o => pf_neighbors A hash_l location osize f (location o) (radius o))
      rule stops ends agents key (fun _ => True) (pfwf A eqo hash_o hash_l w h d t n)
      (freads eqo hash_o hash_l key A location d) (fwrites eqo hash_o hash_l key A location d) (fsame eqo hash_o hash_l A)
      (pfield_shows eqo hash_o hash_l A location d)
      Home (fun _ _ _ => I) (fun _ => conj (fun _ => eq_refl) (fun _ => eq_refl))
      (fun _ _ _ X Y => conj (fun c => eq_trans (proj1 X c) (proj1 Y c)) (fun c => eq_trans (proj2 X c) (proj2 Y c)))
      (fun g p o W H _ => fplace eqo hash_o hash_l key L Eq A location w h d t n g p o W H)
      (fpublish eqo hash_o hash_l key A location w h d t n)
      (fun g p o W R Np Le _ => fsee eqo hash_o hash_l key L Eq A location radius osize w h d t n GS g p o (length agents) W R Np Le (Rm o))
      (fun g g' o => fsee_same eqo hash_o hash_l key L Eq A location radius osize w h d t n g g' o)
      Few Kept Un (fun g p W R _ => fshows eqo hash_o hash_l key L Eq A location radius w h d t n g p W R) threads Th f Rd).
Qed.
Print Assumptions C127_field.

(** What [simulate!] calls on any state, in any interleaving: when it comes to its end it has
    made all repetitions, each from its own [init] and with exactly the steps it should;
    when it ends the process, it has made fewer, and the last one was at the beginning of
    one of its steps. *)
Theorem C127_loop :
  forall A S (u : user A S) threads os n reps s, (N.of_nat n < 2 ^ 64)%N ->
  match par_simulate u threads os n reps s with
  | SimDone w => exists l, length l = reps /\ Forall (ended_well n) l /\ state_calls (w_trace w) = reps_calls l
  | SimExit w => exists l k, (length l < reps)%nat /\ Forall (ended_well n) l /\ (k < n)%nat /\
      state_calls (w_trace w) = reps_calls l ++ CInit :: steps_calls 0 (repeat false k) ++ step_start (N.of_nat k)
  | _ => True
  end.
Proof. intros A S u threads os n reps s Bn. exact (reps_calls_ok u threads os n Bn reps 0 (World s [])). Qed.
Print Assumptions C127_loop.

(** ** Both builds move the same population.

    A model whose agents do not look at the order inside the bags, and never look outside
    the grid, behaves the same in the sequential and in the parallel build: after the same
    number of steps both show the same population. *)
Definition same_bag {O} (a b : option (list O)) : Prop :=
  match a, b with
  | None, None => True
  | Some x, Some y => Permutation x y
  | _, _ => False
  end.
Definition order_blind {O} (rule : O -> list (option (list O)) -> O) : Prop :=
  forall o v v', Forall2 same_bag v v' -> rule o v = rule o v'.

Lemma same_nonempty {O} (a b : list O) : Permutation a b -> same_bag (nonempty a) (nonempty b).
Proof.
  intros P. destruct a as [|x a]; [apply Permutation_nil in P; subst b; exact I|].
  destruct b as [|y b]; [symmetry in P; apply Permutation_nil in P; discriminate|]. exact P.
Qed.

Lemma grids_agree {O} eqo hash_o hash_l (location : O -> loc) (look : O -> list loc) (rule : O -> list (option (list O)) -> O)
    (g : loc -> option (option (list O))) (g' : opar O) p p' o :
  order_blind rule ->
  Forall (fun l => exists b, g l = Some (nonempty b) /\ Permutation b (at_loc location l p)) (look o) ->
  pgrid_shows eqo hash_o hash_l location g' p' -> Permutation p p' ->
  (match mapM g (look o) with Some v => rule o v | None => o end) = pgrid_next hash_l look rule g' o.
Proof.
  intros Ob F (S' & _) P. unfold pgrid_next.
  assert (X : exists v v', mapM g (look o) = Some v /\ mapM (op_get hash_l g') (look o) = Some v' /\ Forall2 same_bag v v').
  { induction F as [|l ls (b & Eb & Pb) F (v & v' & E & E' & IH)]; [exists [], []; auto|].
    destruct (S' l) as (b' & Eb' & Pb'). exists (nonempty b :: v), (nonempty b' :: v'). cbn [mapM]. rewrite Eb, E, Eb', E'.
    split; [reflexivity|]. split; [reflexivity|]. constructor; [|exact IH]. apply same_nonempty.
    rewrite Pb, Pb'. apply Permutation_filter. exact P. }
  destruct X as (v & v' & -> & -> & X). apply Ob. exact X.
Qed.

(** The population of the sparse grid and of the parallel grid. *)
Theorem C127_same_as_sparse :
  forall O K (eqo : O -> O -> bool) (hash_o : O -> N) (hash_l : loc -> N) (location : O -> loc) look (key : O -> K)
    rule stops ends ends' agents cpus threads w h,
  lawful eqo hash_o -> cpus_ok cpus -> threads <> 0%nat ->
  identified eqo key rule agents -> order_blind rule ->
  (N.of_nat (length agents) < 2 ^ 32)%N ->
  let u := sparse_user location look rule stops ends agents in
  let u' := pgrid_user eqo hash_o hash_l (shards cpus) location look rule stops ends' agents in
  forall l chs c', length chs = length l -> (N.of_nat (length l) < 2 ^ 64)%N ->
  par_played u' threads (op_new cpus) l = Some c' ->
  let c := played u (os_new w h) chs in
  Permutation (queued (fst c)) (queued (fst c')) /\
  exists p p', Permutation p p' /\
    sparse_shows eqo location (found os_lazy_update c) p /\
    pgrid_shows eqo hash_o hash_l location (par_found (op_lazy_update (shards cpus)) c') p'.
Proof.
  intros O K eqo hash_o hash_l location look key rule stops ends ends' agents cpus threads w h L Cp Th Id Ob Few u u' l chs c' Le Bn E c.
  destruct (C124_sparse O K eqo location look key rule stops ends agents w h Id Few) as [Seq _].
  destruct (C127_grid O K eqo hash_o hash_l location look key rule stops ends' agents cpus threads L Cp Th Id Few) as [Par _].
  destruct (same_population _ _ _ _ _ _ _ _ _ _ _ stops agents Seq Par (fun _ => True)) with (l := l) (chs := chs) (c' := c')
    as (p & p' & X1 & X2 & X3 & X4 & _); try assumption.
  - apply Forall_forall. auto.
  - auto.
  - intros g p g' p' o S1 S2 P _. unfold sparse_next.
    rewrite <- (grids_agree eqo hash_o hash_l location look rule (fun l => Some (os_get g l)) g' p p' o Ob); [|apply Forall_forall; intros l' _|exact S2|exact P].
    + replace (mapM (fun l0 => Some (os_get g l0)) (look o)) with (Some (map (os_get g) (look o))); [reflexivity|].
      clear. induction (look o) as [|l ls IH]; [reflexivity|]. cbn [mapM map]. rewrite <- IH. reflexivity.
    + destruct S1 as (S1 & _). destruct (S1 l') as (b & -> & Pb). eauto.
  - split; [exact X4|]. exists p, p'. auto.
Qed.
Print Assumptions C127_same_as_sparse.

Theorem C127_same_as_dense :
  forall O K (eqo : O -> O -> bool) (hash_o : O -> N) (hash_l : loc -> N) (location : O -> loc) look (key : O -> K)
    rule stops ends ends' agents cpus threads w h g,
  lawful eqo hash_o -> cpus_ok cpus -> threads <> 0%nat ->
  size_ok w h -> od_new w h = Some g ->
  identified eqo key rule agents -> order_blind rule ->
  Forall (on_grid location look w h) agents ->
  (forall o v, on_grid location look w h o -> on_grid location look w h (rule o v)) ->
  (N.of_nat (length agents) < 2 ^ 32)%N ->
  let u := dense_user eqo location look rule stops ends agents in
  let u' := pgrid_user eqo hash_o hash_l (shards cpus) location look rule stops ends' agents in
  forall l chs c', length chs = length l -> (N.of_nat (length l) < 2 ^ 64)%N ->
  par_played u' threads (op_new cpus) l = Some c' ->
  let c := played u g chs in
  Permutation (queued (fst c)) (queued (fst c')) /\
  exists p p', Permutation p p' /\
    dense_shows eqo location w h (found od_lazy_update c) p /\
    pgrid_shows eqo hash_o hash_l location (par_found (op_lazy_update (shards cpus)) c') p'.
Proof.
  intros O K eqo hash_o hash_l location look key rule stops ends ends' agents cpus threads w h g L Cp Th Sz Hg Id Ob Home Stays Few u u' l chs c' Le Bn E c.
  destruct (C124_dense O K eqo location look key rule stops ends agents w h g Sz Hg Id Home Stays Few) as [Seq _].
  destruct (C127_grid O K eqo hash_o hash_l location look key rule stops ends' agents cpus threads L Cp Th Id Few) as [Par _].
  destruct (same_population _ _ _ _ _ _ _ _ _ _ _ stops agents Seq Par (on_grid location look w h)) with (l := l) (chs := chs) (c' := c')
    as (p & p' & X1 & X2 & X3 & X4 & _); try assumption.
  - intros g1 o Ho. unfold dense_next. destruct (mapM (od_get g1) (look o)); auto.
  - intros g1 p g' p' o S1 S2 P [_ Ho]. unfold dense_next.
    apply (grids_agree eqo hash_o hash_l location look rule (od_get g1) g' p p' o Ob); [|exact S2|exact P].
    eapply Forall_impl; [|exact Ho]. intros l' Hl. destruct S1 as (S1 & _). apply S1. exact Hl.
  - split; [exact X4|]. exists p, p'. auto.
Qed.
Print Assumptions C127_same_as_dense.

(** The sequential and the parallel field. *)
Theorem C127_same_flock :
  forall (A : arith) O K (eqo : O -> O -> bool) (hash_o : O -> N) (hash_l : loc -> N) (location : O -> num A * num A) radius osize (key : O -> K)
    rule stops ends ends' agents w h d t cpus threads,
  lawful eqo hash_o -> cpus_ok cpus -> threads <> 0%nat ->
  home A location rule agents w h d ->
  identified eqo key rule agents ->
  (forall o v v', Permutation v v' -> rule o v = rule o v') ->
  (forall o k, (1 <= k <= length agents)%nat -> room_ok A osize w h (radius o) k = true) ->
  let u := flock_user A location radius rule stops ends agents in
  let u' := pfield_user eqo hash_o hash_l (shards cpus) A location radius osize rule stops ends' agents in
  forall l chs c', length chs = length l -> (N.of_nat (length l) < 2 ^ 64)%N ->
  par_played u' threads (pf_new A cpus w h d t) l = Some c' ->
  let c := simulated u w h d t chs in
  Permutation (queued (fst c)) (queued (fst c')) /\
  exists p p', Permutation p p' /\
    FlockSpec.shows A location w h d (looked_at (fst c) (space_of c)) p /\
    pfield_shows eqo hash_o hash_l A location d (par_found (pf_lazy_update A (shards cpus)) c') p'.
Proof.
  intros A O K eqo hash_o hash_l location radius osize key rule stops ends ends' agents w h d t cpus threads L Cp Th (GS & Hm & St & Few) [Eq Kept Un] Bl Rm u u' l chs c' Le Bn E c.
  exact (same_flock_shown A eqo hash_o hash_l key location radius osize rule stops ends ends' agents w h d t cpus threads
    L Cp Th GS Eq Kept Un Few Hm St Rm Bl l chs c' Le Bn E).
Qed.
Print Assumptions C127_same_flock.

(** ** The corridor of C124 on two threads *)
Definition hash_id (o : nat * loc) : N := (N.of_nat (fst o) * 2 ^ 50)%N.
Lemma by_id_lawful : lawful by_id hash_id.
Proof.
  split; unfold by_id, hash_id; intros.
  - apply Nat.eqb_refl.
  - rewrite Nat.eqb_sym. assumption.
  - apply Nat.eqb_eq in H, H0. apply Nat.eqb_eq. congruence.
  - apply Nat.eqb_eq in H. congruence.
Qed.
Definition walkers (stops : nat * loc -> bool) : user (nat * loc) (opar (nat * loc) * bool) :=
  pgrid_user by_id hash_id hcell (shards 1) snd corridor_look corridor_rule stops (fun _ => false) corridor.
(** The threads take turns, long enough for every step. *)
Definition fair : list nat := concat (repeat [0; 1]%nat 40).
Definition walked (k : nat) : option (option (list (loc * (nat * loc))) * bool) :=
  option_map (fun c => (op_iter hcell (space_of c) 4 2, panicked c))
    (par_played (walkers (fun _ => false)) 2 (op_new 1) (repeat (fun _ => 0%nat, fair) k)).

Example C127_concrete :
  lawful by_id hash_id /\ cpus_ok 1 /\ identified by_id fst corridor_rule corridor /\ order_blind corridor_rule /\
  walked 1 = Some (Some [((0, 0), (1%nat, (0, 0))); ((2, 0), (2%nat, (2, 0))); ((2, 1), (3%nat, (2, 1)))], false) /\
  walked 3 = Some (Some [((2, 0), (1%nat, (2, 0))); ((3, 0), (2%nat, (3, 0))); ((3, 1), (3%nat, (3, 1)))], false) /\
  match par_simulate (walkers (fun _ => false)) 2 (fun _ _ => (fun _ => 0%nat, fair)) 2 2 (op_new 1, false) with
  | SimDone w => state_calls (w_trace w)
  | _ => []
  end = reps_calls [[false; false]; [false; false]].
Proof.
  split; [exact by_id_lawful|]. split; [split; [lia|vm_compute; discriminate]|]. split; [apply C124_concrete|]. split.
  { intros o v v' F. unfold corridor_rule. destruct F as [|a b v v' S F]; [reflexivity|].
    destruct a as [x|], b as [y|]; cbn in S; try contradiction; destruct F; reflexivity. }
  split; [vm_compute; reflexivity|]. split; [vm_compute; reflexivity|]. vm_compute. reflexivity.
Qed.

(** Birds on the field: each goes to where it is, or one to the right if it sees another. *)
Definition bird_rule (o : obj) (v : list obj) : obj := match v with [] | [_] => o | _ => at_ (fst o) 5 5 end.
Definition birds : list obj := [at_ 1%nat 2 2; at_ 2%nat 2 3; at_ 3%nat 8 8].
Definition birds_user (osize : N) : user obj (pfld * bool) :=
  pfield_user same_obj hobj hcell (shards 1) FA snd (fun _ => z 2) osize bird_rule (fun _ => false) (fun _ => false) birds.
Definition flown (k : nat) : option (option (list nat) * (option (list nat) * bool)) :=
  option_map (fun c => (q_objects (z 5, z 5) (space_of c), (q_objects (z 8, z 8) (space_of c), panicked c)))
    (par_played (birds_user 24) 2 (fresh false) (repeat (fun _ => 0%nat, fair) k)).

Lemma usable_10_1 : usable (z 10) (z 10) (z 1).
Proof.
  split; [apply pos_int; lia|]. split; [apply pos_int; lia|]. split; [apply pos_int; lia|].
  change (cols FA (z 10) (z 1)) with 11. lia.
Qed.
Example C127_field_concrete :
  lawful same_obj hobj /\ cpus_ok 1 /\ usable (z 10) (z 10) (z 1) /\ good_size FA (z 10) (z 10) (z 1) /\
  identified same_obj fst bird_rule birds /\
  (forall k, (1 <= k <= length birds)%nat -> room_ok FA 24 (z 10) (z 10) (z 2) k = true) /\
  home FA snd bird_rule birds (z 10) (z 10) (z 1) /\
  (forall o v v', Permutation v v' -> bird_rule o v = bird_rule o v') /\
  flown 1 = Some (Some [1; 2]%nat, (Some [3]%nat, false)).
Proof.
  split; [exact obj_lawful|]. split; [split; [lia|vm_compute; discriminate]|]. split; [exact usable_10_1|]. split; [exact (usable_good _ _ _ usable_10_1)|]. split.
  { split.
    - intros a b. apply Nat.eqb_eq.
    - intros o v. unfold bird_rule. destruct v as [|? [|? ?]]; reflexivity.
    - repeat constructor; cbn; intuition discriminate. }
  split; [|split; [|split; [|vm_compute; reflexivity]]].
  2:{ split; [exact (usable_good _ _ _ usable_10_1)|]. split; [unfold birds; repeat (apply Forall_cons; [vm_compute; repeat split; congruence|]); apply Forall_nil|]. split; [|reflexivity].
      intros o v Ho. unfold bird_rule. destruct v as [|? [|? ?]]; try exact Ho. vm_compute. repeat split; congruence. }
  2:{ intros o v v' P. apply Permutation_length in P. unfold bird_rule. destruct v as [|? [|? ?]], v' as [|? [|? ?]]; try discriminate; reflexivity. }
  intros k Hk. cbn [birds length] in Hk.
  assert (X : k = 1%nat \/ k = 2%nat \/ k = 3%nat) by lia. destruct X as [->|[->| ->]]; vm_compute; reflexivity.
Qed.

(** When everybody has stopped, the parallel build ends the process in the middle of
    [simulate!]: the remaining repetitions do not happen, in any interleaving in which the
    steps complete.  The sequential build goes on with them. *)
Definition inits {A S} (w : world A S) : nat :=
  length (filter (fun c => match c with CInit => true | _ => false end) (w_trace w)).
Definition par_inits (os : nat -> nat -> (nat -> nat) * list nat) : option nat :=
  match par_simulate (walkers (fun _ => true)) 2 os 2 3 (op_new 1, false) with
  | SimExit w => Some (inits w)
  | _ => None
  end.
Definition seq_inits (chs : nat -> nat -> nat -> nat) : nat :=
  inits (snd (simulate (sparse_user snd corridor_look corridor_rule (fun _ => true) (fun _ => false) corridor) chs 2 3 (os_new 4 2, false))).
Theorem C127_exit_refuted :
  par_inits (fun _ _ => (fun _ => 0%nat, fair)) = Some 1%nat /\
  seq_inits (fun _ _ _ => 0%nat) = 3%nat.
Proof. split; vm_compute; reflexivity. Qed.
Print Assumptions C127_exit_refuted.

(** A space whose [lazy_update] panics is noticed: the flag is set and stays set. *)
Example C127_flag_concrete :
  option_map panicked (par_played (pstage_user (fun g (_ : nat) => Some g) (fun _ : unit => None) (fun _ _ => Some tt) (fun o _ => o)
    (fun _ => false) (fun _ => false) [1; 2]%nat) 2 tt (repeat (fun _ => 0%nat, fair) 2)) = Some true.
Proof. vm_compute. reflexivity. Qed.
