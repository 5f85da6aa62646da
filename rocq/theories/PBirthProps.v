(** * Property theorems: agents that are born and die in the parallel build (C137) *)
From Coq Require Import List Bool ZArith NArith Arith Lia Permutation.
From Verif Require Import F32 SchedModel ParModel ParProofs SimModel Grid DashModel DashSpec DashProofs NumSpec NumModel ObjModel ObjSpec ObjProofs ObjPar ObjSparse
  FieldModel FieldSpec FieldProofs PFieldModel PFieldSpec PFieldProofs FieldReal FieldF32 FieldProps PFieldProps
  OrderSpec OrderProofs FlockModel FlockSpec FlockProofs StageModel StageSpec StageProofs StageGrid StageProps
  PStageModel PStageSpec PStageProofs PStageSpace PStageProps
  BirthModel BirthSpec BirthProofs BirthProps PBirthModel PBirthSpec PBirthProofs.
Import ListNotations.
Local Open Scope Z_scope.

(** ** C137 in the parallel build: whatever the number of threads, the tie-breaks and the
    interleavings, and whatever the hashes.

    [par_grows_in_step] is in PBirthSpec.v; [pgrid_shows] and [pfield_shows] are in
    PStageSpec.v, [pgrid_next] and [pfield_next] in PStageProps.v, [numbering] in
    BirthProps.v. *)

(** The agents born in a step, by what is seen in the cells of [nursery]. *)
Definition pgrid_litter {O B} (hash_l : loc -> N) nursery (born : list (option (list O)) -> list B) (g : opar O) : list B :=
  match mapM (op_get hash_l g) nursery with Some v => born v | None => [] end.
Definition pfield_litter (A : arith) {O B} (hash_l : loc -> N) nursery (born : list (list O) -> list B) (f : @pfield A O) : list B :=
  match mapM (pf_objects A hash_l f) nursery with Some v => born v | None => [] end.

Lemma par_grows_same {O G B} (key : O -> N) (u : user O ((G * bool) * N)) threads g publish shows next (b1 b2 : G -> list B) newborn stops agents limit :
  (forall g1, b1 g1 = b2 g1) -> par_grows_in_step key u threads g publish shows next b1 newborn stops agents limit ->
  par_grows_in_step key u threads g publish shows next b2 newborn stops agents limit.
Proof.
  intros E [H1 H2]. split; [exact H1|]. intros l c Bn Ec Bc. destruct (H2 l c Bn Ec Bc) as [F R]. split; [exact F|].
  intros ch inter. destruct (R ch inter) as (R1 & R2 & R3). split; [exact R1|]. split; [exact R2|]. rewrite <- E. exact R3.
Qed.

Theorem C137_parallel_grid :
  forall O B (eqo : O -> O -> bool) (hash_o : O -> N) (hash_l : loc -> N) (location : O -> loc) look nursery
    (born : list (option (list O)) -> list B) (key : O -> N) rule stops ends newborn agents cpus threads,
  lawful eqo hash_o -> cpus_ok cpus -> threads <> 0%nat ->
  numbering eqo key rule newborn agents ->
  (N.of_nat (length agents) < 2 ^ 32)%N ->
  par_grows_in_step key (pgrid_births eqo hash_o hash_l (shards cpus) location look nursery born rule stops ends newborn agents)
    threads (op_new cpus) (op_lazy_update (shards cpus)) (pgrid_shows eqo hash_o hash_l location)
    (pgrid_next hash_l look rule) (pgrid_litter hash_l nursery born) newborn stops agents (2 ^ 32).
Proof.
  intros O B eqo hash_o hash_l location look nursery born key rule stops ends newborn agents cpus threads L Cp Th [Eq Kept Bk Fk] Few.
  set (n := shards cpus) in *.
  assert (Home : Forall (fun _ : O => True) agents) by (apply Forall_forall; auto).
  pose proof (gnew eqo hash_o hash_l key location n cpus Cp eq_refl) as Rd.
  apply (par_grows_same _ _ _ _ _ _ _ (litter (fun g => option_map born (mapM (op_get hash_l g) nursery)))).
  { intros g1. unfold litter, pgrid_litter. destruct (mapM (op_get hash_l g1) nursery); reflexivity. }
  refine (pbirth_in_step (fun g o => op_set eqo hash_o hash_l g o (location o)) (op_lazy_update n) (fun g o => mapM (op_get hash_l g) (look o))
    rule stops ends (fun g => option_map born (mapM (op_get hash_l g) nursery)) newborn agents (2 ^ 32) (N.le_refl _)
    (fun _ => True) (opwf eqo hash_o hash_l n) (greads eqo hash_o hash_l key location) (gwrites eqo hash_o hash_l key location) (gsame hash_l) key
    Home (fun _ _ _ => I) (fun _ _ => eq_refl) (fun _ _ _ A B l => eq_trans (A l) (B l))
    (fun g p o W H _ => gplace eqo hash_o hash_l key L Eq location n g p o W H) (gpublish eqo hash_o hash_l key location n)
    (fun g p o W _ _ _ _ => gsee eqo hash_o hash_l look n g o W) (fun g g' o => gsee_same eqo hash_o hash_l look n g g' o)
    _ _ (fun _ _ => I) Bk Kept Fk Few (pgrid_shows eqo hash_o hash_l location)
    (fun g p W R _ => gshows eqo hash_o hash_l key location n g p W R) threads Th (op_new cpus) Rd).
  - intros g W. destruct (mapM_total (op_get hash_l g) nursery) as [v ->]; [|cbn; eauto].
    intros l _. rewrite (op_get_eq eqo hash_o hash_l n g l W). eauto.
  - intros g g' W W' S. f_equal. clear Rd. induction nursery as [|l ls IH]; [reflexivity|]. cbn [mapM]. rewrite IH.
    rewrite (op_get_eq eqo hash_o hash_l n g l W), (op_get_eq eqo hash_o hash_l n g' l W'), S. reflexivity.
Qed.
Print Assumptions C137_parallel_grid.

(** In the field, as long as there have been so few agents that the query for neighbours
    cannot panic (C121). *)
Theorem C137_parallel_field :
  forall (A : arith) O B (eqo : O -> O -> bool) (hash_o : O -> N) (hash_l : loc -> N) (location : O -> num A * num A) radius osize nursery
    (born : list (list O) -> list B) (key : O -> N) rule stops ends newborn agents w h d t cpus threads (limit : N),
  lawful eqo hash_o -> cpus_ok cpus -> threads <> 0%nat -> good_size A w h d ->
  numbering eqo key rule newborn agents ->
  (limit <= 2 ^ 32)%N ->
  (forall o k, (1 <= k)%nat -> (N.of_nat k < limit)%N -> room_ok A osize w h (radius o) k = true) ->
  (N.of_nat (length agents) < 2 ^ 32)%N ->
  par_grows_in_step key (pfield_births eqo hash_o hash_l (shards cpus) A location radius osize nursery born rule stops ends newborn agents)
    threads (pf_new A cpus w h d t) (pf_lazy_update A (shards cpus)) (pfield_shows eqo hash_o hash_l A location d)
    (pfield_next A hash_l location radius osize rule) (pfield_litter A hash_l nursery born) newborn stops agents limit.
Proof.
  intros A O B eqo hash_o hash_l location radius osize nursery born key rule stops ends newborn agents w h d t cpus threads limit L Cp Th GS [Eq Kept Bk Fk] Lim Rm Few.
  set (n := shards cpus) in *.
  assert (Home : Forall (fun _ : O => True) agents) by (apply Forall_forall; auto).
  pose proof (fnew eqo hash_o hash_l key A location w h d t n cpus Cp eq_refl) as Rd.
  apply (par_grows_same _ _ _ _ _ _ _ (litter (fun f => option_map born (mapM (pf_objects A hash_l f) nursery)))).
  { intros g1. unfold litter, pfield_litter. destruct (mapM (pf_objects A hash_l g1) nursery); reflexivity. }
  refine (pbirth_in_step (fun f o => pf_set A eqo hash_o hash_l f o (location o)) (pf_lazy_update A n)
    (fun f o => pf_neighbors A hash_l location osize f (location o) (radius o))
    rule stops ends (fun f => option_map born (mapM (pf_objects A hash_l f) nursery)) newborn agents limit Lim
    (fun _ => True) (pfwf A eqo hash_o hash_l w h d t n)
    (freads eqo hash_o hash_l key A location d) (fwrites eqo hash_o hash_l key A location d) (fsame eqo hash_o hash_l A) key
    Home (fun _ _ _ => I) (fun _ => conj (fun _ => eq_refl) (fun _ => eq_refl))
    (fun _ _ _ X Y => conj (fun c => eq_trans (proj1 X c) (proj1 Y c)) (fun c => eq_trans (proj2 X c) (proj2 Y c)))
    (fun g p o W H _ => fplace eqo hash_o hash_l key L Eq A location w h d t n g p o W H)
    (fpublish eqo hash_o hash_l key A location w h d t n)
    _ (fun g g' o => fsee_same eqo hash_o hash_l key L Eq A location radius osize w h d t n g g' o)
    _ _ (fun _ _ => I) Bk Kept Fk Few (pfield_shows eqo hash_o hash_l A location d)
    (fun g p W R _ => fshows eqo hash_o hash_l key L Eq A location radius w h d t n g p W R) threads Th (pf_new A cpus w h d t) Rd).
  - intros g p o W R Np Le _. apply (fsee eqo hash_o hash_l key L Eq A location radius osize w h d t n GS g p o (length p) W R Np (Nat.le_refl _)).
    intros k Hk. apply Rm; lia.
  - intros g W. destruct (mapM_total (pf_objects A hash_l g) nursery) as [v ->]; [|cbn; eauto].
    intros l _. rewrite (objects_eq A eqo hash_o hash_l w h d t n g l W). eauto.
  - intros g g' W W' [S _]. f_equal. clear Rd. induction nursery as [|l ls IH]; [reflexivity|]. cbn [mapM]. rewrite IH.
    rewrite (objects_eq A eqo hash_o hash_l w h d t n g l W), (objects_eq A eqo hash_o hash_l w h d t n g' l W'), S. reflexivity.
Qed.
Print Assumptions C137_parallel_field.

(** ** The walkers of [C137_concrete] on two threads *)
Definition walk_hash {X} (o : N * X) : N := (fst o * 2 ^ 50)%N.
Definition no_id {X} (a b : N * X) : bool := (fst a =? fst b)%N.
Lemma no_id_lawful X : lawful (@no_id X) walk_hash.
Proof.
  split; unfold no_id, walk_hash; intros.
  - apply N.eqb_refl.
  - rewrite N.eqb_sym. assumption.
  - apply N.eqb_eq in H, H0. apply N.eqb_eq. congruence.
  - apply N.eqb_eq in H. congruence.
Qed.
Definition par_walked (n : nat) : option (option (list (loc * (N * loc))) * list N * N * bool) :=
  option_map (fun c => (op_iter hcell (land_of c) 4 1, map fst (queued (fst c)), made c, failed c))
    (par_lived (pgrid_births no_id walk_hash hcell (shards 1) snd walk_look [(0, 0)] walk_born walk_rule walk_stops (fun _ => false) walk_in first_walkers)
       2 (op_new 1) (repeat (fun _ => 0%nat, fair) n)).

Example C137_parallel_grid_concrete :
  lawful no_id (@walk_hash loc) /\ cpus_ok 1 /\ numbering no_id fst walk_rule walk_in first_walkers /\
  par_walked 2 = Some (Some [((0, 0), (2%N, (0, 0))); ((2, 0), (0%N, (2, 0))); ((3, 0), (1%N, (3, 0)))], [0; 2]%N, 3%N, false) /\
  par_walked 4 = Some (Some [((0, 0), (3%N, (0, 0))); ((2, 0), (2%N, (2, 0)))], [2; 3]%N, 4%N, false).
Proof.
  split; [apply no_id_lawful|]. split; [split; [lia|vm_compute; discriminate]|]. split.
  { split; [intros a b; apply N.eqb_eq|reflexivity|reflexivity|reflexivity]. }
  split; vm_compute; reflexivity.
Qed.

(** Birds: those that see another go to (5, 5), where they stop; one hatches at (1, 1) in every step
    in which there is none. *)
Definition hatch_at : f32 * f32 := (z 1, z 1).
Definition bird := (N * (f32 * f32))%type.
Definition fly (o : bird) (v : list bird) : bird := match v with [] | [_] => o | _ => (fst o, (z 5, z 5)) end.
Definition landed (o : bird) : bool := feqb (fst (snd o)) (z 5).
Definition hatch (v : list (list bird)) : list unit := match v with [[]] => [tt] | _ => [] end.
Definition egg (n : N) (_ : unit) : bird := (n, hatch_at).
Definition first_birds : list bird := [(0%N, (z 2, z 2)); (1%N, (z 2, z 3)); (2%N, (z 8, z 8))].
Definition brood (n : nat) : option (list (option (list N)) * list N * N * bool) :=
  option_map (fun c => (map (fun l => option_map (map fst) (pf_objects FA hcell (land_of c) l)) [hatch_at; (z 5, z 5); (z 8, z 8)],
      map fst (queued (fst c)), made c, failed c))
    (par_lived (pfield_births no_id walk_hash hcell (shards 1) FA snd (fun _ => z 2) 24 [hatch_at] hatch fly landed (fun _ => false) egg first_birds)
       2 (pf_new FA 1 (z 10) (z 10) (z 1) false) (repeat (fun _ => 0%nat, fair) n)).

Example C137_parallel_field_concrete :
  lawful no_id (@walk_hash (f32 * f32)) /\ cpus_ok 1 /\ good_size FA (z 10) (z 10) (z 1) /\
  numbering no_id fst fly egg first_birds /\
  (forall k, (1 <= k)%nat -> (N.of_nat k < 6)%N -> room_ok FA 24 (z 10) (z 10) (z 2) k = true) /\
  brood 1 = Some ([Some [3]; Some [0; 1]; Some [2]]%N, [2; 3]%N, 4%N, false) /\
  brood 2 = Some ([Some [3]; Some []; Some [2]]%N, [2; 3]%N, 4%N, false).
Proof.
  split; [apply no_id_lawful|]. split; [split; [lia|vm_compute; discriminate]|]. split; [exact (usable_good _ _ _ usable_10_1)|]. split.
  { split; [intros a b; apply N.eqb_eq|intros o [|? [|? ?]]; reflexivity|reflexivity|reflexivity]. }
  split.
  { intros k H1 H2. assert (X : k = 1%nat \/ k = 2%nat \/ k = 3%nat \/ k = 4%nat \/ k = 5%nat) by lia.
    destruct X as [->|[->|[->|[->| ->]]]]; vm_compute; reflexivity. }
  split; vm_compute; reflexivity.
Qed.

(** Panics are noticed: of the queries of [after_step], and of [lazy_update]. *)
Example C137_flag_concrete :
  failed (lived (birth_user (fun g (_ : nat) => Some g) (fun g => Some g) (fun _ _ => Some tt) (fun o _ => o) (fun _ => false) (fun _ => false)
    (fun _ : unit => None) (fun _ (_ : unit) => 0%nat) [1; 2]%nat) tt [fun _ => 0%nat]) = true /\
  option_map failed (par_lived (birth_user (fun g (_ : nat) => Some g) (fun g => Some g) (fun _ _ => Some tt) (fun o _ => o) (fun _ => false) (fun _ => false)
    (fun _ : unit => None) (fun _ (_ : unit) => 0%nat) [1; 2]%nat) 2 tt [(fun _ => 0%nat, fair)]) = Some true /\
  option_map failed (par_lived (birth_user (fun g (_ : nat) => Some g) (fun _ => None) (fun _ _ => Some tt) (fun o _ => o) (fun _ => false) (fun _ => false)
    (fun _ : unit => Some []) (fun _ (_ : unit) => 0%nat) [1; 2]%nat) 2 tt [(fun _ => 0%nat, fair)]) = Some true.
Proof. repeat split; vm_compute; reflexivity. Qed.
