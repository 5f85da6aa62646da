(** * What a distributed simulation should do *)
From Coq Require Import List Bool ZArith NArith Arith Permutation.
From Verif Require Import F32 SchedModel Grid ObjModel FieldModel FieldSpec KdModel FlockSpec.
Import ListNotations.
Local Open Scope nat_scope.

Section Spec.
Variable A : arith.
Context {O : Type}.
Notation kdtree := (kdtree A (O := O)).
Variable location : O -> num A * num A.
Variable key : O -> N.
Variable radius : O -> num A.
Variable rule : O -> list O -> O.
Variable p : nat.
Variables x y w h d dist : num A.
Variable tree : nat -> kdtree.
Variable born : nat -> list O.

(** The process whose block the agent is in. *)
Definition lives_in (o : O) : option Z := block_by_location A p (k_subtrees (tree 0)) (location o).
Definition lives_at (r : nat) (o : O) : bool := match lives_in o with Some b => (b =? Z.of_nat r)%Z | None => false end.

(** The processes that process [r] exchanges messages with. *)
Definition partners (r : nat) : list nat := map Z.to_nat (k_neighbor_trees (tree r)).

(** All agents, over all processes. *)
Definition everywhere (P : nat -> list O) : list O := flat_map P (seq 0 p).

(** What is assumed of the user: the processes created the tree together; the agents have
    distinct keys and are born in the process whose block they are in; their rule keeps the
    key, keeps them in the field, and takes them at most into a neighbouring block; fewer
    than 2^32 ids are given out in [T] steps. *)
Definition fits (T : nat) : Prop :=
  good_size A w h d /\ 2 <= p /\
  (forall r, r < p -> create_tree A p (Z.of_nat r) 0 x y w h d dist = Some (tree r)) /\
  NoDup (map key (everywhere born)) /\
  (forall r o, r < p -> In o (born r) -> in_field A w h d (location o) /\ lives_in o = Some (Z.of_nat r)) /\
  (forall o l, key (rule o l) = key o) /\
  (forall o l, in_field A w h d (location o) -> in_field A w h d (location (rule o l))) /\
  (forall o l r, r < p -> in_field A w h d (location o) -> lives_in o = Some (Z.of_nat r) ->
     exists b, b < p /\ lives_in (rule o l) = Some (Z.of_nat b) /\ (b = r \/ In (Z.of_nat b) (k_neighbor_trees (tree r)))) /\
  (N.of_nat (length (everywhere born)) * N.of_nat (T + 1) < 2 ^ 32)%N /\ (N.of_nat T < 2 ^ 64)%N.

(** What can be read in the tree is [q]: each agent once, in the cell of its own location. *)
Definition tree_shows (k : kdtree) (q : list O) : Prop :=
  forall l, in_field A w h d l -> exists b, vget (k_read k) (k_index A k l) = Some b /\
    Permutation b (filter (fun o => same_cell A d (location o) l) q).

(** The agents of the other processes that are in a halo region listed for process [r]. *)
Definition in_halo (s r : nat) (o : O) : bool :=
  match region_of A (tree s) (location o) with
  | None => false
  | Some g => existsb (fun n => (fst n =? g)%Z && (snd n =? Z.of_nat r)%Z) (concat (k_neighbor_regions (tree s)))
  end.
Definition halo (P : nat -> list O) (r : nat) : list O :=
  flat_map (fun s => if existsb (Z.eqb (Z.of_nat s)) (k_neighbor_trees (tree r)) then filter (in_halo s r) (P s) else []) (seq 0 p).

(** The move of an agent that looks into the tree [k]. *)
Definition moves_to (k : kdtree) (o : O) : O :=
  rule o (match k_relax A location k (location o) (radius o) with Some l => l | None => [] end).
End Spec.
