(** * Model of the distributed Kdtree

    src/engine/fields/kdtree_mpi.rs: how the field is divided among the MPI processes
    (L111-512), the bags (L519-575, L858-880), the neighbour queries (L612-693, L797-849)
    and what a process hands to the network (L716-730).  The exchange itself is in
    MpiModel.v.  Written, like FieldModel.v, for any arithmetic.  [None] is a panic.

    [p] is [world.size()] and [rank] is [world.rank()].  The messages that carry the
    blocks from process 0 to the others (L283-290) are taken to arrive unchanged. *)
From Coq Require Import List Bool ZArith NArith Arith.
From Verif Require Import F32 Grid ObjModel FieldModel.
Import ListNotations.
Open Scope Z_scope.

Inductive axis := Vertical | Horizontal.                       (* L28-32 *)
Definition other_axis (a : axis) : axis := match a with Vertical => Horizontal | Horizontal => Vertical end.

Section Kd.
Variable A : arith.
Notation T := (num A).
Notation pt := (num A * num A)%type.

(** [==] of two floats. *)
Definition eqn (a b : T) : bool := le A a b && le A b a.
Definition eqpt (p q : pt) : bool := eqn (fst p) (fst q) && eqn (snd p) (snd q).

(** [Block], L18-26. *)
Record block := Block { b_id : Z; b_x : T; b_y : T; b_w : T; b_h : T }.

(** The position and the size of a [Kdtree], the only parts of it that the subdivision
    reads or changes. *)
Record rect := Rect { r_x : T; r_y : T; r_w : T; r_h : T }.

(** [split], L453-487: the two trees that replace this one.  The assignment to
    [self.height] (L470) has no effect beyond this: the tree split in the loop is
    overwritten by the first result, and the root is split vertically. *)
Definition half (x : T) : T := div A x (of_int A 2).
Definition split (a : axis) (r : rect) : rect * rect :=
  match a with
  | Vertical =>
      (Rect (r_x r) (r_y r) (half (r_w r)) (r_h r),
       Rect (add A (r_x r) (half (r_w r))) (r_y r) (half (r_w r)) (r_h r))
  | Horizontal =>
      let h := half (r_h r) in
      (Rect (r_x r) (r_y r) (r_w r) h, Rect (r_x r) (add A (r_y r) h) (r_w r) h)
  end.

(** [Vec::insert] (L230). *)
Definition insert_at {X} (l : list X) (k : nat) (x : X) : option (list X) :=
  if (k <=? length l)%nat then Some (firstn k l ++ x :: skipn k l) else None.

(** The [for] loop, L224-232: [todo] iterations are left, the next one is [n]. *)
Fixpoint split_pass (a : axis) (p : nat) (todo n : nat) (count : nat) (l : list rect) : option (nat * list rect) :=
  match todo with
  | O => Some (count, l)
  | S todo' =>
      if (p <=? count)%nat then Some (count, l)
      else match nth_error l (n * 2) with
           | None => None
           | Some r =>
               let nodes := split a r in
               match insert_at (lset (n * 2) (fst nodes) l) (n * 2 + 1) (snd nodes) with
               | None => None
               | Some l' => split_pass a p todo' (S n) (S count) l'
               end
           end
  end.

(** The [while] loop, L223-238; every turn raises [count], so [p] turns are enough and
    the [None] for the fuel is never reached. *)
Fixpoint split_loop (fuel : nat) (a : axis) (p count : nat) (l : list rect) : option (list rect) :=
  if (count <? p)%nat then
    match fuel with
    | O => None
    | S fuel' =>
        match split_pass a p (length l) 0 count l with
        | None => None
        | Some (count', l') => split_loop fuel' (other_axis a) p count' l'
        end
    end
  else Some l.

(** The subtrees built by process 0, L211-239, for [p] at least 2. *)
Definition subdivide (p : nat) (r : rect) : option (list rect) :=
  let nodes := split Vertical r in
  split_loop p Horizontal p 2 [fst nodes; snd nodes].

(** The blocks, numbered from the id of the tree, L242-257. *)
Fixpoint number (id : Z) (l : list rect) : list block :=
  match l with
  | [] => []
  | r :: l' => Block id (r_x r) (r_y r) (r_w r) (r_h r) :: number (id + 1) l'
  end.

(** [self.subtrees] after [first_subdivision], on every process (L257, L288-290); with
    one process it stays empty. *)
Definition blocks (p : nat) (id : Z) (x y w h : T) : option (list block) :=
  if (p =? 1)%nat then Some []
  else option_map (number id) (subdivide p (Rect x y w h)).

(** [get_boundary_points(true)], L325-349, and [get_block_boundary_points(_, true)],
    L355-377, of a rectangle in a field of original size [ow] by [oh]. *)
Definition boundary_points (ow oh x y w h : T) : list pt :=
  [(x, y); (add A x w, y); (x, add A y h); (add A x w, add A y h);
   (rem A x ow, rem A y oh); (rem A (add A x w) ow, rem A y oh);
   (rem A x ow, rem A (add A y h) oh); (rem A (add A x w) ow, rem A (add A y h) oh)].
Definition block_points (ow oh : T) (b : block) : list pt :=
  boundary_points ow oh (b_x b) (b_y b) (b_w b) (b_h b).
Definition share_point (ps qs : list pt) : bool := existsb (fun p => existsb (fun q => eqpt p q) qs) ps.

(** [get_block_by_location], L494-512; [None]: "Block for location not found". *)
Definition in_block (b : block) (l : pt) : bool :=
  le A (b_x b) (fst l) && le A (fst l) (add A (b_x b) (b_w b)) &&
  le A (b_y b) (snd l) && le A (snd l) (add A (b_y b) (b_h b)).
Definition block_by_location (p : nat) (bs : list block) (l : pt) : option Z :=
  if (p =? 1)%nat then Some 0 else option_map b_id (find (fun b => in_block b l) bs).

(** [calculate_regions], L380-422. *)
Definition regions (d x y w h : T) : list block :=
  [Block 0 x (sub A (add A y h) d) w d;
   Block 1 (sub A (add A x w) d) y d h;
   Block 2 x y w d;
   Block 3 x y d h].

(** [Vec::len() > 0]. *)
Definition some_in {X} (l : list X) : bool := match l with [] => false | _ => true end.

(** [calculate_neighbor_regions], L425-447. *)
Definition neighbor_regions (rank : Z) (ow oh : T) (rs bs : list block) : list (list (Z * Z)) :=
  filter some_in
    (map (fun r => filter_map (fun b => if (b_id b =? rank) || negb (share_point (block_points ow oh r) (block_points ow oh b))
                                        then None else Some (b_id r, b_id b)) bs) rs).

(** ** The tree of one process (L35-90) *)
Context {O : Type}.
Variable eqo : O -> O -> bool.
Variable location : O -> num A * num A.

(** [processors], [prec_neighbors] ... as in the code.  [scheduled_agent] is a plain
    public map that the code of this file never touches; it is left out. *)
Record kdtree := Kd {
  k_x : T; k_y : T; k_w : T; k_h : T;          (* pos_x, pos_y, width, height *)
  k_ow : T; k_oh : T;                          (* original_width, original_height *)
  k_read : list (list O); k_write : list (list O);
  k_nagents : N;
  k_dh : Z; k_dw : Z; k_disc : T;
  k_subtrees : list block;
  k_neighbor_trees : list Z;
  k_prec_neighbors : list (list O);
  k_neighbors : list (list O);
  k_received : list O;
  k_regions : list block;
  k_neighbor_regions : list (list (Z * Z));
  k_agents_to_send : list (list O);
  k_distance : T;
  k_density : N; k_checked : bool
}.

(** The ids pushed to [neighbor_trees] (L269-280, L297-308). *)
Definition neighbor_ids (rank : Z) (ow oh x y w h : T) (bs : list block) : list Z :=
  map b_id (filter (fun b => negb (b_id b =? rank) && share_point (boundary_points ow oh x y w h) (block_points ow oh b)) bs).

(** [create_tree] (L171-185): [new] (L111-168), then [first_subdivision] (L188-319) on
    process [rank] of [p].  Process 0 keeps its position and takes the size of every
    block with its id (L260-265); another process takes position and size of its block
    and searches its neighbours there, so it finds none if no block has its id
    (L291-310).  The block ids are [u32]: [id + p] is taken not to overflow. *)
Definition create_tree (p : nat) (rank : Z) (id : Z) (x y w h disc dist : T) : option kdtree :=
  let n := N.to_nat (bag_count A w h disc) in
  match blocks p id x y w h with
  | None => None
  | Some bs =>
      let mine := filter (fun b => b_id b =? rank) bs in
      let place :=                                    (* x, y, width, height of this process *)
        fold_left (fun q b => if rank =? 0 then (fst q, (b_w b, b_h b)) else ((b_x b, b_y b), (b_w b, b_h b)))
          mine ((x, y), (w, h)) in
      let '((x', y'), (w', h')) := place in
      let nbs := if (p =? 1)%nat then []
                 else if rank =? 0 then neighbor_ids rank w h x' y' w' h' bs
                 else if some_in mine then neighbor_ids rank w h x' y' w' h' bs else [] in
      let rs := regions dist x' y' w' h' in
      Some (Kd x' y' w' h' w h (repeat [] n) (repeat [] n) 0
              (wrap32 (ceil_i32 A (div A h disc) + 1)) (wrap32 (ceil_i32 A (div A w disc) + 1)) disc
              bs nbs [] (repeat [] 4) [] rs (neighbor_regions rank w h rs bs)
              (if (p =? 1)%nat then [] else repeat [] p) dist 0 false)
  end.

(** Replace the bags and the counters. *)
Definition with_bags (k : kdtree) (rd wr nb : list (list O)) (n : N) : kdtree :=
  Kd (k_x k) (k_y k) (k_w k) (k_h k) (k_ow k) (k_oh k) rd wr n (k_dh k) (k_dw k) (k_disc k)
     (k_subtrees k) (k_neighbor_trees k) (k_prec_neighbors k) nb (k_received k) (k_regions k)
     (k_neighbor_regions k) (k_agents_to_send k) (k_distance k) (k_density k) (k_checked k).
Definition bump (k : kdtree) : N := (if k_checked k then k_nagents k else k_nagents k + 1)%N.

Definition k_index (k : kdtree) (l : pt) : Z := cell_index (k_dh k) (discretize A (k_disc k) l).

(** Push to the bag, or to the region list, with this index. *)
Definition push {X} (bags : list (list X)) (i : Z) (o : X) : option (list (list X)) :=
  match vget bags i with None => None | Some b => vset bags i (b ++ [o]) end.

(** The first halo region that contains the location, L525-534. *)
Definition region_of (k : kdtree) (l : pt) : option Z := option_map b_id (find (fun r => in_block r l) (k_regions k)).

(** [insert], L519-539. *)
Definition k_insert (k : kdtree) (o : O) (l : pt) : option kdtree :=
  match push (k_write k) (k_index k l) o with
  | None => None
  | Some wr =>
      match region_of k l with
      | None => Some (with_bags k (k_read k) wr (k_neighbors k) (bump k))
      | Some i => option_map (fun nb => with_bags k (k_read k) wr nb (bump k)) (push (k_neighbors k) i o)
      end
  end.

(** [insert_read], L546-555. *)
Definition k_insert_read (k : kdtree) (o : O) (l : pt) : option kdtree :=
  option_map (fun rd => with_bags k rd (k_write k) (k_neighbors k) (bump k)) (push (k_read k) (k_index k l) o).

(** [remove_object_location], L562-575. *)
Definition k_remove (k : kdtree) (o : O) (l : pt) : option kdtree :=
  match vget (k_write k) (k_index k l) with
  | None => None
  | Some [] => Some k
  | Some b =>
      let b' := without eqo o b in
      let gone := N.of_nat (length b - length b') in
      if negb (k_checked k) && (k_nagents k <? gone)%N then None
      else option_map (fun wr => with_bags k (k_read k) wr (k_neighbors k)
                                   (if k_checked k then k_nagents k else k_nagents k - gone)%N)
                      (vset (k_write k) (k_index k l) b')
  end.

(** [lazy_update], L858-880. *)
Definition k_lazy_update (p : nat) (k : kdtree) : option kdtree :=
  let next wr density :=
    Kd (k_x k) (k_y k) (k_w k) (k_h k) (k_ow k) (k_oh k) (k_write k) wr (k_nagents k) (k_dh k) (k_dw k) (k_disc k)
       (k_subtrees k) (k_neighbor_trees k) (k_neighbors k) (repeat [] 4) [] (k_regions k)
       (k_neighbor_regions k) (repeat [] p) (k_distance k) density true in
  if k_checked k then Some (next (map (fun _ => []) (k_read k)) (k_density k))
  else match as_index (wrap32 (k_dw k * k_dh k)) with
       | None | Some 0%nat => None
       | Some n => Some (next (repeat [] n) (k_nagents k / N.of_nat n)%N)
       end.

(** ** Neighbour queries *)
(** The bag ids visited, L639-659 and L816-836. *)
Definition k_window (k : kdtree) (l : pt) (dist : T) : option (list loc) :=
  let disc_dist := floor_i32 A (div A dist (k_disc k)) in
  let disc_loc := discretize A (k_disc k) l in
  let max_x := ceil_i32 A (div A (k_ow k) (k_disc k)) in
  let max_y := ceil_i32 A (div A (k_oh k) (k_disc k)) in
  let min_i := Z.max 0 (wrap32 (fst disc_loc - disc_dist)) in
  let max_i := Z.min (wrap32 (fst disc_loc + disc_dist)) (wrap32 (max_x - 1)) in
  let min_j := Z.max 0 (wrap32 (snd disc_loc - disc_dist)) in
  let max_j := Z.min (wrap32 (snd disc_loc + disc_dist)) (wrap32 (max_y - 1)) in
  mapM (fun p => match t_transform (fst p) max_x, t_transform (snd p) max_y with
                 | Some x, Some y => Some (x, y)
                 | _, _ => None
                 end)
       (list_prod (zfrom min_i (wrap32 (max_i + 1))) (zfrom min_j (wrap32 (max_j + 1)))).

(** [get_neighbors_within_distance], L630-693. *)
Definition k_neighbors_within (k : kdtree) (l : pt) (dist : T) : option (list O) :=
  if le A dist (of_int A 0) then Some []
  else match k_window k l dist with
       | None => None
       | Some ids =>
           option_map (@concat O)
             (mapM (fun bag_id =>
                let check := check_circle A bag_id (k_disc k) (k_ow k) (k_oh k) l dist true in
                option_map
                  (filter (fun o => (((check =? 0) && le A (distance A l (location o) (k_ow k) (k_oh k) true) dist)
                                     || (check =? 1)) && negb (eqpt (location o) l)))
                  (vget (k_read k) (cell_index (k_dh k) bag_id))) ids)
       end.

(** [get_distributed_neighbors_within_relax_distance], L797-849. *)
Definition k_relax (k : kdtree) (l : pt) (dist : T) : option (list O) :=
  let dist := if lt A (k_distance k) dist then k_distance k else dist in
  if le A dist (of_int A 0) then Some []
  else match k_window k l dist with
       | None => None
       | Some ids =>
           option_map (@concat O)
             (mapM (fun bag_id => option_map (filter (fun o => negb (eqpt (location o) l)))
                                             (vget (k_read k) (cell_index (k_dh k) bag_id))) ids)
       end.

(** ** What a process hands to the network: [send_agent_vec], L714-730.
    [send_vec] holds the lengths of its slots. *)
Definition extend_slot (v : list (list O)) (i : Z) (os : list O) : option (list (list O)) :=
  match vget v i with None => None | Some b => vset v i (b ++ os) end.
Fixpoint fill_slots (v : list (list O)) (jobs : list (Z * option (list O))) : option (list (list O)) :=
  match jobs with
  | [] => Some v
  | (_, None) :: _ => None
  | (i, Some os) :: jobs' => match extend_slot v i os with None => None | Some v' => fill_slots v' jobs' end
  end.
Definition outgoing (p : nat) (k : kdtree) (agents_to_send : list (list O)) (with_regions : bool) : option (list (list O)) :=
  fill_slots (repeat [] p)
    (if with_regions
     then map (fun n => (snd n, vget agents_to_send (fst n))) (concat (k_neighbor_regions k))
     else map (fun n => (n, vget (k_agents_to_send k) n)) (k_neighbor_trees k)).

(** ** Histories: the calls that change a tree.  [KAddress]: the user's code pushes an agent
    to the slot of a process in the public [agents_to_send] (L79).  The queries above take
    [&self] and change nothing; [update] (L882) is empty. *)
Inductive kop :=
| KInsert (o : O) (l : pt)
| KInsertRead (o : O) (l : pt)
| KRemove (o : O) (l : pt)
| KLazyUpdate
| KAddress (s : nat) (o : O).
Definition k_address (k : kdtree) (s : nat) (o : O) : option kdtree :=
  option_map (fun v =>
    Kd (k_x k) (k_y k) (k_w k) (k_h k) (k_ow k) (k_oh k) (k_read k) (k_write k) (k_nagents k) (k_dh k) (k_dw k) (k_disc k)
       (k_subtrees k) (k_neighbor_trees k) (k_prec_neighbors k) (k_neighbors k) (k_received k) (k_regions k)
       (k_neighbor_regions k) v (k_distance k) (k_density k) (k_checked k))
    (push (k_agents_to_send k) (Z.of_nat s) o).
Definition k_step (p : nat) (k : kdtree) (c : kop) : option kdtree :=
  match c with
  | KInsert o l => k_insert k o l
  | KInsertRead o l => k_insert_read k o l
  | KRemove o l => k_remove k o l
  | KLazyUpdate => k_lazy_update p k
  | KAddress s o => k_address k s o
  end.
Fixpoint k_run (p : nat) (k : kdtree) (cs : list kop) : option kdtree :=
  match cs with
  | [] => Some k
  | c :: cs' => match k_step p k c with None => None | Some k' => k_run p k' cs' end
  end.

End Kd.
Arguments Block {A}. Arguments b_id {A}. Arguments b_x {A}. Arguments b_y {A}. Arguments b_w {A}. Arguments b_h {A}.
Arguments Rect {A}. Arguments r_x {A}. Arguments r_y {A}. Arguments r_w {A}. Arguments r_h {A}.
Arguments Kd {A O}. Arguments k_x {A O}. Arguments k_y {A O}. Arguments k_w {A O}. Arguments k_h {A O}.
Arguments k_ow {A O}. Arguments k_oh {A O}. Arguments k_read {A O}. Arguments k_write {A O}. Arguments k_nagents {A O}.
Arguments k_dh {A O}. Arguments k_dw {A O}. Arguments k_disc {A O}. Arguments k_subtrees {A O}.
Arguments k_neighbor_trees {A O}. Arguments k_prec_neighbors {A O}. Arguments k_neighbors {A O}. Arguments k_received {A O}.
Arguments k_regions {A O}. Arguments k_neighbor_regions {A O}. Arguments k_agents_to_send {A O}.
Arguments k_distance {A O}. Arguments k_density {A O}. Arguments k_checked {A O}.
Arguments KInsert {A O}. Arguments KInsertRead {A O}. Arguments KRemove {A O}. Arguments KLazyUpdate {A O}. Arguments KAddress {A O}.
