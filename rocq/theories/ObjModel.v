(** * Model of the object grids

    src/engine/fields/dense_object_grid_2d.rs and sparse_object_grid_2d.rs (sequential
    versions first, the parallel versions below).  Objects are compared with their own
    [Eq] ([eqo]), which may identify different objects.  [None] is a panic. *)
From Coq Require Import List Bool ZArith NArith Arith.
From Verif Require Import Grid DashModel NumModel.
Import ListNotations.
Open Scope Z_scope.

(** Calls of the API (all grids). *)
Inductive oop (O : Type) :=
| OSet (o : O) (l : loc)
| ORemove (o : O) (l : loc)
| OLazyUpdate
| OUpdate
| OApply (op : grid_option) (f : loc -> O -> option O)
| OGet (l : loc)
| OGetUnbuffered (l : loc)
| OLocation (o : O)
| OLocationUnbuffered (o : O)
| OEmptyBags
| ORandomEmpty (index : nat) (draws : list loc)   (* the random choices made *)
| OIter
| OIterUnbuffered.
Arguments OSet {O}. Arguments ORemove {O}. Arguments OLazyUpdate {O}. Arguments OUpdate {O}.
Arguments OApply {O}. Arguments OGet {O}. Arguments OGetUnbuffered {O}. Arguments OLocation {O}.
Arguments OLocationUnbuffered {O}. Arguments OEmptyBags {O}. Arguments ORandomEmpty {O}.
Arguments OIter {O}. Arguments OIterUnbuffered {O}.

Inductive ores (O : Type) :=
| OUnit
| OBag (b : option (list O))
| OLoc (l : option loc)
| OLocs (l : list loc)
| OCalls (l : list (loc * O)).   (* the calls made to the closure of [iter_objects] *)
Arguments OUnit {O}. Arguments OBag {O}. Arguments OLoc {O}. Arguments OLocs {O}. Arguments OCalls {O}.

Section Obj.
Context {O : Type}.
Variable eqo : O -> O -> bool.

(** [Vec::retain(|&obj| obj != object)] *)
Definition without (o : O) (b : list O) : list O := filter (fun x => negb (eqo x o)) b.
(** [Vec::contains] *)
Definition has (o : O) (b : list O) : bool := existsb (fun x => eqo x o) b.
(** An empty bag is reported as [None]. *)
Definition nonempty {X} (b : list X) : option (list X) := match b with [] => None | _ => Some b end.
Definition filter_map {X Y} (f : X -> option Y) (l : list X) : list Y :=
  flat_map (fun x => match f x with Some y => [y] | None => [] end) l.
Fixpoint mapM {X Y} (f : X -> option Y) (l : list X) : option (list Y) :=
  match l with
  | [] => Some []
  | x :: l' => match f x with None => None | Some y => option_map (cons y) (mapM f l') end
  end.

(** ** DenseGrid2D (L179-763) *)

Record odense := ODense {
  od_read : list (list O);
  od_write : list (list O);
  od_w : Z;
  od_h : Z
}.

(** [new], L201-214. *)
Definition od_new (w h : Z) : option odense :=
  match as_index (wrap32 (w * h)) with
  | None => None
  | Some n => Some (ODense (repeat [] n) (repeat [] n) (wrap32 (Z.abs w)) (wrap32 (Z.abs h)))
  end.

(** [get_objects], L507-520; [get_objects_unbuffered], L547-561. *)
Definition od_get (g : odense) (l : loc) : option (option (list O)) :=
  option_map nonempty (vget (od_read g) (cell_index (od_h g) l)).
Definition od_get_unbuffered (g : odense) (l : loc) : option (option (list O)) :=
  option_map nonempty (vget (od_write g) (cell_index (od_h g) l)).

(** [set_object_location], L688-697; [remove_object_location], L729-736. *)
Definition od_edit (g : odense) (l : loc) (f : list O -> list O) : option odense :=
  match vget (od_write g) (cell_index (od_h g) l) with
  | None => None
  | Some b => option_map (fun ws => ODense (od_read g) ws (od_w g) (od_h g))
                         (vset (od_write g) (cell_index (od_h g) l) (f b))
  end.
Definition od_set (g : odense) (o : O) (l : loc) : option odense :=
  od_edit g l (fun b => without o b ++ [o]).
Definition od_remove (g : odense) (o : O) (l : loc) : option odense := od_edit g l (without o).

(** [lazy_update], L743-750. *)
Definition od_lazy_update (g : odense) : odense :=
  ODense (od_write g) (map (fun _ => []) (od_read g)) (od_w g) (od_h g).

(** [update], L753-762: [Vec::insert] shifts the rest of the vector; the write buffer is
    kept. *)
Definition vinsert {X} (v : list X) (z : Z) (x : X) : option (list X) :=
  match as_index z with
  | None => None
  | Some i => if Nat.leb i (length v) then Some (firstn i v ++ x :: skipn i v) else None
  end.
Definition od_update (g : odense) : option odense :=
  option_map (fun rs => ODense rs (od_write g) (od_w g) (od_h g))
    (foldM (fun rs c => match vget (od_write g) (cell_index (od_h g) c) with
                        | None => None
                        | Some b => vinsert rs (cell_index (od_h g) c) b
                        end)
           (cells (od_w g) (od_h g)) (od_read g)).

(** [calculate_indexes_bag], L768-779. *)
Definition indexes_bag (index w h : Z) : option loc :=
  option_map (fun i => (wrap32 (index - wrap32 (w * i)), i))
    (find (fun i => (index <? wrap32 (wrap32 (w * i) + w)) && (wrap32 (w * i) <=? index)) (zrange h)).

(** [apply_to_all_values], L258-329.  The three loops run over the indices of the read
    buffer; [i] is the index of the first remaining bag. *)
Fixpoint od_apply_read (f : loc -> O -> option O) (w h : Z) (i : nat) (rs : list (list O))
  : option (list (list O)) :=                                                (* L263-277 *)
  match rs with
  | [] => Some []
  | b :: rs' =>
      match indexes_bag (wrap32 (Z.of_nat i)) w h with
      | None => None
      | Some id => option_map (cons (filter_map (f id) b)) (od_apply_read f w h (S i) rs')
      end
  end.
Fixpoint od_apply_write (f : loc -> O -> option O) (w h : Z) (i : nat) (rs ws : list (list O))
  : option (list (list O)) :=                                                (* L278-291 *)
  match rs with
  | [] => Some ws
  | b :: rs' =>
      match indexes_bag (wrap32 (Z.of_nat i)) w h with
      | None => None
      | Some id =>
          match ws with
          | c :: ws' =>
              option_map (cons (c ++ filter_map (f id) b)) (od_apply_write f w h (S i) rs' ws')
          | [] =>
              match filter_map (f id) b with
              | [] => od_apply_write f w h (S i) rs' []
              | _ => None
              end
          end
      end
  end.
(** Pushing an element unless the bag already contains it. *)
Definition push_new (b : list O) (o : O) : list O := if has o b then b else b ++ [o].
Fixpoint od_apply_rw (f : loc -> O -> option O) (w h : Z) (i : nat) (rs ws : list (list O))
  : option (list (list O)) :=                                                (* L293-327 *)
  match rs with
  | [] => Some ws
  | b :: rs' =>
      match indexes_bag (wrap32 (Z.of_nat i)) w h with
      | None => None
      | Some id =>
          match ws with
          | [] => None
          | c :: ws' =>
              let c' := match c with
                        | [] => fold_left push_new (filter_map (f id) b) []
                        | _ => map (fun e => match f id e with Some x => x | None => e end) c
                        end in
              option_map (cons c') (od_apply_rw f w h (S i) rs' ws')
          end
      end
  end.
Definition od_apply (g : odense) (op : grid_option) (f : loc -> O -> option O) : option odense :=
  match op with
  | READ => option_map (fun rs => ODense rs (od_write g) (od_w g) (od_h g))
              (od_apply_read f (od_w g) (od_h g) 0 (od_read g))
  | WRITE => option_map (fun ws => ODense (od_read g) ws (od_w g) (od_h g))
              (od_apply_write f (od_w g) (od_h g) 0 (od_read g) (od_write g))
  | READWRITE => option_map (fun ws => ODense (od_read g) ws (od_w g) (od_h g))
              (od_apply_rw f (od_w g) (od_h g) 0 (od_read g) (od_write g))
  end.

(** [get_location], L429-441; [get_location_unbuffered], L471-482. *)
Fixpoint od_search (buf : list (list O)) (h : Z) (o : O) (cs : list loc) : option (option loc) :=
  match cs with
  | [] => Some None
  | c :: cs' =>
      match vget buf (cell_index h c) with
      | None => None
      | Some b => if has o b then Some (Some c) else od_search buf h o cs'
      end
  end.
Definition od_location (g : odense) (o : O) : option (option loc) :=
  od_search (od_read g) (od_h g) o (cells (od_w g) (od_h g)).
Definition od_location_unbuffered (g : odense) (o : O) : option (option loc) :=
  od_search (od_write g) (od_h g) o (cells (od_w g) (od_h g)).

(** A loop over the cells that collects something from each bag. *)
Fixpoint od_collect {X} (buf : list (list O)) (h : Z) (f : loc -> list O -> list X)
  (cs : list loc) : option (list X) :=
  match cs with
  | [] => Some []
  | c :: cs' =>
      match vget buf (cell_index h c) with
      | None => None
      | Some b => option_map (app (f c b)) (od_collect buf h f cs')
      end
  end.

(** [get_empty_bags], L358-369. *)
Definition od_empty_bags (g : odense) : option (list loc) :=
  od_collect (od_read g) (od_h g)
    (fun c b => match b with [] => [c] | _ => [] end) (cells (od_w g) (od_h g)).

(** [get_random_empty_bag], L391-402. *)
Definition od_random_empty (g : odense) (r : nat) : option (option loc) :=
  match od_empty_bags g with
  | None => None
  | Some [] => Some None
  | Some bags => option_map Some (nth_error bags r)
  end.

(** [iter_objects], L589-607; [iter_objects_unbuffered], L634-653. *)
Definition od_iter (g : odense) : option (list (loc * O)) :=
  od_collect (od_read g) (od_h g) (fun c b => map (pair c) b) (cells (od_w g) (od_h g)).
Definition od_iter_unbuffered (g : odense) : option (list (loc * O)) :=
  od_collect (od_write g) (od_h g) (fun c b => map (pair c) b) (cells (od_w g) (od_h g)).

Definition od_call (g : odense) (c : oop O) : option (odense * ores O) :=
  match c with
  | OSet o l => option_map (fun g' => (g', OUnit)) (od_set g o l)
  | ORemove o l => option_map (fun g' => (g', OUnit)) (od_remove g o l)
  | OLazyUpdate => Some (od_lazy_update g, OUnit)
  | OUpdate => option_map (fun g' => (g', OUnit)) (od_update g)
  | OApply op f => option_map (fun g' => (g', OUnit)) (od_apply g op f)
  | OGet l => option_map (fun x => (g, OBag x)) (od_get g l)
  | OGetUnbuffered l => option_map (fun x => (g, OBag x)) (od_get_unbuffered g l)
  | OLocation o => option_map (fun x => (g, OLoc x)) (od_location g o)
  | OLocationUnbuffered o => option_map (fun x => (g, OLoc x)) (od_location_unbuffered g o)
  | OEmptyBags => option_map (fun x => (g, OLocs x)) (od_empty_bags g)
  | ORandomEmpty r _ => option_map (fun x => (g, OLoc x)) (od_random_empty g r)
  | OIter => option_map (fun x => (g, OCalls x)) (od_iter g)
  | OIterUnbuffered => option_map (fun x => (g, OCalls x)) (od_iter_unbuffered g)
  end.

Fixpoint od_run (g : odense) (cs : list (oop O)) : option (odense * list (ores O)) :=
  match cs with
  | [] => Some (g, [])
  | c :: cs' =>
      match od_call g c with
      | None => None
      | Some (g', r) => option_map (fun p => (fst p, r :: snd p)) (od_run g' cs')
      end
  end.

(** ** SparseGrid2D (L205-719).  [it] is the iteration order of the hash maps. *)

Local Notation bags := (list (loc * list O)).

Record osparse := OSparse {
  os_read : bags;
  os_write : bags;
  os_w : Z;
  os_h : Z
}.

(** [new], L224-234. *)
Definition os_new (w h : Z) : osparse := OSparse [] [] w h.

(** [get_objects], L421-423; [get_objects_unbuffered], L450-452. *)
Definition os_get (g : osparse) (l : loc) : option (list O) :=
  option_map snd (hm_find loc_eqb l (os_read g)).
Definition os_get_unbuffered (g : osparse) (l : loc) : option (list O) :=
  option_map snd (hm_find loc_eqb l (os_write g)).

(** [set_object_location], L648-658. *)
Definition os_set (g : osparse) (o : O) (l : loc) : osparse :=
  OSparse (os_read g)
    (match hm_find loc_eqb l (os_write g) with
     | Some _ => hm_modify loc_eqb l (fun b => b ++ [o]) (os_write g)
     | None => fst (hm_insert loc_eqb l [o] (os_write g))
     end) (os_w g) (os_h g).

(** [remove_object_location], L690-699. *)
Definition os_remove (g : osparse) (o : O) (l : loc) : osparse :=
  OSparse (os_read g)
    (match hm_find loc_eqb l (os_write g) with
     | Some (_, b) =>
         match without o b with
         | [] => fst (hm_remove loc_eqb l (os_write g))
         | b' => hm_modify loc_eqb l (fun _ => b') (os_write g)
         end
     | None => os_write g
     end) (os_w g) (os_h g).

(** [lazy_update], L705-708; [update], L711-718. *)
Definition os_lazy_update (g : osparse) : osparse := OSparse (os_write g) [] (os_w g) (os_h g).
Definition os_update (it : bags -> bags) (g : osparse) : osparse :=
  OSparse (hm_extend loc_eqb [] (it (os_write g))) [] (os_w g) (os_h g).

(** [apply_to_all_values], L278-320: the closure's result is [expect]ed. *)
Definition apply_bag (f : loc -> O -> option O) (p : loc * list O) : option (loc * list O) :=
  option_map (pair (fst p)) (mapM (f (fst p)) (snd p)).
Definition os_apply_rw (f : loc -> O -> option O) (ws : bags) (p : loc * list O) : option bags :=
  match hm_find loc_eqb (fst p) ws with
  | Some (_, c) =>                                                            (* L307-310 *)
      option_map (fun c' => hm_modify loc_eqb (fst p) (fun _ => c') ws) (mapM (f (fst p)) c)
  | None =>                                                                   (* L311-316 *)
      foldM (fun ws o => option_map (fun x => fst (hm_insert loc_eqb (fst p) [x] ws)) (f (fst p) o))
            (snd p) ws
  end.
Definition os_apply (it : bags -> bags) (g : osparse) (op : grid_option) (f : loc -> O -> option O)
  : option osparse :=
  match op with
  | READ => option_map (fun rs => OSparse rs (os_write g) (os_w g) (os_h g)) (mapM (apply_bag f) (os_read g))
  | WRITE => option_map (fun ws => OSparse (os_read g) ws (os_w g) (os_h g)) (mapM (apply_bag f) (os_write g))
  | READWRITE => option_map (fun ws => OSparse (os_read g) ws (os_w g) (os_h g))
                   (foldM (os_apply_rw f) (it (os_read g)) (os_write g))
  end.

(** [get_location], L346-356; [get_location_unbuffered], L386-396. *)
Definition os_search (it : bags -> bags) (m : bags) (o : O) : option loc :=
  option_map fst (find (fun p => has o (snd p)) (it m)).
Definition os_location (it : bags -> bags) (g : osparse) (o : O) : option loc := os_search it (os_read g) o.
Definition os_location_unbuffered (it : bags -> bags) (g : osparse) (o : O) : option loc :=
  os_search it (os_write g) o.

(** [get_empty_bags], L482-500. *)
Definition os_empty_bags (g : osparse) : list loc :=
  filter (fun c => match hm_find loc_eqb c (os_read g) with
                   | Some (_, []) | None => true
                   | Some _ => false
                   end) (cells (os_w g) (os_h g)).

(** [get_random_empty_bag], L523-534 (results as for the number grid). *)
Definition os_random_empty (g : osparse) (draws : list loc) : option (option (option loc)) :=
  if (os_w g <=? 0) || (os_h g <=? 0) then None
  else Some (option_map Some
         (find (fun c => match hm_find loc_eqb c (os_read g) with Some _ => false | None => true end)
               draws)).

(** [iter_objects], L561-574; [iter_objects_unbuffered], L601-614. *)
Definition calls (m : bags) : list (loc * O) := flat_map (fun p => map (pair (fst p)) (snd p)) m.
Definition os_iter (it : bags -> bags) (g : osparse) : list (loc * O) := calls (it (os_read g)).
Definition os_iter_unbuffered (it : bags -> bags) (g : osparse) : list (loc * O) :=
  calls (it (os_write g)).

(** [None]: panic, or [get_random_empty_bag] does not return with the given draws. *)
Definition os_call (it : bags -> bags) (g : osparse) (c : oop O) : option (osparse * ores O) :=
  match c with
  | OSet o l => Some (os_set g o l, OUnit)
  | ORemove o l => Some (os_remove g o l, OUnit)
  | OLazyUpdate => Some (os_lazy_update g, OUnit)
  | OUpdate => Some (os_update it g, OUnit)
  | OApply op f => option_map (fun g' => (g', OUnit)) (os_apply it g op f)
  | OGet l => Some (g, OBag (os_get g l))
  | OGetUnbuffered l => Some (g, OBag (os_get_unbuffered g l))
  | OLocation o => Some (g, OLoc (os_location it g o))
  | OLocationUnbuffered o => Some (g, OLoc (os_location_unbuffered it g o))
  | OEmptyBags => Some (g, OLocs (os_empty_bags g))
  | ORandomEmpty _ draws =>
      match os_random_empty g draws with
      | Some (Some r) => Some (g, OLoc r)
      | _ => None
      end
  | OIter => Some (g, OCalls (os_iter it g))
  | OIterUnbuffered => Some (g, OCalls (os_iter_unbuffered it g))
  end.

Fixpoint os_run (g : osparse) (cs : list (oop O * (bags -> bags))) : option (osparse * list (ores O)) :=
  match cs with
  | [] => Some (g, [])
  | (c, it) :: cs' =>
      match os_call it g c with
      | None => None
      | Some (g', r) => option_map (fun p => (fst p, r :: snd p)) (os_run g' cs')
      end
  end.

End Obj.

Arguments odense : clear implicits.
Arguments osparse : clear implicits.

(** ** The parallel versions (dense L19-172, sparse L20-201): two [DBDashMap]s.  Called
    here by one thread at a time. *)
Section ParObj.
Context {O : Type}.
Variable eqo : O -> O -> bool.
Variable hash_o : O -> N.
Variable hash_l : loc -> N.

Record opar := OPar {
  op_locs : dmap O loc;            (* obj2loc *)
  op_objs : dmap loc (list O)      (* loc2objs *)
}.

(** [new], dense L28-35, sparse L29-36. *)
Definition op_new (cpus : N) : opar := OPar (dash_new cpus) (dash_new cpus).

(** [set_object_location], dense L147-158, sparse L177-188.  The write shard is locked
    by [get_write] and again, separately, by [insert]. *)
Definition op_set (g : opar) (o : O) (l : loc) : option opar :=
  match get_write loc_eqb hash_l l (fun b => without eqo o b ++ [o]) (op_objs g) with
  | None => None
  | Some (d, r) =>
      match (match r with
             | Some _ => Some d
             | None => option_map fst (insert loc_eqb hash_l l [o] d)
             end) with
      | None => None
      | Some d' => option_map (fun e => OPar (fst e) d') (insert eqo hash_o o l (op_locs g))
      end
  end.

(** [remove_object_location], dense L136-145 (the sparse grid does not offer it). *)
Definition op_remove_at (g : opar) (o : O) (l : loc) : option opar :=
  option_map (fun p => OPar (op_locs g) (fst p)) (get_write loc_eqb hash_l l (without eqo o) (op_objs g)).

(** [remove_object], dense L125-134, sparse L165-175: [expect] on the write bag of the
    location in the read buffer. *)
Definition op_remove (g : opar) (o : O) : option opar :=
  match get_read eqo hash_o o (op_locs g) with
  | None => None
  | Some old =>
      match (match old with
             | None => Some (op_objs g)
             | Some l =>
                 match get_write loc_eqb hash_l l (without eqo o) (op_objs g) with
                 | Some (d, Some _) => Some d
                 | _ => None
                 end
             end) with
      | None => None
      | Some d => option_map (fun p => OPar (fst p) d) (remove eqo hash_o o (op_locs g))
      end
  end.

(** [get_objects], dense L62-73, sparse L75-86; [get_objects_unbuffered], dense L75-86,
    sparse L87-98. *)
Definition op_get (g : opar) (l : loc) : option (option (list O)) :=
  option_map (fun r => match r with Some b => nonempty b | None => None end)
             (get_read loc_eqb hash_l l (op_objs g)).
Definition op_get_unbuffered (g : opar) (l : loc) : option (option (list O)) :=
  option_map (fun p => match snd p with Some b => nonempty b | None => None end)
             (get_write loc_eqb hash_l l (fun b => b) (op_objs g)).

(** [get_location], dense L88-93, sparse L100-105; [get_location_unbuffered], dense
    L95-100, sparse L107-112; [get], dense L55-60, sparse L68-73. *)
Definition op_location (g : opar) (o : O) : option (option loc) := get_read eqo hash_o o (op_locs g).
Definition op_location_unbuffered (g : opar) (o : O) : option (option loc) :=
  option_map snd (get_write eqo hash_o o (fun l => l) (op_locs g)).
Definition op_get_object (g : opar) (o : O) : option (option O) :=
  option_map (option_map fst) (get_key_value eqo hash_o o (op_locs g)).

(** [apply_to_all_values], dense L37-53, sparse L38-53: the option is ignored. *)
Definition op_apply (it : list (O * loc) -> list (O * loc)) (g : opar) (f : loc -> O -> option O)
  : option opar :=
  option_map (fun d => OPar d (op_objs g))
             (apply_to_all_keys eqo hash_o it f (op_locs g)).

(** [get_empty_bags], sparse L55-66; [get_random_empty_bag], sparse L129-140. *)
Definition op_empty_bags (g : opar) (w h : Z) : option (list loc) :=
  option_map (@concat loc)
    (mapM (fun c => option_map (fun r => match r with Some _ => [] | None => [c] end)
                               (get_read loc_eqb hash_l c (op_objs g))) (cells w h)).

(** [lazy_update], dense L163-166, sparse L192-195; [update], dense L168-171, sparse
    L197-200. *)
Definition op_lazy_update (n : nat) (g : opar) : option opar :=
  match lazy_update n (op_locs g), lazy_update n (op_objs g) with
  | Some a, Some b => Some (OPar a b)
  | _, _ => None
  end.
Definition op_update (it : list (O * loc) -> list (O * loc)) (it' : list (loc * list O) -> list (loc * list O))
  (n : nat) (g : opar) : option opar :=
  match update eqo it n (op_locs g), update loc_eqb it' n (op_objs g) with
  | Some a, Some b => Some (OPar a b)
  | _, _ => None
  end.

(** [get_unbuffered], sparse L114-127: [expect] on the write bag of the location. *)
Definition op_get_object_unbuffered (g : opar) (o : O) : option (option O) :=
  match get_write eqo hash_o o (fun l => l) (op_locs g) with
  | None => None
  | Some (_, None) => Some None
  | Some (_, Some l) =>
      match get_write loc_eqb hash_l l (fun b => b) (op_objs g) with
      | Some (_, Some b) => Some (find (fun x => eqo x o) b)
      | _ => None
      end
  end.

(** [iter_objects], dense L102-123, sparse L142-163. *)
Definition op_iter (g : opar) (w h : Z) : option (list (loc * O)) :=
  option_map (@concat (loc * O))
    (mapM (fun c => option_map (fun r => match r with Some b => map (pair c) b | None => [] end)
                               (get_read loc_eqb hash_l c (op_objs g))) (cells w h)).

(** Calls of the API of the parallel grids. *)
Inductive pop :=
| PSet (o : O) (l : loc)
| PRemoveAt (o : O) (l : loc)
| PRemove (o : O)
| PLazyUpdate
| PUpdate (it : list (O * loc) -> list (O * loc)) (it' : list (loc * list O) -> list (loc * list O))
| PApply (it : list (O * loc) -> list (O * loc)) (f : loc -> O -> option O)
| PGet (l : loc)
| PGetUnbuffered (l : loc)
| PLocation (o : O)
| PLocationUnbuffered (o : O).

Definition op_call (n : nat) (g : opar) (c : pop) : option (opar * ores O) :=
  match c with
  | PSet o l => option_map (fun g' => (g', OUnit)) (op_set g o l)
  | PRemoveAt o l => option_map (fun g' => (g', OUnit)) (op_remove_at g o l)
  | PRemove o => option_map (fun g' => (g', OUnit)) (op_remove g o)
  | PLazyUpdate => option_map (fun g' => (g', OUnit)) (op_lazy_update n g)
  | PUpdate it it' => option_map (fun g' => (g', OUnit)) (op_update it it' n g)
  | PApply it f => option_map (fun g' => (g', OUnit)) (op_apply it g f)
  | PGet l => option_map (fun x => (g, OBag x)) (op_get g l)
  | PGetUnbuffered l => option_map (fun x => (g, OBag x)) (op_get_unbuffered g l)
  | PLocation o => option_map (fun x => (g, OLoc x)) (op_location g o)
  | PLocationUnbuffered o => option_map (fun x => (g, OLoc x)) (op_location_unbuffered g o)
  end.

Fixpoint op_run (n : nat) (g : opar) (cs : list pop) : option (opar * list (ores O)) :=
  match cs with
  | [] => Some (g, [])
  | c :: cs' =>
      match op_call n g c with
      | None => None
      | Some (g', r) => option_map (fun p => (fst p, r :: snd p)) (op_run n g' cs')
      end
  end.

(** ** [set_object_location] called by several threads at once (dense L147-158, sparse
    L177-188).  Each access of a map is one step, since the map's shard lock is held
    during it (DashConc.v); between the steps other threads may run. *)
Inductive ppc :=
| PcNext
| PcInsert (o : O) (l : loc)    (* [get_write] found no bag; before [loc2objs.insert] *)
| PcLocs (o : O) (l : loc).     (* before [obj2loc.insert] *)
Record pthread := PThread { pt_pc : ppc; pt_rest : list (O * loc) }.

Definition pmicro (t : nat) (c : opar * list pthread) : option (opar * list pthread) :=
  let (g, ths) := c in
  match nth_error ths t with
  | None => None
  | Some th =>
      match pt_pc th with
      | PcNext =>
          match pt_rest th with
          | [] => None
          | (o, l) :: rest =>
              match get_write loc_eqb hash_l l (fun b => without eqo o b ++ [o]) (op_objs g) with
              | None => None
              | Some (d, r) =>
                  Some (OPar (op_locs g) d,
                        set_nth t (PThread (match r with Some _ => PcLocs o l | None => PcInsert o l end) rest) ths)
              end
          end
      | PcInsert o l =>
          option_map (fun p => (OPar (op_locs g) (fst p), set_nth t (PThread (PcLocs o l) (pt_rest th)) ths))
                     (insert loc_eqb hash_l l [o] (op_objs g))
      | PcLocs o l =>
          option_map (fun p => (OPar (fst p) (op_objs g), set_nth t (PThread PcNext (pt_rest th)) ths))
                     (insert eqo hash_o o l (op_locs g))
      end
  end.
Fixpoint pexec (inter : list nat) (c : opar * list pthread) : opar * list pthread :=
  match inter with
  | [] => c
  | t :: rest => pexec rest (match pmicro t c with Some c' => c' | None => c end)
  end.
Definition pstart (g : opar) (progs : list (list (O * loc))) : opar * list pthread :=
  (g, map (PThread PcNext) progs).
Definition pfinished (c : opar * list pthread) : bool :=
  forallb (fun th => match pt_pc th, pt_rest th with PcNext, [] => true | _, _ => false end) (snd c).
End ParObj.
Arguments opar : clear implicits.
Arguments PSet {O}. Arguments PRemoveAt {O}. Arguments PRemove {O}. Arguments PLazyUpdate {O}.
Arguments PUpdate {O}. Arguments PApply {O}. Arguments PGet {O}. Arguments PGetUnbuffered {O}.
Arguments PLocation {O}. Arguments PLocationUnbuffered {O}.
Arguments PcNext {O}. Arguments PcInsert {O}. Arguments PcLocs {O}. Arguments PThread {O}.
Arguments pt_pc {O}. Arguments pt_rest {O}.
