(** * Model of the number grids

    Models the sequential parts of src/engine/fields/dense_number_grid_2d.rs (L90-562) and
    src/engine/fields/sparse_number_grid_2d.rs (L88-503), and the parallel/visualization
    versions of both (L18-79 and L18-78), which delegate to [DBDashMap].  Simplifications:
    the fields [locs], [read] and [write] (a vector of two buffers and two indices that
    [lazy_update] swaps) are modelled as a read buffer and a write buffer; closures are
    pure, so the run-time borrow checks of [RefCell] cannot fail. *)
From Coq Require Import List Bool ZArith NArith.
From Verif Require Import Grid DashModel.
Import ListNotations.
Open Scope Z_scope.

(** src/engine/fields/grid_option.rs *)
Inductive grid_option := READ | WRITE | READWRITE.

(** Calls of the API. *)
Inductive gop (T : Type) :=
| GSet (v : T) (l : loc)
| GRemove (l : loc)
| GLazyUpdate
| GUpdate
| GApply (o : grid_option) (f : T -> T)
| GGet (l : loc)
| GGetUnbuffered (l : loc)
| GLocation (v : T)
| GLocationUnbuffered (v : T)
| GEmptyBags
| GRandomEmpty (draws : list (nat * loc))  (* the random numbers drawn *)
| GIter
| GIterUnbuffered.
Arguments GSet {T}. Arguments GRemove {T}. Arguments GLazyUpdate {T}. Arguments GUpdate {T}.
Arguments GApply {T}. Arguments GGet {T}. Arguments GGetUnbuffered {T}.
Arguments GLocation {T}. Arguments GLocationUnbuffered {T}. Arguments GEmptyBags {T}.
Arguments GRandomEmpty {T}. Arguments GIter {T}. Arguments GIterUnbuffered {T}.

Inductive gres (T : Type) :=
| RUnit
| RValue (v : option T)
| RLoc (l : option loc)
| RLocs (l : list loc)
| REntries (l : list (loc * T)).  (* the calls made to the closure of [iter_values] *)
Arguments RUnit {T}. Arguments RValue {T}. Arguments RLoc {T}. Arguments RLocs {T}.
Arguments REntries {T}.

Section Num.
Context {T : Type}.
Variable eqv : T -> T -> bool.   (* PartialEq of the values *)

(** ** DenseNumberGrid2D *)

Record dgrid := DGrid {
  dg_read : list (option T);
  dg_write : list (option T);
  dg_w : Z;
  dg_h : Z
}.

(** [new], L112-126.  [vec![None; n]] with a negative [i32] cast to [usize] exceeds the
    largest possible allocation and panics. *)
Definition dg_new (w h : Z) : option dgrid :=
  match as_index (wrap32 (w * h)) with
  | None => None
  | Some n => Some (DGrid (repeat None n) (repeat None n) (wrap32 (Z.abs w)) (wrap32 (Z.abs h)))
  end.

(** [get_value], L350-354; [get_value_unbuffered], L376-380. *)
Definition dg_get (g : dgrid) (l : loc) : option (option T) := vget (dg_read g) (cell_index (dg_h g) l).
Definition dg_get_unbuffered (g : dgrid) (l : loc) : option (option T) :=
  vget (dg_write g) (cell_index (dg_h g) l).

(** [set_value_location], L492-501; [remove_value_location], L526-530. *)
Definition dg_put (g : dgrid) (l : loc) (x : option T) : option dgrid :=
  option_map (fun b => DGrid (dg_read g) b (dg_w g) (dg_h g))
             (vset (dg_write g) (cell_index (dg_h g) l) x).
Definition dg_set (g : dgrid) (v : T) (l : loc) : option dgrid := dg_put g l (Some v).
Definition dg_remove (g : dgrid) (l : loc) : option dgrid := dg_put g l None.

(** [lazy_update], L537-545. *)
Definition dg_lazy_update (g : dgrid) : dgrid :=
  DGrid (dg_write g) (map (fun _ => None) (dg_read g)) (dg_w g) (dg_h g).

(** [update], L553-561: [rlocs[i] = locs[i]; locs[i] = None] for every index of [locs];
    both buffers have the same length. *)
Definition dg_update (g : dgrid) : option dgrid :=
  if Nat.leb (length (dg_write g)) (length (dg_read g)) then
    Some (DGrid (dg_write g ++ skipn (length (dg_write g)) (dg_read g))
                (map (fun _ => None) (dg_write g)) (dg_w g) (dg_h g))
  else None.

(** [apply_to_all_values], L155-195: READ L160-168, WRITE L169-177 (reads the READ
    buffer), READWRITE L179-193. *)
Fixpoint map2 {A B C} (f : A -> B -> C) (l : list A) (m : list B) : list C :=
  match l, m with
  | x :: l', y :: m' => f x y :: map2 f l' m'
  | _, _ => []
  end.
Definition dg_apply (g : dgrid) (o : grid_option) (f : T -> T) : option dgrid :=
  match o with
  | READ => Some (DGrid (map (option_map f) (dg_read g)) (dg_write g) (dg_w g) (dg_h g))
  | WRITE =>
      if Nat.leb (length (dg_read g)) (length (dg_write g)) then
        Some (DGrid (dg_read g)
                (map2 (fun r w => match r with None => w | Some v => Some (f v) end)
                      (dg_read g) (dg_write g)
                 ++ skipn (length (dg_read g)) (dg_write g)) (dg_w g) (dg_h g))
      else None
  | READWRITE =>
      if Nat.leb (length (dg_read g)) (length (dg_write g)) then
        Some (DGrid (dg_read g)
                (map2 (fun r w => match w with
                                  | Some v => Some (f v)
                                  | None => match r with Some v => Some (f v) | None => None end
                                  end)
                      (dg_read g) (dg_write g)
                 ++ skipn (length (dg_read g)) (dg_write g)) (dg_w g) (dg_h g))
      else None
  end.

(** The search loop of [get_location] L217-229 and [get_location_unbuffered] L255-266. *)
Fixpoint dg_search (buf : list (option T)) (h : Z) (v : T) (cs : list loc) : option (option loc) :=
  match cs with
  | [] => Some None
  | c :: cs' =>
      match vget buf (cell_index h c) with
      | None => None
      | Some e =>
          if match e with Some x => eqv x v | None => false end then Some (Some c)
          else dg_search buf h v cs'
      end
  end.
Definition dg_location (g : dgrid) (v : T) : option (option loc) :=
  dg_search (dg_read g) (dg_h g) v (cells (dg_w g) (dg_h g)).
Definition dg_location_unbuffered (g : dgrid) (v : T) : option (option loc) :=
  dg_search (dg_write g) (dg_h g) v (cells (dg_w g) (dg_h g)).

(** A loop over the cells that collects something from each; panics on a bad index. *)
Fixpoint dg_collect {X} (buf : list (option T)) (h : Z) (f : loc -> option T -> list X)
  (cs : list loc) : option (list X) :=
  match cs with
  | [] => Some []
  | c :: cs' =>
      match vget buf (cell_index h c) with
      | None => None
      | Some e => option_map (app (f c e)) (dg_collect buf h f cs')
      end
  end.

(** [get_empty_bags], L290-301. *)
Definition dg_empty_bags (g : dgrid) : option (list loc) :=
  dg_collect (dg_read g) (dg_h g)
    (fun c e => match e with None => [c] | Some _ => [] end) (cells (dg_w g) (dg_h g)).

(** [get_random_empty_bag], L319-329: [r] is the random index drawn from
    [0..empty_bags.len()]. *)
Definition dg_random_empty (g : dgrid) (r : nat) : option (option loc) :=
  match dg_empty_bags g with
  | None => None
  | Some [] => Some None
  | Some bags => option_map Some (nth_error bags r)
  end.

(** [iter_values], L404-425; [iter_values_unbuffered], L449-470: the calls made. *)
Definition dg_iter (g : dgrid) : option (list (loc * T)) :=
  dg_collect (dg_read g) (dg_h g)
    (fun c e => match e with None => [] | Some v => [(c, v)] end) (cells (dg_w g) (dg_h g)).
Definition dg_iter_unbuffered (g : dgrid) : option (list (loc * T)) :=
  dg_collect (dg_write g) (dg_h g)
    (fun c e => match e with None => [] | Some v => [(c, v)] end) (cells (dg_w g) (dg_h g)).

Definition silent {X} (o : option X) : option (X * gres T) := option_map (fun x => (x, RUnit)) o.

Definition dg_call (g : dgrid) (o : gop T) : option (dgrid * gres T) :=
  match o with
  | GSet v l => silent (dg_set g v l)
  | GRemove l => silent (dg_remove g l)
  | GLazyUpdate => silent (Some (dg_lazy_update g))
  | GUpdate => silent (dg_update g)
  | GApply op f => silent (dg_apply g op f)
  | GGet l => option_map (fun x => (g, RValue x)) (dg_get g l)
  | GGetUnbuffered l => option_map (fun x => (g, RValue x)) (dg_get_unbuffered g l)
  | GLocation v => option_map (fun x => (g, RLoc x)) (dg_location g v)
  | GLocationUnbuffered v => option_map (fun x => (g, RLoc x)) (dg_location_unbuffered g v)
  | GEmptyBags => option_map (fun x => (g, RLocs x)) (dg_empty_bags g)
  | GRandomEmpty draws =>
      option_map (fun x => (g, RLoc x))
        (dg_random_empty g (match draws with d :: _ => fst d | [] => O end))
  | GIter => option_map (fun x => (g, REntries x)) (dg_iter g)
  | GIterUnbuffered => option_map (fun x => (g, REntries x)) (dg_iter_unbuffered g)
  end.

Fixpoint dg_run (g : dgrid) (os : list (gop T)) : option (dgrid * list (gres T)) :=
  match os with
  | [] => Some (g, [])
  | o :: os' =>
      match dg_call g o with
      | None => None
      | Some (g', r) => option_map (fun p => (fst p, r :: snd p)) (dg_run g' os')
      end
  end.

(** ** SparseNumberGrid2D: two hash maps from locations to values.  [it] is the order in
    which a hash map is iterated. *)

Record sgrid := SGrid {
  sg_read : list (loc * T);
  sg_write : list (loc * T);
  sg_w : Z;
  sg_h : Z
}.

(** [new], L108-118. *)
Definition sg_new (w h : Z) : sgrid := SGrid [] [] w h.

(** [get_value], L404-407; [get_value_unbuffered], L429-432. *)
Definition sg_get (g : sgrid) (l : loc) : option T := option_map snd (hm_find loc_eqb l (sg_read g)).
Definition sg_get_unbuffered (g : sgrid) (l : loc) : option T :=
  option_map snd (hm_find loc_eqb l (sg_write g)).

(** [set_value_location], L453-456; [remove_value_location], L480-483. *)
Definition sg_set (g : sgrid) (v : T) (l : loc) : sgrid :=
  SGrid (sg_read g) (fst (hm_insert loc_eqb l v (sg_write g))) (sg_w g) (sg_h g).
Definition sg_remove (g : sgrid) (l : loc) : sgrid :=
  SGrid (sg_read g) (fst (hm_remove loc_eqb l (sg_write g))) (sg_w g) (sg_h g).

(** [lazy_update], L489-492; [update], L495-502. *)
Definition sg_lazy_update (g : sgrid) : sgrid := SGrid (sg_write g) [] (sg_w g) (sg_h g).
Definition sg_update (it : list (loc * T) -> list (loc * T)) (g : sgrid) : sgrid :=
  SGrid (hm_extend loc_eqb [] (it (sg_write g))) [] (sg_w g) (sg_h g).

(** [apply_to_all_values], L147-181. *)
Definition sg_apply (it : list (loc * T) -> list (loc * T)) (g : sgrid) (o : grid_option)
  (f : T -> T) : sgrid :=
  match o with
  | READ => SGrid (map (fun p => (fst p, f (snd p))) (sg_read g)) (sg_write g) (sg_w g) (sg_h g)
  | WRITE => SGrid (sg_read g) (map (fun p => (fst p, f (snd p))) (sg_write g)) (sg_w g) (sg_h g)
  | READWRITE =>
      SGrid (sg_read g) (fold_left (rw_shard loc_eqb f) (it (sg_read g)) (sg_write g))
            (sg_w g) (sg_h g)
  end.

(** [get_location], L340-348; [get_location_unbuffered], L374-382. *)
Definition sg_search (it : list (loc * T) -> list (loc * T)) (m : list (loc * T)) (v : T) : option loc :=
  option_map fst (find (fun p => eqv (snd p) v) (it m)).
Definition sg_location (it : list (loc * T) -> list (loc * T)) (g : sgrid) (v : T) : option loc :=
  sg_search it (sg_read g) v.
Definition sg_location_unbuffered (it : list (loc * T) -> list (loc * T)) (g : sgrid) (v : T) : option loc :=
  sg_search it (sg_write g) v.

(** [get_empty_bags], L275-289. *)
Definition sg_empty_bags (g : sgrid) : list loc :=
  filter (fun c => match hm_find loc_eqb c (sg_read g) with Some _ => false | None => true end)
         (cells (sg_w g) (sg_h g)).

(** [get_random_empty_bag], L307-318: an endless loop drawing locations until an empty
    one is drawn.  [None]: panic, because [gen_range] gets an empty range.  [Some None]:
    the loop is still running after the given draws.  [Some (Some r)]: it returned [r]. *)
Definition sg_random_empty (g : sgrid) (draws : list loc) : option (option (option loc)) :=
  if (sg_w g <=? 0) || (sg_h g <=? 0) then None
  else Some (option_map Some
         (find (fun c => match hm_find loc_eqb c (sg_read g) with Some _ => false | None => true end)
               draws)).

(** [iter_values], L204-215; [iter_values_unbuffered], L239-250. *)
Definition sg_iter (it : list (loc * T) -> list (loc * T)) (g : sgrid) : list (loc * T) := it (sg_read g).
Definition sg_iter_unbuffered (it : list (loc * T) -> list (loc * T)) (g : sgrid) : list (loc * T) :=
  it (sg_write g).

(** [None]: panic, or the call does not return (with the given draws). *)
Definition sg_call (it : list (loc * T) -> list (loc * T)) (g : sgrid) (o : gop T)
  : option (sgrid * gres T) :=
  match o with
  | GSet v l => Some (sg_set g v l, RUnit)
  | GRemove l => Some (sg_remove g l, RUnit)
  | GLazyUpdate => Some (sg_lazy_update g, RUnit)
  | GUpdate => Some (sg_update it g, RUnit)
  | GApply op f => Some (sg_apply it g op f, RUnit)
  | GGet l => Some (g, RValue (sg_get g l))
  | GGetUnbuffered l => Some (g, RValue (sg_get_unbuffered g l))
  | GLocation v => Some (g, RLoc (sg_location it g v))
  | GLocationUnbuffered v => Some (g, RLoc (sg_location_unbuffered it g v))
  | GEmptyBags => Some (g, RLocs (sg_empty_bags g))
  | GRandomEmpty draws =>
      match sg_random_empty g (map snd draws) with
      | Some (Some r) => Some (g, RLoc r)
      | _ => None
      end
  | GIter => Some (g, REntries (sg_iter it g))
  | GIterUnbuffered => Some (g, REntries (sg_iter_unbuffered it g))
  end.

(** A program: each call with the iteration order it happens to see. *)
Fixpoint sg_run (g : sgrid) (os : list (gop T * (list (loc * T) -> list (loc * T))))
  : option (sgrid * list (gres T)) :=
  match os with
  | [] => Some (g, [])
  | (o, it) :: os' =>
      match sg_call it g o with
      | None => None
      | Some (g', r) => option_map (fun p => (fst p, r :: snd p)) (sg_run g' os')
      end
  end.

End Num.

Arguments dgrid : clear implicits.
Arguments sgrid : clear implicits.

(** ** The parallel versions: both grids are the same wrapper around a [DBDashMap]
    (dense_number_grid_2d.rs L25-79, sparse_number_grid_2d.rs L25-78); there is no
    [remove_value_location], [get_location], [get_empty_bags] or [iter_values]. *)
Section Par.
Context {T : Type}.
Variable hash : loc -> N.

Definition pg_call (n : nat) (it : list (loc * T) -> list (loc * T)) (d : dmap loc T) (o : gop T)
  : option (dmap loc T * gres T) :=
  match o with
  | GSet v l => option_map (fun p => (fst p, RUnit)) (insert loc_eqb hash l v d)      (* L65-67 *)
  | GLazyUpdate => option_map (fun d' => (d', RUnit)) (lazy_update n d)               (* L72-74 *)
  | GUpdate => option_map (fun d' => (d', RUnit)) (update loc_eqb it n d)             (* L76-78 *)
  | GApply READ f => option_map (fun d' => (d', RUnit)) (apply_to_all_values loc_eqb hash it f d)  (* L39-41 *)
  | GApply WRITE f => Some (apply_to_all_values_write f d, RUnit)                     (* L42-44 *)
  | GApply READWRITE f =>
      option_map (fun d' => (d', RUnit)) (apply_to_all_values_read_write loc_eqb it f d)  (* L45-47 *)
  | GGet l => option_map (fun x => (d, RValue x)) (get_read loc_eqb hash l d)         (* L51-56 *)
  | GGetUnbuffered l =>                                                               (* L58-63 *)
      option_map (fun p => (d, RValue (snd p))) (get_write loc_eqb hash l (fun v => v) d)
  | _ => None   (* not offered *)
  end.

Fixpoint pg_run (n : nat) (d : dmap loc T) (os : list (gop T * (list (loc * T) -> list (loc * T))))
  : option (dmap loc T * list (gres T)) :=
  match os with
  | [] => Some (d, [])
  | (o, it) :: os' =>
      match pg_call n it d o with
      | None => None
      | Some (d', r) => option_map (fun p => (fst p, r :: snd p)) (pg_run n d' os')
      end
  end.
End Par.
