(** * Model of the parallel Field2D

    src/engine/fields/field_2d.rs, L26-266: the version built with the features
    [parallel] or [visualization].  Three [DBDashMap]s replace the bag vectors.  The
    geometry (L926-1014) is shared with the sequential version and is in FieldModel; so is
    the arithmetic record.  [None] is a panic. *)
From Coq Require Import List Bool ZArith NArith Arith.
From Verif Require Import F32 Grid DashModel ObjModel FieldModel.
Import ListNotations.
Open Scope Z_scope.

Section PField.
Variable A : arith.
Notation T := (num A).
Notation pt := (num A * num A)%type.
Context {O : Type}.
Variable eqo : O -> O -> bool.           (* [Eq] of the objects *)
Variable hash_o : O -> N.                (* hash of the objects *)
Variable hash_l : loc -> N.              (* hash of [Int2D] *)
Variable location : O -> num A * num A.  (* [Location2D::get_location] *)
Variable osize : N.                      (* size of an object in bytes *)

(** L28-36 *)
Record pfield := PField {
  pf_index : dmap O loc;                 (* findex *)
  pf_bag : dmap loc (list O);            (* fbag *)
  pf_loc : dmap O pt;                    (* floc *)
  pf_width : T;
  pf_height : T;
  pf_disc : T;
  pf_toroidal : bool
}.

(** [new], L40-50. *)
Definition pf_new (cpus : N) (w h d : T) (t : bool) : pfield :=
  PField (dash_new cpus) (dash_new cpus) (dash_new cpus) w h d t.

(** [discretize], L52-63, is [FieldModel.discretize]. *)
Definition pf_cell (f : pfield) (l : pt) : loc := discretize A (pf_disc f) l.

(** [Vec::with_capacity]: "capacity overflow" above [isize::MAX] bytes.  Running out of
    memory below that is not modelled. *)
Definition capacity_ok (n : N) : bool := (n * osize <=? 9223372036854775807)%N.

(** L67-69 and L119-121: the capacity reserved by the queries; [None]: division by zero.
    The product of two [usize] wraps (release build). *)
Definition pf_capacity (f : pfield) (dist : T) : option N :=
  match N.of_nat (r_len (pf_index f)) with
  | 0%N => None
  | n => let density := (as_usize A (mul A (pf_width f) (pf_height f)) / n)%N in
         let sdist := as_usize A (mul A dist dist) in
         Some ((density * sdist) mod 2 ^ 64)%N
  end.

(** The bag ids visited, L75-97 and L127-149: the same lines as in the sequential version,
    which only looks at the four numbers describing the field. *)
Definition pf_window (f : pfield) (l : pt) (dist : T) : option (list loc) :=
  window A (Field2D (O := O) [] [] 0 (pf_width f) (pf_height f) (pf_disc f) (pf_toroidal f) 0 0 0 false) l dist.

(** The published bag of a cell; a missing bag is skipped (L99-102). *)
Definition pf_read_bag (f : pfield) (c : loc) : option (list O) :=
  option_map (fun r => match r with Some b => b | None => [] end) (get_read loc_eqb hash_l c (pf_bag f)).

(** [get_neighbors_within_distance], L65-115. *)
Definition pf_neighbors (f : pfield) (l : pt) (dist : T) : option (list O) :=
  match pf_capacity f dist with
  | None => None
  | Some n =>
      if negb (capacity_ok n) then None
      else if le A dist (of_int A 0) then Some []
      else match pf_window f l dist with
           | None => None
           | Some ids =>
               option_map (@concat O)
                 (mapM (fun bag_id =>
                    let check := check_circle A bag_id (pf_disc f) (pf_width f) (pf_height f) l dist (pf_toroidal f) in
                    option_map
                      (filter (fun o => ((check =? 0) && le A (distance A l (location o) (pf_width f) (pf_height f) (pf_toroidal f)) dist)
                                        || (check =? 1)))
                      (pf_read_bag f bag_id)) ids)
           end
  end.

(** [get_neighbors_within_relax_distance], L117-160. *)
Definition pf_relax (f : pfield) (l : pt) (dist : T) : option (list O) :=
  match pf_capacity f dist with
  | None => None
  | Some n =>
      if negb (capacity_ok n) then None
      else if le A dist (of_int A 0) then Some []
      else match pf_window f l dist with
           | None => None
           | Some ids => option_map (@concat O) (mapM (pf_read_bag f) ids)
           end
  end.

(** [get], L165-170. *)
Definition pf_get (f : pfield) (o : O) : option (option O) :=
  option_map (option_map fst) (get_key_value eqo hash_o o (pf_loc f)).

(** [get_objects], L173-186; [num_objects_at_location], L225-233. *)
Definition pf_objects (f : pfield) (l : pt) : option (list O) := pf_read_bag f (pf_cell f l).
Definition pf_count (f : pfield) (l : pt) : option nat :=
  option_map (fun r => match r with Some b => length b | None => 0%nat end)
             (get_read loc_eqb hash_l (pf_cell f l) (pf_bag f)).

(** [get_location], L189-191; [get_location_unbuffered], L194-197 ([expect]). *)
Definition pf_location (f : pfield) (o : O) : option (option pt) := get_read eqo hash_o o (pf_loc f).
Definition pf_location_unbuffered (f : pfield) (o : O) : option (option pt) :=
  match get_write eqo hash_o o (fun l => l) (pf_loc f) with
  | Some (_, Some l) => Some (Some l)
  | _ => None
  end.

(** [get_unbuffered], L202-217: [expect] on the bag of the location being written. *)
Definition pf_get_unbuffered (f : pfield) (o : O) : option (option O) :=
  match get_write eqo hash_o o (fun l => l) (pf_loc f) with
  | None => None
  | Some (_, None) => Some None
  | Some (_, Some l) =>
      match get_write loc_eqb hash_l (pf_cell f l) (fun b => b) (pf_bag f) with
      | Some (_, Some b) => Some (find (fun x => eqo x o) b)
      | _ => None
      end
  end.

(** [num_objects], L220-222. *)
Definition pf_num (f : pfield) : nat := r_len (pf_index f).

Definition with_loc (f : pfield) d := PField (pf_index f) (pf_bag f) d (pf_width f) (pf_height f) (pf_disc f) (pf_toroidal f).
Definition with_index (f : pfield) d := PField d (pf_bag f) (pf_loc f) (pf_width f) (pf_height f) (pf_disc f) (pf_toroidal f).
Definition with_bag (f : pfield) d := PField (pf_index f) d (pf_loc f) (pf_width f) (pf_height f) (pf_disc f) (pf_toroidal f).

(** [set_object_location], L236-251, in its four accesses to the maps. *)
Definition pf_set1 (f : pfield) (o : O) (l : pt) : option pfield :=          (* L238 *)
  option_map (fun p => with_loc f (fst p)) (insert eqo hash_o o l (pf_loc f)).
Definition pf_set2 (f : pfield) (o : O) (l : pt) : option pfield :=          (* L239 *)
  option_map (fun p => with_index f (fst p)) (insert eqo hash_o o (pf_cell f l) (pf_index f)).
Definition pf_set3 (f : pfield) (o : O) (l : pt) : option (pfield * bool) := (* L240-244 *)
  option_map (fun p => (with_bag f (fst p), match snd p with Some _ => true | None => false end))
             (get_write loc_eqb hash_l (pf_cell f l) (fun b => b ++ [o]) (pf_bag f)).
Definition pf_set4 (f : pfield) (o : O) (l : pt) : option pfield :=          (* L245-249 *)
  option_map (fun p => with_bag f (fst p)) (insert loc_eqb hash_l (pf_cell f l) [o] (pf_bag f)).
Definition pf_set (f : pfield) (o : O) (l : pt) : option pfield :=
  match pf_set1 f o l with
  | None => None
  | Some f1 =>
      match pf_set2 f1 o l with
      | None => None
      | Some f2 =>
          match pf_set3 f2 o l with
          | None => None
          | Some (f3, true) => Some f3
          | Some (f3, false) => pf_set4 f3 o l
          end
      end
  end.

(** [lazy_update], L261-265; [update], L256-260.  [n] is the shard count, the [it]s are the
    iteration orders of the hash maps. *)
Definition pf_lazy_update (n : nat) (f : pfield) : option pfield :=
  match lazy_update n (pf_loc f), lazy_update n (pf_bag f), lazy_update n (pf_index f) with
  | Some a, Some b, Some c => Some (with_index (with_bag (with_loc f a) b) c)
  | _, _, _ => None
  end.
Definition pf_update (it : list (O * pt) -> list (O * pt)) (it' : list (loc * list O) -> list (loc * list O))
  (it'' : list (O * loc) -> list (O * loc)) (n : nat) (f : pfield) : option pfield :=
  match update eqo it n (pf_loc f), update loc_eqb it' n (pf_bag f), update eqo it'' n (pf_index f) with
  | Some a, Some b, Some c => Some (with_index (with_bag (with_loc f a) b) c)
  | _, _, _ => None
  end.

(** ** Programs of one thread *)
Inductive pfop :=
| QSet (o : O) (l : pt)
| QLazyUpdate
| QUpdate (it : list (O * pt) -> list (O * pt)) (it' : list (loc * list O) -> list (loc * list O))
    (it'' : list (O * loc) -> list (O * loc))
| QGet (o : O)
| QObjects (l : pt)
| QCount (l : pt)
| QLocation (o : O)
| QLocationUnbuffered (o : O)
| QGetUnbuffered (o : O)
| QNum
| QNeighbors (l : pt) (dist : T)
| QRelax (l : pt) (dist : T).

Inductive pfres :=
| QUnit
| QObj (o : option O)
| QBag (b : list O)
| QNat (n : nat)
| QPlace (l : option pt).

Definition pf_step (n : nat) (f : pfield) (c : pfop) : option (pfield * pfres) :=
  match c with
  | QSet o l => option_map (fun f' => (f', QUnit)) (pf_set f o l)
  | QLazyUpdate => option_map (fun f' => (f', QUnit)) (pf_lazy_update n f)
  | QUpdate it it' it'' => option_map (fun f' => (f', QUnit)) (pf_update it it' it'' n f)
  | QGet o => option_map (fun r => (f, QObj r)) (pf_get f o)
  | QObjects l => option_map (fun r => (f, QBag r)) (pf_objects f l)
  | QCount l => option_map (fun r => (f, QNat r)) (pf_count f l)
  | QLocation o => option_map (fun r => (f, QPlace r)) (pf_location f o)
  | QLocationUnbuffered o => option_map (fun r => (f, QPlace r)) (pf_location_unbuffered f o)
  | QGetUnbuffered o => option_map (fun r => (f, QObj r)) (pf_get_unbuffered f o)
  | QNum => Some (f, QNat (pf_num f))
  | QNeighbors l dist => option_map (fun r => (f, QBag r)) (pf_neighbors f l dist)
  | QRelax l dist => option_map (fun r => (f, QBag r)) (pf_relax f l dist)
  end.

Fixpoint pf_run (n : nat) (f : pfield) (cs : list pfop) : option (pfield * list pfres) :=
  match cs with
  | [] => Some (f, [])
  | c :: cs' =>
      match pf_step n f c with
      | None => None
      | Some (f', r) => option_map (fun p => (fst p, r :: snd p)) (pf_run n f' cs')
      end
  end.

(** ** Threads placing objects at the same time
    Each access to a map is atomic (it holds the lock of one shard), the call is not.  A
    thread is the call it is in and the placements it has still to make. *)
Inductive fpc := FNext | FIndex (o : O) (l : pt) | FPush (o : O) (l : pt) | FInsert (o : O) (l : pt).
Record fthread := FThread { ft_pc : fpc; ft_rest : list (O * pt) }.

Definition fmicro (t : nat) (c : pfield * list fthread) : option (pfield * list fthread) :=
  let (f, ths) := c in
  match nth_error ths t with
  | None => None
  | Some th =>
      match ft_pc th with
      | FNext =>
          match ft_rest th with
          | [] => None
          | (o, l) :: rest => option_map (fun f' => (f', set_nth t (FThread (FIndex o l) rest) ths)) (pf_set1 f o l)
          end
      | FIndex o l => option_map (fun f' => (f', set_nth t (FThread (FPush o l) (ft_rest th)) ths)) (pf_set2 f o l)
      | FPush o l =>
          option_map (fun p => (fst p, set_nth t (FThread (if snd p : bool then FNext else FInsert o l) (ft_rest th)) ths))
                     (pf_set3 f o l)
      | FInsert o l => option_map (fun f' => (f', set_nth t (FThread FNext (ft_rest th)) ths)) (pf_set4 f o l)
      end
  end.
(** [inter]: which thread makes its next access; a thread that has nothing left is skipped. *)
Fixpoint fexec (inter : list nat) (c : pfield * list fthread) : pfield * list fthread :=
  match inter with
  | [] => c
  | t :: rest => fexec rest (match fmicro t c with Some c' => c' | None => c end)
  end.
Definition fstart (f : pfield) (progs : list (list (O * pt))) : pfield * list fthread :=
  (f, map (FThread FNext) progs).
Definition ffinished (c : pfield * list fthread) : bool :=
  forallb (fun th => match ft_pc th, ft_rest th with FNext, [] => true | _, _ => false end) (snd c).
End PField.
Arguments PField {A O}. Arguments pf_index {A O}. Arguments pf_bag {A O}. Arguments pf_loc {A O}.
Arguments pf_width {A O}. Arguments pf_height {A O}. Arguments pf_disc {A O}. Arguments pf_toroidal {A O}.
Arguments QSet {A O}. Arguments QLazyUpdate {A O}. Arguments QUpdate {A O}. Arguments QGet {A O}.
Arguments QObjects {A O}. Arguments QCount {A O}. Arguments QLocation {A O}. Arguments QLocationUnbuffered {A O}.
Arguments QGetUnbuffered {A O}. Arguments QNum {A O}. Arguments QNeighbors {A O}. Arguments QRelax {A O}.
Arguments QUnit {A O}. Arguments QObj {A O}. Arguments QBag {A O}. Arguments QNat {A O}. Arguments QPlace {A O}.
Arguments FNext {A O}. Arguments FIndex {A O}. Arguments FPush {A O}. Arguments FInsert {A O}.
Arguments FThread {A O}. Arguments ft_pc {A O}. Arguments ft_rest {A O}.
