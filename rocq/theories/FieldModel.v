(** * Model of Field2D

    src/engine/fields/field_2d.rs, the sequential version (L268-923) and the geometry
    shared by both versions (L926-1014).  The code computes in [f32].  It is written here
    once for any arithmetic, and used with two: [f32_arith], the program's own, and
    [real_arith] (file FieldReal), the same program with exact numbers, which separates
    what the algorithm does from what rounding does to it.  [None] is a panic. *)
From Coq Require Import List Bool ZArith NArith Arith.
From Verif Require Import F32 Grid ObjModel.
Import ListNotations.
Open Scope Z_scope.

(** ** Arithmetic used by the code *)
Record arith := Arith {
  num : Type;
  add : num -> num -> num;
  sub : num -> num -> num;
  mul : num -> num -> num;
  div : num -> num -> num;
  rem : num -> num -> num;         (* [%] *)
  neg : num -> num;
  absn : num -> num;
  sqrtn : num -> num;
  minn : num -> num -> num;
  le : num -> num -> bool;
  lt : num -> num -> bool;
  of_int : Z -> num;               (* [as f32], and literals *)
  ceiln : num -> num;
  floor_i32 : num -> Z;            (* [.floor() as i32] *)
  ceil_i32 : num -> Z;             (* [.ceil() as i32] *)
  as_usize : num -> N              (* [as usize] *)
}.

(** [f32::ceil]: exact. *)
Definition fceil (x : f32) : f32 :=
  match x with S754_finite _ _ _ => f_of_Z (f_ceilZ x) | _ => x end.
(** [x as usize]: truncates, saturates, maps NaN to 0. *)
Definition usize_max : Z := 18446744073709551615.
Definition f_as_usize (x : f32) : N :=
  match x with
  | S754_nan | S754_zero _ => 0%N
  | S754_infinity s => if s then 0%N else Z.to_N usize_max
  | S754_finite s _ _ => if s then 0%N else Z.to_N (Z.min usize_max (f_floorZ x))
  end.
Definition f32_arith : arith :=
  Arith f32 fadd fsub fmul fdiv frem fopp fabs fsqrt fmin fleb fltb f_of_Z fceil f_floor_i32 f_ceil_i32 f_as_usize.

(** ** Geometry (L926-1014) *)
Section Geometry.
Variable A : arith.
Notation T := (num A).
Notation pt := (num A * num A)%type.     (* [Real2D] *)

(** [t_transform], L926-932; [None]: remainder by zero, or [i32::MIN % -1]. *)
Definition t_transform (n size : Z) : option Z :=
  if (size =? 0) || ((size =? -1) && (n =? i32_min)) then None
  else if 0 <=? n then Some (Z.rem n size)
  else Some (wrap32 (Z.rem n size + size)).

(** [toroidal_transform], L1004-1014. *)
Definition toroidal_transform (val dim : T) : T :=
  if le A (of_int A 0) val && lt A val dim then val
  else let val := rem A val dim in
       if lt A val (of_int A 0) then add A val dim else val.

(** [toroidal_distance], L988-1002. *)
Definition toroidal_distance (val1 val2 dim : T) : T :=
  if le A (absn A (sub A val1 val2)) (div A dim (of_int A 2)) then sub A val1 val2
  else
    let d := sub A (toroidal_transform val1 dim) (toroidal_transform val2 dim) in
    if lt A dim (mul A d (of_int A 2)) then sub A d dim
    else if lt A (mul A d (of_int A 2)) (neg A dim) then add A d dim
    else d.

(** [distance], L974-986. *)
Definition distance (loc1 loc2 : pt) (dim1 dim2 : T) (tor : bool) : T :=
  let dx := if tor then toroidal_distance (fst loc1) (fst loc2) dim1 else sub A (fst loc1) (fst loc2) in
  let dy := if tor then toroidal_distance (snd loc1) (snd loc2) dim2 else sub A (snd loc1) (snd loc2) in
  sqrtn A (add A (mul A dx dx) (mul A dy dy)).

(** The corners nw, ne, sw, se of a bag, L943-955. *)
Definition corners (bag : loc) (d width height : T) : list pt :=
  let nw := (mul A (of_int A (fst bag)) d, mul A (of_int A (snd bag)) d) in
  let ne := (fst nw, minn A (add A (snd nw) d) height) in
  let sw := (minn A (add A (fst nw) d) width, snd nw) in
  let se := (fst sw, snd ne) in
  [nw; ne; sw; se].

(** [check_circle], L934-972. *)
Definition check_circle (bag : loc) (d width height : T) (l : pt) (dis : T) (tor : bool) : Z :=
  let cs := corners bag d width height in
  if forallb (fun c => le A (distance c l width height tor) dis) cs then 1
  else if forallb (fun c => lt A dis (distance c l width height tor)) cs then -1
  else 0.

End Geometry.

(** ** The field (L269-322) *)
Section Field.
Variable A : arith.
Notation T := (num A).
Notation pt := (num A * num A)%type.
Context {O : Type}.
Variable eqo : O -> O -> bool.           (* [Eq] of the objects *)
Variable location : O -> num A * num A.  (* [Location2D::get_location] *)

(** The two bag vectors are named by their current role instead of by the indices [read]
    and [write] (L272-273), which only [lazy_update] exchanges. *)
Record field2d := Field2D {
  f_read : list (list O);
  f_write : list (list O);
  f_nagents : N;
  f_width : T;
  f_height : T;
  f_disc : T;
  f_toroidal : bool;
  f_dh : Z;
  f_dw : Z;
  f_density : N;
  f_checked : bool
}.

(** [new], L304-322. *)
Definition bag_count (w h d : T) : N :=
  as_usize A (mul A (add A (ceiln A (div A w d)) (of_int A 1)) (add A (ceiln A (div A h d)) (of_int A 1))).
Definition f_new (w h d : T) (t : bool) : field2d :=
  let n := N.to_nat (bag_count w h d) in
  Field2D (repeat [] n) (repeat [] n) 0 w h d t
    (wrap32 (ceil_i32 A (div A h d) + 1)) (wrap32 (ceil_i32 A (div A w d) + 1)) 0 false.

(** [discretize], L328-339; [not_discretize], L345-353. *)
Definition discretize (d : T) (l : pt) : loc :=
  (floor_i32 A (div A (fst l) d), floor_i32 A (div A (snd l) d)).
Definition not_discretize (d : T) (c : loc) : pt :=
  (mul A (of_int A (fst c)) d, mul A (of_int A (snd c)) d).

Definition f_index (f : field2d) (l : pt) : Z := cell_index (f_dh f) (discretize (f_disc f) l).

(** [lo..hi] for [i32] bounds. *)
Definition zfrom (lo hi : Z) : list Z := map (fun k => lo + Z.of_nat k) (seq 0 (Z.to_nat (hi - lo))).

(** The bag ids visited by the two neighbour queries, in order (L401-423 and L485-507);
    [None]: a remainder by zero. *)
Definition window (f : field2d) (l : pt) (dist : T) : option (list loc) :=
  let disc_dist := floor_i32 A (div A dist (f_disc f)) in
  let disc_loc := discretize (f_disc f) l in
  let max_x := ceil_i32 A (div A (f_width f) (f_disc f)) in
  let max_y := ceil_i32 A (div A (f_height f) (f_disc f)) in
  let min_i := wrap32 (fst disc_loc - disc_dist) in
  let max_i := wrap32 (fst disc_loc + disc_dist) in
  let min_j := wrap32 (snd disc_loc - disc_dist) in
  let max_j := wrap32 (snd disc_loc + disc_dist) in
  let min_i := if f_toroidal f then Z.max 0 min_i else min_i in
  let max_i := if f_toroidal f then Z.min max_i (wrap32 (max_x - 1)) else max_i in
  let min_j := if f_toroidal f then Z.max 0 min_j else min_j in
  let max_j := if f_toroidal f then Z.min max_j (wrap32 (max_y - 1)) else max_j in
  mapM (fun p => match t_transform (fst p) max_x, t_transform (snd p) max_y with
                 | Some x, Some y => Some (x, y)
                 | _, _ => None
                 end)
       (list_prod (zfrom min_i (wrap32 (max_i + 1))) (zfrom min_j (wrap32 (max_j + 1)))).

(** [get_neighbors_within_distance], L386-440.  The capacity reserved for the result is
    not modelled. *)
Definition f_neighbors (f : field2d) (l : pt) (dist : T) : option (list O) :=
  if le A dist (of_int A 0) then Some []
  else match window f l dist with
       | None => None
       | Some ids =>
           option_map (@concat O)
             (mapM (fun bag_id =>
                let check := check_circle A bag_id (f_disc f) (f_width f) (f_height f) l dist (f_toroidal f) in
                option_map
                  (filter (fun o => ((check =? 0) && le A (distance A l (location o) (f_width f) (f_height f) (f_toroidal f)) dist)
                                    || (check =? 1)))
                  (vget (f_read f) (cell_index (f_dh f) bag_id))) ids)
       end.

(** [get_neighbors_within_relax_distance], L472-516. *)
Definition f_relax (f : field2d) (l : pt) (dist : T) : option (list O) :=
  if le A dist (of_int A 0) then Some []
  else match window f l dist with
       | None => None
       | Some ids =>
           option_map (@concat O) (mapM (fun bag_id => vget (f_read f) (cell_index (f_dh f) bag_id)) ids)
       end.

(** [get_objects], L544-549; [get_objects_unbuffered], L577-582;
    [num_objects_at_location], L803-808. *)
Definition f_get (f : field2d) (l : pt) : option (list O) := vget (f_read f) (f_index f l).
Definition f_get_unbuffered (f : field2d) (l : pt) : option (list O) := vget (f_write f) (f_index f l).
Definition f_count (f : field2d) (l : pt) : option nat := option_map (@length O) (vget (f_read f) (f_index f l)).

(** [iter_objects], L619-638, and [iter_objects_unbuffered], L677-696: the calls made to
    the closure. *)
Definition f_iter_bags (f : field2d) (bags : list (list O)) : option (list (pt * O)) :=
  option_map (@concat (pt * O))
    (mapM (fun c => option_map (map (fun o => (not_discretize (f_disc f) c, o))) (vget bags (cell_index (f_dh f) c)))
          (cells (f_dw f) (f_dh f))).
Definition f_iter (f : field2d) := f_iter_bags f (f_read f).
Definition f_iter_unbuffered (f : field2d) := f_iter_bags f (f_write f).

(** [get_empty_bags], L727-739; [get_random_empty_bag], L764-772 ([k] is the index drawn). *)
Definition f_empty_bags (f : field2d) : option (list pt) :=
  option_map (@concat pt)
    (mapM (fun c => option_map (fun b => match b with [] => [not_discretize (f_disc f) c] | _ => [] end)
                               (vget (f_read f) (cell_index (f_dh f) c)))
          (cells (f_dw f) (f_dh f))).
Definition f_random_empty_bag (f : field2d) (k : nat) : option (option pt) :=
  match f_empty_bags f with
  | None => None
  | Some [] => Some None
  | Some l => Some (nth_error l (Nat.modulo k (length l)))
  end.

(** [set_object_location], L838-846. *)
Definition f_set (f : field2d) (o : O) (l : pt) : option field2d :=
  match vget (f_write f) (f_index f l) with
  | None => None
  | Some b =>
      option_map (fun ws => Field2D (f_read f) ws
                    (if f_checked f then f_nagents f else f_nagents f + 1)%N
                    (f_width f) (f_height f) (f_disc f) (f_toroidal f) (f_dh f) (f_dw f) (f_density f) (f_checked f))
                 (vset (f_write f) (f_index f l) (b ++ [o]))
  end.

(** [remove_object_location], L885-898; the subtraction would overflow if more objects
    left the bags than were counted. *)
Definition f_remove (f : field2d) (o : O) (l : pt) : option field2d :=
  match vget (f_write f) (f_index f l) with
  | None => None
  | Some [] => Some f
  | Some b =>
      let b' := without eqo o b in
      let gone := N.of_nat (length b - length b') in
      if negb (f_checked f) && (f_nagents f <? gone)%N then None
      else
        option_map (fun ws => Field2D (f_read f) ws
                      (if f_checked f then f_nagents f else f_nagents f - gone)%N
                      (f_width f) (f_height f) (f_disc f) (f_toroidal f) (f_dh f) (f_dw f) (f_density f) (f_checked f))
                   (vset (f_write f) (f_index f l) b')
  end.

(** [lazy_update], L905-921; [None]: division by zero, or a negative bag count turned
    into a huge one (L913). *)
Definition f_lazy_update (f : field2d) : option field2d :=
  if f_checked f then
    Some (Field2D (f_write f) (map (fun _ => []) (f_read f)) (f_nagents f)
            (f_width f) (f_height f) (f_disc f) (f_toroidal f) (f_dh f) (f_dw f) (f_density f) true)
  else
    match as_index (wrap32 (f_dw f * f_dh f)) with
    | None | Some 0%nat => None
    | Some n =>
        Some (Field2D (f_write f) (repeat [] n) (f_nagents f)
                (f_width f) (f_height f) (f_disc f) (f_toroidal f) (f_dh f) (f_dw f)
                (f_nagents f / N.of_nat n)%N true)
    end.

(** ** Programs *)
Inductive fop :=
| FSet (o : O) (l : pt)
| FRemove (o : O) (l : pt)
| FLazyUpdate
| FUpdate                             (* [update], L902: does nothing *)
| FGet (l : pt)
| FGetUnbuffered (l : pt)
| FCount (l : pt)
| FNeighbors (l : pt) (dist : T)
| FRelax (l : pt) (dist : T)
| FIter
| FIterUnbuffered
| FEmptyBags
| FRandomEmptyBag (k : nat).

Inductive fres :=
| FUnit
| FObjects (b : list O)
| FNumber (n : nat)
| FCalls (l : list (pt * O))
| FPlaces (l : list pt)
| FPlace (l : option pt).

Definition query {X} (f : field2d) (wrap : X -> fres) (x : option X) : option (field2d * fres) :=
  option_map (fun x => (f, wrap x)) x.

Definition f_step (f : field2d) (c : fop) : option (field2d * fres) :=
  match c with
  | FSet o l => option_map (fun f' => (f', FUnit)) (f_set f o l)
  | FRemove o l => option_map (fun f' => (f', FUnit)) (f_remove f o l)
  | FLazyUpdate => option_map (fun f' => (f', FUnit)) (f_lazy_update f)
  | FUpdate => Some (f, FUnit)
  | FGet l => query f FObjects (f_get f l)
  | FGetUnbuffered l => query f FObjects (f_get_unbuffered f l)
  | FCount l => query f FNumber (f_count f l)
  | FNeighbors l dist => query f FObjects (f_neighbors f l dist)
  | FRelax l dist => query f FObjects (f_relax f l dist)
  | FIter => query f FCalls (f_iter f)
  | FIterUnbuffered => query f FCalls (f_iter_unbuffered f)
  | FEmptyBags => query f FPlaces (f_empty_bags f)
  | FRandomEmptyBag k => query f FPlace (f_random_empty_bag f k)
  end.

Fixpoint f_run (f : field2d) (cs : list fop) : option (field2d * list fres) :=
  match cs with
  | [] => Some (f, [])
  | c :: cs' =>
      match f_step f c with
      | None => None
      | Some (f', r) => option_map (fun p => (fst p, r :: snd p)) (f_run f' cs')
      end
  end.

End Field.
Arguments Field2D {A O}. Arguments f_read {A O}. Arguments f_write {A O}. Arguments f_nagents {A O}.
Arguments f_width {A O}. Arguments f_height {A O}. Arguments f_disc {A O}. Arguments f_toroidal {A O}.
Arguments f_dh {A O}. Arguments f_dw {A O}. Arguments f_density {A O}. Arguments f_checked {A O}.
Arguments FSet {A O}. Arguments FRemove {A O}. Arguments FLazyUpdate {A O}. Arguments FUpdate {A O}.
Arguments FGet {A O}. Arguments FGetUnbuffered {A O}. Arguments FCount {A O}. Arguments FNeighbors {A O}.
Arguments FRelax {A O}. Arguments FIter {A O}. Arguments FIterUnbuffered {A O}. Arguments FEmptyBags {A O}.
Arguments FRandomEmptyBag {A O}.
Arguments FUnit {A O}. Arguments FObjects {A O}. Arguments FNumber {A O}. Arguments FCalls {A O}.
Arguments FPlaces {A O}. Arguments FPlace {A O}.
