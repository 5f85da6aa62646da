(** * Specification for locations outside a dense grid *)
From Coq Require Import List ZArith.
From Verif Require Import Grid NumModel ObjModel.
Import ListNotations.
Local Open Scope Z_scope.

(** The number of the cell a location stands for, in 32-bit arithmetic: cells are numbered
    column by column. *)
Definition number (h : Z) (l : loc) : Z := wrap32 (fst l * h + snd l).
(** There is no cell with that number ... *)
Definition stray (w h : Z) (l : loc) : Prop := number h l < 0 \/ w * h <= number h l.
(** ... or this is it. *)
Definition home (h : Z) (l : loc) : loc := (number h l / h, number h l mod h).

(** The locations of a call. *)
Definition num_locs {T} (o : gop T) : list loc :=
  match o with GSet _ l | GRemove l | GGet l | GGetUnbuffered l => [l] | _ => [] end.
Definition obj_locs {O} (c : oop O) : list loc :=
  match c with OSet _ l | ORemove _ l | OGet l | OGetUnbuffered l => [l] | _ => [] end.
(** The same call at other locations. *)
Definition num_move {T} (f : loc -> loc) (o : gop T) : gop T :=
  match o with GSet v l => GSet v (f l) | GRemove l => GRemove (f l) | GGet l => GGet (f l)
             | GGetUnbuffered l => GGetUnbuffered (f l) | _ => o end.
Definition obj_move {O} (f : loc -> loc) (c : oop O) : oop O :=
  match c with OSet o l => OSet o (f l) | ORemove o l => ORemove o (f l) | OGet l => OGet (f l)
             | OGetUnbuffered l => OGetUnbuffered (f l) | _ => c end.
Definition num_no_random {T} (o : gop T) : Prop := match o with GRandomEmpty _ => False | _ => True end.
(** Calls of object grids without random numbers, [update] and [apply_to_all_values] (for
    which see C23 and C26). *)
Definition obj_plain {O} (c : oop O) : Prop :=
  match c with ORandomEmpty _ _ | OUpdate | OApply _ _ => False | _ => True end.
