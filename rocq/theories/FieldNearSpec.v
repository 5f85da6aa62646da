(** * Specification: which objects a neighbour query returns, and how often (C30, C31)

    A neighbour query looks at a square of cells around the cell of its location and
    judges cells by their corners.  This file says, in the plane (or on the torus) and
    without the program, which objects that selects. *)
From Coq Require Import List Bool ZArith Reals.
From Flocq Require Import Core.
From Verif Require Import FieldReal.
Import ListNotations.
Open Scope Z_scope.

(** The numbers from [lo] to [hi]. *)
Definition numbers (lo hi : Z) : list Z := map (fun k => lo + Z.of_nat k) (seq 0 (Z.to_nat (hi + 1 - lo))).

(** The column an index stands for in a field of [n] columns and one more for the far
    border: indices wrap around, and the border column [n] is reached from below only. *)
Definition stands_for (n i : Z) : Z := if 0 <=? i then i mod n else n - (- i) mod n.

(** How often column [x] is looked at by a query in column [q] that reaches [k] columns
    to both sides.  In a toroidal field the reach ends at the border. *)
Definition looks (t : bool) (n q k x : Z) : nat :=
  let lo := if t then Z.max 0 (q - k) else q - k in
  let hi := if t then Z.min (q + k) (n - 1) else q + k in
  length (filter (fun i => stands_for n i =? x) (numbers lo hi)).

Open Scope R_scope.
(** The column of a coordinate. *)
Definition column (d x : R) : Z := Zfloor (x / d).

(** Two points at most [dist] apart, the shortest way round in a toroidal field. *)
Definition close (t : bool) (w h : R) (a b : R * R) (dist : R) : Prop :=
  if t then exists far, torus_distance w h a b far /\ far <= dist else plane_distance a b <= dist.

(** [c] is a corner of the cell of [p]; the far corners are cut at the border. *)
Definition corner_of (w h d : R) (p c : R * R) : Prop :=
  let x := IZR (column d (fst p)) * d in
  let y := IZR (column d (snd p)) * d in
  (fst c = x \/ fst c = Rmin (x + d) w) /\ (snd c = y \/ snd c = Rmin (y + d) h).

(** An object that says to be at [at_] and is stored at [p] is selected by a query at
    [l]: all corners of its cell are close, or one is and the object is close itself. *)
Definition selected (t : bool) (w h d : R) (l : R * R) (dist : R) (at_ p : R * R) : Prop :=
  (forall c, corner_of w h d p c -> close t w h c l dist) \/
  ((exists c, corner_of w h d p c /\ close t w h c l dist) /\ close t w h l at_ dist).

(** How often the cell of [p] is looked at by a query at [l]. *)
Definition visits (t : bool) (w h d : R) (l : R * R) (dist : R) (p : R * R) : nat :=
  (looks t (Zceil (w / d)) (column d (fst l)) (column d dist) (column d (fst p)) *
   looks t (Zceil (h / d)) (column d (snd l)) (column d dist) (column d (snd p)))%nat.

(** Every element as often as said. *)
Definition as_often {X Y} (often : X * Y -> nat) (ps : list (X * Y)) : list X :=
  flat_map (fun p => repeat (fst p) (often p)) ps.
