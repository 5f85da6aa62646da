(** * Model of the arrows that can be drawn for edges

    src/visualization/utils/arrow.rs L8-40.  Simplified: coordinates, lengths and angles are
    real numbers instead of [f32], so rounding, infinities and NaN are left out. *)
From Coq Require Import Reals List.
Import ListNotations.
Open Scope R_scope.

(** L9: the two ends, the length and the angle of the head. *)
Record arrow := Arrow { a_start : R * R; a_end : R * R; a_length : R; a_angle : R }.

(** What the [Builder] of lyon is told, L34-38. *)
Inductive pen := Begin (p : R * R) | LineTo (p : R * R).

(** [f32::atan2] (std): the angle of the vector [(x, y)], L19; 0 for the null vector. *)
Definition atan2 (y x : R) : R :=
  if Rlt_dec 0 x then atan (y / x)
  else if Rlt_dec x 0 then (if Rle_dec 0 y then atan (y / x) + PI else atan (y / x) - PI)
  else if Rlt_dec 0 y then PI / 2
  else if Rlt_dec y 0 then - (PI / 2)
  else 0.

(** [Geometry::add_geometry], L12-39. *)
Definition add_geometry (a : arrow) : list pen :=
  let (sx, sy) := a_start a in
  let (ex, ey) := a_end a in
  let angle := atan2 (ey - sy) (ex - sx) in
  let first_head_angle := angle - a_angle a in
  let second_head_angle := angle + a_angle a in
  let x1 := ex - a_length a * cos first_head_angle in
  let x2 := ex - a_length a * cos second_head_angle in
  let y1 := ey - a_length a * sin first_head_angle in
  let y2 := ey - a_length a * sin second_head_angle in
  [Begin (sx, sy); LineTo (ex, ey); LineTo (x1, y1); LineTo (ex, ey); LineTo (x2, y2)].
