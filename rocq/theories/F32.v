(** * f32 arithmetic

    The engine's [f32] values are modelled by the standard library's executable
    IEEE-754 semantics [SpecFloat], with precision 24 and maximal exponent 128
    (binary32).  NaN payloads are not modelled (the code never inspects them). *)
From Coq Require Import ZArith Bool.
From Coq Require Export Floats.SpecFloat.
Local Open Scope Z_scope.

Definition f32 : Type := spec_float.

(** A bit pattern is a binary32 number iff its mantissa and exponent are in range. *)
Definition f32_valid (x : f32) : Prop := valid_binary 24 128 x = true.

Definition f32_is_nan (x : f32) : bool :=
  match x with S754_nan => true | _ => false end.

Definition f32_is_finite (x : f32) : bool :=
  match x with S754_zero _ | S754_finite _ _ _ => true | _ => false end.

(** Rust operators [+ - * /] and [f32::sqrt] (round to nearest, ties to even). *)
Definition fadd : f32 -> f32 -> f32 := SFadd 24 128.
Definition fsub : f32 -> f32 -> f32 := SFsub 24 128.
Definition fmul : f32 -> f32 -> f32 := SFmul 24 128.
Definition fdiv : f32 -> f32 -> f32 := SFdiv 24 128.
Definition fsqrt : f32 -> f32 := SFsqrt 24 128.
Definition fabs : f32 -> f32 := SFabs.
Definition fopp : f32 -> f32 := SFopp.

(** Rust operators [== < <= > >=]; all false when an operand is NaN. *)
Definition feqb : f32 -> f32 -> bool := SFeqb.
Definition fltb : f32 -> f32 -> bool := SFltb.
Definition fleb : f32 -> f32 -> bool := SFleb.
Definition fgtb (x y : f32) : bool := SFltb y x.
Definition fgeb (x y : f32) : bool := SFleb y x.

(** Integer to f32 conversion ([as f32]): correctly rounded. *)
Definition f_of_Z (z : Z) : f32 := binary_normalize 24 128 z 0 false.

Definition f0 : f32 := S754_zero false.
Definition f1 : f32 := S754_finite false 8388608 (-23).
Definition f2 : f32 := S754_finite false 8388608 (-22).

(** The integer numerator of [x * 2^(-e0)] for a finite [x] with exponent >= e0. *)
Definition f_scaled (x : f32) (e0 : Z) : Z :=
  match x with
  | S754_finite s m e => cond_Zopp s (Zpos m * 2 ^ (e - e0))
  | _ => 0
  end.

(** Exact floor and ceiling of a finite value as integers. *)
Definition f_floorZ (x : f32) : Z :=
  match x with
  | S754_finite s m e =>
      if 0 <=? e then cond_Zopp s (Zpos m * 2 ^ e)
      else (cond_Zopp s (Zpos m)) / 2 ^ (- e)
  | _ => 0
  end.
Definition f_ceilZ (x : f32) : Z :=
  match x with
  | S754_finite s m e =>
      if 0 <=? e then cond_Zopp s (Zpos m * 2 ^ e)
      else - ((- cond_Zopp s (Zpos m)) / 2 ^ (- e))
  | _ => 0
  end.

Definition i32_max : Z := 2147483647.
Definition i32_min : Z := -2147483648.

(** [as i32] is saturating and maps NaN to 0. *)
Definition sat_i32 (z : Z) : Z := Z.max i32_min (Z.min i32_max z).

(** [x.floor() as i32] and [x.ceil() as i32]: floor/ceil of an f32 are exact. *)
Definition f_floor_i32 (x : f32) : Z :=
  match x with
  | S754_nan => 0
  | S754_infinity s => if s then i32_min else i32_max
  | _ => sat_i32 (f_floorZ x)
  end.
Definition f_ceil_i32 (x : f32) : Z :=
  match x with
  | S754_nan => 0
  | S754_infinity s => if s then i32_min else i32_max
  | _ => sat_i32 (f_ceilZ x)
  end.

(** Rust [%] on f32 is C [fmod]: exact, with the sign of the dividend. *)
Definition frem (x y : f32) : f32 :=
  match x, y with
  | S754_nan, _ | _, S754_nan => S754_nan
  | S754_infinity _, _ => S754_nan
  | _, S754_zero _ => S754_nan
  | _, S754_infinity _ => x
  | S754_zero _, _ => x
  | S754_finite sx mx ex, S754_finite _ my ey =>
      let e0 := Z.min ex ey in
      let r := (Zpos mx * 2 ^ (ex - e0)) mod (Zpos my * 2 ^ (ey - e0)) in
      binary_normalize 24 128 (cond_Zopp sx r) e0 sx
  end.

(** [f32::min]: returns the other operand when one is NaN. *)
Definition fmin (x y : f32) : f32 :=
  match SFcompare x y with
  | Some Gt => y
  | Some _ => x
  | None => if f32_is_nan x then y else x
  end.
