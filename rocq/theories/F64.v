(** * f64 arithmetic

    The other f64 operations used by the code, with the executable IEEE-754 semantics of
    the standard library at precision 53 and maximal exponent 1024 (binary64); [dadd],
    [ddiv] and the like are in [OptModel]. *)
From Coq Require Import ZArith Bool.
From Verif Require Import F32 OptModel.
Local Open Scope Z_scope.

Definition f64_valid (x : f64) : Prop := valid_binary 53 1024 x = true.
Definition f64_is_finite (x : f64) : bool :=
  match x with S754_zero _ | S754_finite _ _ _ => true | _ => false end.
(** Rust operators [<] and [<=]. *)
Definition dltb (x y : f64) : bool := SFltb x y.
Definition dleb (x y : f64) : bool := SFleb x y.
(** [as f64] of an integer: correctly rounded. *)
Definition d_of_Z (z : Z) : f64 := binary_normalize 53 1024 z 0 false.
(** The literal [1.]. *)
Definition d1 : f64 := S754_finite false 4503599627370496 (-52).
(** [f64::MAX] ([f64::MIN] is [f64_min] of [OptModel]). *)
Definition f64_max : f64 := S754_finite false 9007199254740991 971.
(** A finite f64 value. *)
Definition dok (x : f64) : Prop := f64_valid x /\ f64_is_finite x = true.
