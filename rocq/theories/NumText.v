(** * Integers as text

    The standard library of Rust (external), as used by schedule.rs L32 ([parse::<usize>]),
    lib.rs L1886 ([record[i].parse()] of [load_csv!]) and model_exploration.rs L480-497
    ([to_string] and [{:?}] of integers). *)
From Coq Require Import Bool NArith ZArith Ascii String Decimal DecimalString.
From Verif Require Import AwsModel.
Local Open Scope N_scope.

(** An integer type: signed or not, and the first natural number that it does not have. *)
Record int_type := IntType { t_signed : bool; t_limit : N }.
Definition u32_type : int_type := IntType false 4294967296.
Definition usize_type : int_type := IntType false 18446744073709551616.
Definition i32_type : int_type := IntType true 2147483648.
Definition in_type (t : int_type) (z : Z) : bool :=
  ((if t_signed t then - Z.of_N (t_limit t) else 0) <=? z)%Z && (z <? Z.of_N (t_limit t))%Z.

Definition digit_value (c : ascii) : N := N_of_ascii c - 48.

(** Digits, one after the other; [None] on anything else and when the value becomes more than
    [most]. *)
Fixpoint parse_digits (most acc : N) (s : string) : option N :=
  match s with
  | EmptyString => Some acc
  | String c r =>
      if is_digit c then
        let n := acc * 10 + digit_value c in
        if n <=? most then parse_digits most n r else None
      else None
  end.
Definition parse_some (most : N) (s : string) : option N :=
  match s with EmptyString => None | _ => parse_digits most 0 s end.

(** [str::parse]: an optional sign ([-] for signed types only) and at least one digit. *)
Definition parse_int (t : int_type) (s : string) : option Z :=
  match s with
  | String "+" r => option_map Z.of_N (parse_some (t_limit t - 1) r)
  | String "-" r =>
      if t_signed t then option_map (fun n => - Z.of_N n)%Z (parse_some (t_limit t) r) else None
  | _ => option_map Z.of_N (parse_some (t_limit t - 1) s)
  end.

(** [to_string] and [{:?}]. *)
Definition print_int (z : Z) : string := NilZero.string_of_int (Z.to_int z).
