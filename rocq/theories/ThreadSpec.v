(** * Numbers as they are written (C132)

    Decimal notation is that of the standard library. *)
From Coq Require Import NArith Ascii String Decimal DecimalString.

(** [s] writes the number [n] in digits, perhaps with a plus sign. *)
Definition writes_number (s : string) (n : N) : Prop :=
  exists u, u <> Nil /\ n = N.of_uint u /\
    (s = NilEmpty.string_of_uint u \/ s = String "+"%char (NilEmpty.string_of_uint u)).
