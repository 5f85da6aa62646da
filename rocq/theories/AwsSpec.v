(** * Specification of the genetic search on AWS

    Which individuals a generation evaluates, the rows this gives, and the histories of a
    search; independent of the loops and of the messages. *)
From Coq Require Import List Bool Arith NArith ZArith String Ascii Permutation.
From Verif Require Import ExpModel GaModel AwsModel.
Import ListNotations.

(** Text that stands for itself inside a JSON string. *)
Definition plain (x : string) : Prop :=
  forall c, In c (list_ascii_of_string x) -> 32 <= nat_of_ascii c /\ c <> "034"%char /\ c <> "\"%char.

Section Spec.
Context {F : Type}.
Variable show : F -> string.
Variable num : string -> F.
Variable ge : F -> F -> bool.
Variable desired : F.
Variable reps gnum nfunc : nat.
Variable eval : nat -> nat -> nat -> string -> F.
Variable selection : nat -> list (string * F) -> list (string * F).
Variable mutation : nat -> nat -> string -> string.
Variable crossover : nat -> list string -> list string.
Variable init : list string.

(** A fitness that survives being printed and parsed. *)
Definition printable (f : F) : Prop := json_number (show f) = true /\ num (show f) = f.

(** The work of a generation: the population, [reps] times. *)
Definition work (pop : list string) : list string := List.concat (repeat pop reps).
(** How many individuals function [i] gets, the first of them, and all of them. *)
Definition share (pop : list string) (i : nat) : nat :=
  List.length (work pop) / nfunc + (if Nat.ltb i (List.length (work pop) mod nfunc) then 1 else 0).
Definition first (pop : list string) (i : nat) : nat := list_sum (map (share pop) (seq 0 i)).
Definition chunk (pop : list string) (i : nat) : list string := firstn (share pop i) (skipn (first pop i) (work pop)).

(** The rows of function [i]; of a generation whose results arrive in the given order. *)
Definition func_rows (g : nat) (pop : list string) (i : nat) : list (aws_row F) :=
  map (fun jx => AwsRow (as_u32 g) (as_i32 (Z.of_nat (fst jx))) (eval g i (fst jx) (snd jx)) (snd jx))
      (combine (seq 0 (List.length (chunk pop i))) (chunk pop i)).
Definition arrived (g : nat) (pop : list string) (order : list nat) : list (aws_row F) := flat_map (func_rows g pop) order.
Definition reaches (r : aws_row F) : Prop := ge (w_fit r) desired = true.
Definition within (k : nat) : Prop := gnum = 0 \/ k < gnum.
Definition chosen (g : nat) (rows : list (aws_row F)) : list (string * F) := selection g (map (fun r => (w_ind r, w_fit r)) rows).
Definition offspring (g : nat) (rows : list (aws_row F)) : list string :=
  let l := map fst (chosen g rows) in
  crossover g (map (fun ix => mutation g (fst ix) (snd ix)) (combine (seq 0 (List.length l)) l)).

(** [k] generations were evaluated and the search goes on: the population of the next one
    and the rows so far. *)
Inductive went_on : nat -> list string -> list (aws_row F) -> Prop :=
| went_start : went_on 0 init []
| went_next k pop rows order :
    went_on k pop rows -> within k -> Permutation order (seq 0 nfunc) ->
    (forall r, In r (arrived (S k) pop order) -> ~ reaches r) ->
    2 <= List.length (chosen (S k) (arrived (S k) pop order)) ->
    went_on (S k) (offspring (S k) (arrived (S k) pop order)) (rows ++ arrived (S k) pop order).
(** How a search ends. *)
Inductive ended : list (aws_row F) -> Prop :=
| end_limit pop rows : gnum <> 0 -> went_on gnum pop rows -> ended rows
| end_desired k pop rows order r :
    went_on k pop rows -> within k -> Permutation order (seq 0 nfunc) ->
    In r (arrived (S k) pop order) -> reaches r -> ended (rows ++ arrived (S k) pop order)
| end_small k pop rows order :
    went_on k pop rows -> within k -> Permutation order (seq 0 nfunc) ->
    (forall r, In r (arrived (S k) pop order) -> ~ reaches r) ->
    List.length (chosen (S k) (arrived (S k) pop order)) < 2 -> ended (rows ++ arrived (S k) pop order).

(** Every message is received once, alone, in any order, within 20 seconds. *)
Definition reliable (recv : nat -> list (list string) -> nat -> option (list string)) : Prop :=
  forall g sent hist, List.length sent = nfunc ->
    exists order, Permutation order (seq 0 nfunc) /\
      forall k, k < nfunc -> recv g (sent :: hist) k = option_map (fun m => [m]) (nth_error sent (nth k order 0)).
(** The populations the search comes to: enough for all functions, and of plain text. *)
Definition healthy : Prop :=
  (forall k pop rows, went_on k pop rows -> within k -> nfunc <= List.length (work pop) /\ Forall plain pop) /\
  (forall g i j x, printable (eval g i j x)).
End Spec.
