(** * A number grid as independent cells (C20)

    What each call does to the two values of one cell: the one that is read and the one that
    is written.  [dense] says which of the two grids it is; they differ in
    [apply_to_all_values] with [WRITE] and [READWRITE] only. *)
From Coq Require Import List Bool ZArith.
From Verif Require Import Grid NumModel.
Import ListNotations.

Section Cell.
Context {T : Type}.
Variable dense : bool.

Definition cell_apply (f : T -> T) (o : grid_option) (c : option T * option T) : option T * option T :=
  let '(r, x) := c in
  match o, dense, r, x with
  | READ, _, _, _ => (option_map f r, x)
  | WRITE, true, Some v, _ => (r, Some (f v))
  | WRITE, true, None, _ => (r, x)
  | WRITE, false, _, _ => (r, option_map f x)
  | READWRITE, _, Some _, Some v | READWRITE, _, Some v, None => (r, Some (f v))
  | READWRITE, true, None, Some v => (r, Some (f v))
  | READWRITE, false, None, Some v => (r, Some v)
  | READWRITE, _, None, None => (r, None)
  end.

Definition cell_call (l : loc) (c : option T * option T) (o : gop T) : option T * option T :=
  match o with
  | GSet v l' => if loc_eqb l l' then (fst c, Some v) else c
  | GRemove l' => if loc_eqb l l' then (fst c, None) else c
  | GLazyUpdate | GUpdate => (snd c, None)
  | GApply o f => cell_apply f o c
  | _ => c
  end.
Definition cell_after (l : loc) (os : list (gop T)) : option T * option T := fold_left (cell_call l) os (None, None).

(** The answer to a call after [os], for the calls about one cell. *)
Definition cell_answer (os : list (gop T)) (o : gop T) (r : gres T) : Prop :=
  match o with
  | GGet l => r = RValue (fst (cell_after l os))
  | GGetUnbuffered l => r = RValue (snd (cell_after l os))
  | GSet _ _ | GRemove _ | GLazyUpdate | GUpdate | GApply _ _ => r = RUnit
  | _ => True
  end.
End Cell.
