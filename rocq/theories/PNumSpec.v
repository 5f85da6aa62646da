(** * A number grid of the parallel build as independent cells (C57)

    What each call the parallel build offers does to the two values of one cell: the one
    that is read and the one that is written.  Compare [cell_call] of NumCellSpec, the same
    for the sequential build. *)
From Coq Require Import List Bool ZArith.
From Verif Require Import Grid NumModel.
Import ListNotations.

Section Cell.
Context {T : Type}.

Definition offered (o : gop T) : Prop :=
  match o with
  | GSet _ _ | GLazyUpdate | GUpdate | GApply _ _ | GGet _ | GGetUnbuffered _ => True
  | _ => False
  end.

Definition par_cell_call (l : loc) (c : option T * option T) (o : gop T) : option T * option T :=
  let '(r, x) := c in
  match o with
  | GSet v l' => if loc_eqb l l' then (r, Some v) else c
  | GLazyUpdate => (x, None)
  | GUpdate => (match x with Some v => Some v | None => r end, x)
  | GApply READ f => (r, match r with Some v => Some (f v) | None => x end)
  | GApply WRITE f => (r, option_map f x)
  | GApply READWRITE f => (r, match r, x with Some _, Some v | Some v, None => Some (f v) | None, _ => x end)
  | _ => c
  end.
Definition par_cell_after (l : loc) (os : list (gop T)) : option T * option T := fold_left (par_cell_call l) os (None, None).

Definition par_cell_answer (os : list (gop T)) (o : gop T) (r : gres T) : Prop :=
  match o with
  | GGet l => r = RValue (fst (par_cell_after l os))
  | GGetUnbuffered l => r = RValue (snd (par_cell_after l os))
  | _ => r = RUnit
  end.
End Cell.
