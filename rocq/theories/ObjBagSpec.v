(** * An object grid as independent bags (C26)

    What each call does to the two bags of one cell: the one that is read and the one that is
    written.  [dense] says which of the two grids it is; they differ in [set_object_location]
    and [apply_to_all_values], and [update] keeps the written bag of the dense grid. *)
From Coq Require Import List Bool ZArith.
From Verif Require Import Grid NumModel ObjModel.
Import ListNotations.
Open Scope Z_scope.

Section Bag.
Context {O : Type}.
Variable eqo : O -> O -> bool.
Variable dense : bool.
Variables w h : Z.

(** The location the closure is called with for the objects of cell [l]. *)
Definition shown_location (l : loc) : loc :=
  if dense then let i := fst l * h + snd l in (i mod w, i / w) else l.

Fixpoint keep_out (o : O) (b : list O) : list O :=
  match b with [] => [] | x :: b' => if eqo x o then keep_out o b' else x :: keep_out o b' end.
Fixpoint results (f : O -> option O) (b : list O) : list O :=
  match b with [] => [] | x :: b' => match f x with Some y => y :: results f b' | None => results f b' end end.
(** The elements of [b] that differ from all the ones taken before them, after [b0]. *)
Fixpoint distinct (b0 b : list O) : list O :=
  match b with
  | [] => b0
  | x :: b' => if existsb (fun y => eqo y x) b0 then distinct b0 b' else distinct (b0 ++ [x]) b'
  end.
Definition changed (f : O -> option O) (b : list O) : list O :=
  map (fun x => match f x with Some y => y | None => x end) b.

Definition bag_apply (f : O -> option O) (op : grid_option) (c : list O * list O) : list O * list O :=
  let '(r, x) := c in
  match op, dense with
  | READ, _ => (results f r, x)
  | WRITE, true => (r, x ++ results f r)
  | WRITE, false => (r, results f x)
  | READWRITE, true => (r, match x with [] => distinct [] (results f r) | _ => changed f x end)
  | READWRITE, false =>
      (r, match rev r, x with
          | [], _ => x
          | o :: _, [] => results f [o]
          | _, _ => results f x
          end)
  end.

Definition bag_call (l : loc) (c : list O * list O) (o : oop O) : list O * list O :=
  match o with
  | OSet v l' => if loc_eqb l l' then (fst c, (if dense then keep_out v (snd c) else snd c) ++ [v]) else c
  | ORemove v l' => if loc_eqb l l' then (fst c, keep_out v (snd c)) else c
  | OLazyUpdate => (snd c, [])
  | OUpdate => (snd c, if dense then snd c else [])
  | OApply op f => bag_apply (f (shown_location l)) op c
  | _ => c
  end.
Definition bag_after (l : loc) (os : list (oop O)) : list O * list O := fold_left (bag_call l) os ([], []).

Definition bag_shown (b : list O) : option (list O) := match b with [] => None | _ => Some b end.
(** The answer to a call after [os], for the calls about one cell. *)
Definition bag_answer (os : list (oop O)) (o : oop O) (r : ores O) : Prop :=
  match o with
  | OGet l => r = OBag (bag_shown (fst (bag_after l os)))
  | OGetUnbuffered l => r = OBag (bag_shown (snd (bag_after l os)))
  | OSet _ _ | ORemove _ _ | OLazyUpdate | OUpdate | OApply _ _ => r = OUnit
  | _ => True
  end.
End Bag.

(** The objects of a cell the sparse grid hands to the closure. *)
Definition handed {O} (op : grid_option) (c : list O * list O) : list O :=
  match op, c with
  | READ, (r, _) => r
  | WRITE, (_, x) => x
  | READWRITE, ([], _) => []
  | READWRITE, (r, []) => r
  | READWRITE, (_, x) => x
  end.
