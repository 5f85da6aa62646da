(** * Specification of the Kdtree *)
From Coq Require Import List Bool ZArith Reals.
From Verif Require Import F32 Grid ObjModel FieldModel FieldSpec FieldReal KdModel.
Import ListNotations.

(** ** What is stored, and what is set aside for the other processes *)
Section Stored.
Variable A : arith.
Context {O : Type}.
Variable eqo : O -> O -> bool.
Notation pt := (num A * num A)%type.
Notation kop := (kop A (O := O)).

(** The same calls on a Field2D. *)
Definition as_calls (c : kop) : list (fop A (O := O)) :=
  match c with
  | KInsert o l => [FSet o l]
  | KRemove o l => [FRemove o l]
  | KLazyUpdate => [FLazyUpdate]
  | KInsertRead _ _ | KAddress _ _ => []
  end.

(** The calls since the last [lazy_update]; those between the last two, if there was one. *)
Fixpoint since_update (newest_first : list kop) : list kop :=
  match newest_first with
  | [] | KLazyUpdate :: _ => []
  | c :: older => since_update older ++ [c]
  end.
Fixpoint before_update (newest_first : list kop) : option (list kop) :=
  match newest_first with
  | [] => None
  | KLazyUpdate :: older => Some (since_update older)
  | _ :: older => before_update older
  end.

(** Read side: what a Field2D would hold, and what [insert_read] added since. *)
Definition read_inserts (epoch : list kop) : list (O * pt) :=
  flat_map (fun c => match c with KInsertRead o l => [(o, l)] | _ => [] end) epoch.
Definition k_readable (d : num A) (cs : list kop) : list (O * pt) :=
  readable A eqo d (flat_map as_calls cs) ++ read_inserts (since_update (rev cs)).
Definition k_pending (d : num A) (cs : list kop) : list (O * pt) := pending A eqo d (flat_map as_calls cs).

(** The agents inserted at a location of halo region [g]; those addressed to process [s]. *)
Definition inserted_in (region : pt -> option Z) (epoch : list kop) (g : Z) : list O :=
  flat_map (fun c => match c with
                     | KInsert o l => match region l with Some i => if (i =? g)%Z then [o] else [] | None => [] end
                     | _ => []
                     end) epoch.
Definition addressed (epoch : list kop) (s : nat) : list O :=
  flat_map (fun c => match c with KAddress i o => if (i =? s)%nat then [o] else [] | _ => [] end) epoch.

(** The calls whose location must be in the field, and whose addressee must exist. *)
Definition k_in (p : nat) (w h d : num A) (c : kop) : Prop :=
  match c with
  | KInsert _ l | KInsertRead _ l | KRemove _ l => in_field A w h d l
  | KLazyUpdate => True
  | KAddress s _ => (s < p)%nat
  end.
End Stored.

(** ** Rectangles on a torus, exact numbers *)
Local Open Scope R_scope.

(** The point is in the closed rectangle; it is strictly inside. *)
Definition contains (x y w h : R) (l : R * R) : Prop := x <= fst l <= x + w /\ y <= snd l <= y + h.
Definition inner (x y w h : R) (l : R * R) : Prop := x < fst l < x + w /\ y < snd l < y + h.
Definition b_contains (b : block RA) : R * R -> Prop := contains (b_x b) (b_y b) (b_w b) (b_h b).
Definition b_inner (b : block RA) : R * R -> Prop := inner (b_x b) (b_y b) (b_w b) (b_h b).

(** Some points of the two blocks, at most [d] apart in each coordinate, when the field of
    size [ow] by [oh] is wrapped around.  With [d = 0]: the blocks touch. *)
Definition near_coordinate (dim d a b : R) : Prop := exists b', congruent dim b' b /\ Rabs (a - b') <= d.
Definition near_block (ow oh d : R) (l : R * R) (b : block RA) : Prop :=
  exists q, b_contains b q /\ near_coordinate ow d (fst l) (fst q) /\ near_coordinate oh d (snd l) (snd q).
Definition touch (ow oh : R) (b1 b2 : block RA) : Prop := exists l, b_contains b1 l /\ near_block ow oh 0 l b2.
