(** * Specification of Field2D *)
From Coq Require Import List Bool ZArith NArith.
From Verif Require Import F32 Grid ObjModel FieldModel.
Import ListNotations.
Open Scope Z_scope.

(** [a] is obtained from [b] by deleting elements. *)
Inductive subseq {X} : list X -> list X -> Prop :=
| subseq_nil l : subseq [] l
| subseq_keep x a b : subseq a b -> subseq (x :: a) (x :: b)
| subseq_skip x a b : subseq a b -> subseq a (x :: b).

Section Spec.
Variable A : arith.
Notation T := (num A).
Notation pt := (num A * num A)%type.
Context {O : Type}.
Variable eqo : O -> O -> bool.
Notation fop := (fop A (O := O)).

(** ** Which cells a field has *)
(** Number of columns (rows) of a field of this width (height): one per started
    discretization step and one more for the far border. *)
Definition cols (size d : T) : Z := ceil_i32 A (div A size d) + 1.

(** The cells can be counted and indexed in [i32], the bags are as many as the cells, and
    the field is not empty. *)
Definition good_size (w h d : T) : Prop :=
  2 <= cols w d /\ 2 <= cols h d /\ cols w d * cols h d < 2 ^ 31 /\
  Z.of_N (bag_count A w h d) = cols w d * cols h d.

(** The location falls in one of the cells. *)
Definition in_field (w h d : T) (l : pt) : Prop := in_range (cols w d) (cols h d) (discretize A d l).

(** The lower corner of cell [c]. *)
Definition corner (d : T) (c : loc) : pt := (mul A (of_int A (fst c)) d, mul A (of_int A (snd c)) d).

(** The calls whose location must be in the field.  Neighbour queries may start anywhere. *)
Definition f_in (w h d : T) (c : fop) : Prop :=
  match c with
  | FSet _ l | FRemove _ l | FGet l | FGetUnbuffered l | FCount l => in_field w h d l
  | _ => True
  end.

(** The location is in the rectangle, borders included. *)
Definition inside (w h : T) (l : pt) : Prop :=
  le A (of_int A 0) (fst l) = true /\ le A (fst l) w = true /\ le A (of_int A 0) (snd l) = true /\ le A (snd l) h = true.
Definition f_inside (w h : T) (c : fop) : Prop :=
  match c with
  | FSet _ l | FRemove _ l | FGet l | FGetUnbuffered l | FCount l => inside w h l
  | _ => True
  end.

(** ** What is stored *)
Variable d : T.

(** A later call that takes the placement of [o] at [l] back. *)
Definition takes_back (o : O) (l : pt) (c : fop) : bool :=
  match c with
  | FRemove o' l' => loc_eqb (discretize A d l') (discretize A d l) && eqo o o'
  | _ => false
  end.

(** The placements of a list of calls (oldest first) that no later call of the list takes
    back, in the order they were made. *)
Fixpoint live (epoch : list fop) : list (O * pt) :=
  match epoch with
  | [] => []
  | FSet o l :: later =>
      if existsb (takes_back o l) later then live later else (o, l) :: live later
  | _ :: later => live later
  end.

(** The calls since the last [lazy_update], and those between the last two, oldest first. *)
Fixpoint current_epoch (newest_first : list fop) : list fop :=
  match newest_first with
  | [] | FLazyUpdate :: _ => []
  | c :: older => current_epoch older ++ [c]
  end.
Fixpoint previous_epoch (newest_first : list fop) : list fop :=
  match newest_first with
  | [] => []
  | FLazyUpdate :: older => current_epoch older
  | _ :: older => previous_epoch older
  end.

(** The objects among the placements that are in the cell of [l]. *)
Definition same_cell (l l' : pt) : bool := loc_eqb (discretize A d l) (discretize A d l').
Definition in_cell_of (l : pt) (ps : list (O * pt)) : list O :=
  map fst (filter (fun p => same_cell (snd p) l) ps).

(** The placements readable after the calls [cs] (oldest first), and those still being
    written. *)
Definition readable (cs : list fop) : list (O * pt) := live (previous_epoch (rev cs)).
Definition pending (cs : list fop) : list (O * pt) := live (current_epoch (rev cs)).

(** Objects are placed where they say they are. *)
Variable location : O -> pt.
Definition placed_at_home (c : fop) : Prop :=
  match c with FSet o l => l = location o | _ => True end.

End Spec.
