(** * What the calls do to a parallel object grid (C60, C61)

    A parallel object grid keeps its bags and the locations of its objects separately.  Here is
    what every call does to the two bags of every location and to the two locations of every
    object: those that are read, and those that are written until the next publication. *)
From Coq Require Import List Bool ZArith.
From Verif Require Import Grid ObjModel ObjBagSpec.
Import ListNotations.

Section View.
Context {O : Type}.
Variable eqo : O -> O -> bool.

(** A bag that is [Some []] is empty, but was used since the publication before. *)
Record pview := PView {
  p_bag : loc -> option (list O);
  p_next_bag : loc -> option (list O);
  p_loc : O -> option loc;
  p_next_loc : O -> option loc
}.

Definition nothing (v : pview) : Prop :=
  (forall l, p_bag v l = None) /\ (forall l, p_next_bag v l = None) /\
  (forall o, p_loc v o = None) /\ (forall o, p_next_loc v o = None).
Definition alike (v v' : pview) : Prop :=
  (forall l, p_bag v l = p_bag v' l) /\ (forall l, p_next_bag v l = p_next_bag v' l) /\
  (forall o, p_loc v o = p_loc v' o) /\ (forall o, p_next_loc v o = p_next_loc v' o).

Definition shown_bag (b : option (list O)) : option (list O) := match b with Some (x :: b') => Some (x :: b') | _ => None end.
Definition bag_without (o : O) (b : option (list O)) : option (list O) := option_map (keep_out eqo o) b.
Definition bag_with (o : O) (b : option (list O)) : option (list O) :=
  Some (match b with Some b => keep_out eqo o b ++ [o] | None => [o] end).
Definition at_loc {X} (l : loc) (f : X -> X) (m : loc -> X) : loc -> X := fun x => if loc_eqb x l then f (m x) else m x.
Definition at_obj {X} (o : O) (y : X) (m : O -> X) : O -> X := fun x => if eqo x o then y else m x.
Definition newer {X Y} (m m' : X -> option Y) : X -> option Y := fun x => match m x with Some y => Some y | None => m' x end.

(** The objects that have a location, each once, in some order. *)
Definition located (es : list (O * loc)) (m : O -> option loc) : Prop :=
  ForallOrdPairs (fun p q => eqo (fst p) (fst q) = false) es /\
  forall o, m o = option_map snd (find (fun p => eqo o (fst p)) es).

Definition view_call (v : pview) (c : pop) (r : ores O) (v' : pview) : Prop :=
  let '(PView b nb m nm) := v in
  match c with
  | PSet o l => r = OUnit /\ alike v' (PView b (at_loc l (bag_with o) nb) m (at_obj o (Some l) nm))
  | PRemoveAt o l => r = OUnit /\ alike v' (PView b (at_loc l (bag_without o) nb) m nm)
  | PRemove o =>
      r = OUnit /\
      alike v' (PView b (match m o with Some l => at_loc l (bag_without o) nb | None => nb end) m (at_obj o None nm))
  | PLazyUpdate => r = OUnit /\ alike v' (PView nb (fun _ => None) nm (fun _ => None))
  | PUpdate _ _ => r = OUnit /\ alike v' (PView (newer nb b) nb (newer nm m) nm)
  | PApply _ f =>
      r = OUnit /\ exists es, located es m /\
      alike v' (PView b nb m
        (fold_left (fun nm p => match f (snd p) (fst p) with
                                | Some x => at_obj x (Some (snd p)) (at_obj (fst p) None nm)
                                | None => nm
                                end) es nm))
  | PGet l => r = OBag (shown_bag (b l)) /\ alike v' v
  | PGetUnbuffered l => r = OBag (shown_bag (nb l)) /\ alike v' v
  | PLocation o => r = OLoc (m o) /\ alike v' v
  | PLocationUnbuffered o => r = OLoc (nm o) /\ alike v' v
  end.

Inductive view_run : pview -> list pop -> list (ores O) -> pview -> Prop :=
| ViewDone v : view_run v [] [] v
| ViewCall v c r v' cs rs v'' : view_call v c r v' -> view_run v' cs rs v'' -> view_run v (c :: cs) (r :: rs) v''.

(** [remove_object] panics if the object has a published location whose bag was not used since. *)
Definition removal_panics (v : pview) (o : O) : Prop := exists l, p_loc v o = Some l /\ p_next_bag v l = None.
End View.
Arguments pview : clear implicits.
