(** * Specification of the object grids *)
From Coq Require Import List Bool ZArith.
From Verif Require Import Grid NumModel ObjModel DashSpec NumSpec.
Import ListNotations.
Open Scope Z_scope.

Section Spec.
Context {O : Type}.
Variable eqo : O -> O -> bool.

(** A later call in the same epoch that cancels a placement of [o] at [l]. *)
Definition cancels_dense (o : O) (l : loc) (c : oop O) : bool :=
  match c with
  | OSet o' l' | ORemove o' l' => loc_eqb l' l && eqo o o'
  | _ => false
  end.
Definition cancels_sparse (o : O) (l : loc) (c : oop O) : bool :=
  match c with
  | ORemove o' l' => loc_eqb l' l && eqo o o'
  | _ => false
  end.

(** The objects placed at [l] by a list of calls (oldest first) and not cancelled by a
    later call of the list, in the order of their placement. *)
Fixpoint placed (cancels : O -> loc -> oop O -> bool) (l : loc) (epoch : list (oop O)) : list O :=
  match epoch with
  | [] => []
  | OSet o l' :: later =>
      if loc_eqb l' l && negb (existsb (cancels o l) later)
      then o :: placed cancels l later else placed cancels l later
  | _ :: later => placed cancels l later
  end.

(** The calls since the last publication, and those between the last two, oldest first. *)
Fixpoint since_publication (newest_first : list (oop O)) : list (oop O) :=
  match newest_first with
  | [] | OLazyUpdate :: _ | OUpdate :: _ => []
  | c :: older => since_publication older ++ [c]
  end.
Fixpoint published_epoch (newest_first : list (oop O)) : list (oop O) :=
  match newest_first with
  | [] => []
  | OLazyUpdate :: older | OUpdate :: older => since_publication older
  | _ :: older => published_epoch older
  end.

(** The same when [update] publishes without starting a new epoch. *)
Fixpoint since_lazy (newest_first : list (oop O)) : list (oop O) :=
  match newest_first with
  | [] | OLazyUpdate :: _ => []
  | c :: older => since_lazy older ++ [c]
  end.
Fixpoint published_lazy (newest_first : list (oop O)) : list (oop O) :=
  match newest_first with
  | [] => []
  | OLazyUpdate :: older | OUpdate :: older => since_lazy older
  | _ :: older => published_lazy older
  end.

Definition o_in (w h : Z) (c : oop O) : Prop :=
  match c with
  | OSet _ l | ORemove _ l | OGet l | OGetUnbuffered l => in_range w h l
  | ORandomEmpty _ _ => False
  | _ => True
  end.
Definition o_no_apply (c : oop O) : Prop := match c with OApply _ _ => False | _ => True end.
Definition o_no_update (c : oop O) : Prop := match c with OUpdate => False | _ => True end.

(** States reached by programs. *)
Definition od_reachable (w h : Z) (g : odense O) : Prop :=
  exists g0 cs rs, od_new w h = Some g0 /\ Forall (o_in w h) cs /\ od_run eqo g0 cs = Some (g, rs).
(** The same, for programs that publish with [lazy_update] only (see C23). *)
Definition od_reachable_lazy (w h : Z) (g : odense O) : Prop :=
  exists g0 cs rs, od_new w h = Some g0 /\ Forall (o_in w h) cs /\ Forall o_no_update cs /\
    od_run eqo g0 cs = Some (g, rs).

Definition os_reachable (w h : Z) (g : osparse O) : Prop :=
  exists cs rs, Forall (fun p => iteration (snd p)) cs /\ os_run eqo (os_new w h) cs = Some (g, rs).

(** *** Parallel grids *)
(** The same calls, for the specification above. *)
Definition as_oop (c : pop (O := O)) : oop O :=
  match c with
  | PSet o l => OSet o l
  | PRemoveAt o l => ORemove o l
  | PLazyUpdate => OLazyUpdate
  | PUpdate _ _ => OUpdate
  | PApply _ f => OApply READ f
  | PGet l => OGet l
  | PGetUnbuffered l => OGetUnbuffered l
  | PLocation o => OLocation o
  | PLocationUnbuffered o => OLocationUnbuffered o
  | PRemove o => OLocation o
  end.
(** Programs without [remove_object], [update] and [apply_to_all_values]. *)
Definition p_plain (c : pop (O := O)) : Prop :=
  match c with PRemove _ | PUpdate _ _ | PApply _ _ => False | _ => True end.
(** The location given to (an object equal to) [o] by the newest placement in the list
    (oldest first). *)
Definition last_location (o : O) (epoch : list (oop O)) : option loc :=
  fold_left (fun r c => match c with OSet o' l => if eqo o o' then Some l else r | _ => r end) epoch None.

(** The object itself of the newest placement. *)
Definition last_object (o : O) (epoch : list (oop O)) : option O :=
  fold_left (fun r c => match c with OSet o' _ => if eqo o o' then Some o' else r | _ => r end) epoch None.

(** Some object was placed at [l] during the epoch. *)
Definition touched (l : loc) (epoch : list (oop O)) : bool :=
  existsb (fun c => match c with OSet _ l' => loc_eqb l' l | _ => false end) epoch.

End Spec.
