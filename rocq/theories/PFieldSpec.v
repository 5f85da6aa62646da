(** * Specification of the parallel Field2D: what a history of calls shows *)
From Coq Require Import List Bool ZArith NArith.
From Verif Require Import Grid DashSpec ObjModel FieldModel FieldSpec PFieldModel.
Import ListNotations.
Open Scope Z_scope.

Section Spec.
Variable A : arith.
Notation T := (num A).
Notation pt := (num A * num A)%type.
Context {O : Type}.
Variable eqo : O -> O -> bool.
Variable d : T.                 (* the discretization of the field *)
Notation pfop := (pfop A (O := O)).

(** Hash maps may be walked in any order. *)
Definition pf_ok (c : pfop) : Prop :=
  match c with QUpdate it it' it'' => iteration it /\ iteration it' /\ iteration it'' | _ => True end.

(** The placements made since the last [lazy_update], oldest first. *)
Fixpoint recent (newest_first : list pfop) : list (O * pt) :=
  match newest_first with
  | [] | QLazyUpdate :: _ => []
  | QSet o l :: older => recent older ++ [(o, l)]
  | _ :: older => recent older
  end.

(** The objects of the placements made in cell [c], in order. *)
Definition in_bag (c : loc) (ps : list (O * pt)) : list O :=
  map fst (filter (fun p => loc_eqb (discretize A d (snd p)) c) ps).
(** The last placement of an object equal to [o]. *)
Definition last_place (o : O) (ps : list (O * pt)) : option (O * pt) :=
  find (fun p => eqo o (fst p)) (rev ps).

(** What is published.  [lazy_update] publishes the recent placements; [update] publishes
    them over what was published before, cell by cell and object by object. *)
Fixpoint shown_bag (c : loc) (newest_first : list pfop) : list O :=
  match newest_first with
  | [] => []
  | QLazyUpdate :: older => in_bag c (recent older)
  | QUpdate _ _ _ :: older =>
      match in_bag c (recent older) with [] => shown_bag c older | b => b end
  | _ :: older => shown_bag c older
  end.
Fixpoint shown_place (o : O) (newest_first : list pfop) : option (O * pt) :=
  match newest_first with
  | [] => None
  | QLazyUpdate :: older => last_place o (recent older)
  | QUpdate _ _ _ :: older =>
      match last_place o (recent older) with Some p => Some p | None => shown_place o older end
  | _ :: older => shown_place o older
  end.

(** [n] is the number of different objects having a published place. *)
Definition counts_shown (h : list pfop) (n : nat) : Prop :=
  exists os, length os = n /\ ForallOrdPairs (fun a b => eqo a b = false) os /\
    forall o, shown_place o h <> None <-> exists o', In o' os /\ eqo o o' = true.

(** Calls that never panic. *)
Definition pf_calm (c : pfop) : Prop :=
  match c with QNeighbors _ _ | QRelax _ _ | QLocationUnbuffered _ => False | _ => True end.

(** What call [c], made after the history [h], may answer; neighbour queries, which panic or
    answer a bag, are specified through the sequential field. *)
Definition answers (h : list pfop) (c : pfop) (r : pfres A (O := O)) : Prop :=
  match c, r with
  | QSet _ _, QUnit | QLazyUpdate, QUnit | QUpdate _ _ _, QUnit => True
  | QGet o, QObj x => x = option_map fst (shown_place o h)
  | QObjects l, QBag b => b = shown_bag (discretize A d l) h
  | QCount l, QNat n => n = length (shown_bag (discretize A d l) h)
  | QLocation o, QPlace x => x = option_map snd (shown_place o h)
  | QLocationUnbuffered o, QPlace x => x <> None /\ x = option_map snd (last_place o (recent h))
  | QGetUnbuffered o, QObj x =>
      match last_place o (recent h) with
      | None => x = None
      | Some p => exists o', x = Some o' /\ eqo o o' = true /\ In o' (in_bag (discretize A d (snd p)) (recent h))
      end
  | QNum, QNat n => counts_shown h n
  | QNeighbors _ _, QBag _ | QRelax _ _, QBag _ => True
  | _, _ => False
  end.

(** The same calls made on the sequential field; [None] for those it does not offer. *)
Definition as_fop (c : pfop) : option (fop A (O := O)) :=
  match c with
  | QSet o l => Some (FSet o l)
  | QLazyUpdate => Some FLazyUpdate
  | QUpdate _ _ _ => Some FUpdate
  | QObjects l => Some (FGet l)
  | QCount l => Some (FCount l)
  | QNeighbors l dist => Some (FNeighbors l dist)
  | QRelax l dist => Some (FRelax l dist)
  | QGet _ | QLocation _ | QLocationUnbuffered _ | QGetUnbuffered _ | QNum => None
  end.
(** No [update]: the sequential one does nothing. *)
Definition no_update (c : pfop) : Prop := match c with QUpdate _ _ _ => False | _ => True end.

(** The placements published by the last [lazy_update]. *)
Fixpoint published (newest_first : list pfop) : list (O * pt) :=
  match newest_first with
  | [] => []
  | QLazyUpdate :: older => recent older
  | _ :: older => published older
  end.
End Spec.
