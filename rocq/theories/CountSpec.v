(** * Specification: the counters of agents of [Field2D] and [Kdtree] *)
From Coq Require Import List Bool ZArith NArith.
From Verif Require Import F32 Grid FieldModel FieldSpec KdModel KdSpec.
Import ListNotations.

Section Count.
Variable A : arith.
Context {O : Type}.
Notation fop := (fop A (O := O)).
Notation kop := (kop A (O := O)).

(** The calls before the first [lazy_update]; whether there was one. *)
Fixpoint setup (cs : list fop) : list fop :=
  match cs with
  | [] | FLazyUpdate :: _ => []
  | c :: cs' => c :: setup cs'
  end.
Fixpoint published (cs : list fop) : bool :=
  match cs with
  | [] => false
  | FLazyUpdate :: _ => true
  | _ :: cs' => published cs'
  end.

Fixpoint k_setup (cs : list kop) : list kop :=
  match cs with
  | [] | KLazyUpdate :: _ => []
  | c :: cs' => c :: k_setup cs'
  end.
Fixpoint k_published (cs : list kop) : bool :=
  match cs with
  | [] => false
  | KLazyUpdate :: _ => true
  | _ :: cs' => k_published cs'
  end.
End Count.
