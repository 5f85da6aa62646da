(** * Specification of the number grids *)
From Coq Require Import List Bool ZArith.
From Verif Require Import Grid NumModel DashSpec.
Import ListNotations.
Open Scope Z_scope.

(** Reading a history, newest call first. *)
Section History.
Context {T : Type}.

(** The value at [l] in the write state: set since the last publication and not removed
    afterwards. *)
Fixpoint last_written (l : loc) (newest_first : list (gop T)) : option T :=
  match newest_first with
  | [] => None
  | GSet v l' :: older => if loc_eqb l l' then Some v else last_written l older
  | GRemove l' :: older => if loc_eqb l l' then None else last_written l older
  | GLazyUpdate :: _ | GUpdate :: _ => None
  | _ :: older => last_written l older
  end.

(** The value at [l] in the read state: what was written when last published. *)
Fixpoint last_published (l : loc) (newest_first : list (gop T)) : option T :=
  match newest_first with
  | [] => None
  | GLazyUpdate :: older | GUpdate :: older => last_written l older
  | _ :: older => last_published l older
  end.

(** Every location mentioned is in range (random draws are treated separately). *)
Definition call_in (w h : Z) (o : gop T) : Prop :=
  match o with
  | GSet _ l | GRemove l | GGet l | GGetUnbuffered l => in_range w h l
  | GRandomEmpty _ => False
  | _ => True
  end.

Definition no_apply (o : gop T) : Prop := match o with GApply _ _ => False | _ => True end.

(** The calls both grids answer in the same way. *)
Definition common (o : gop T) : Prop :=
  match o with
  | GSet _ _ | GRemove _ | GLazyUpdate | GUpdate | GGet _ | GGetUnbuffered _ | GEmptyBags
  | GApply READ _ => True
  | _ => False
  end.

(** The calls the parallel version answers like the sequential sparse grid, and those it
    answers like both sequential grids. *)
Definition par_sparse (o : gop T) : Prop :=
  match o with
  | GSet _ _ | GLazyUpdate | GGet _ | GGetUnbuffered _ | GApply WRITE _ | GApply READWRITE _ => True
  | _ => False
  end.
Definition par_dense (o : gop T) : Prop :=
  match o with
  | GSet _ _ | GLazyUpdate | GGet _ | GGetUnbuffered _ => True
  | _ => False
  end.
End History.

(** What a program may assume about the size: the number of cells is an [i32]. *)
Definition size_ok (w h : Z) : Prop := 0 <= w /\ 0 <= h /\ w < 2 ^ 31 /\ h < 2 ^ 31 /\ w * h < 2 ^ 31.

(** States reached from a new grid by a program on in-range locations. *)
Definition dg_reachable {T} (eqv : T -> T -> bool) (w h : Z) (g : dgrid T) : Prop :=
  exists g0 os rs, dg_new w h = Some g0 /\ Forall (call_in w h) os /\ dg_run eqv g0 os = Some (g, rs).

(** States of a sparse grid reached by any program (locations need not be in range). *)
Definition sg_reachable {T} (eqv : T -> T -> bool) (w h : Z) (g : sgrid T) : Prop :=
  exists os rs, Forall (fun p => DashSpec.iteration (snd p)) os /\
    sg_run eqv (sg_new w h) os = Some (g, rs).
