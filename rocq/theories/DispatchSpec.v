(** * What the documentation says about computing modes *)
From Coq Require Import Bool.
From Verif Require Import DispatchModel.

(** src/lib.rs L456-466: "By default, the model exploration is sequential", "Parallel: no
    features are required", "Distributed: the distributed_mpi feature is required", "Cloud: the
    aws feature is required". *)
Definition documented (f : features) (c : computing) : Prop :=
  match c with
  | Parallel => True
  | Distributed => distributed_mpi f = true
  | Cloud => aws f = true
  end.

(** A use that returns what was asked for. *)
Definition returns {X} (a : answer X) : Prop := exists x, a = Returned x.
