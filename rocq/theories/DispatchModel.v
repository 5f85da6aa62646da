(** * Choosing how an exploration is computed

    [explore!] (src/explore/model_exploration.rs L57-152) and [evolutionary_search!]
    (src/explore/genetic.rs L203-313) with a [ComputingMode] (src/lib.rs L459-466).

    Both are exported macros: the features that [cfg] asks for are those of the crate that
    calls the macro.  Left out: the lines printed, [input_vec] (L61; it is given on to the
    distributed exploration only), and the parsing of the macros' arguments. *)
From Coq Require Import List Bool Arith.
From Verif Require Import ExpModel.
Import ListNotations.

(** The features of the calling crate that are asked for, model_exploration.rs L75, L89 and
    L105, genetic.rs L227, L249 and L270. *)
Record features := Features { distributed_mpi : bool; aws : bool; cloud : bool }.
(** src/lib.rs L459-466. *)
Inductive computing := Parallel | Distributed | Cloud.

(** What is compiled for an arm of the [match], model_exploration.rs L73-119, genetic.rs
    L225-279: one of the explorations, two lines printed, or a panic. *)
Inductive code := RunsParallel | RunsDistributed | Prints | Panics.
Definition arm (f : features) (c : computing) : code :=
  match c with
  | Parallel => if negb (distributed_mpi f || cloud f) then RunsParallel else Panics
  | Distributed => if distributed_mpi f then RunsDistributed else Panics
  | Cloud => if aws f then Prints else Panics
  end.

(** The types of the arms: the explorations have the type of their rows, what only prints has
    the type [()], and a panic has any type; the arms of a [match] must have one type
    (Rust's typing rule, simplified to what these arms need). *)
Inductive ty := Rows_t | Unit_t | Any_t.
Definition type_of (k : code) : ty :=
  match k with RunsParallel | RunsDistributed => Rows_t | Prints => Unit_t | Panics => Any_t end.
Definition fits (a b : ty) : bool :=
  match a, b with Rows_t, Unit_t | Unit_t, Rows_t => false | _, _ => true end.
Definition compiles (f : features) : bool :=
  let t c := type_of (arm f c) in
  fits (t Parallel) (t Distributed) && fits (t Parallel) (t Cloud) && fits (t Distributed) (t Cloud).

(** A use of a macro: it is not compiled, it panics, it returns nothing, or it returns [a]. *)
Inductive answer (X : Type) := Rejected | Panicked | Nothing | Returned (a : X).
Arguments Rejected {X}. Arguments Panicked {X}. Arguments Nothing {X}. Arguments Returned {X}.

Definition of_run {X} (r : option X) : answer X := match r with Some a => Returned a | None => Panicked end.
(** The [match] of both macros, given the two explorations. *)
Definition dispatch {X} (f : features) (c : computing) (par dist : option X) : answer X :=
  if compiles f then
    match arm f c with
    | RunsParallel => of_run par
    | RunsDistributed => of_run dist
    | Prints => Nothing
    | Panics => Panicked
    end
  else Rejected.

Section Explore.
Context {V S R Out : Type}.
Variable new : list V -> S.
Variable input_fields : S -> list V.
Variable output_fields : S -> Out.
Variable sim : R -> S -> S.

(** [explore!] with a mode, L57-139, and without one, L142-150; [p] is the number of MPI
    processes, and what is returned is what the root returns. *)
Definition explore (f : features) (c : option computing) (m : mode) (inputs : list (list V)) (reps p : nat)
    (rnd : nat -> nat -> R) : answer (list (row V Out)) :=
  match c with
  | None => of_run (explore_sequential new input_fields output_fields sim m inputs reps rnd)
  | Some c =>
      dispatch f c (explore_parallel new input_fields output_fields sim m inputs reps rnd)
                   (explore_mpi new input_fields output_fields sim m inputs reps p rnd)
  end.
End Explore.
