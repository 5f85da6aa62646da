(** * Model of the number of threads

    src/engine/schedule.rs L18-45 ([THREAD_NUM] of the parallel build) and L79-98
    ([Schedule::new], [Schedule::with_threads]).  The crate clap (external) finds the value of
    [--nt] on the command line and ends the program if it does not understand it; here the
    value is given. *)
From Coq Require Import NArith ZArith String.
From Verif Require Import SchedModel ParModel NumText.

(** [THREAD_NUM], L21-44: [cpus] is what [num_cpus::get()] answers. *)
Definition thread_num (cpus : N) (nt : option string) : N :=
  match nt with
  | Some s => match parse_int usize_type s with Some n => Z.to_N n | None => cpus end
  | None => 1
  end.

(** A step of a schedule made by [Schedule::new()], L84. *)
Definition cmd_step {A S} (cpus : N) (nt : option string) (u : user A S) := par_step u (N.to_nat (thread_num cpus nt)).
