(** * Model of parameter sweeping

    [build_configurations!] (src/lib.rs L1719-1744), [explore_sequential!] and
    [explore_parallel!] (src/explore/model_exploration.rs L233-313, L355-433) and
    [explore_distributed_mpi!] (src/explore/mpi/model_exploration.rs L121-289).
    [None] is a panic.  Inputs of different types are values of one type [V].
    Lengths, the number of configurations and run numbers are [usize]: natural numbers
    here, since the table of configurations has to fit in memory.  One simulation
    ([simulate_explore!], L161-191; its loop is [sim_rep] of SimModel) is any function of
    the state and of a value [R] standing for whatever the run takes from outside (random
    numbers, tie-breaks).  Printing and the two timing columns are left out. *)
From Coq Require Import List Bool Arith NArith.
Import ListNotations.

(** [x as u32]. *)
Definition as_u32 (n : nat) : N := (N.of_nat n mod 4294967296)%N.

(** All or nothing. *)
Fixpoint all_some {X} (l : list (option X)) : option (list X) :=
  match l with
  | [] => Some []
  | None :: _ => None
  | Some x :: l' => option_map (cons x) (all_some l')
  end.

(** ** [build_configurations!] *)
(** The inner loop [for _ in 0..rep], L1730-1732. *)
Fixpoint push_rep (rep i : nat) (row : list nat) : list nat :=
  match rep with
  | O => row
  | S rep' => push_rep rep' i (row ++ [i])
  end.
(** The loop [for _ in 0..n_conf], L1729-1734. *)
Fixpoint fill_row (times rep len i : nat) (row : list nat) : list nat :=
  match times with
  | O => row
  | S times' => fill_row times' rep len ((i + 1) mod len) (push_rep rep i row)
  end.
(** One row per input, L1723-1738; dividing by the length of an empty input panics. *)
Fixpoint build_rows (n_conf rep : nat) (lens : list nat) (table : list (list nat)) : option (list (list nat)) :=
  match lens with
  | [] => Some table
  | len :: lens' =>
      match len with
      | O => None
      | _ => let rep' := rep / len in build_rows n_conf rep' lens' (table ++ [fill_row n_conf rep' len 0 []])
      end
  end.
Definition build_configurations (n_conf : nat) (lens : list nat) : option (list (list nat)) :=
  build_rows n_conf n_conf lens [].

Inductive mode := Exaustive | Matched.

Section Explore.
Context {V S R Out : Type}.
(** [<$state>::new], the fields [state.$input] and [state.$output], one simulation. *)
Variable new : list V -> S.
Variable input_fields : S -> list V.
Variable output_fields : S -> Out.
Variable sim : R -> S -> S.

Record row := Row { conf_num : N; conf_rep : N; row_inputs : list V; row_outputs : Out }.

(** The number of configurations and the table, model_exploration.rs L251-263, L374-386,
    mpi L163-178: with [Matched] the length of the last input decides. *)
Definition configurations (m : mode) (inputs : list (list V)) : option (nat * list (list nat)) :=
  match m with
  | Exaustive =>
      let n_conf := fold_left (fun n l => n * length l) inputs 1 in
      option_map (pair n_conf) (build_configurations n_conf (map (@length V) inputs))
  | Matched => Some (fold_left (fun _ l => length l) inputs 1, [])
  end.

(** The arguments of [new] for configuration [i], L272-289, L393-411, mpi L199-222:
    row [k] of the table is used for input [k]; every index is bounds-checked. *)
Fixpoint exaustive_args (k : nat) (inputs : list (list V)) (table : list (list nat)) (i : nat) : list (option V) :=
  match inputs with
  | [] => []
  | l :: inputs' =>
      match nth_error table k with
      | None => None
      | Some r => match nth_error r i with None => None | Some x => nth_error l x end
      end :: exaustive_args (k + 1) inputs' table i
  end.
Definition args (m : mode) (inputs : list (list V)) (table : list (list nat)) (i : nat) : option (list V) :=
  match m with
  | Exaustive => all_some (exaustive_args 0 inputs table i)
  | Matched => all_some (map (fun l => nth_error l i) inputs)
  end.

(** ** [explore_sequential!] *)
(** The repetitions of one configuration, on one state, L297-303. *)
Fixpoint seq_reps (rnd : nat -> nat -> R) (i j n : nat) (s : S) : list row :=
  match n with
  | O => []
  | Datatypes.S n' =>
      let s' := sim (rnd i j) s in
      Row (as_u32 i) (as_u32 (j + 1)) (input_fields s') (output_fields s') :: seq_reps rnd i (j + 1) n' s'
  end.
(** L269-304. *)
Fixpoint seq_confs (m : mode) (inputs : list (list V)) (table : list (list nat)) (rnd : nat -> nat -> R) (reps i n : nat) : option (list row) :=
  match n with
  | O => Some []
  | Datatypes.S n' =>
      match args m inputs table i with
      | None => None
      | Some a => option_map (app (seq_reps rnd i 0 reps (new a))) (seq_confs m inputs table rnd reps (i + 1) n')
      end
  end.
(** [rnd i j]: what run [j] of configuration [i] takes from outside. *)
Definition explore_sequential (m : mode) (inputs : list (list V)) (reps : nat) (rnd : nat -> nat -> R) : option (list row) :=
  match configurations m inputs with
  | None => None
  | Some (n_conf, table) => seq_confs m inputs table rnd reps 0 n_conf
  end.

(** ** [explore_parallel!] *)
(** The closure, L389-422. *)
Definition par_run (m : mode) (inputs : list (list V)) (table : list (list nat)) (reps : nat) (rnd : nat -> nat -> R) (run : nat) : option row :=
  let i := run / reps in
  match args m inputs table i with
  | None => None
  | Some a =>
      let s := sim (rnd i (run mod reps)) (new a) in
      Some (Row (as_u32 i) (as_u32 (run mod reps)) (input_fields s) (output_fields s))
  end.
(** [into_par_iter().map(..).collect()] (rayon, external): the closure is called once for
    every run, on any thread and in any order, and the results are collected in the order
    of the runs; a panic in one of them is a panic of the whole. *)
Definition explore_parallel (m : mode) (inputs : list (list V)) (reps : nat) (rnd : nat -> nat -> R) : option (list row) :=
  match configurations m inputs with
  | None => None
  | Some (n_conf, table) => all_some (map (par_run m inputs table reps rnd) (seq 0 (n_conf * reps)))
  end.

(** ** [explore_distributed_mpi!] *)
(** The number of configurations of a rank, mpi L187-192. *)
Definition local_conf_size (n_conf p rank : nat) : nat :=
  n_conf / p + (if rank <? n_conf mod p then 1 else 0).
(** The repetitions, mpi L225-243: the row carries the local index [i] and [j]. *)
Fixpoint mpi_reps (rnd : nat -> nat -> R) (c i j n : nat) (s : S) : list row :=
  match n with
  | O => []
  | Datatypes.S n' =>
      let s' := sim (rnd c j) s in
      Row (as_u32 i) (as_u32 j) (input_fields s') (output_fields s') :: mpi_reps rnd c i (j + 1) n' s'
  end.
(** The loop of a rank, mpi L197-244: local index [i] is configuration [i * p + rank]. *)
Fixpoint mpi_confs (m : mode) (inputs : list (list V)) (table : list (list nat)) (rnd : nat -> nat -> R) (p rank reps i n : nat) : option (list row) :=
  match n with
  | O => Some []
  | Datatypes.S n' =>
      match args m inputs table (i * p + rank) with
      | None => None
      | Some a => option_map (app (mpi_reps rnd (i * p + rank) i 0 reps (new a))) (mpi_confs m inputs table rnd p rank reps (i + 1) n')
      end
  end.
Definition mpi_rank (m : mode) (inputs : list (list V)) (table : list (list nat)) (rnd : nat -> nat -> R) (n_conf p rank reps : nat) : option (list row) :=
  mpi_confs m inputs table rnd p rank reps 0 (local_conf_size n_conf p rank).
(** The counts and displacements of the root, mpi L252-271. *)
Definition samples_count (n_conf p reps : nat) : list nat :=
  let local := local_conf_size n_conf p 0 in
  map (fun i => if (i <? n_conf mod p) || (n_conf mod p =? 0) then local * reps else (local - 1) * reps) (seq 0 p).
Fixpoint scan_sum (acc : nat) (l : list nat) : list nat :=
  match l with [] => [] | x :: l' => acc :: scan_sum (acc + x) l' end.
Definition displacements (counts : list nat) : list nat := scan_sum 0 counts.
(** [PartitionMut::new] (mpi crate, external) panics if a part does not lie in the buffer;
    the gather writes what rank [i] sent at displacement [i]; a rank that sends another
    number of rows than its count is an MPI error ([None]). *)
Definition write_at {X} (d : nat) (xs buf : list X) : list X := firstn d buf ++ xs ++ skipn (d + length xs) buf.
Fixpoint gather {X} (counts displs : list nat) (sent : list (list X)) (buf : list X) : option (list X) :=
  match counts, displs, sent with
  | [], [], [] => Some buf
  | c :: counts', d :: displs', xs :: sent' =>
      if (length xs =? c) && (d + c <=? length buf) then gather counts' displs' sent' (write_at d xs buf) else None
  | _, _, _ => None
  end.
(** What the root returns, mpi L121-280.  [rep_conf] is the argument as given: it is
    raised to one for the simulations (L145), not for the size of the result (L273). *)
Definition explore_mpi (m : mode) (inputs : list (list V)) (rep_conf p : nat) (rnd : nat -> nat -> R) : option (list row) :=
  match configurations m inputs with
  | None => None
  | Some (n_conf, table) =>
      let reps := if rep_conf =? 0 then 1 else rep_conf in
      match all_some (map (fun rank => mpi_rank m inputs table rnd n_conf p rank reps) (seq 0 p)) with
      | None => None
      | Some frames =>
          match frames with
          | (r0 :: _) :: _ =>
              let counts := samples_count n_conf p reps in
              gather counts (displacements counts) frames (repeat r0 (n_conf * rep_conf))
          | _ => None
          end
      end
  end.
End Explore.
Arguments row : clear implicits.
