(** * Simulations of the parallel build whose agents live in a double-buffered space

    The same shape as in StageModel.v (tests/model/flockers/state.rs L43-76, bird.rs L36-149):
    [init] places every agent and schedules it at time 0, [update] publishes the space, an
    agent's step looks, computes and places itself.  Here [lazy_update] too may panic.  The
    steps are those of the parallel scheduler (ParModel.v) and the loop is the one of
    [simulate!] (src/lib.rs L1153-1170) around them.  The state is the space and whether a
    call has panicked (the program would then have ended; here it goes on, and the flag
    stays set). *)
From Coq Require Import List Bool ZArith NArith.
From Verif Require Import F32 SchedModel ParModel Grid DashModel ObjModel FieldModel PFieldModel StageModel.
Import ListNotations.

Section Stage.
Context {O G V : Type}.
Variable place : G -> O -> option G.     (* [set_object_location]; [None]: panic *)
Variable publish : G -> option G.        (* [lazy_update] *)
Variable see : G -> O -> option V.       (* the queries of an agent *)
Variable rule : O -> V -> O.
Variable stops : O -> bool.
Variable ends : G -> bool.               (* [end_condition] *)
Variable agents : list O.

Definition pstage_update (s : G * bool) : G * bool :=
  match publish (fst s) with
  | None => (fst s, true)
  | Some g' => (g', snd s)
  end.

Definition pstage_user : user O (G * bool) :=
  User (stage_init place agents)
       (fun _ s => pstage_update s)
       (fun s => HRet s) (fun s => HRet s)
       (fun s => HRet (ends (fst s), s))
       (fun o s => (o, s)) (stage_step place see rule) (fun o s => (o, s))
       (fun o s => (stops o, (o, s))).
End Stage.

(** ** [simulate!] in the parallel build, src/lib.rs L1153-1170 *)
Section Sim.
Context {A S : Type}.

(** [state.init(&mut schedule)], L1160, and [state.end_condition(..)], L1164. *)
Definition par_init (u : user A S) (w : world A S) : sched A * world A S :=
  let '(sc, s, log) := par_run_hprog (u_init u (w_st w)) sched_new in
  (sc, World s (w_trace w ++ CInit :: api log)).
Definition par_end (u : user A S) (sc : sched A) (w : world A S) : bool * (sched A * world A S) :=
  let '(sc', r, log) := par_run_hprog (u_end u (w_st w)) sc in
  (fst r, (sc', World (snd r) (w_trace w ++ CEnd (fst r) :: api log))).

(** How the program ends: by itself, because a step found nobody to run
    ([std::process::exit(0)]), by a panic of the scheduler, or not within the given
    interleavings. *)
Inductive sim_end :=
| SimDone (w : world A S)
| SimExit (w : world A S)
| SimPanic
| SimRunning.

(** The loop over [0..n_step], L1162-1167; step [i] is given its tie-breaks and its
    interleaving by [os i].  The schedule is dropped at the end of the repetition. *)
Fixpoint par_sim_loop (u : user A S) (threads : nat) (os : nat -> (nat -> nat) * list nat) (i n : nat)
    (sc : sched A) (w : world A S) : sim_end :=
  match n with
  | O => SimDone w
  | Datatypes.S n' =>
      match par_step u threads (fst (os i)) (snd (os i)) sc w with
      | PExit w' => SimExit w'
      | PPanic => SimPanic
      | PRunning _ => SimRunning
      | PDone sc1 w1 =>
          let '(b, (sc2, w2)) := par_end u sc1 w1 in
          if b then SimDone w2 else par_sim_loop u threads os (Datatypes.S i) n' sc2 w2
      end
  end.

(** The repetitions on the same state, L1158-1168. *)
Fixpoint par_sim_reps (u : user A S) (threads : nat) (os : nat -> nat -> (nat -> nat) * list nat)
    (r reps n : nat) (w : world A S) : sim_end :=
  match reps with
  | O => SimDone w
  | Datatypes.S reps' =>
      let (sc, w1) := par_init u w in
      match par_sim_loop u threads (os r) O n sc w1 with
      | SimDone w2 => par_sim_reps u threads os (Datatypes.S r) reps' n w2
      | e => e
      end
  end.
Definition par_simulate (u : user A S) (threads : nat) (os : nat -> nat -> (nat -> nat) * list nat)
    (n reps : nat) (s : S) : sim_end :=
  par_sim_reps u threads os O reps n (World s []).
End Sim.
Arguments sim_end : clear implicits.

(** ** The parallel spaces *)
Section Spaces.
Context {O : Type}.
Variable eqo : O -> O -> bool.
Variable hash_o : O -> N.
Variable hash_l : loc -> N.
Variable shards : nat.

(** The parallel DenseGrid2D and SparseGrid2D: an agent looks at the bags of some cells. *)
Definition pgrid_user (location : O -> loc) (look : O -> list loc) rule stops ends agents : user O (opar O * bool) :=
  pstage_user (fun g o => op_set eqo hash_o hash_l g o (location o)) (op_lazy_update shards)
    (fun g o => mapM (op_get hash_l g) (look o)) rule stops ends agents.

(** The parallel Field2D: an agent asks for its neighbours. *)
Definition pfield_user (A : arith) (location : O -> num A * num A) (radius : O -> num A) (osize : N) rule stops ends agents
    : user O (@pfield A O * bool) :=
  pstage_user (fun f o => pf_set A eqo hash_o hash_l f o (location o)) (pf_lazy_update A shards)
    (fun f o => pf_neighbors A hash_l location osize f (location o) (radius o)) rule stops ends agents.
End Spaces.
