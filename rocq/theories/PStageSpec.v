(** * What it means that agents of the parallel build move in step *)
From Coq Require Import List Bool ZArith NArith Permutation.
From Verif Require Import F32 SchedModel ParModel Grid DashSpec ObjModel FieldModel FieldSpec PFieldModel
  OrderSpec FlockSpec StageSpec PStageModel.
Import ListNotations.

Section Spec.
Context {O G : Type}.

(** The simulation on [threads] threads after [init] and some steps, each with its
    tie-breaks and its interleaving; [None] if a step did not complete. *)
Definition par_played (u : user O (G * bool)) (threads : nat) (g : G) (l : list ((nat -> nat) * list nat))
    : option (sched O * world O (G * bool)) :=
  let c := par_init u (World (g, false) []) in
  par_steps u threads l (fst c) (snd c).

(** The space as the agents find it in the next step: before the very first step the
    engine calls [update], which publishes it. *)
Definition par_found (publish : G -> option G) (c : sched O * world O (G * bool)) : G :=
  if (s_step (fst c) =? 0)%N then match publish (space_of c) with Some g => g | None => space_of c end
  else space_of c.

(** In step: at the start the agents find each other where [init] placed them.  After any
    steps that completed, nothing has panicked and the next step
    - ends the process if nobody is scheduled, and can always be completed otherwise;
    - if it completes, shows exactly one new version of every agent that was scheduled,
      computed from what was found when the step began; those of them that have not stopped
      are scheduled. *)
Definition par_in_step (u : user O (G * bool)) (threads : nat) (g : G) (publish : G -> option G)
    (shows : G -> list O -> Prop) (next : G -> O -> O) (stops : O -> bool) (agents : list O) : Prop :=
  (exists c, par_played u threads g [] = Some c /\ panicked c = false /\
     shows (par_found publish c) agents /\ Permutation (queued (fst c)) agents) /\
  forall (l : list ((nat -> nat) * list nat)) c, (N.of_nat (length l) + 1 < 2 ^ 64)%N ->
  par_played u threads g l = Some c ->
  panicked c = false /\
  forall (ch : nat -> nat) (inter : list nat),
  (queued (fst c) = [] ->
     exists w, par_step u threads ch inter (fst c) (snd c) = PExit w /\ snd (w_st w) = false) /\
  (queued (fst c) <> [] ->
     exists more c', par_played u threads g (l ++ [(ch, inter ++ more)]) = Some c') /\
  forall c', par_played u threads g (l ++ [(ch, inter)]) = Some c' ->
  exists new,
    Permutation new (map (next (par_found publish c)) (queued (fst c))) /\
    panicked c' = false /\ shows (par_found publish c') new /\
    Permutation (queued (fst c')) (filter (fun o => negb (stops o)) new).

(** Nobody is lost: [simulate!] never panics; when it comes to its end, after any number of
    repetitions on the same space, the population is a part of the agents, told apart by
    [key], and all of them if nobody stops.  It ends the process early only if somebody
    stops or there was nobody from the start. *)
Definition par_conserved {K : Type} (key : O -> K) (u : user O (G * bool)) (threads : nat) (g : G)
    (shows : G -> list O -> Prop) (stops : O -> bool) (agents : list O) : Prop :=
  forall (os : nat -> nat -> (nat -> nat) * list nat) (n reps : nat), (N.of_nat n < 2 ^ 64)%N -> n <> 0%nat -> reps <> 0%nat ->
  match par_simulate u threads os n reps (g, false) with
  | SimDone w =>
      snd (w_st w) = false /\
      exists p, shows (fst (w_st w)) p /\
        (exists gone, Permutation (map key agents) (map key p ++ gone)) /\
        ((forall o, stops o = false) -> Permutation (map key p) (map key agents))
  | SimExit w => snd (w_st w) = false /\ ((forall o, stops o = false) -> agents = [])
  | SimPanic => False
  | SimRunning => True
  end.
End Spec.

(** ** What one reads in the parallel spaces *)
Section Spaces.
Context {O : Type}.
Variable eqo : O -> O -> bool.
Variable hash_o : O -> N.
Variable hash_l : loc -> N.

(** Every cell holds exactly the agents that are there, every agent is found, as it is, at
    its own location, and the iteration over the cells of a [w] x [h] grid visits every
    agent in it once with that location. *)
Definition pgrid_shows (location : O -> loc) (g : opar O) (p : list O) : Prop :=
  (forall l, exists b, op_get hash_l g l = Some (nonempty b) /\ Permutation b (at_loc location l p)) /\
  (forall o, In o p -> op_location eqo hash_o g o = Some (Some (location o)) /\
                       op_get_object eqo hash_o g o = Some (Some o)) /\
  (forall w h, Forall (fun o => in_range w h (location o)) p ->
     exists calls, op_iter hash_l g w h = Some calls /\ Permutation calls (map (fun o => (location o, o)) p)).

Definition pfield_shows (A : arith) (location : O -> num A * num A) (d : num A) (f : @pfield A O) (p : list O) : Prop :=
  (forall l, exists b, pf_objects A hash_l f l = Some b /\
     Permutation b (filter (fun o => same_cell A d (location o) l) p)) /\
  (forall o, In o p -> pf_location A eqo hash_o f o = Some (Some (location o)) /\
                       pf_get A eqo hash_o f o = Some (Some o)) /\
  pf_num A f = length p.
End Spaces.

(** ** What [simulate!] calls *)
Section Calls.
Context {A : Type}.

(** The calls made on the state, without what happens inside the steps. *)
Definition state_calls (l : list (call A)) : list (call A) :=
  filter (fun c => match c with CInit | CUpdate _ | CStateBefore | CStateAfter | CEnd _ => true | _ => false end) l.

(** The calls of steps [i], [i + 1], ..., each with the answer of [end_condition]; [update]
    is called once more before step 0. *)
Definition step_start (i : N) : list (call A) := (if (i =? 0)%N then [CUpdate 0] else []) ++ [CStateBefore].
Fixpoint steps_calls (i : N) (answers : list bool) : list (call A) :=
  match answers with
  | [] => []
  | b :: rest => step_start i ++ [CStateAfter; CUpdate (i + 1); CEnd b] ++ steps_calls (i + 1) rest
  end.

(** The answers in one repetition of at most [n] steps that came to its end: all [n] steps
    were made, or the last answer was the first positive one. *)
Definition ended_well (n : nat) (answers : list bool) : Prop :=
  (answers = repeat false n \/ exists k, (k < n)%nat /\ answers = repeat false k ++ [true]).

Definition reps_calls (l : list (list bool)) : list (call A) :=
  flat_map (fun answers => CInit :: steps_calls 0 answers) l.
End Calls.
