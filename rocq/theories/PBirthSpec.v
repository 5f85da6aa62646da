(** * What it means that a population of the parallel build moves in step, with births and deaths *)
From Coq Require Import List Bool ZArith NArith Permutation.
From Verif Require Import F32 SchedModel ParModel Grid ObjModel OrderSpec FlockSpec PStageModel BirthSpec.
Import ListNotations.

Section Spec.
Context {O G : Type}.
Notation conf := (sched O * world O ((G * bool) * N))%type.

(** The simulation on [threads] threads after [init] and some steps, each with its
    tie-breaks and its interleaving; [None] if a step did not complete. *)
Definition par_lived (u : user O ((G * bool) * N)) (threads : nat) (g : G) (l : list ((nat -> nat) * list nat)) : option conf :=
  let c := par_init u (World ((g, false), 0%N) []) in
  par_steps u threads l (fst c) (snd c).

(** In step: at the start the agents find each other where [init] placed them.  After any
    steps that completed nothing has panicked and the next step ends the process if nobody is
    scheduled, and can always be completed otherwise.  If it completes, the population is
    exactly one new version of every agent that was scheduled and the agents born in the step,
    all computed from what was found when the step began, and scheduled are those of the
    former that have not stopped and all of the latter.  No number is ever given twice, and
    whoever is not scheduled any more has stopped.  All as long as there have been fewer than
    [limit] agents. *)
Definition par_grows_in_step {B : Type} (key : O -> N) (u : user O ((G * bool) * N)) (threads : nat) (g : G)
    (publish : G -> option G) (shows : G -> list O -> Prop) (next : G -> O -> O) (births : G -> list B)
    (newborn : N -> B -> O) (stops : O -> bool) (agents : list O) (limit : N) : Prop :=
  (exists c, par_lived u threads g [] = Some c /\ failed c = false /\ shows (met publish c) agents /\
     Permutation (queued (fst c)) agents /\ made c = N.of_nat (length agents)) /\
  forall (l : list ((nat -> nat) * list nat)) c, (N.of_nat (length l) + 1 < 2 ^ 64)%N ->
  par_lived u threads g l = Some c -> (made c < limit)%N ->
  failed c = false /\
  forall (ch : nat -> nat) (inter : list nat),
  (queued (fst c) = [] ->
     exists w, par_step u threads ch inter (fst c) (snd c) = PExit w /\ snd (fst (w_st w)) = false) /\
  (queued (fst c) <> [] ->
     exists more c', par_lived u threads g (l ++ [(ch, inter ++ more)]) = Some c') /\
  forall c', par_lived u threads g (l ++ [(ch, inter)]) = Some c' -> (made c' < limit)%N ->
  let babies := numbered newborn (made c) (births (met publish c)) in
  exists new,
    Permutation new (map (next (met publish c)) (queued (fst c))) /\
    failed c' = false /\ shows (met publish c') (new ++ babies) /\
    Permutation (queued (fst c')) (filter (fun o => negb (stops o)) new ++ babies) /\
    made c' = (made c + N.of_nat (length babies))%N /\
    (exists gone, Permutation (numbers (made c')) (map key (queued (fst c')) ++ gone)) /\
    ((forall o, stops o = false) -> Permutation (numbers (made c')) (map key (queued (fst c')))).
End Spec.
