(** * What it means that agents in a double-buffered space move in step *)
From Coq Require Import List Bool ZArith NArith Permutation.
From Verif Require Import F32 SchedModel SimModel Grid DashSpec ObjModel OrderSpec FlockSpec.
Import ListNotations.

Section Spec.
Context {O G : Type}.

(** The simulation after [init] and some steps. *)
Definition played (u : user O (G * bool)) (g : G) (chs : list (nat -> nat)) : sched O * world O (G * bool) :=
  let c := call_init u sched_new (World (g, false) []) in
  after_steps u chs (fst c) (snd c).

Definition space_of (c : sched O * world O (G * bool)) : G := fst (w_st (snd c)).
Definition panicked (c : sched O * world O (G * bool)) : bool := snd (w_st (snd c)).

(** The space as the agents find it in the next step: before the very first step the
    engine calls [update], which publishes it. *)
Definition found (publish : G -> G) (c : sched O * world O (G * bool)) : G :=
  if (s_step (fst c) =? 0)%N then publish (space_of c) else space_of c.

(** In step: no call panics, at the start the agents find each other where [init] placed
    them, and after every step the population they find is exactly one new version of
    every agent that was scheduled, computed from what was found when the step began;
    those of them that have not stopped are scheduled.  [shows g p]: the population one
    reads in [g] is [p]. *)
Definition in_step (u : user O (G * bool)) (g : G) (publish : G -> G) (shows : G -> list O -> Prop)
    (next : G -> O -> O) (stops : O -> bool) (agents : list O) : Prop :=
  (let c := played u g [] in
   panicked c = false /\ shows (found publish c) agents /\ Permutation (queued (fst c)) agents) /\
  forall (chs : list (nat -> nat)) (ch : nat -> nat), (N.of_nat (length chs) + 1 < 2 ^ 64)%N ->
  let c := played u g chs in
  let c' := played u g (chs ++ [ch]) in
  exists new,
    Permutation new (map (next (found publish c)) (queued (fst c))) /\
    panicked c' = false /\ shows (found publish c') new /\
    Permutation (queued (fst c')) (filter (fun o => negb (stops o)) new).

(** Nobody is lost: at the end of [simulate!], after any number of repetitions on the same
    space, the population is a part of the agents, told apart by [key], and all of them if
    nobody stops. *)
Definition conserved {K : Type} (key : O -> K) (u : user O (G * bool)) (g : G) (shows : G -> list O -> Prop)
    (stops : O -> bool) (agents : list O) : Prop :=
  forall (chs : nat -> nat -> nat -> nat) (n reps : nat), (N.of_nat n < 2 ^ 64)%N -> n <> 0%nat -> reps <> 0%nat ->
  let s := w_st (snd (simulate u chs n reps (g, false))) in
  snd s = false /\
  exists p, shows (fst s) p /\
    (exists gone, Permutation (map key agents) (map key p ++ gone)) /\
    ((forall o, stops o = false) -> Permutation (map key p) (map key agents)).
End Spec.

(** ** What one reads in the grids *)
Section Grids.
Context {O : Type}.
Variable eqo : O -> O -> bool.
Variable location : O -> loc.

(** The agents of [p] that are in cell [l]. *)
Definition at_loc (l : loc) (p : list O) : list O := filter (fun o => loc_eqb (location o) l) p.

(** Every cell holds exactly the agents that are there, every agent is found at its own
    location, and the iteration visits every agent once with that location. *)
Definition dense_shows (w h : Z) (g : odense O) (p : list O) : Prop :=
  (forall l, in_range w h l -> exists b, od_get g l = Some (nonempty b) /\ Permutation b (at_loc l p)) /\
  (forall o, In o p -> od_location eqo g o = Some (Some (location o))) /\
  (exists calls, od_iter g = Some calls /\ Permutation calls (map (fun o => (location o, o)) p)).
Definition sparse_shows (g : osparse O) (p : list O) : Prop :=
  (forall l, exists b, os_get g l = nonempty b /\ Permutation b (at_loc l p)) /\
  (forall it o, iteration it -> In o p -> os_location eqo it g o = Some (location o)) /\
  (forall it, iteration it -> Permutation (os_iter it g) (map (fun o => (location o, o)) p)).

(** Agents are told apart by an id that [==] compares and that moving does not change. *)
Record identified {K V : Type} (key : O -> K) (rule : O -> V -> O) (agents : list O) : Prop := {
  id_eq : forall a b, eqo a b = true <-> key a = key b;
  id_kept : forall o v, key (rule o v) = key o;
  id_unique : NoDup (map key agents)
}.
End Grids.
