(** * Property theorems: agents moving in a Field2D, from [init] on (C122) *)
From Coq Require Import List Bool ZArith NArith Arith Lia Permutation.
From Verif Require Import F32 SchedModel SchedSpec SimModel Grid ObjModel FieldModel FieldSpec
  OrderSpec FlockModel FlockSpec FlockProofs FlockDemo.
Import ListNotations.
Local Open Scope nat_scope.

(** ** C122: a simulation in which every agent is placed and scheduled in [init], moves by
    looking at its neighbours, and [update] publishes the field, is a synchronous one.

    [home] (FlockSpec.v) is the assumption on the user's code; [simulated] is the simulation
    after [init] and some steps. *)
Notation field_of c := (fst (w_st (snd c))).
Notation panicked c := (snd (w_st (snd c))).

(** In the first step the agents see each other where [init] placed them. *)
Theorem C122_start :
  forall (A : arith) O (location : O -> num A * num A) radius rule stops ends (agents : list O) w h d t,
  home A location rule agents w h d ->
  let c := simulated (flock_user A location radius rule stops ends agents) w h d t [] in
  panicked c = false /\ shows A location w h d (looked_at (fst c) (field_of c)) agents /\
  Permutation (queued (fst c)) agents.
Proof.
  intros A O location radius rule stops ends agents w h d t (GS & Hm & St & Few) c.
  pose proof (start_population A location radius rule stops ends agents w h d t GS Hm St Few (fun _ => tt)
    (World (f_new A w h d t, false) []) (new_ready A location w h d t GS)) as P.
  destruct (population_shows A location stops agents w h d t GS (fun _ => tt) _ _ _ _ P) as [E1 E2].
  split; [exact E1|]. split; [exact E2|]. apply P.
Qed.
Print Assumptions C122_start.

(** Every step: what can be read afterwards is exactly one new version of every agent that
    was scheduled, computed from what could be read when the step began, in the cell of
    its new location; the agents still scheduled are those that have not stopped. *)
Theorem C122_synchronous :
  forall (A : arith) O (location : O -> num A * num A) radius rule stops ends (agents : list O) w h d t,
  home A location rule agents w h d ->
  forall (chs : list (nat -> nat)) (ch : nat -> nat), (N.of_nat (length chs) + 1 < 2 ^ 64)%N ->
  let u := flock_user A location radius rule stops ends agents in
  let c := simulated u w h d t chs in
  let c' := simulated u w h d t (chs ++ [ch]) in
  exists new,
    Permutation new
      (map (fun o => rule o (around A location radius (looked_at (fst c) (field_of c)) o)) (queued (fst c))) /\
    panicked c' = false /\ shows A location w h d (looked_at (fst c') (field_of c')) new /\
    s_step (fst c') <> 0%N /\
    Permutation (queued (fst c')) (filter (fun o => negb (stops o)) new).
Proof.
  intros A O location radius rule stops ends agents w h d t (GS & Hm & St & Few) chs ch Bn u c c'.
  destruct (run_population A location radius rule stops ends agents w h d t GS Hm St Few (fun _ => tt) (fun _ _ => eq_refl)
    (World (f_new A w h d t, false) []) (new_ready A location w h d t GS) chs) as (p & P).
  { change (2 ^ 64)%N with 18446744073709551616%N in Bn. lia. }
  assert (E : c' = step u ch (fst c) (snd c)).
  { apply (after_snoc A location radius rule stops ends agents). }
  destruct (population_step A location radius rule stops ends agents w h d t GS St Few (fun _ => tt) (fun _ _ => eq_refl)
    (length chs) p _ _ ch Bn P) as (q & P1 & P2).
  exists q. split; [exact P2|]. rewrite E.
  destruct (population_shows A location stops agents w h d t GS (fun _ => tt) _ _ _ _ P1) as [E1 E2].
  split; [exact E1|]. split; [exact E2|]. split; [|apply P1].
  destruct P1 as ((Hs & _) & _). intros Z. assert (X : N.of_nat (S (length chs)) = 0%N) by (etransitivity; [symmetry; exact Hs|exact Z]). lia.
Qed.
Print Assumptions C122_synchronous.

(** Nobody gets lost, doubled or left behind: after any number of steps the readable
    objects are agents of the start, each at most once, and all of them if nobody stops. *)
Theorem C122_population :
  forall (A : arith) O K (key : O -> K) (location : O -> num A * num A) radius rule stops ends (agents : list O) w h d t,
  home A location rule agents w h d ->
  (forall o l, key (rule o l) = key o) ->
  forall chs : list (nat -> nat), (N.of_nat (length chs) < 2 ^ 64)%N ->
  let c := simulated (flock_user A location radius rule stops ends agents) w h d t chs in
  panicked c = false /\
  exists p, shows A location w h d (looked_at (fst c) (field_of c)) p /\
    (exists gone, Permutation (map key agents) (map key p ++ gone)) /\
    ((forall o, stops o = false) -> Permutation (queued (fst c)) p /\ Permutation (map key p) (map key agents)).
Proof.
  intros A O K key location radius rule stops ends agents w h d t (GS & Hm & St & Few) Hk chs Bn c.
  destruct (run_population A location radius rule stops ends agents w h d t GS Hm St Few key Hk
    (World (f_new A w h d t, false) []) (new_ready A location w h d t GS) chs Bn) as (p & P).
  destruct (population_shows A location stops agents w h d t GS key _ _ _ _ P) as [E1 E2].
  split; [exact E1|]. exists p. split; [exact E2|]. destruct P as (_ & Q & R & N). split; [exact R|]. intros Hs.
  split; [|exact (N Hs)]. destruct (length chs); [exact Q|]. rewrite (alive_all stops p Hs) in Q. exact Q.
Qed.
Print Assumptions C122_population.

(** The same at the end of [simulate!], also after several repetitions on the same state
    (which nobody resets): the last repetition's agents, and nobody else's. *)
Theorem C122_simulate :
  forall (A : arith) O K (key : O -> K) (location : O -> num A * num A) radius rule stops ends (agents : list O) w h d t,
  home A location rule agents w h d ->
  (forall o l, key (rule o l) = key o) ->
  forall (chs : nat -> nat -> nat -> nat) (n reps : nat), (N.of_nat n < 2 ^ 64)%N -> n <> 0 -> reps <> 0 ->
  let s := w_st (snd (simulate (flock_user A location radius rule stops ends agents) chs n reps (f_new A w h d t, false))) in
  snd s = false /\
  exists p, shows A location w h d (fst s) p /\
    (exists gone, Permutation (map key agents) (map key p ++ gone)) /\
    ((forall o, stops o = false) -> Permutation (map key p) (map key agents)).
Proof.
  intros A O K key location radius rule stops ends agents w h d t (GS & Hm & St & Few) Hk chs n reps Bn Hn Hr s.
  destruct (reps_population A location radius rule stops ends agents w h d t GS Hm St Few key Hk chs n Bn Hn reps 0
    (World (f_new A w h d t, false) []) (new_ready A location w h d t GS)) as [_ X].
  destruct (X Hr) as (n' & q & sc & P). destruct (population_ready A location rule stops agents w h d t St Few key Hk _ _ _ _ P) as [(F & W & _) [R Fq]].
  split; [exact F|]. exists q. split; [apply (reads_shows A location w h d t); assumption|]. apply P.
Qed.
Print Assumptions C122_simulate.


(** The simulation of FlockDemo.v meets the assumptions, and this is what it does. *)
Lemma walk_in (p : f32 * f32) : p = (f1, f1) \/ p = (f_of_Z 3, f_of_Z 3) ->
  in_field f32_arith (f_of_Z 4) (f_of_Z 4) f2 p.
Proof. intros [-> | ->]; split; split; vm_compute; congruence. Qed.
Example C122_concrete :
  home f32_arith snd walk walkers (f_of_Z 4) (f_of_Z 4) f2 /\
  (forall o l, fst (walk o l) = fst o) /\
  walk_view [fun _ => 0] = (Some [3], Some [1; 2], false) /\
  walk_view [fun _ => 0; fun _ => 1] = (Some [3], Some [1], false) /\
  walk_view [fun _ => 0; fun _ => 1; fun _ => 0] = (Some [3; 1], Some [], false).
Proof.
  split; [|split; [reflexivity|split; [|split]; vm_compute; reflexivity]].
  split; [split; [|split; [|split]]; vm_compute; congruence|].
  split; [repeat apply Forall_cons; [..|apply Forall_nil]; apply walk_in; cbn; auto|].
  split; [|vm_compute; reflexivity].
  intros o l _. apply walk_in. unfold walk. cbn [snd]. match goal with |- context [if ?b then _ else _] => destruct b end; auto.
Qed.

