(** * What it means that a population with births and deaths moves in step *)
From Coq Require Import List Bool ZArith NArith Permutation.
From Verif Require Import F32 SchedModel Grid ObjModel OrderSpec FlockSpec.
Import ListNotations.

Section Spec.
Context {O G : Type}.
Notation conf := (sched O * world O ((G * bool) * N))%type.

(** The simulation after [init] and some steps; the space, whether a call has panicked, and
    how many agents there have ever been. *)
Definition lived (u : user O ((G * bool) * N)) (g : G) (chs : list (nat -> nat)) : conf :=
  let c := call_init u sched_new (World ((g, false), 0%N) []) in
  after_steps u chs (fst c) (snd c).
Definition land_of (c : conf) : G := fst (fst (w_st (snd c))).
Definition failed (c : conf) : bool := snd (fst (w_st (snd c))).
Definition made (c : conf) : N := snd (w_st (snd c)).
(** The space as the agents find it in the next step: before the very first step the engine
    calls [update], which publishes it. *)
Definition met (publish : G -> option G) (c : conf) : G :=
  if (s_step (fst c) =? 0)%N then match publish (land_of c) with Some g => g | None => land_of c end
  else land_of c.

(** The numbers below [n]; new agents numbered from [n] on. *)
Definition numbers (n : N) : list N := map N.of_nat (seq 0 (N.to_nat n)).
Fixpoint numbered {B : Type} (newborn : N -> B -> O) (n : N) (bs : list B) : list O :=
  match bs with
  | [] => []
  | b :: bs' => newborn n b :: numbered newborn (n + 1) bs'
  end.

(** In step: no call panics; at the start the agents find each other where [init] placed
    them; after every step the population they find is exactly one new version of every
    agent that was scheduled and the agents born in the step, all computed from what was
    found when the step began, and scheduled are those of the former that have not stopped
    and all of the latter.  No number is ever given twice, and whoever is not scheduled any
    more has stopped. *)
Definition grows_in_step {B : Type} (key : O -> N) (u : user O ((G * bool) * N)) (g : G) (publish : G -> option G)
    (shows : G -> list O -> Prop) (next : G -> O -> O) (births : G -> list B) (newborn : N -> B -> O)
    (stops : O -> bool) (agents : list O) : Prop :=
  (let c := lived u g [] in
   failed c = false /\ shows (met publish c) agents /\ Permutation (queued (fst c)) agents /\
   made c = N.of_nat (length agents)) /\
  forall (chs : list (nat -> nat)) (ch : nat -> nat),
  let c := lived u g chs in
  let c' := lived u g (chs ++ [ch]) in
  (N.of_nat (length chs) + 1 < 2 ^ 64)%N -> (made c' < 2 ^ 32)%N ->
  let babies := numbered newborn (made c) (births (met publish c)) in
  exists new,
    Permutation new (map (next (met publish c)) (queued (fst c))) /\
    failed c' = false /\ shows (met publish c') (new ++ babies) /\
    Permutation (queued (fst c')) (filter (fun o => negb (stops o)) new ++ babies) /\
    made c' = (made c + N.of_nat (length babies))%N /\
    (exists gone, Permutation (numbers (made c')) (map key (queued (fst c')) ++ gone)) /\
    ((forall o, stops o = false) -> Permutation (numbers (made c')) (map key (queued (fst c')))).
End Spec.
