(** * What a population in a field looks like *)
From Coq Require Import List Bool ZArith NArith Permutation.
From Verif Require Import F32 SchedModel Grid ObjModel FieldModel FieldSpec OrderSpec.
Import ListNotations.

Section Spec.
Variable A : arith.
Context {O : Type}.
Variable location : O -> num A * num A.
Variables w h d : num A.

(** The objects one can read are [p], each once, in the cell of its own location. *)
Definition shows (f : @field2d A O) (p : list O) : Prop :=
  (forall l, in_field A w h d l -> exists b, f_get A f l = Some b /\
     Permutation b (filter (fun o => same_cell A d (location o) l) p)) /\
  (exists calls, f_iter A f = Some calls /\ Permutation (map snd calls) p).

(** The agents in the queue. *)
Definition queued (sc : sched O) : list O := map (fun e => ai_agent (fst e)) (s_events sc).

(** The field as the agents find it in the next step: before the very first step the
    engine calls [update], which publishes it. *)
Definition looked_at (sc : sched O) (f : @field2d A O) : @field2d A O :=
  if (s_step sc =? 0)%N then match f_lazy_update A f with Some f' => f' | None => f end else f.

(** What an agent is told about its surroundings. *)
Definition around (radius : O -> num A) (f : @field2d A O) (o : O) : list O :=
  match f_neighbors A location f (location o) (radius o) with Some l => l | None => [] end.
End Spec.
Arguments queued {O}. Arguments looked_at {A O}.

(** What is assumed of the user's code: all agents start in the field and their rule never
    takes them out of it; there are fewer than 2^32 of them. *)
Definition home (A : arith) {O} (location : O -> num A * num A) (rule : O -> list O -> O) (agents : list O)
    (w h d : num A) : Prop :=
  good_size A w h d /\ Forall (fun o => in_field A w h d (location o)) agents /\
  (forall o l, in_field A w h d (location o) -> in_field A w h d (location (rule o l))) /\
  (N.of_nat (length agents) < 2 ^ 32)%N.

(** The simulation after [init] and some steps. *)
Definition simulated {A : arith} {O} (u : user O (@field2d A O * bool)) (w h d : num A) (t : bool)
    (chs : list (nat -> nat)) : sched O * world O (@field2d A O * bool) :=
  let c := call_init u sched_new (World (f_new A w h d t, false) []) in
  after_steps u chs (fst c) (snd c).
