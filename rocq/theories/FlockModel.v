(** * A simulation of the shape of tests/model/flockers, from [init] on

    tests/model/flockers/state.rs L43-76 and bird.rs L36-149: [init] places every agent in
    the field and schedules it at time 0 (state.rs L50-64), [update] publishes the field
    with [lazy_update] (L66-68), and an agent's step looks for its neighbours, computes its
    new data and places itself (bird.rs L37-147, [mover_step] of OrderModels.v).  What the
    agents compute, when they stop and when the simulation ends is arbitrary.  The state is
    the field and whether a call has panicked. *)
From Coq Require Import List Bool ZArith NArith.
From Verif Require Import F32 SchedModel Grid ObjModel FieldModel OrderModels.
Import ListNotations.

Section Flock.
Variable A : arith.
Context {O : Type}.
Variable location : O -> num A * num A.
Variable radius : O -> num A.
Variable rule : O -> list O -> O.
Variable stops : O -> bool.
Variable ends : @field2d A O -> bool.        (* [end_condition] *)
Variable agents : list O.

(** [self.field1.set_object_location(bird, pos)] *)
Definition flock_place (o : O) (s : @field2d A O * bool) : @field2d A O * bool :=
  match f_set A (fst s) o (location o) with
  | None => (fst s, true)
  | Some f' => (f', snd s)
  end.

(** The loop of [init], state.rs L50-64. *)
Fixpoint flock_init (l : list O) (s : @field2d A O * bool) : hprog O (@field2d A O * bool) :=
  match l with
  | [] => HRet s
  | o :: rest =>
      let s' := flock_place o s in
      HCall (OpRepeating o f0 0) (fun _ => flock_init rest s')
  end.

Definition flock_user : user O (@field2d A O * bool) :=
  User (flock_init agents)
       (fun _ s => mover_update A s)
       (fun s => HRet s) (fun s => HRet s)
       (fun s => HRet (ends (fst s), s))
       (fun o s => (o, s)) (mover_step A location radius rule) (fun o s => (o, s))
       (fun o s => (stops o, (o, s))).
End Flock.
