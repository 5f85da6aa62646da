(** * Who is scheduled, for when and in which order (C04)

    A diary kept by somebody who only sees the calls between the engine and the user's code:
    who is scheduled under which id, whether repeating, and with which time and ordering. *)
From Coq Require Import List Bool ZArith NArith.
From Verif Require Import F32 SchedModel.
Import ListNotations.
Local Open Scope N_scope.

Record book := Book { b_next : N; b_at : N -> option (bool * priority) }.

Definition write (f : N -> option (bool * priority)) (id : N) (v : option (bool * priority)) :=
  fun i => if i =? id then v else f i.

(** Scheduling an id that is already scheduled only gives it the new time and ordering. *)
Definition enter (f : N -> option (bool * priority)) (id : N) (rep : bool) (p : priority) :=
  write f id (Some (match f id with Some (rep0, _) => rep0 | None => rep end, p)).

(** Ids are given one after the other, and again from 0 after 2^32 of them. *)
Definition book_call {A} (b : book) (c : call A) : book :=
  match c with
  | CApi (OpOnce a t o) _ => Book (b_next b) (enter (b_at b) (ai_id a) (ai_rep a) (Prio t o))
  | CApi (OpRepeating _ t o) _ | CApi (OpDistRepeating _ t o) _ =>
      Book ((b_next b + 1) mod 4294967296) (enter (b_at b) (b_next b) true (Prio t o))
  | CApi (OpDequeue id) _ => Book (b_next b) (write (b_at b) id None)
  | CAgentAfter id =>                          (* the end of the turn of an agent scheduled once *)
      match b_at b id with
      | Some (false, _) => Book (b_next b) (write (b_at b) id None)
      | _ => b
      end
  | CAgentStopped id true => Book (b_next b) (write (b_at b) id None)
  | CAgentStopped id false =>
      match b_at b id with
      | Some (rep, Prio t o) => Book (b_next b) (write (b_at b) id (Some (rep, Prio (fadd t f1) o)))
      | None => b
      end
  | _ => b
  end.
Definition book_after {A} (tr : list (call A)) : book :=
  fold_left book_call tr (Book 0 (fun _ => None)).

Definition free (b : book) (id : N) : bool := match b_at b id with Some _ => false | None => true end.

(** The answers the API must give. *)
Definition told {A} (b : book) (c : call A) : Prop :=
  match c with
  | CApi (OpRepeating _ _ _) r => r = RBool (free b (b_next b))
  | CApi (OpDistRepeating _ _ _) r => r = RIdBool (b_next b) (free b (b_next b))
  | CApi (OpDequeue id) r => r = RBool (negb (free b id))
  | _ => True
  end.
Definition always {A} (P : book -> call A -> Prop) (tr : list (call A)) : Prop :=
  forall pre c post, tr = pre ++ c :: post -> P (book_after pre) c.

(** The calls that the parallel build has: it has neither [dequeue] nor
    [distributed_schedule_repeating], and its [schedule_repeating] answers nothing. *)
Definition parallel_call {A} (o : sop A) : bool :=
  match o with OpDistRepeating _ _ _ | OpDequeue _ => false | _ => true end.
