(** * What it means that a scheduled agent gets its turn

    Vocabulary of C123.  Uses only the data types of the scheduler model. *)
From Coq Require Import Reals List Bool ZArith NArith.
From Verif Require Import F32 F32Real SchedModel SchedSpec.
Import ListNotations.

(** A hook that schedules nothing and does not dequeue [id].  It may read the clock, the
    step number and the queue, and may dequeue other agents. *)
Inductive leaves_alone {A X : Type} (id : N) : hprog A X -> Prop :=
| leaves_ret x : leaves_alone id (HRet x)
| leaves_dequeue i k : i <> id -> (forall r, leaves_alone id (k r)) ->
    leaves_alone id (HCall (OpDequeue i) k)
| leaves_all k : (forall r, leaves_alone id (k r)) -> leaves_alone id (HCall OpAllEvents k)
| leaves_step k : (forall r, leaves_alone id (k r)) -> leaves_alone id (HCall OpReadStep k)
| leaves_time k : (forall r, leaves_alone id (k r)) -> leaves_alone id (HCall OpReadTime k).

(** User code whose hooks of the step are like that, in every state. *)
Definition user_leaves_alone {A S : Type} (id : N) (u : user A S) : Prop :=
  forall s, leaves_alone id (u_before u s) /\ leaves_alone id (u_after u s).

(** A finite time not below -2^24. *)
Definition tame (t : f32) : Prop :=
  f32_valid t /\ f32_is_finite t = true /\ (- IZR (2 ^ 24) <= f2R t)%R.

(** Everything that comes before time [t] in the queue is at such a time, and no time in
    the queue is NaN. *)
Definition tame_before {A : Type} (t : f32) (q : list (event A)) : Prop :=
  forall e, In e q -> good_time (ev_time e) /\ (fltb (ev_time e) t = true -> tame (ev_time e)).

(** [tr'] continues [tr] and [id] ran in the continuation. *)
Definition ran_since {A : Type} (id : N) (tr tr' : list (call A)) : Prop :=
  exists new, tr' = tr ++ new /\ In id (ran new).

(** The state after the first [n] of an endless sequence of steps. *)
Fixpoint after_steps {A S : Type} (u : user A S) (chs : nat -> nat -> nat) (n : nat)
    (c : sched A * world A S) : sched A * world A S :=
  match n with
  | O => c
  | Datatypes.S n' => let c' := after_steps u chs n' c in step u (chs n') (fst c') (snd c')
  end.

(** An API call that schedules nothing at or before the current time and neither dequeues
    nor replaces [id].  Births at [schedule.time + 1.0] are of this kind. *)
Definition op_later {A : Type} (id : N) (sc : sched A) (o : sop A) : Prop :=
  match o with
  | OpOnce a t _ => ai_id a <> id /\ good_time t /\ fltb (s_time sc) t = true
  | OpRepeating _ t _ | OpDistRepeating _ t _ => good_time t /\ fltb (s_time sc) t = true
  | OpDequeue i => i <> id
  | _ => True
  end.

(** A hook all of whose calls are like that when it is run on [sc]. *)
Fixpoint prog_later {A X : Type} (id : N) (p : hprog A X) (sc : sched A) : Prop :=
  match p with
  | HRet _ => True
  | HCall o k => op_later id sc o /\ prog_later id (k (snd (do_op sc o))) (fst (do_op sc o))
  end.

(** User code whose hooks of the step are like that as long as the clock is below 2^24. *)
Definition user_later {A S : Type} (id : N) (u : user A S) : Prop :=
  forall sc s, tame (s_time sc) -> (f2R (s_time sc) < IZR (2 ^ 24))%R ->
    prog_later id (u_before u s) sc /\ prog_later id (u_after u s) sc.

(** How many ids were handed out. *)
Definition births {A : Type} (tr : list (call A)) : N := N.of_nat (length (filter is_scheduling tr)).
