(** * What may be expected when agents return agents or panic

    Vocabulary of C129 and C130. *)
From Coq Require Import List Bool ZArith NArith Arith.
From Verif Require Import F32 SchedModel ParModel FaultModel.
Import ListNotations.

Section Spec.
Context {A S : Type}.

(** The same call with the returned value left out. *)
Definition forget {R} (r : result A S R) : result A S unit :=
  match r with Returns _ a s => Returns tt a s | Panics s => Panics s end.

(** Two user programs that differ at most in the agents their agents return. *)
Definition same_but_offspring (fu fu' : fuser A S) : Prop :=
  f_base fu = f_base fu' /\
  (forall a s, forget (f_before fu a s) = forget (f_before fu' a s)) /\
  (forall a s, f_step fu a s = f_step fu' a s) /\
  (forall a s, forget (f_after fu a s) = forget (f_after fu' a s)) /\
  (forall a s, f_stopped fu a s = f_stopped fu' a s) /\
  (forall a, f_clone fu a = f_clone fu' a).

(** [u] does what [fu] does wherever [fu] does not panic. *)
Definition same_until_panic (fu : fuser A S) (u : user A S) : Prop :=
  u_update (f_base fu) = u_update u /\ u_before (f_base fu) = u_before u /\ u_after (f_base fu) = u_after u /\
  (forall a s r a' s', f_before fu a s = Returns r a' s' -> a_before u a s = (a', s')) /\
  (forall a s r a' s', f_step fu a s = Returns r a' s' -> a_step u a s = (a', s')) /\
  (forall a s r a' s', f_after fu a s = Returns r a' s' -> a_after u a s = (a', s')) /\
  (forall a s b a' s', f_stopped fu a s = Returns b a' s' -> a_stopped u a s = (b, (a', s'))).

(** The method that panicked, as a call; [is_stopped] and [clone] leave no record. *)
Definition record_of (f : fault) : list (call A) :=
  match snd f with
  | InBefore => [CAgentBefore (fst f)]
  | InStep => [CAgentStep (fst f)]
  | InAfter => [CAgentAfter (fst f)]
  | InStopped => [CAgentAfter (fst f)]
  | InClone => [CAgentStopped (fst f) false]
  end.
(** [tr] ends with the call that panicked (or with the last one before [is_stopped] or
    [clone] of the same agent did). *)
Definition ends_with (f : fault) (tr : list (call A)) : Prop := exists pre, tr = pre ++ record_of f.

(** A call of the method panicked and left the state [s'] ([clone] does not see it). *)
Definition panicked_in (fu : fuser A S) (x : site) (s' : S) : Prop :=
  exists a s,
    match x with
    | InBefore => f_before fu a s = Panics s'
    | InStep => f_step fu a s = Panics s'
    | InAfter => f_after fu a s = Panics s'
    | InStopped => f_stopped fu a s = Panics s'
    | InClone => f_clone fu a = false
    end.

(** Agent [id] finished its turn and answered that it is not stopped. *)
Definition goes_on (tr : list (call A)) (id : N) : Prop := In (CAgentStopped id false) tr.
End Spec.
