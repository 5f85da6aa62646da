(** * What [simulate!] with the terminal is meant to do *)
From Coq Require Import List Bool Arith ZArith NArith.
From Verif Require Import F32 OptModel F64 SchedModel SimModel UiModel UiSpec TermModel.
Import ListNotations.
Local Open Scope nat_scope.

(** The user never presses [q]. *)
Definition no_quit (ts : list tturn) : Prop := forall t, In t ts -> t <> Term true.
(** In the run without the terminal, no repetition but the last is ended by
    [end_condition]. *)
Definition only_last_ends {A S} (u : user A S) chs n reps (s : S) : Prop :=
  ~ In (CEnd true) (w_trace (snd (simulate u chs n (reps - 1) s))).

Definition is_init {A} (c : call A) : bool := match c with CInit => true | _ => false end.
Definition is_before {A} (c : call A) : bool := match c with CStateBefore => true | _ => false end.
Definition count {X} (f : X -> bool) (l : list X) : nat := length (filter f l).
Definition is_sim (t : tturn) : bool := match t with Sim => true | _ => false end.

(** A message to the interface is one the simulation sent. *)
Definition from_run (n reps : nat) (m : mail) : Prop :=
  match m with
  | MStep i p => forall cpu mem, from_sim (N.of_nat n) (N.of_nat reps) (AfterStep (N.of_nat i) p cpu mem)
  | MRep r => forall v, from_sim (N.of_nat n) (N.of_nat reps) (AfterRep (N.of_nat r) v)
  | _ => False
  end.
(** The repetitions reported to the interface. *)
Definition reps_of (l : list mail) : list nat := flat_map (fun m => match m with MRep r => [r] | _ => [] end) l.
Fixpoint increasing (l : list nat) : Prop :=
  match l with [] => True | a :: l' => (forall b, In b l' -> a < b) /\ increasing l' end.
Definition is_step (m : mail) : bool := match m with MStep _ _ => true | _ => false end.
