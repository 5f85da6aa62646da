(** * What it means that threads do not get in each other's way for ever *)
From Coq Require Import List Bool Arith.
From Verif Require Import LockModel.
Import ListNotations.

(** Every thread has done everything and holds nothing. *)
Definition all_done (c : list thread) : Prop := Forall (fun t => t = ([], [])) c.
(** Somebody is not done, and nobody can move. *)
Definition deadlocked (c : list thread) : Prop := ~ all_done c /\ forall i, lmove i c = None.

(** Whatever the interleaving: there is always somebody who can move until all are done,
    which is the case after as many moves as there are actions. *)
Definition always_finishes (ps : list (list act)) : Prop :=
  forall is c, lmoves is (starting ps) = Some c ->
  ~ deadlocked c /\
  length is <= length (concat ps) /\
  (length is = length (concat ps) -> all_done c).

(** ** Calls *)
(** The argument expressions of a macro call nothing but methods of parallel fields and
    [log!] with a message that calls nothing; a closure that runs under the lock of a shard
    does no more than log. *)
Definition plain_log (c : call) : Prop := c = CLog [].
Definition field_call (c : call) : Prop := match c with CShards _ | CUnbuffered _ _ _ _ => True | _ => False end.
Definition tame (c : call) : Prop :=
  match c with
  | CPlot _ _ args | CAddPlot _ _ args | CDescr args => Forall (fun a => plain_log a \/ field_call a) args
  | CLog args => args = []
  | CApply _ _ args => Forall plain_log args
  | COnce | CRepeating | CShards _ | CUnbuffered _ _ _ _ => True
  end.
Definition tame_work (w : work) : Prop :=
  match w with
  | Chore _ => True
  | Call c => tame c
  | Hook cs => Forall tame cs
  | Turn cs _ => Forall tame cs
  end.

(** No macro is called, however indirectly, in an argument of a macro that holds the lock
    it needs: [held] are the locks held around the call. *)
Fixpoint fresh (held : list mutex) (c : call) : Prop :=
  match c with
  | CPlot _ _ args =>
      ~ In MData held /\ ~ In MCsv held /\
      (fix all (l : list call) : Prop := match l with [] => True | x :: l' => fresh (MData :: held) x /\ fresh (MCsv :: MData :: held) x /\ all l' end) args
  | CAddPlot _ _ args =>
      ~ In MData held /\ ~ In MNames held /\
      (fix all (l : list call) : Prop := match l with [] => True | x :: l' => fresh (MData :: held) x /\ fresh (MNames :: MData :: held) x /\ all l' end) args
  | CLog args =>
      ~ In MLogs held /\
      (fix all (l : list call) : Prop := match l with [] => True | x :: l' => fresh (MLogs :: held) x /\ all l' end) args
  | CDescr args =>
      ~ In MDescr held /\
      (fix all (l : list call) : Prop := match l with [] => True | x :: l' => fresh held x /\ all l' end) args
  | COnce | CRepeating | CShards _ | CUnbuffered _ _ _ _ | CApply _ _ _ => False
  end.
(** A sequential build: no hooks and turns with locks. *)
Definition user_work (w : work) : Prop :=
  match w with Chore _ => True | Call c => fresh [] c | _ => False end.
