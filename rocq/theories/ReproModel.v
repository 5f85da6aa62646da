(** * Model of [check_reproducibility!]

    Models src/lib.rs L1918-2010 on the sequential scheduler.  The printed messages are
    reduced to the verdict; [None] is a panic.  [chs] are the tie-breaks of the queue,
    the same in both executions (the queue's layout depends only on the calls made). *)
From Coq Require Import List Bool Arith ZArith NArith.
From Verif Require Import F32 SchedModel.
Import ListNotations.
Local Open Scope nat_scope.

Section Repro.
Context {A S : Type}.

(** The loops at L1944-1951 and L1966-1973: the agents scheduled after each step. *)
Fixpoint exec_loop (u : user A S) (chs : nat -> nat -> nat) (i n : nat) (sc : sched A) (w : world A S) : list (list A) * world A S :=
  match n with
  | O => ([], w)
  | Datatypes.S n' =>
      let (sc1, w1) := step u (chs i) sc w in
      let snap := get_all_events sc1 in
      let '(b, (sc2, w2)) := call_end u sc1 w1 in
      if b then ([snap], w2)
      else let (l, w3) := exec_loop u chs (Datatypes.S i) n' sc2 w2 in (snap :: l, w3)
  end.
Definition execution (u : user A S) (chs : nat -> nat -> nat) (n : nat) (w : world A S) : list (list A) * world A S :=
  let (sc, w1) := call_init u sched_new w in
  let (l, w2) := exec_loop u chs 0 n sc w1 in
  (get_all_events sc :: l, w2).

(** The comparison of the agents at one step, L1988-2004.  [ty]: the dynamic type of an
    agent; [listed]: the types given to the macro; [equals]: their method. *)
Definition same_agents (ty : A -> nat) (listed : list nat) (equals : A -> A -> bool) (l1 l2 : list A) : bool :=
  forallb (fun p => forallb (fun t => if (ty (fst p) =? t) && (ty (snd p) =? t) then equals (fst p) (snd p) else true) listed) (combine l1 l2).
(** L1977-2012. *)
Fixpoint compare_runs ty listed equals (e1 e2 : list (list A)) : option bool :=
  match e1 with
  | [] => Some true
  | x :: e1' =>
      match e2 with
      | [] => None
      | y :: e2' =>
          if length x =? length y then
            if same_agents ty listed equals x y then compare_runs ty listed equals e1' e2' else Some false
          else Some false
      end
  end.
Definition check_repro (u : user A S) (reset : S -> S) chs n ty listed equals (s : S) : option bool :=
  let (e1, w1) := execution u chs n (World s []) in
  let (e2, _) := execution u chs n (World (reset (w_st w1)) (w_trace w1)) in
  compare_runs ty listed equals e1 e2.
End Repro.
