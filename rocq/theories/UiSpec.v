(** * What the terminal user interface is meant to do *)
From Coq Require Import List Bool Arith ZArith NArith String Ascii.
From Verif Require Import F32 OptModel F64 PlotModel PlotSpec UiModel.
Import ListNotations.
Local Open Scope nat_scope.

(** The messages a simulation of [n] steps and [reps] repetitions sends. *)
Definition from_sim (n reps : N) (m : message) : Prop :=
  match m with
  | AfterStep i p _ _ => (i < n)%N /\ p = ddiv (d_of_Z (Z.of_N i + 1)) (d_of_Z (Z.of_N n))
  | AfterRep r _ => (r < reps)%N
  end.
Definition fed (n reps : N) (t : turn) : Prop := Forall (from_sim n reps) (t_msgs t).

(** The turn whose key leaves the loop. *)
Definition quits (t : turn) : bool :=
  match t_key t with Some (KChar c) => (c =? "q")%char || (c =? "Q")%char | _ => false end.
(** The number of turns up to the first quit key. *)
Fixpoint turns_made (ts : list turn) : nat :=
  match ts with [] => 0 | t :: ts' => if quits t then 1 else S (turns_made ts') end.

(** The turns up to and including the first quit key, and how often one of two characters
    was pressed in them. *)
Definition played (ts : list turn) : list turn := firstn (turns_made ts) ts.
Definition presses (c1 c2 : ascii) (ts : list turn) : nat :=
  List.length (filter (fun t => match t_key t with Some (KChar c) => (c =? c1)%char || (c =? c2)%char | _ => false end) ts).
Definition moves (k1 k2 : key) (t : turn) : Prop := t_key t = Some k1 \/ t_key t = Some k2.

(** The number of logs at each turn never goes down and is at least [low]. *)
Fixpoint growing (low : N) (l : list N) : Prop :=
  match l with [] => True | a :: l' => (low <= a)%N /\ growing a l' end.

(** Cpu and memory values of the steps received. *)
Definition ticks (ts : list turn) : list (f64 * f64) :=
  flat_map (fun t => flat_map (fun m => match m with AfterStep _ _ c m => [(c, m)] | _ => [] end) (t_msgs t)) ts.
(** The repetitions received, with their values. *)
Definition reports (ts : list turn) : list (N * N) :=
  flat_map (fun t => flat_map (fun m => match m with AfterRep r v => [(r, v)] | _ => [] end) (t_msgs t)) ts.
(** Values numbered 1, 2, ... and the last [n] elements. *)
Definition numbered (l : list f64) : list (f64 * f64) :=
  combine (map (fun k => d_of_Z (Z.of_nat k)) (seq 1 (List.length l))) l.
Definition last_n {A} (n : nat) (l : list A) : list A := skipn (List.length l - n) l.

(** A value lies on an axis. *)
Definition on_axis (a : f64 * f64) (v : f64) : Prop := dleb (fst a) v = true /\ dleb v (snd a) = true.
