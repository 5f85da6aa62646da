(** * Specification of preferential attachment (Barabasi-Albert)

    Nodes are numbered by their position in the slice given by the user. *)
From Coq Require Import List Bool NArith Arith.
Import ListNotations.

Section BA.
Context {O : Type}.
(** The random choice for node [i]: entries are (node, weight, position). *)
Variable choose : nat -> list (O * N * nat) -> nat -> list (O * N * nat).
Variable node_set : list O.
Variable m : nat.

(** Number of ends of edges at [k]. *)
Definition degree (k : nat) (pairs : list (nat * nat)) : nat :=
  length (filter (fun p => Nat.eqb (fst p) k) pairs) + length (filter (fun p => Nat.eqb (snd p) k) pairs).
(** The earlier nodes, each weighted with its degree. *)
Definition weighted (i : nat) (pairs : list (nat * nat)) : list (O * N * nat) :=
  flat_map (fun k => match nth_error node_set k with
                     | Some x => [(x, N.of_nat (degree k pairs), k)]
                     | None => []
                     end) (seq 0 i).
(** The edges after nodes [0..n-1] have been attached, [n >= 2]: node 0 to node 1, then
    each node [i] to [min i m] earlier nodes, drawn by degree. *)
Fixpoint attached (extra : nat) : list (nat * nat) :=
  match extra with
  | 0%nat => [(0, 1)]
  | S e =>
      let pairs := attached e in
      let i := 2 + e in
      pairs ++ map (fun c => (i, snd c)) (choose i (weighted i pairs) (Nat.min i m))
  end.

(** The nodes at the other end of the edges of [k] (in a directed network: of the edges
    that start in [k]), in the order of attachment. *)
Definition neighbours (directed : bool) (k : nat) (pairs : list (nat * nat)) : list nat :=
  flat_map (fun p => (if Nat.eqb (fst p) k then [snd p] else []) ++
                     (if negb directed && Nat.eqb (snd p) k then [fst p] else [])) pairs.
(** [i] and [j] are joined by a path. *)
Inductive path (pairs : list (nat * nat)) : nat -> nat -> Prop :=
| path_here i : path pairs i i
| path_step i j k : In (i, j) pairs \/ In (j, i) pairs -> path pairs j k -> path pairs i k.

(** What is assumed of the random choice: as many different entries as asked for. *)
Definition choose_ok : Prop :=
  forall i l k, NoDup l -> (k <= length l)%nat ->
    length (choose i l k) = k /\ NoDup (choose i l k) /\ incl (choose i l k) l.
End BA.
