(** * Specification for the parallel Network

    The abstract graph of NetSpec is the graph being edited, which also decides which nodes
    exist.  What the queries show is what the last update published for each id; an update
    publishes the ids of the edited graph and leaves the others as they were. *)
From Coq Require Import List Bool NArith Arith Permutation.
From Verif Require Import NetModel NetSpec PNetModel.
Import ListNotations.
Local Open Scope N_scope.

Section Spec.
Context {O L W : Type}.
Variable eqo : O -> O -> bool.
Variable directed : bool.
Local Notation opts := (edge_options L W).
Local Notation edge := (edge L W).
Local Notation agraph := (agraph O L W).
Local Notation id_in := (@id_in O L W eqo).

Record pstate := PState {
  now : agraph;                       (* the edited graph *)
  sobj : N -> option O;               (* what get_object shows *)
  slist : N -> option (list edge)     (* the published list of edges of an id *)
}.
Definition p_new : pstate := PState a_empty (fun _ => None) (fun _ => None).
Definition set_now (s : pstate) (a : agraph) : pstate := PState a (sobj s) (slist s).
Definition p_publish (s : pstate) : pstate :=
  PState (now s)
    (fun i => match object_in i (now s) with Some x => Some x | None => sobj s i end)
    (fun i => if is_listed i (now s) then Some (incident directed i (now s)) else slist s i).

Definition p_next (s : pstate) (c : pnop O L W) : pstate :=
  match c with
  | PAddNode u => set_now s (a_add_node u (now s))
  | PAddEdge u v o => set_now s (a_add_edge eqo directed u v o (now s))
  | PRemoveEdge u v =>
      match id_in u (now s), id_in v (now s) with
      | Some i, Some j => set_now s (a_remove_edge directed i j (now s))
      | _, _ => s
      end
  | PRemoveAllEdges => set_now s (AGraph (nodes (now s)) [] [])
  | PRemoveIncoming u _ =>
      match id_in u (now s) with
      | Some i => set_now s (with_edges (now s) (drop (enters directed i) (edges (now s))))
      | None => s
      end
  | PRemoveOutgoing u _ =>
      match id_in u (now s) with
      | Some i => set_now s (with_edges (now s) (drop (leaves directed i) (edges (now s))))
      | None => s
      end
  | PRemoveNode u _ _ =>
      match id_in u (now s) with
      | Some i => set_now s (a_remove_node i (now s))
      | None => s
      end
  | PUpdateNode u => set_now s (a_update_node eqo u (now s))
  | PUpdate _ _ => p_publish s
  | PGetEdge _ _ | PGetEdges _ | PGetObject _ => s
  end.

Definition p_answer (s : pstate) (c : pnop O L W) (r : nres O L W) : Prop :=
  match c with
  | PAddNode _ | PRemoveAllEdges | PUpdateNode _ | PUpdate _ _ => r = NUnit
  | PAddEdge u v _ =>
      match id_in u (now s), id_in v (now s) with
      | Some _, Some _ => r = NBools true (negb directed)
      | _, _ => r = NBools false false
      end
  | PRemoveEdge u v =>
      match id_in u (now s), id_in v (now s) with
      | Some i, Some j =>
          r = NEdge (option_map (fun e => shown i j (snd e)) (find (between directed i j) (edges (now s))))
      | _, _ => r = NEdge None
      end
  | PRemoveOutgoing u _ =>
      match id_in u (now s) with
      | Some i => exists es, r = NEdges (Some es) /\
          Permutation es (map (fun e => shown i (the_other i e) (snd e)) (filter (leaves directed i) (edges (now s))))
      | None => r = NEdges None
      end
  | PRemoveIncoming u _ =>
      match id_in u (now s) with
      | Some i => exists es, r = NEdges (Some es) /\
          Permutation es (map (fun e => shown (the_other i e) i (snd e)) (filter (enters directed i) (edges (now s))))
      | None => r = NEdges None
      end
  | PRemoveNode u _ _ => r = NBool (match id_in u (now s) with Some _ => true | None => false end)
  | PGetEdges u =>
      r = NEdges (match id_in u (now s) with Some i => slist s i | None => None end)
  | PGetEdge u v =>
      r = NEdge (match id_in u (now s), id_in v (now s) with
                 | Some i, Some j =>
                     match slist s i with Some es => find (fun e => e_v e =? j) es | None => None end
                 | _, _ => None
                 end)
  | PGetObject i => r = NObject (sobj s i)
  end.

(** ** What a history must avoid *)
(** The node published under an id that has a list: it has been removed, or it still has
    this id and a list. *)
Definition p_stable (s : pstate) : Prop :=
  forall k x, slist s k <> None -> sobj s k = Some x ->
    id_in x (now s) = None \/ (id_in x (now s) = Some k /\ is_listed k (now s) = true).
(** Removing the edges [f] at [i] finds them all: their other ends are published. *)
Definition p_reached (s : pstate) (i : N) (f : N * N * opts -> bool) : Prop :=
  forall e, In e (edges (now s)) -> f e = true -> slist s (the_other i e) <> None /\
    forall x, sobj s (the_other i e) = Some x -> id_in x (now s) = Some (the_other i e).
(** None is parallel to another. *)
Definition p_single (s : pstate) (i : N) (f : N * N * opts -> bool) : Prop :=
  forall k, (length (filter (fun e => f e && (the_other i e =? k)%N) (edges (now s))) <= 1)%nat.
Definition reorders {X} (it : list X -> list X) : Prop := forall l, Permutation (it l) l.
Definition p_good (s : pstate) (c : pnop O L W) : Prop :=
  match c with
  | PAddNode u =>
      (* a new node, for which the next id was never used *)
      id_in u (now s) = None /\
      object_in (N.of_nat (length (nodes (now s)))) (now s) = None /\
      slist s (N.of_nat (length (nodes (now s)))) = None /\
      N.of_nat (length (nodes (now s))) < 4294967296
  | PRemoveEdge u v =>
      forall i j, id_in u (now s) = Some i -> id_in v (now s) = Some j ->
        is_listed i (now s) = true /\ (directed = true \/ (count_between directed i j (now s) <= 1)%nat)
  | PRemoveOutgoing u it =>
      reorders it /\
      forall i, id_in u (now s) = Some i -> is_listed i (now s) = true /\
        p_stable s /\ p_reached s i (leaves directed i) /\ p_single s i (leaves directed i)
  | PRemoveIncoming u it =>
      reorders it /\
      forall i, id_in u (now s) = Some i -> is_listed i (now s) = true /\
        p_stable s /\ p_reached s i (enters directed i) /\ p_single s i (enters directed i)
  | PRemoveNode u it it' =>
      reorders it /\ reorders it' /\
      forall i, id_in u (now s) = Some i -> is_listed i (now s) = true /\
        p_stable s /\ p_reached s i (enters directed i) /\
        (directed = true -> p_single s i (enters directed i))
  | PUpdate it it' => reorders it /\ reorders it'
  | PGetEdge u v =>
      (* no neighbour published for [u] has been removed since *)
      forall i es e, id_in u (now s) = Some i -> id_in v (now s) <> None -> slist s i = Some es -> In e es ->
        exists x, sobj s (e_v e) = Some x /\ id_in x (now s) = Some (e_v e)
  | _ => True
  end.
Fixpoint p_good_run (s : pstate) (cs : list (pnop O L W)) : Prop :=
  match cs with [] => True | c :: cs' => p_good s c /\ p_good_run (p_next s c) cs' end.
Fixpoint p_run (s : pstate) (cs : list (pnop O L W)) : pstate :=
  match cs with [] => s | c :: cs' => p_run (p_next s c) cs' end.
Fixpoint p_answers (s : pstate) (cs : list (pnop O L W)) (rs : list (nres O L W)) : Prop :=
  match cs, rs with
  | [], [] => True
  | c :: cs', r :: rs' => p_answer s c r /\ p_answers (p_next s c) cs' rs'
  | _, _ => False
  end.
End Spec.
Arguments pstate : clear implicits.
