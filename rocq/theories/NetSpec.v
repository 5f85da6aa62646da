(** * Specification for Network: an abstract graph

    Uses only the vocabulary of the API (nodes, ids, edges, options, calls, answers) from
    NetModel, none of its functions. *)
From Coq Require Import List Bool NArith Arith Permutation.
From Verif Require Import NetModel.
Import ListNotations.
Local Open Scope N_scope.

(** [Eq] of the nodes is an equivalence. *)
Record equivalence {O : Type} (eqo : O -> O -> bool) : Prop := Equivalence {
  eq_refl_ : forall x, eqo x x = true;
  eq_sym_ : forall x y, eqo x y = true -> eqo y x = true;
  eq_trans_ : forall x y z, eqo x y = true -> eqo y z = true -> eqo x z = true
}.

Section Spec.
Context {O L W : Type}.
Variable eqo : O -> O -> bool.
Variable directed : bool.

Local Notation opts := (edge_options L W).
Local Notation edge := (edge L W).

(** A graph: its nodes with their ids; its edges, in the order they were added; the ids
    that have a list of edges (all, unless [remove_all_edges] was called). *)
Record agraph := AGraph { nodes : list (N * O); edges : list (N * N * opts); listed : list N }.

Definition label_of (o : opts) : option L :=
  match o with Labeled l | WeightedLabeled l _ => Some l | _ => None end.
Definition weight_of (o : opts) : option W :=
  match o with Weighted w | WeightedLabeled _ w => Some w | _ => None end.
(** An edge as it is handed to the user. *)
Definition shown (a b : N) (o : opts) : edge := Edge a b (label_of o) (weight_of o).

Definition id_in (u : O) (a : agraph) : option N :=
  option_map fst (find (fun p => eqo u (snd p)) (nodes a)).
Definition object_in (i : N) (a : agraph) : option O :=
  option_map snd (find (fun p => fst p =? i) (nodes a)).
Definition is_listed (i : N) (a : agraph) : bool := existsb (N.eqb i) (listed a).

(** The edges of node [i], seen from [i]: those that start in [i] and, if undirected,
    those that end in [i]. *)
Definition seen_from (i : N) (e : N * N * opts) : list edge :=
  let '(x, y, o) := e in
  (if x =? i then [shown i y o] else []) ++
  (if negb directed && (y =? i) then [shown i x o] else []).
Definition incident (i : N) (a : agraph) : list edge := flat_map (seen_from i) (edges a).

(** The edge is one from [i] to [j] (in an undirected graph: between [i] and [j]). *)
Definition between (i j : N) (e : N * N * opts) : bool :=
  let '(x, y, _) := e in
  ((x =? i) && (y =? j)) || (negb directed && (x =? j) && (y =? i)).
Definition count_between (i j : N) (a : agraph) : nat := length (filter (between i j) (edges a)).

Fixpoint without_first {X} (f : X -> bool) (l : list X) : list X :=
  match l with [] => [] | x :: l' => if f x then l' else x :: without_first f l' end.

(** ** The effect of each call on the graph that is being edited.  [r] is the published
    graph: the removing calls look ids up in it. *)
Definition with_edges (a : agraph) (es : list (N * N * opts)) : agraph := AGraph (nodes a) es (listed a).
Definition a_add_node (u : O) (a : agraph) : agraph :=
  let i := N.of_nat (length (nodes a)) in
  AGraph (nodes a ++ [(i, u)]) (edges a) (i :: listed a).
Definition a_add_edge (u v : O) (o : opts) (a : agraph) : agraph :=
  match id_in u a, id_in v a with
  | Some i, Some j =>
      AGraph (nodes a) (edges a ++ [(i, j, o)]) (i :: (if directed then [] else [j]) ++ listed a)
  | _, _ => a
  end.
Definition a_remove_edge (i j : N) (a : agraph) : agraph :=
  with_edges a (without_first (between i j) (edges a)).
(** All edges from [i] to other nodes; to [i] from other nodes; at [i]. *)
Definition leaves (i : N) (e : N * N * opts) : bool :=
  let '(x, y, _) := e in ((x =? i) && negb (y =? i)) || (negb directed && (y =? i) && negb (x =? i)).
Definition enters (i : N) (e : N * N * opts) : bool :=
  let '(x, y, _) := e in ((y =? i) && negb (x =? i)) || (negb directed && (x =? i) && negb (y =? i)).
Definition touches (i : N) (e : N * N * opts) : bool := let '(x, y, _) := e in (x =? i) || (y =? i).
Definition drop {X} (f : X -> bool) (l : list X) : list X := filter (fun x => negb (f x)) l.
Definition a_remove_node (i : N) (a : agraph) : agraph :=
  AGraph (drop (fun p => fst p =? i) (nodes a)) (drop (touches i) (edges a)) (drop (N.eqb i) (listed a)).
Definition a_update_node (u : O) (a : agraph) : agraph :=
  AGraph (map (fun p => if eqo u (snd p) then (fst p, u) else p) (nodes a)) (edges a) (listed a).

(** ** One call: published graph and edited graph *)
Record astate := AState { pub : agraph; cur : agraph }.
Definition a_empty : agraph := AGraph [] [] [].
Definition a_new : astate := AState a_empty a_empty.

Definition a_next (s : astate) (c : nop O L W) : astate :=
  match c with
  | NAddNode u => AState (pub s) (a_add_node u (cur s))
  | NAddEdge u v o => AState (pub s) (a_add_edge u v o (cur s))
  | NRemoveEdge u v =>
      match id_in u (pub s), id_in v (pub s) with
      | Some i, Some j => AState (pub s) (a_remove_edge i j (cur s))
      | _, _ => s
      end
  | NRemoveAllEdges => AState (pub s) (AGraph (nodes (cur s)) [] [])
  | NRemoveIncoming u _ =>
      match id_in u (pub s) with
      | Some i => AState (pub s) (with_edges (cur s) (drop (enters i) (edges (cur s))))
      | None => s
      end
  | NRemoveOutgoing u _ =>
      match id_in u (pub s) with
      | Some i => AState (pub s) (with_edges (cur s) (drop (leaves i) (edges (cur s))))
      | None => s
      end
  | NRemoveNode u _ _ =>
      match id_in u (cur s) with
      | Some i => AState (pub s) (a_remove_node i (cur s))
      | None => s
      end
  | NUpdateNode u => AState (pub s) (a_update_node u (cur s))
  | NUpdate | NLazyUpdate => AState (cur s) (cur s)
  | _ => s
  end.

(** The answer.  The removing calls list what they removed in an unspecified order, each
    edge seen from the node the removal started at. *)
Definition the_other (i : N) (e : N * N * opts) : N := let '(x, y, _) := e in if x =? i then y else x.
Definition a_answer (s : astate) (c : nop O L W) (r : nres O L W) : Prop :=
  match c with
  | NAddNode _ | NRemoveAllEdges | NUpdateNode _ | NUpdate | NLazyUpdate => r = NUnit
  | NAddEdge u v _ =>
      match id_in u (cur s), id_in v (cur s) with
      | Some _, Some _ => r = NBools true (negb directed)
      | _, _ => r = NBools false false
      end
  | NRemoveEdge u v =>
      match id_in u (pub s), id_in v (pub s) with
      | Some i, Some j => r = NEdge (option_map (fun e => shown i j (snd e)) (find (between i j) (edges (cur s))))
      | _, _ => r = NEdge None
      end
  | NRemoveOutgoing u _ =>
      match id_in u (pub s) with
      | Some i => exists es, r = NEdges (Some es) /\
          Permutation es (map (fun e => shown i (the_other i e) (snd e)) (filter (leaves i) (edges (cur s))))
      | None => r = NEdges None
      end
  | NRemoveIncoming u _ =>
      match id_in u (pub s) with
      | Some i => exists es, r = NEdges (Some es) /\
          Permutation es (map (fun e => shown (the_other i e) i (snd e)) (filter (enters i) (edges (cur s))))
      | None => r = NEdges None
      end
  | NRemoveNode u _ _ => r = NBool (match id_in u (cur s) with Some _ => true | None => false end)
  | NGetEdges u =>
      r = NEdges (match id_in u (pub s) with
                  | Some i => if is_listed i (pub s) then Some (incident i (pub s)) else None
                  | None => None
                  end)
  | NGetEdge u v =>
      r = NEdge (match id_in u (pub s), id_in v (pub s) with
                 | Some i, Some j => find (fun e => e_v e =? j) (incident i (pub s))
                 | _, _ => None
                 end)
  | NGetObject i => r = NObject (object_in i (pub s))
  | NGetId u => r = NId (id_in u (pub s))
  end.

(** ** What a history must avoid *)
(** The nodes known in both graphs have the same id there. *)
Definition ids_agree (s : astate) : Prop :=
  forall u i j, id_in u (pub s) = Some i -> id_in u (cur s) = Some j -> i = j.
(** Removing at [i] finds every edge: [f] selects the edges to remove; their other ends
    are published; none is parallel to another; the lists exist. *)
Definition removable (s : astate) (i : N) (f : N * N * opts -> bool) : Prop :=
  ids_agree s /\
  (forall k x, In (k, x) (nodes (cur s)) -> id_in x (pub s) <> None -> is_listed k (cur s) = true) /\
  (forall e x, In e (edges (cur s)) -> f e = true -> In (the_other i e, x) (nodes (cur s)) -> id_in x (pub s) <> None) /\
  (forall k, (length (filter (fun e => f e && (the_other i e =? k)%N) (edges (cur s))) <= 1)%nat).
Definition a_good (s : astate) (c : nop O L W) : Prop :=
  match c with
  | NAddNode u =>
      (* a new node, for which the next id is unused *)
      id_in u (cur s) = None /\
      object_in (N.of_nat (length (nodes (cur s)))) (cur s) = None /\
      N.of_nat (length (nodes (cur s))) < 4294967296
  | NRemoveEdge u v =>
      forall i j, id_in u (pub s) = Some i -> id_in v (pub s) = Some j ->
        id_in u (cur s) = Some i /\ id_in v (cur s) = Some j /\
        is_listed i (cur s) = true /\
        (directed = true \/ (count_between i j (cur s) <= 1)%nat)
  | NRemoveOutgoing u it =>
      (forall l, Permutation (it l) l) /\
      forall i, id_in u (pub s) = Some i -> id_in u (cur s) = Some i /\ removable s i (leaves i)
  | NRemoveIncoming u it =>
      (forall l, Permutation (it l) l) /\
      forall i, id_in u (pub s) = Some i -> id_in u (cur s) = Some i /\ removable s i (enters i)
  | NRemoveNode u it it' =>
      (forall l, Permutation (it l) l) /\ (forall l, Permutation (it' l) l) /\
      forall i, id_in u (cur s) = Some i -> id_in u (pub s) = Some i /\
        removable s i (if directed then enters i else fun _ => false) /\
        (forall e x, In e (edges (cur s)) -> touches i e = true -> In (the_other i e, x) (nodes (cur s)) ->
           id_in x (pub s) <> None)
  | _ => True
  end.
Fixpoint a_good_run (s : astate) (cs : list (nop O L W)) : Prop :=
  match cs with [] => True | c :: cs' => a_good s c /\ a_good_run (a_next s c) cs' end.
Fixpoint a_run (s : astate) (cs : list (nop O L W)) : astate :=
  match cs with [] => s | c :: cs' => a_run (a_next s c) cs' end.
Fixpoint a_answers (s : astate) (cs : list (nop O L W)) (rs : list (nres O L W)) : Prop :=
  match cs, rs with
  | [], [] => True
  | c :: cs', r :: rs' => a_answer s c r /\ a_answers (a_next s c) cs' rs'
  | _, _ => False
  end.

(** ** Histories *)
Definition publishes (c : nop O L W) : bool := match c with NUpdate | NLazyUpdate => true | _ => false end.
Definition removes_node (c : nop O L W) : bool := match c with NRemoveNode _ _ _ => true | _ => false end.
(** The nodes added by a history, in order; those added before its last update. *)
Definition added (cs : list (nop O L W)) : list O :=
  flat_map (fun c => match c with NAddNode u => [u] | _ => [] end) cs.
Fixpoint upto_update (cs : list (nop O L W)) : list (nop O L W) :=
  match cs with
  | [] => []
  | c :: cs' => if existsb publishes cs then c :: upto_update cs' else []
  end.
Definition different (l : list O) : Prop := ForallOrdPairs (fun x y => eqo x y = false) l.
End Spec.
Arguments agraph : clear implicits.
Arguments astate : clear implicits.
