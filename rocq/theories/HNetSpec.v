(** * Specification for HNetwork: an abstract hypergraph

    Uses only the vocabulary of the API (nodes, ids, hyperedges, calls, answers). *)
From Coq Require Import List Bool NArith Arith Permutation.
From Verif Require Import NetModel NetSpec HNetModel.
Import ListNotations.
Local Open Scope N_scope.

Section Spec.
Context {O L W : Type}.
Variable eqo : O -> O -> bool.
Local Notation opts := (edge_options L W).
Local Notation hedge := (hedge L W).

(** Hyperedges: the ids of the members and the options.  [cur_*] is what is being edited,
    [pub_*] what was published by the last update.  [*_lists]: the ids that have a list of
    hyperedges. *)
Record hstate := HState {
  cur_nodes : list (N * O);
  cur_edges : list (list N * opts);
  cur_lists : list N;
  pub_nodes : list (N * O);
  pub_edges : list (list N * opts);
  pub_lists : list N
}.
Definition hs_new : hstate := HState [] [] [] [] [] [].

Definition in_list (i : N) (l : list N) : bool := existsb (N.eqb i) l.
Definition same_members (a b : list N) : bool :=
  forallb (fun i => in_list i b) a && forallb (fun i => in_list i a) b.
Definition hid (u : O) (l : list (N * O)) : option N := option_map fst (find (fun p => eqo u (snd p)) l).
Definition hobject (i : N) (l : list (N * O)) : option O := option_map snd (find (fun p => fst p =? i) l).
Fixpoint hids (us : list O) (l : list (N * O)) : option (list N) :=
  match us with
  | [] => Some []
  | u :: us' => match hid u l, hids us' l with Some i, Some is => Some (i :: is) | _, _ => None end
  end.
(** A hyperedge as it is handed to the user; the hyperedges of a node. *)
Definition hshown (e : list N * opts) : hedge := HEdge (fst e) (label_of (snd e)) (weight_of (snd e)).
Definition hlist (i : N) (es : list (list N * opts)) : list hedge := map hshown (filter (fun e => in_list i (fst e)) es).

Definition hnext (s : hstate) (c : hop O L W) : hstate :=
  match c with
  | HAddNode u =>
      let i := N.of_nat (length (cur_nodes s)) in
      HState (cur_nodes s ++ [(i, u)]) (cur_edges s) (i :: cur_lists s) (pub_nodes s) (pub_edges s) (pub_lists s)
  | HAddEdge us o =>
      match hids us (cur_nodes s) with
      | Some (i :: is) =>
          if existsb (fun e => same_members (i :: is) (fst e)) (cur_edges s) then s
          else HState (cur_nodes s) (cur_edges s ++ [(i :: is, o)]) ((i :: is) ++ cur_lists s)
                      (pub_nodes s) (pub_edges s) (pub_lists s)
      | _ => s
      end
  | HRemoveEdge us =>
      match hids us (cur_nodes s) with
      | Some (i :: is) =>
          HState (cur_nodes s) (drop (fun e => same_members (i :: is) (fst e)) (cur_edges s)) (cur_lists s)
                 (pub_nodes s) (pub_edges s) (pub_lists s)
      | _ => s
      end
  | HRemoveAllEdges => HState (cur_nodes s) [] [] (pub_nodes s) (pub_edges s) (pub_lists s)
  | HRemoveObject u _ =>
      match hid u (cur_nodes s) with
      | Some i => HState (drop (fun p => fst p =? i) (cur_nodes s)) (drop (fun e => in_list i (fst e)) (cur_edges s)) (cur_lists s)
                         (pub_nodes s) (pub_edges s) (pub_lists s)
      | None => s
      end
  | HUpdateNode u =>
      HState (map (fun p => if eqo u (snd p) then (fst p, u) else p) (cur_nodes s)) (cur_edges s) (cur_lists s)
             (pub_nodes s) (pub_edges s) (pub_lists s)
  | HUpdate | HLazyUpdate =>
      HState (cur_nodes s) (cur_edges s) (cur_lists s) (cur_nodes s) (cur_edges s) (cur_lists s)
  | _ => s
  end.

Definition hanswer (s : hstate) (c : hop O L W) : hres O L W :=
  match c with
  | HAddNode _ | HRemoveAllEdges | HUpdateNode _ | HUpdate | HLazyUpdate => HUnit
  | HAddEdge us _ =>
      match hids us (cur_nodes s) with
      | Some (i :: is) => HBool (negb (existsb (fun e => same_members (i :: is) (fst e)) (cur_edges s)))
      | _ => HBool false
      end
  | HRemoveEdge us =>
      match hids us (cur_nodes s) with
      | Some (i :: is) => HHedge (option_map hshown (find (fun e => same_members (i :: is) (fst e)) (cur_edges s)))
      | _ => HHedge None
      end
  | HRemoveObject u _ => HBool (match hid u (cur_nodes s) with Some _ => true | None => false end)
  | HGetEdge us =>
      match hids us (cur_nodes s) with
      | Some (i :: is) => HHedge (option_map hshown (find (fun e => same_members (i :: is) (fst e)) (pub_edges s)))
      | _ => HHedge None
      end
  | HGetEdges u =>
      HHedges (match hid u (cur_nodes s) with
               | Some i => if in_list i (pub_lists s) then Some (hlist i (pub_edges s)) else None
               | None => None
               end)
  | HGetObject i => HObject (hobject i (pub_nodes s))
  | HGetId u => HId (hid u (cur_nodes s))
  end.

(** ** What a history must avoid *)
Definition hgood (s : hstate) (c : hop O L W) : Prop :=
  match c with
  | HAddNode u =>
      (* a new node, for which the next id is unused *)
      hid u (cur_nodes s) = None /\ hobject (N.of_nat (length (cur_nodes s))) (cur_nodes s) = None /\
      N.of_nat (length (cur_nodes s)) < 4294967296
  | HAddEdge us _ =>
      (* no node is named twice *)
      forall is, hids us (cur_nodes s) = Some is -> NoDup is
  | HRemoveEdge us =>
      (* the members have lists: remove_all_edges drops them *)
      forall is, hids us (cur_nodes s) = Some is -> forall i, In i is -> in_list i (cur_lists s) = true
  | HRemoveObject u it =>
      (* the hyperedges of the node are published, and lists have not been dropped since *)
      (forall l, Permutation (it l) l) /\
      forall i, hid u (cur_nodes s) = Some i ->
        (forall e, In e (cur_edges s) -> in_list i (fst e) = true ->
           exists p, In p (pub_edges s) /\ same_members (fst p) (fst e) = true) /\
        (forall p j, In p (pub_edges s) -> in_list i (fst p) = true -> In j (fst p) -> in_list j (cur_lists s) = true)
  | _ => True
  end.
Fixpoint hgood_run (s : hstate) (cs : list (hop O L W)) : Prop :=
  match cs with [] => True | c :: cs' => hgood s c /\ hgood_run (hnext s c) cs' end.
Fixpoint hs_run (s : hstate) (cs : list (hop O L W)) : hstate :=
  match cs with [] => s | c :: cs' => hs_run (hnext s c) cs' end.
Fixpoint hanswers (s : hstate) (cs : list (hop O L W)) : list (hres O L W) :=
  match cs with [] => [] | c :: cs' => hanswer s c :: hanswers (hnext s c) cs' end.

(** ** Histories *)
Definition hpublishes (c : hop O L W) : bool := match c with HUpdate | HLazyUpdate => true | _ => false end.
(** Calls that change which node has which id. *)
Definition hnames (c : hop O L W) : bool := match c with HAddNode _ | HRemoveObject _ _ => true | _ => false end.
Definition hremoves (c : hop O L W) : bool := match c with HRemoveObject _ _ => true | _ => false end.
Definition hadded (cs : list (hop O L W)) : list O :=
  flat_map (fun c => match c with HAddNode u => [u] | _ => [] end) cs.
End Spec.
Arguments hstate : clear implicits.
