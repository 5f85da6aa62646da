(** * Model of HNetwork

    src/engine/fields/hnetwork.rs.  Hash maps are association lists with the map
    operations of DashModel (external crate hashbrown); a [HashSet<u32>] is the list of
    its elements in order of insertion, and the order in which it is iterated is a
    parameter.  [None] is a panic.  The [RefCell] borrows never conflict. *)
From Coq Require Import List Bool NArith Arith.
From Verif Require Import DashModel NetModel.
Import ListNotations.
Local Open Scope N_scope.

(** [struct HEdge], L22-28. *)
Record hedge (L W : Type) := HEdge { h_nodes : list N; h_label : option L; h_weight : option W }.
Arguments HEdge {L W}. Arguments h_nodes {L W}. Arguments h_label {L W}. Arguments h_weight {L W}.

(** [HashSet::contains], [HashSet::insert] (external). *)
Definition mem (i : N) (l : list N) : bool := existsb (N.eqb i) l.
Definition hs_insert (l : list N) (i : N) : list N := if mem i l then l else l ++ [i].
(** [HashSet::eq] (external): same size and every element of one in the other. *)
Definition hs_eq (a b : list N) : bool := Nat.eqb (length a) (length b) && forallb (fun i => mem i b) a.

(** [HEdge::new], L35-64. *)
Definition hedge_new {L W} (ids : list N) (o : edge_options L W) : hedge L W :=
  let nodes := fold_left hs_insert ids [] in
  match o with
  | Simple => HEdge nodes None None
  | Labeled l => HEdge nodes (Some l) None
  | Weighted w => HEdge nodes None (Some w)
  | WeightedLabeled l w => HEdge nodes (Some l) (Some w)
  end.

(** [PartialEq for HEdge], L67-75. *)
Definition hedge_eq {L W} (a b : hedge L W) : bool := hs_eq (h_nodes a) (h_nodes b).

(** Calls of the API. *)
Inductive hop (O L W : Type) :=
| HAddNode (u : O)
| HAddEdge (us : list O) (o : edge_options L W)
| HRemoveEdge (us : list O)
| HRemoveAllEdges
| HRemoveObject (u : O) (it : list N -> list N)
| HUpdateNode (u : O)
| HUpdate
| HLazyUpdate
| HGetEdge (us : list O)
| HGetEdges (u : O)
| HGetObject (id : N)
| HGetId (u : O).
Arguments HAddNode {O L W}. Arguments HAddEdge {O L W}. Arguments HRemoveEdge {O L W}.
Arguments HRemoveAllEdges {O L W}. Arguments HRemoveObject {O L W}. Arguments HUpdateNode {O L W}.
Arguments HUpdate {O L W}. Arguments HLazyUpdate {O L W}. Arguments HGetEdge {O L W}.
Arguments HGetEdges {O L W}. Arguments HGetObject {O L W}. Arguments HGetId {O L W}.

Inductive hres (O L W : Type) :=
| HUnit
| HBool (b : bool)
| HHedge (e : option (hedge L W))
| HHedges (es : option (list (hedge L W)))
| HObject (o : option O)
| HId (i : option N).
Arguments HUnit {O L W}. Arguments HBool {O L W}. Arguments HHedge {O L W}.
Arguments HHedges {O L W}. Arguments HObject {O L W}. Arguments HId {O L W}.

Section HNet.
Context {O L W : Type}.
Variable eqo : O -> O -> bool.

Local Notation hedge := (hedge L W).
Local Notation opts := (edge_options L W).
Local Notation emap := (list (N * list hedge)).

(** [struct HNetwork], L112-124. *)
Record hnet := HNet {
  h_edges : emap;
  h_redges : emap;
  h_n2i : list (O * N);
  h_i2n : list (N * O);
  h_ri2n : list (N * O)
}.

(** [new], L128-136. *)
Definition hnet_new : hnet := HNet [] [] [] [] [].

Definition with_h_edges (g : hnet) (m : emap) : hnet := HNet m (h_redges g) (h_n2i g) (h_i2n g) (h_ri2n g).

(** The ids of a slice of nodes, [None] if one is unknown: L169-176, L260-267, L419-426. *)
Fixpoint ids_of (g : hnet) (us : list O) : option (list N) :=
  match us with
  | [] => Some []
  | u :: us' =>
      match id_of eqo u (h_n2i g) with
      | None => None
      | Some i => option_map (cons i) (ids_of g us')
      end
  end.

(** The loop of [add_edge], L181-194. *)
Fixpoint h_add_loop (e : hedge) (ids : list N) (m : emap) : emap * bool :=
  match ids with
  | [] => (m, true)
  | i :: ids' =>
      match val_of i m with
      | Some es => if existsb (hedge_eq e) es then (m, false)
                   else h_add_loop e ids' (hm_modify N.eqb i (fun es => es ++ [e]) m)
      | None => h_add_loop e ids' (fst (hm_insert N.eqb i [e] m))
      end
  end.
(** [add_edge], L162-197. *)
Definition h_add_edge (g : hnet) (us : list O) (o : opts) : hnet * bool :=
  match us with
  | [] => (g, false)
  | _ =>
      match ids_of g us with
      | None => (g, false)
      | Some ids => let (m, b) := h_add_loop (hedge_new ids o) ids (h_edges g) in (with_h_edges g m, b)
      end
  end.

(** [add_node], L213-228. *)
Definition h_add_node (g : hnet) (u : O) : hnet :=
  let i := N.of_nat (length (h_n2i g)) mod 4294967296 in
  HNet (match hm_find N.eqb i (h_edges g) with
        | Some _ => h_edges g
        | None => fst (hm_insert N.eqb i [] (h_edges g))
        end)
       (h_redges g) (fst (hm_insert eqo u i (h_n2i g))) (fst (hm_insert N.eqb i u (h_i2n g))) (h_ri2n g).

(** [get_edge], L254-284: ids from the write state, edges from the read state. *)
Definition h_get_edge (g : hnet) (us : list O) : option hedge :=
  match us with
  | [] => None
  | _ =>
      match ids_of g us with
      | Some (i :: ids) =>
          match val_of i (h_redges g) with
          | Some es => find (fun e => hedge_eq e (hedge_new (i :: ids) Simple)) es
          | None => None
          end
      | _ => None
      end
  end.

(** [get_edges], L306-314; [get_object], L333-335; [get_id], L353-355. *)
Definition h_get_edges (g : hnet) (u : O) : option (list hedge) :=
  match id_of eqo u (h_n2i g) with
  | None => None
  | Some i => val_of i (h_redges g)
  end.
Definition h_get_object (g : hnet) (i : N) : option O := val_of i (h_ri2n g).
Definition h_get_id (g : hnet) (u : O) : option N := id_of eqo u (h_n2i g).

(** [remove_all_edges], L383-386. *)
Definition h_remove_all_edges (g : hnet) : hnet := with_h_edges g [].

(** The loops of [remove_edge], L432-446, and [remove_edge_with_hedge], L480-494. *)
Fixpoint h_remove_loop (e : hedge) (ids : list N) (m : emap) (removed : option hedge) : option (emap * option hedge) :=
  match ids with
  | [] => Some (m, removed)
  | i :: ids' =>
      match val_of i m with
      | None => None
      | Some es =>
          match remove_first (fun x => hedge_eq x e) es with
          | Some (x, es') => h_remove_loop e ids' (hm_modify N.eqb i (fun _ => es') m) (Some x)
          | None => h_remove_loop e ids' m removed
          end
      end
  end.

(** [remove_edge], L413-449. *)
Definition h_remove_edge (g : hnet) (us : list O) : option (hnet * option hedge) :=
  match us with
  | [] => Some (g, None)
  | _ =>
      match ids_of g us with
      | None => Some (g, None)
      | Some ids =>
          option_map (fun p => (with_h_edges g (fst p), snd p))
                     (h_remove_loop (hedge_new ids Simple) ids (h_edges g) None)
      end
  end.

(** The calls of [remove_edge_with_hedge] in [remove_object], L536-540. *)
Fixpoint h_remove_all (it : list N -> list N) (es : list hedge) (m : emap) : option emap :=
  match es with
  | [] => Some m
  | e :: es' =>
      match h_remove_loop e (it (h_nodes e)) m None with
      | None => None
      | Some (m', _) => h_remove_all it es' m'
      end
  end.

(** [remove_object], L526-548. *)
Definition h_remove_object (g : hnet) (u : O) (it : list N -> list N) : option (hnet * bool) :=
  match id_of eqo u (h_n2i g) with
  | None => Some (g, false)
  | Some i =>
      option_map (fun m => (HNet m (h_redges g) (fst (hm_remove eqo u (h_n2i g)))
                                   (fst (hm_remove N.eqb i (h_i2n g))) (h_ri2n g), true))
        (h_remove_all it (match h_get_edges g u with Some es => es | None => [] end) (h_edges g))
  end.

(** [update_node], L580-590. *)
Definition h_update_node (g : hnet) (u : O) : hnet :=
  match id_of eqo u (h_n2i g) with
  | None => g
  | Some i => HNet (h_edges g) (h_redges g) (h_n2i g) (hm_modify N.eqb i (fun _ => u) (h_i2n g)) (h_ri2n g)
  end.

(** [update], L600-609; [lazy_update], L611-620: the same. *)
Definition h_update (g : hnet) : hnet := HNet (h_edges g) (h_edges g) (h_n2i g) (h_i2n g) (h_i2n g).

(** One call. *)
Definition hnet_call (g : hnet) (c : hop O L W) : option (hnet * hres O L W) :=
  match c with
  | HAddNode u => Some (h_add_node g u, HUnit)
  | HAddEdge us o => let (g', b) := h_add_edge g us o in Some (g', HBool b)
  | HRemoveEdge us => option_map (fun p => (fst p, HHedge (snd p))) (h_remove_edge g us)
  | HRemoveAllEdges => Some (h_remove_all_edges g, HUnit)
  | HRemoveObject u it => option_map (fun p => (fst p, HBool (snd p))) (h_remove_object g u it)
  | HUpdateNode u => Some (h_update_node g u, HUnit)
  | HUpdate | HLazyUpdate => Some (h_update g, HUnit)
  | HGetEdge us => Some (g, HHedge (h_get_edge g us))
  | HGetEdges u => Some (g, HHedges (h_get_edges g u))
  | HGetObject i => Some (g, HObject (h_get_object g i))
  | HGetId u => Some (g, HId (h_get_id g u))
  end.
Fixpoint hnet_run (g : hnet) (cs : list (hop O L W)) : option (hnet * list (hres O L W)) :=
  match cs with
  | [] => Some (g, [])
  | c :: cs' =>
      match hnet_call g c with
      | None => None
      | Some (g', r) => option_map (fun p => (fst p, r :: snd p)) (hnet_run g' cs')
      end
  end.
End HNet.
Arguments hnet : clear implicits.
