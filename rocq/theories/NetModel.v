(** * Model of Network (sequential version)

    src/engine/fields/network.rs L576-1659.  Hash maps are association lists with the
    map operations of DashModel (external crate hashbrown); the order in which
    [id2nodes.keys()] is iterated is a parameter.  The two buffers of each of [edges],
    [nodes2id] and [id2nodes] (indices [read] and [write], never swapped) are modelled as
    separate fields.  The [RefCell] borrows taken by these functions never conflict.
    [None] is a panic. *)
From Coq Require Import List Bool NArith Arith.
From Verif Require Import DashModel.
Import ListNotations.
Local Open Scope N_scope.

(** [enum EdgeOptions], L23-32.  [W] stands for the weights ([f32]), which are only
    stored. *)
Inductive edge_options (L W : Type) :=
| Simple
| Labeled (l : L)
| Weighted (w : W)
| WeightedLabeled (l : L) (w : W).
Arguments Simple {L W}. Arguments Labeled {L W}. Arguments Weighted {L W}. Arguments WeightedLabeled {L W}.

(** [struct Edge], L36-43. *)
Record edge (L W : Type) := Edge { e_u : N; e_v : N; e_label : option L; e_weight : option W }.
Arguments Edge {L W}. Arguments e_u {L W}. Arguments e_v {L W}. Arguments e_label {L W}. Arguments e_weight {L W}.

(** [Edge::new], L51-78. *)
Definition edge_new {L W} (u v : N) (o : edge_options L W) : edge L W :=
  match o with
  | Simple => Edge u v None None
  | Labeled l => Edge u v (Some l) None
  | Weighted w => Edge u v None (Some w)
  | WeightedLabeled l w => Edge u v (Some l) (Some w)
  end.

(** Calls of the API. *)
Inductive nop (O L W : Type) :=
| NAddNode (u : O)
| NAddEdge (u v : O) (o : edge_options L W)
| NRemoveEdge (u v : O)
| NRemoveAllEdges
| NRemoveIncoming (u : O) (it : list (N * O) -> list (N * O))
| NRemoveOutgoing (u : O) (it : list (N * O) -> list (N * O))
| NRemoveNode (u : O) (it it' : list (N * O) -> list (N * O))
| NUpdateNode (u : O)
| NUpdate
| NLazyUpdate
| NGetEdge (u v : O)
| NGetEdges (u : O)
| NGetObject (id : N)
| NGetId (u : O).
Arguments NAddNode {O L W}. Arguments NAddEdge {O L W}. Arguments NRemoveEdge {O L W}.
Arguments NRemoveAllEdges {O L W}. Arguments NRemoveIncoming {O L W}. Arguments NRemoveOutgoing {O L W}.
Arguments NRemoveNode {O L W}. Arguments NUpdateNode {O L W}. Arguments NUpdate {O L W}.
Arguments NLazyUpdate {O L W}. Arguments NGetEdge {O L W}. Arguments NGetEdges {O L W}.
Arguments NGetObject {O L W}. Arguments NGetId {O L W}.

Inductive nres (O L W : Type) :=
| NUnit
| NBools (u v : bool)
| NBool (b : bool)
| NEdge (e : option (edge L W))
| NEdges (es : option (list (edge L W)))
| NObject (o : option O)
| NId (i : option N).
Arguments NUnit {O L W}. Arguments NBools {O L W}. Arguments NBool {O L W}. Arguments NEdge {O L W}.
Arguments NEdges {O L W}. Arguments NObject {O L W}. Arguments NId {O L W}.

Section Net.
Context {O L W : Type}.
Variable eqo : O -> O -> bool.   (* Eq of the nodes *)

Local Notation edge := (edge L W).
Local Notation opts := (edge_options L W).

(** One buffer. *)
Record graph := Graph {
  n2i : list (O * N);
  i2n : list (N * O);
  adj : list (N * list edge)
}.
(** [struct Network], L612-628. *)
Record net := Net { nr : graph; nw : graph; direct : bool }.

(** [new], L670-686. *)
Definition net_new (d : bool) : net := Net (Graph [] [] []) (Graph [] [] []) d.

Definition set_w (g : net) (w : graph) : net := Net (nr g) w (direct g).

Definition id_of (u : O) (m : list (O * N)) : option N := option_map snd (hm_find eqo u m).
Definition val_of {V} (i : N) (m : list (N * V)) : option V := option_map snd (hm_find N.eqb i m).

(** Appending an edge to a list of [edges], creating the list: L757-766, L770-778. *)
Definition push_edge (i : N) (e : edge) (m : list (N * list edge)) : list (N * list edge) :=
  match hm_find N.eqb i m with
  | Some _ => hm_modify N.eqb i (fun es => es ++ [e]) m
  | None => fst (hm_insert N.eqb i [e] m)
  end.

(** [add_edge], L741-783. *)
Definition add_edge (g : net) (u v : O) (o : opts) : net * (bool * bool) :=
  match id_of u (n2i (nw g)) with
  | None => (g, (false, false))
  | Some i =>
      match id_of v (n2i (nw g)) with
      | None => (g, (false, false))
      | Some j =>
          let a := push_edge i (edge_new i j o) (adj (nw g)) in
          let a' := if direct g then a else push_edge j (edge_new j i o) a in
          (set_w g (Graph (n2i (nw g)) (i2n (nw g)) a'), (true, negb (direct g)))
      end
  end.

(** [add_node], L800-816: the new id is the number of nodes, as [u32]. *)
Definition add_node (g : net) (u : O) : net :=
  let i := N.of_nat (length (n2i (nw g))) mod 4294967296 in
  set_w g (Graph (fst (hm_insert eqo u i (n2i (nw g))))
                 (fst (hm_insert N.eqb i u (i2n (nw g))))
                 (match hm_find N.eqb i (adj (nw g)) with
                  | Some _ => adj (nw g)
                  | None => fst (hm_insert N.eqb i [] (adj (nw g)))
                  end)).

(** The loop of [get_edge], L888-893: the id of the node an edge leads to is looked up
    again. *)
Fixpoint get_edge_loop (r : graph) (d : bool) (i j : N) (es : list edge) : option (option edge) :=
  match es with
  | [] => Some None
  | e :: es' =>
      match val_of (e_v e) (i2n r) with
      | None => None
      | Some x =>
          match id_of x (n2i r) with
          | None => None
          | Some k =>
              if ((e_u e =? i) && (k =? j)) || (negb d && (k =? i) && (e_u e =? j))
              then Some (Some e) else get_edge_loop r d i j es'
          end
      end
  end.

(** [get_edge], L870-900. *)
Definition get_edge (g : net) (u v : O) : option (option edge) :=
  match id_of u (n2i (nr g)) with
  | None => Some None
  | Some i =>
      match val_of i (adj (nr g)) with
      | None => Some None
      | Some es =>
          match id_of v (n2i (nr g)) with
          | None => Some None
          | Some j => get_edge_loop (nr g) (direct g) i j es
          end
      end
  end.

(** [get_edges], L963-971. *)
Definition get_edges (g : net) (u : O) : option (list edge) :=
  match id_of u (n2i (nr g)) with
  | None => None
  | Some i => val_of i (adj (nr g))
  end.

(** [get_object], L1000-1003; [get_id], L1031-1033. *)
Definition get_object (g : net) (i : N) : option O := val_of i (i2n (nr g)).
Definition get_id (g : net) (u : O) : option N := id_of u (n2i (nr g)).

(** [remove_all_edges], L1266-1269: the lists themselves are dropped. *)
Definition remove_all_edges (g : net) : net := set_w g (Graph (n2i (nw g)) (i2n (nw g)) []).

(** The test of [remove_edge], L1336-1338 and L1349-1351. *)
Definition joins (i j : N) (e : edge) : bool :=
  ((e_u e =? i) && (e_v e =? j)) || ((e_u e =? j) && (e_v e =? i)).

(** [Iterator::position] and [Vec::remove]. *)
Fixpoint remove_first {X} (f : X -> bool) (l : list X) : option (X * list X) :=
  match l with
  | [] => None
  | x :: l' => if f x then Some (x, l')
               else option_map (fun p => (fst p, x :: snd p)) (remove_first f l')
  end.

(** [remove_edge], L1314-1357: ids from the read buffer, edges of the write buffer. *)
Definition remove_edge (g : net) (u v : O) : option (net * option edge) :=
  match id_of u (n2i (nr g)) with
  | None => Some (g, None)
  | Some i =>
      match id_of v (n2i (nr g)) with
      | None => Some (g, None)
      | Some j =>
          match val_of i (adj (nw g)) with
          | None => None
          | Some es =>
              match remove_first (joins i j) es with
              | None => Some (g, None)
              | Some (e, es') =>
                  let a := hm_modify N.eqb i (fun _ => es') (adj (nw g)) in
                  if direct g then Some (set_w g (Graph (n2i (nw g)) (i2n (nw g)) a), Some e)
                  else
                    match val_of j a with
                    | None => None
                    | Some _ =>
                        Some (set_w g (Graph (n2i (nw g)) (i2n (nw g))
                                (hm_modify N.eqb j (filter (fun e => negb (joins i j e))) a)), Some e)
                    end
              end
          end
      end
  end.

(** The loops of [remove_incoming_edges] (L1415-1422, [flip = false]: [remove_edge(v, u)])
    and [remove_outgoing_edges] (L1488-1495, [flip = true]: [remove_edge(u, v)]).
    [id2nodes] stays borrowed and is not changed by the loop. *)
Fixpoint remove_loop (flip : bool) (g : net) (u : O) (i : N) (nodes : list (N * O))
  : option (net * list edge) :=
  match nodes with
  | [] => Some (g, [])
  | (k, x) :: nodes' =>
      if k =? i then remove_loop flip g u i nodes'
      else
        match (if flip then remove_edge g u x else remove_edge g x u) with
        | None => None
        | Some (g', r) =>
            option_map (fun p => (fst p, match r with Some e => e :: snd p | None => snd p end))
                       (remove_loop flip g' u i nodes')
        end
  end.

(** [remove_incoming_edges], L1404-1425; [remove_outgoing_edges], L1477-1498. *)
Definition remove_all_of (flip : bool) (g : net) (u : O) (it : list (N * O) -> list (N * O))
  : option (net * option (list edge)) :=
  match id_of u (n2i (nr g)) with
  | None => Some (g, None)
  | Some i => option_map (fun p => (fst p, Some (snd p))) (remove_loop flip g u i (it (i2n (nw g))))
  end.
Definition remove_incoming_edges := remove_all_of false.
Definition remove_outgoing_edges := remove_all_of true.

(** [edges.remove(&uid)], L1562, L1570. *)
Definition drop_list (g : net) (i : N) : net :=
  set_w g (Graph (n2i (nw g)) (i2n (nw g)) (fst (hm_remove N.eqb i (adj (nw g))))).

(** [remove_node], L1548-1583. *)
Definition remove_node (g : net) (u : O) (it it' : list (N * O) -> list (N * O)) : option (net * bool) :=
  match id_of u (n2i (nw g)) with
  | None => Some (g, false)
  | Some i =>
      match remove_outgoing_edges g u it with
      | None => None
      | Some (g1, None) => Some (g1, false)
      | Some (g1, Some _) =>
          match remove_incoming_edges (drop_list g1 i) u it' with
          | None => None
          | Some (g2, None) => Some (g2, false)
          | Some (g2, Some _) =>
              let g3 := drop_list g2 i in
              Some (set_w g3 (Graph (fst (hm_remove eqo u (n2i (nw g3))))
                                    (fst (hm_remove N.eqb i (i2n (nw g3)))) (adj (nw g3))), true)
          end
      end
  end.

(** [update_node], L1614-1625. *)
Definition update_node (g : net) (u : O) : net :=
  match id_of u (n2i (nw g)) with
  | None => g
  | Some i => set_w g (Graph (n2i (nw g)) (hm_modify N.eqb i (fun _ => u) (i2n (nw g))) (adj (nw g)))
  end.

(** [update], L1631-1643; [lazy_update], L1645-1658: the same. *)
Definition net_update (g : net) : net := Net (nw g) (nw g) (direct g).

(** [preferential_attachment_BA], L1062-1131, and [preferential_attachment_BA_with_seed],
    L1179-1251.  [dist] holds node, degree and position; [choose i dist amount] are the
    entries that [choose_multiple_weighted] picks for node [i].  [node_set[i]] is out of
    bounds if the network has more nodes than the slice.  The degrees are only read by
    the random choice. *)
Definition ba_choose := nat -> list (O * N * nat) -> nat -> list (O * N * nat).
Fixpoint bump (ps : list nat) (dist : list (O * N * nat)) : list (O * N * nat) :=
  match ps with
  | [] => dist
  | p :: ps' =>
      bump ps' (match nth_error dist p with
                | Some (x, d, k) => firstn p dist ++ (x, d + 1, k) :: skipn (S p) dist
                | None => dist   (* out of bounds: does not happen *)
                end)
  end.
Definition ba_link (g : net) (node : O) (cs : list (O * N * nat)) : net :=
  fold_left (fun g c => fst (add_edge g node (fst (fst c)) Simple)) cs g.
Fixpoint ba_loop (choose : ba_choose) (m : nat) (node_set : list O) (todo : nat) (i : nat)
  (dist : list (O * N * nat)) (g : net) : option net :=
  match todo with
  | 0%nat => Some g
  | S todo' =>
      match nth_error node_set i with
      | None => None
      | Some node =>
          let amount := if Nat.ltb (length dist) m then length dist else m in
          let cs := choose i dist amount in
          ba_loop choose m node_set todo' (S i)
            (bump (map snd cs) dist ++ [(node, N.of_nat amount, i)]) (ba_link g node cs)
      end
  end.
Definition preferential_attachment (choose : ba_choose) (g : net) (node_set : list O) (m : nat)
  : option net :=
  let n := length (i2n (nw g)) in
  let g0 := remove_all_edges g in
  match node_set with
  | a :: b :: _ =>
      let g1 := fst (add_edge g0 a b Simple) in
      option_map net_update
        (ba_loop choose m node_set (n - 2) 2 [(a, 1, 0%nat); (b, 1, 1%nat)] g1)
  | _ => Some g0
  end.

(** One call. *)
Definition net_call (g : net) (c : nop O L W) : option (net * nres O L W) :=
  match c with
  | NAddNode u => Some (add_node g u, NUnit)
  | NAddEdge u v o => let (g', r) := add_edge g u v o in Some (g', NBools (fst r) (snd r))
  | NRemoveEdge u v => option_map (fun p => (fst p, NEdge (snd p))) (remove_edge g u v)
  | NRemoveAllEdges => Some (remove_all_edges g, NUnit)
  | NRemoveIncoming u it => option_map (fun p => (fst p, NEdges (snd p))) (remove_incoming_edges g u it)
  | NRemoveOutgoing u it => option_map (fun p => (fst p, NEdges (snd p))) (remove_outgoing_edges g u it)
  | NRemoveNode u it it' => option_map (fun p => (fst p, NBool (snd p))) (remove_node g u it it')
  | NUpdateNode u => Some (update_node g u, NUnit)
  | NUpdate | NLazyUpdate => Some (net_update g, NUnit)
  | NGetEdge u v => option_map (fun r => (g, NEdge r)) (get_edge g u v)
  | NGetEdges u => Some (g, NEdges (get_edges g u))
  | NGetObject i => Some (g, NObject (get_object g i))
  | NGetId u => Some (g, NId (get_id g u))
  end.
Fixpoint net_run (g : net) (cs : list (nop O L W)) : option (net * list (nres O L W)) :=
  match cs with
  | [] => Some (g, [])
  | c :: cs' =>
      match net_call g c with
      | None => None
      | Some (g', r) => option_map (fun p => (fst p, r :: snd p)) (net_run g' cs')
      end
  end.

(** [Display], L632-665: the adjacency matrix, rows and columns by id [0..n-1]; [None]
    when some id below the number of nodes is unused. *)
Definition mapM_ids {X} (f : N -> option X) (n : nat) : option (list X) :=
  fold_right (fun i acc => match f (N.of_nat i), acc with
                           | Some x, Some l => Some (x :: l)
                           | _, _ => None
                           end) (Some []) (seq 0 n).
Definition display (g : net) : option (list (list bool)) :=
  let n := length (i2n (nr g)) in
  mapM_ids (fun i =>
    mapM_ids (fun j =>
      match get_object g i, get_object g j with
      | Some a, Some b =>
          option_map (fun r => match r with Some _ => true | None => false end) (get_edge g a b)
      | _, _ => None
      end) n) n.
End Net.

Arguments graph : clear implicits.
Arguments net : clear implicits.
