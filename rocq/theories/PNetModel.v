(** * Model of the parallel Network

    src/engine/fields/network.rs L84-573: the version built with the features [parallel],
    [visualization] or [visualization_wasm].  [edges] and [id2nodes] are [DBDashMap]s;
    [nodes2id] is a plain hash map in a [RefCell], so a network is used by one thread at a
    time.  The borrows taken by these functions never conflict.  [None] is a panic.
    [EdgeOptions], [Edge], [Edge::new] and the helpers on edge lists are in NetModel. *)
From Coq Require Import List Bool NArith Arith.
From Verif Require Import DashModel NetModel.
Import ListNotations.
Local Open Scope N_scope.

Section PNet.
Context {O L W : Type}.
Variable eqo : O -> O -> bool.   (* Eq of the nodes *)
Variable hash : N -> N.          (* hash of u32 *)

Local Notation edge := (edge L W).
Local Notation opts := (edge_options L W).
Notation edge_order := (list (N * list edge) -> list (N * list edge)).
Notation node_order := (list (N * O) -> list (N * O)).

(** [struct Network], L84-89. *)
Record pnet := PNet {
  p_edges : dmap N (list edge);
  p_n2i : list (O * N);
  p_i2n : dmap N O;
  p_direct : bool
}.

(** [new], L93-100. *)
Definition pn_new (cpus : N) (d : bool) : pnet := PNet (dash_new cpus) [] (dash_new cpus) d.

Definition with_e (p : pnet) e := PNet e (p_n2i p) (p_i2n p) (p_direct p).

(** L116-125 and L129-138: push an edge, creating the list. *)
Definition pn_push (i : N) (e : edge) (m : dmap N (list edge)) : option (dmap N (list edge)) :=
  match get_write N.eqb hash i (fun es => es ++ [e]) m with
  | None => None
  | Some (m', Some _) => Some m'
  | Some (m', None) => option_map fst (insert N.eqb hash i [e] m')
  end.

(** [add_edge], L102-142. *)
Definition pn_add_edge (p : pnet) (u v : O) (o : opts) : option (pnet * (bool * bool)) :=
  match id_of eqo u (p_n2i p) with
  | None => Some (p, (false, false))
  | Some i =>
      match id_of eqo v (p_n2i p) with
      | None => Some (p, (false, false))
      | Some j =>
          match pn_push i (edge_new i j o) (p_edges p) with
          | None => None
          | Some m =>
              if p_direct p then Some (with_e p m, (true, false))
              else option_map (fun m' => (with_e p m', (true, true))) (pn_push j (edge_new j i o) m)
          end
      end
  end.

(** [add_node], L144-157: an empty list is created unless one was already published. *)
Definition pn_add_node (p : pnet) (u : O) : option pnet :=
  let i := N.of_nat (length (p_n2i p)) mod 4294967296 in
  let n := fst (hm_insert eqo u i (p_n2i p)) in
  match insert N.eqb hash i u (p_i2n p) with
  | None => None
  | Some (o, _) =>
      match get_read N.eqb hash i (p_edges p) with
      | None => None
      | Some (Some _) => Some (PNet (p_edges p) n o (p_direct p))
      | Some None => option_map (fun q => PNet (fst q) n o (p_direct p)) (insert N.eqb hash i [] (p_edges p))
      end
  end.

(** [get_edges], L227-237; [get_object], L239-244. *)
Definition pn_get_edges (p : pnet) (u : O) : option (option (list edge)) :=
  match id_of eqo u (p_n2i p) with
  | None => Some None
  | Some i => get_read N.eqb hash i (p_edges p)
  end.
Definition pn_get_object (p : pnet) (i : N) : option (option O) := get_read N.eqb hash i (p_i2n p).

(** The object of a published id, L167, L209, L474, L497: [expect]. *)
Definition pn_object (p : pnet) (i : N) : option O :=
  match get_read N.eqb hash i (p_i2n p) with Some (Some x) => Some x | _ => None end.

(** [get_edge], L193-225. *)
Fixpoint pn_edge_loop (p : pnet) (i j : N) (es : list edge) : option (option edge) :=
  match es with
  | [] => Some None
  | e :: es' =>
      match pn_object p (e_v e) with
      | None => None
      | Some x =>
          match id_of eqo x (p_n2i p) with
          | None => None
          | Some k =>
              if ((e_u e =? i) && (k =? j)) || (negb (p_direct p) && (k =? i) && (e_u e =? j))
              then Some (Some e) else pn_edge_loop p i j es'
          end
      end
  end.
Definition pn_get_edge (p : pnet) (u v : O) : option (option edge) :=
  match id_of eqo u (p_n2i p) with
  | None => Some None
  | Some i =>
      match get_read N.eqb hash i (p_edges p) with
      | None => None
      | Some None => Some None
      | Some (Some es) =>
          match id_of eqo v (p_n2i p) with
          | None => Some None
          | Some j => pn_edge_loop p i j es
          end
      end
  end.

(** [add_prob_edge], L161-191.  [choose dist amount] is what [choose_multiple_weighted]
    picks ([None]: its error, on which [expect] panics). *)
Fixpoint pn_degrees (p : pnet) (ks : list N) : option (list (O * nat)) :=
  match ks with
  | [] => Some []
  | k :: ks' =>
      match pn_object p k with
      | None => None
      | Some x =>
          match pn_get_edges p x with
          | None => None
          | Some (Some es) => option_map (cons (x, length es)) (pn_degrees p ks')
          | Some None => pn_degrees p ks'
          end
      end
  end.
Fixpoint pn_link (p : pnet) (u : O) (xs : list O) : option pnet :=
  match xs with
  | [] => Some p
  | x :: xs' =>
      match pn_add_edge p u x Simple with
      | None => None
      | Some (p', _) => pn_link p' u xs'
      end
  end.
Definition pn_add_prob_edge (choose : list (O * nat) -> nat -> option (list (O * nat))) (it : edge_order)
  (p : pnet) (u : O) (n_sample : nat) : option pnet :=
  match pn_degrees p (keys it (p_edges p)) with
  | None => None
  | Some dist =>
      let amount := if Nat.ltb (len (p_edges p)) n_sample then len (p_edges p) else n_sample in
      match choose dist amount with
      | None => None
      | Some cs => pn_link p u (map fst cs)
      end
  end.

(** [remove_all_edges], L419-421. *)
Definition pn_remove_all_edges (p : pnet) : pnet := with_e p (clear (p_edges p)).

(** [remove_edge], L423-460: [expect] on both lists. *)
Definition pn_remove_edge (p : pnet) (u v : O) : option (pnet * option edge) :=
  match id_of eqo u (p_n2i p) with
  | None => Some (p, None)
  | Some i =>
      match id_of eqo v (p_n2i p) with
      | None => Some (p, None)
      | Some j =>
          match get_write N.eqb hash i (fun es => match remove_first (joins i j) es with Some (_, es') => es' | None => es end) (p_edges p) with
          | Some (m, Some es) =>
              match remove_first (joins i j) es with
              | None => Some (with_e p m, None)
              | Some (e, _) =>
                  if p_direct p then Some (with_e p m, Some e)
                  else
                    match get_write N.eqb hash j (filter (fun e => negb (joins i j e))) m with
                    | Some (m', Some _) => Some (with_e p m', Some e)
                    | _ => None
                    end
              end
          | _ => None
          end
      end
  end.

(** The loops of [remove_incoming_edges] (L472-480, [flip = false]) and
    [remove_outgoing_edges] (L495-503, [flip = true]) over the published ids. *)
Fixpoint pn_remove_loop (flip : bool) (p : pnet) (u : O) (i : N) (ks : list N) : option (pnet * list edge) :=
  match ks with
  | [] => Some (p, [])
  | k :: ks' =>
      if k =? i then pn_remove_loop flip p u i ks'
      else
        match pn_object p k with
        | None => None
        | Some x =>
            match (if flip then pn_remove_edge p u x else pn_remove_edge p x u) with
            | None => None
            | Some (p', r) =>
                option_map (fun q => (fst q, match r with Some e => e :: snd q | None => snd q end))
                           (pn_remove_loop flip p' u i ks')
            end
        end
  end.
(** [remove_incoming_edges], L462-482; [remove_outgoing_edges], L485-505. *)
Definition pn_remove_all_of (flip : bool) (p : pnet) (u : O) (it : edge_order) : option (pnet * option (list edge)) :=
  match id_of eqo u (p_n2i p) with
  | None => Some (p, None)
  | Some i => option_map (fun q => (fst q, Some (snd q))) (pn_remove_loop flip p u i (keys it (p_edges p)))
  end.

(** [edges.remove(&uid)], L522 and L529. *)
Definition pn_drop_list (p : pnet) (i : N) : option pnet :=
  option_map (fun q => with_e p (fst q)) (remove N.eqb hash i (p_edges p)).

(** [remove_node], L507-538. *)
Definition pn_remove_node (p : pnet) (u : O) (it it' : edge_order) : option (pnet * bool) :=
  match id_of eqo u (p_n2i p) with
  | None => Some (p, false)
  | Some i =>
      match pn_remove_all_of true p u it with
      | None => None
      | Some (p1, None) => Some (p1, false)
      | Some (p1, Some _) =>
          match pn_drop_list p1 i with
          | None => None
          | Some p2 =>
              match pn_remove_all_of false p2 u it' with
              | None => None
              | Some (p3, None) => Some (p3, false)
              | Some (p3, Some _) =>
                  match pn_drop_list p3 i with
                  | None => None
                  | Some p4 =>
                      option_map (fun q => (PNet (p_edges p4) (fst (hm_remove eqo u (p_n2i p4))) (fst q) (p_direct p4), true))
                                 (remove N.eqb hash i (p_i2n p4))
                  end
              end
          end
      end
  end.

(** [update_node], L540-561: the entry of [nodes2id] is replaced under the stored object. *)
Definition pn_update_node (p : pnet) (u : O) : option pnet :=
  match id_of eqo u (p_n2i p) with
  | None => Some p
  | Some i =>
      match get_write N.eqb hash i (fun _ => u) (p_i2n p) with
      | None => None
      | Some (_, None) => Some p
      | Some (o, Some x) =>
          let n := match hm_remove eqo x (p_n2i p) with
                   | (n, Some _) => fst (hm_insert eqo u i n)
                   | (n, None) => n
                   end in
          Some (PNet (p_edges p) n o (p_direct p))
      end
  end.

(** [update], L565-568; [lazy_update], L569-572: the same.  [n] is the number of shards. *)
Definition pn_update (it : edge_order) (it' : node_order) (n : nat) (p : pnet) : option pnet :=
  match update N.eqb it n (p_edges p), update N.eqb it' n (p_i2n p) with
  | Some e, Some o => Some (PNet e (p_n2i p) o (p_direct p))
  | _, _ => None
  end.

(** [preferential_attachment_BA], L251-309, and [..._with_seed], L317-382: as in NetModel;
    [id2nodes.len()] counts the nodes being written. *)
Definition pba_link (p : pnet) (node : O) (cs : list (O * N * nat)) : option pnet :=
  pn_link p node (map (fun c => fst (fst c)) cs).
Fixpoint pba_loop (choose : ba_choose (O := O)) (m : nat) (node_set : list O) (todo : nat) (i : nat)
  (dist : list (O * N * nat)) (p : pnet) : option pnet :=
  match todo with
  | 0%nat => Some p
  | S todo' =>
      match nth_error node_set i with
      | None => None
      | Some node =>
          let amount := if Nat.ltb (length dist) m then length dist else m in
          let cs := choose i dist amount in
          match pba_link p node cs with
          | None => None
          | Some p' => pba_loop choose m node_set todo' (S i) (bump (map snd cs) dist ++ [(node, N.of_nat amount, i)]) p'
          end
      end
  end.
Definition pn_preferential (choose : ba_choose (O := O)) (it : edge_order) (it' : node_order) (n : nat)
  (p : pnet) (node_set : list O) (m : nat) : option pnet :=
  let nodes := len (p_i2n p) in
  let p0 := pn_remove_all_edges p in
  match node_set with
  | a :: b :: _ =>
      match pn_add_edge p0 a b Simple with
      | None => None
      | Some (p1, _) =>
          match pba_loop choose m node_set (nodes - 2) 2 [(a, 1, 0%nat); (b, 1, 1%nat)] p1 with
          | None => None
          | Some p2 => pn_update it it' n p2
          end
      end
  | _ => Some p0
  end.

(** ** Programs *)
Inductive pnop :=
| PAddNode (u : O)
| PAddEdge (u v : O) (o : opts)
| PRemoveEdge (u v : O)
| PRemoveAllEdges
| PRemoveIncoming (u : O) (it : edge_order)
| PRemoveOutgoing (u : O) (it : edge_order)
| PRemoveNode (u : O) (it it' : edge_order)
| PUpdateNode (u : O)
| PUpdate (it : edge_order) (it' : node_order)      (* update or lazy_update *)
| PGetEdge (u v : O)
| PGetEdges (u : O)
| PGetObject (id : N).

Definition pn_call (n : nat) (p : pnet) (c : pnop) : option (pnet * nres O L W) :=
  match c with
  | PAddNode u => option_map (fun p' => (p', NUnit)) (pn_add_node p u)
  | PAddEdge u v o => option_map (fun q => (fst q, NBools (fst (snd q)) (snd (snd q)))) (pn_add_edge p u v o)
  | PRemoveEdge u v => option_map (fun q => (fst q, NEdge (snd q))) (pn_remove_edge p u v)
  | PRemoveAllEdges => Some (pn_remove_all_edges p, NUnit)
  | PRemoveIncoming u it => option_map (fun q => (fst q, NEdges (snd q))) (pn_remove_all_of false p u it)
  | PRemoveOutgoing u it => option_map (fun q => (fst q, NEdges (snd q))) (pn_remove_all_of true p u it)
  | PRemoveNode u it it' => option_map (fun q => (fst q, NBool (snd q))) (pn_remove_node p u it it')
  | PUpdateNode u => option_map (fun p' => (p', NUnit)) (pn_update_node p u)
  | PUpdate it it' => option_map (fun p' => (p', NUnit)) (pn_update it it' n p)
  | PGetEdge u v => option_map (fun r => (p, NEdge r)) (pn_get_edge p u v)
  | PGetEdges u => option_map (fun r => (p, NEdges r)) (pn_get_edges p u)
  | PGetObject i => option_map (fun r => (p, NObject r)) (pn_get_object p i)
  end.
Fixpoint pn_run (n : nat) (p : pnet) (cs : list pnop) : option (pnet * list (nres O L W)) :=
  match cs with
  | [] => Some (p, [])
  | c :: cs' =>
      match pn_call n p c with
      | None => None
      | Some (p', r) => option_map (fun q => (fst q, r :: snd q)) (pn_run n p' cs')
      end
  end.
End PNet.

Arguments pnet : clear implicits.
Arguments pnop : clear implicits.
Arguments PAddNode {O L W}. Arguments PAddEdge {O L W}. Arguments PRemoveEdge {O L W}.
Arguments PRemoveAllEdges {O L W}. Arguments PRemoveIncoming {O L W}. Arguments PRemoveOutgoing {O L W}.
Arguments PRemoveNode {O L W}. Arguments PUpdateNode {O L W}. Arguments PUpdate {O L W}.
Arguments PGetEdge {O L W}. Arguments PGetEdges {O L W}. Arguments PGetObject {O L W}.
