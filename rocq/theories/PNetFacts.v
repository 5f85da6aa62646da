(** * Facts about the parallel Network used by the property theorems *)
From Coq Require Import List Bool NArith Arith Lia Permutation.
From Verif Require Import DashModel DashSpec DashProofs DashRun DashView NetModel NetSpec NetBASpec NetProofs NetRef NetRun NetBA NetFacts PNetModel PNetSpec PNetProofs.
Import ListNotations.
Local Open Scope N_scope.

Section Facts.
Context {O L W : Type}.
Variable eqo : O -> O -> bool.
Variable E : equivalence eqo.
Variable hash : N -> N.
Variable n : nat.
Variable d : bool.

Local Notation edge := (edge L W).
Local Notation opts := (edge_options L W).
Local Notation agraph := (agraph O L W).
Local Notation pnet := (pnet O L W).
Local Notation pstate := (pstate O L W).
Local Notation pnop := (pnop O L W).
Local Notation psim := (psim eqo hash n d).
Local Notation ok := (ok eqo d).
Local Notation id_in := (@id_in O L W eqo).

(** The id of a node: the public table [nodes2id]. *)
Definition pn_id (p : pnet) (u : O) : option N := id_of eqo u (p_n2i p).
(** The edges [get_edges] shows, as a list. *)
Definition pn_edges_of (p : pnet) (u : O) : list edge :=
  match pn_get_edges eqo hash p u with Some (Some es) => es | _ => [] end.

Lemma pn_id_sim (p : pnet) (s : pstate) u : psim p s -> pn_id p u = id_in u (now s).
Proof. intros S. exact (id_of_now eqo hash n d p s u S). Qed.
Lemma pn_object_sim (p : pnet) (s : pstate) i : psim p s -> pn_get_object hash p i = Some (sobj s i).
Proof. intros S. exact (read_obj eqo hash n d p s i S). Qed.
Lemma pn_edges_sim (p : pnet) (s : pstate) u : psim p s -> pn_get_edges eqo hash p u = Some (match id_in u (now s) with Some i => slist s i | None => None end).
Proof.
  intros S. unfold pn_get_edges. change (id_of eqo u (p_n2i p)) with (pn_id p u). rewrite (pn_id_sim _ _ _ S).
  destruct (id_in u (now s)) as [i|]; [exact (read_list eqo hash n d p s i S)|reflexivity].
Qed.
Lemma pn_edges_of_sim (p : pnet) (s : pstate) u : psim p s -> pn_edges_of p u = match id_in u (now s) with Some i => match slist s i with Some es => es | None => [] end | None => [] end.
Proof. intros S. unfold pn_edges_of. rewrite (pn_edges_sim _ _ _ S). destruct (id_in u (now s)); [destruct (slist s n0); reflexivity|reflexivity]. Qed.

(** ** Histories *)
Lemma prun_app cs cs' (p : pnet) : pn_run eqo hash n p (cs ++ cs') =
  match pn_run eqo hash n p cs with
  | Some (p1, rs) => option_map (fun q => (fst q, rs ++ snd q)) (pn_run eqo hash n p1 cs')
  | None => None
  end.
Proof.
  revert p. induction cs as [|c cs IH]; intros p; cbn [app pn_run].
  - destruct (pn_run eqo hash n p cs') as [[? ?]|]; reflexivity.
  - destruct (pn_call eqo hash n p c) as [[p1 r]|]; [|reflexivity]. rewrite IH.
    destruct (pn_run eqo hash n p1 cs) as [[p2 rs]|]; [|reflexivity]. cbn [option_map fst snd].
    destruct (pn_run eqo hash n p2 cs') as [[? ?]|]; reflexivity.
Qed.
Lemma p_run_app cs cs' (s : pstate) : p_run eqo d s (cs ++ cs') = p_run eqo d (p_run eqo d s cs) cs'.
Proof. revert s. induction cs as [|c cs IH]; intros s; [reflexivity|apply IH]. Qed.
Lemma p_good_app cs cs' (s : pstate) : p_good_run eqo d s (cs ++ cs') <-> p_good_run eqo d s cs /\ p_good_run eqo d (p_run eqo d s cs) cs'.
Proof.
  revert s. induction cs as [|c cs IH]; intros s; cbn [app p_good_run p_run]; [tauto|]. rewrite IH. tauto.
Qed.
Lemma p_answers_app cs cs' : forall (s : pstate) rs, p_answers eqo d s (cs ++ cs') rs ->
  exists r1 r2, rs = r1 ++ r2 /\ p_answers eqo d (p_run eqo d s cs) cs' r2 /\ length r1 = length cs.
Proof.
  induction cs as [|c cs IH]; intros s rs H.
  - exists [], rs. split; [reflexivity|]. split; [exact H|reflexivity].
  - destruct rs as [|r rs]; [destruct H|]. destruct H as [H1 H2]. destruct (IH _ _ H2) as (r1 & r2 & -> & A & B).
    exists (r :: r1), r2. split; [reflexivity|]. split; [exact A|]. cbn. lia.
Qed.
(** The state a run ends in. *)
Lemma good_psim cpus cs (p : pnet) rs : (1 <= cpus)%N -> (cpus * 4 <= 2 ^ 63)%N -> n = N.to_nat (shard_amount cpus) ->
  p_good_run eqo d p_new cs -> pn_run eqo hash n (pn_new cpus d) cs = Some (p, rs) -> psim p (p_run eqo d p_new cs).
Proof.
  intros H1 H2 Hn G H. destruct (prun_ref eqo E hash n d cs _ _ (psim_new eqo hash n d cpus H1 H2 Hn) G) as (p' & rs' & H' & _ & S).
  rewrite H in H'. injection H' as <- <-. exact S.
Qed.

(** ** Specification-level invariants *)
Definition p_publishes (c : pnop) : bool := match c with PUpdate _ _ => true | _ => false end.
Definition p_removes_node (c : pnop) : bool := match c with PRemoveNode _ _ _ => true | _ => false end.
Definition p_drops (c : pnop) : bool := match c with PRemoveAllEdges => true | _ => false end.


(** The edited graph changes as in the sequential specification. *)
Definition seq_op (c : pnop) : nop O L W :=
  match c with
  | PAddNode u => NAddNode u | PAddEdge u v o => NAddEdge u v o | PRemoveEdge u v => NRemoveEdge u v
  | PRemoveAllEdges => NRemoveAllEdges | PRemoveIncoming u _ => NRemoveIncoming u (fun l => l)
  | PRemoveOutgoing u _ => NRemoveOutgoing u (fun l => l) | PRemoveNode u _ _ => NRemoveNode u (fun l => l) (fun l => l)
  | PUpdateNode u => NUpdateNode u | PUpdate _ _ => NUpdate
  | PGetEdge u v => NGetEdge u v | PGetEdges u => NGetEdges u | PGetObject i => NGetObject i
  end.
Lemma now_next (s : pstate) c : now (p_next eqo d s c) = cur (a_next eqo d (AState (now s) (now s)) (seq_op c)).
Proof.
  destruct c; cbn [p_next seq_op a_next pub cur]; try reflexivity.
  - destruct (id_in u (now s)); [|reflexivity]. destruct (id_in v (now s)); reflexivity.
  - destruct (id_in u (now s)); reflexivity.
  - destruct (id_in u (now s)); reflexivity.
  - destruct (id_in u (now s)); reflexivity.
Qed.
Lemma p_listed_next (s : pstate) c : p_drops c = false -> all_listed (now s) -> all_listed (now (p_next eqo d s c)).
Proof.
  intros Hc H. rewrite now_next. apply (listed_next eqo d (AState (now s) (now s)) (seq_op c)); [destruct c; try discriminate; reflexivity|].
  cbn [pub cur]. split; exact H.
Qed.
Lemma p_listed_run cs : forall s : pstate, forallb (fun c => negb (p_drops c)) cs = true -> all_listed (now s) -> all_listed (now (p_run eqo d s cs)).
Proof.
  induction cs as [|c cs IH]; intros s Hc H; [exact H|]. cbn [forallb] in Hc. apply andb_prop in Hc. destruct Hc as [H1 H2]. apply negb_true_iff in H1.
  cbn [p_run]. apply IH; [exact H2|]. apply p_listed_next; assumption.
Qed.
(** An id that is listed after an update: what is shown. *)
Lemma all_listed_empty : all_listed (@a_empty O L W).
Proof. intros i []. Qed.

(** The published nodes keep their ids, and the published edges lead to published nodes:
    as long as no node is removed. *)
Record p_kept (s : pstate) : Prop := PKept {
  k_obj : forall k x, sobj s k = Some x -> id_in x (now s) = Some k;
  k_end : forall i es e, slist s i = Some es -> In e es -> sobj s (e_v e) <> None
}.
Lemma kept_new : p_kept (p_new : pstate).
Proof. split; [discriminate|intros i es e F; discriminate]. Qed.
Lemma id_in_update u x (a : agraph) : id_in x (a_update_node eqo u a) = id_in x a.
Proof.
  unfold NetSpec.id_in, a_update_node. cbn [nodes]. induction (nodes a) as [|[k y] l IH]; [reflexivity|]. cbn [map find fst snd].
  destruct (eqo u y) eqn:A; cbn [fst snd].
  - assert (B : eqo x u = eqo x y).
    { destruct (eqo x y) eqn:B.
      - apply (eq_trans_ _ E x y u B). apply (eq_sym_ _ E). exact A.
      - destruct (eqo x u) eqn:C; [|reflexivity]. rewrite (eq_trans_ _ E x u y C A) in B. discriminate. }
    rewrite B. destruct (eqo x y); [reflexivity|exact IH].
  - destruct (eqo x y); [reflexivity|exact IH].
Qed.
Lemma id_in_app u x k (a : agraph) : id_in x a = Some k -> id_in x (a_add_node u a) = Some k.
Proof.
  unfold NetSpec.id_in, a_add_node. cbn [nodes]. generalize (N.of_nat (length (nodes a))) as i. intros i. induction (nodes a) as [|[j y] l IH]; [discriminate|]. cbn [app find].
  destruct (eqo x (snd (j, y))); [auto|exact IH].
Qed.
Lemma id_in_nodes u (a b : agraph) : nodes b = nodes a -> id_in u b = id_in u a.
Proof. intros H. unfold NetSpec.id_in. rewrite H. reflexivity. Qed.
Lemma id_in_next (s : pstate) c x k : p_removes_node c = false -> id_in x (now s) = Some k -> id_in x (now (p_next eqo d s c)) = Some k.
Proof.
  intros Hc Hx. destruct c as [u|u v o|u v| |u it|u it|u it it'|u|it it'|u v|u|i]; cbn [p_next set_now now]; try discriminate; try exact Hx.
  - apply id_in_app. exact Hx.
  - rewrite <- Hx. apply id_in_nodes. unfold a_add_edge. destruct (id_in u (now s)); [|reflexivity]. destruct (id_in v (now s)); reflexivity.
  - destruct (id_in u (now s)); [|exact Hx]. destruct (id_in v (now s)); [|exact Hx]. exact Hx.
  - destruct (id_in u (now s)); exact Hx.
  - destruct (id_in u (now s)); exact Hx.
  - rewrite id_in_update. exact Hx.
Qed.
Lemma pub_next (s : pstate) c : p_publishes c = false -> sobj (p_next eqo d s c) = sobj s /\ slist (p_next eqo d s c) = slist s.
Proof.
  intros Hc. destruct c as [u|u v o|u v| |u it|u it|u it it'|u|it it'|u v|u|i]; cbn [p_next set_now sobj slist]; try discriminate; try (split; reflexivity).
  - destruct (id_in u (now s)); [|split; reflexivity]. destruct (id_in v (now s)); split; reflexivity.
  - destruct (id_in u (now s)); split; reflexivity.
  - destruct (id_in u (now s)); split; reflexivity.
  - destruct (id_in u (now s)); split; reflexivity.
Qed.
Lemma kept_next (s : pstate) c : ok (now s) -> p_removes_node c = false -> p_kept s -> p_kept (p_next eqo d s c).
Proof.
  intros Ho Hc [K1 K2]. destruct (p_publishes c) eqn:P.
  - destruct c; try discriminate. cbn [p_next]. split; cbn [p_publish now sobj slist].
    + intros k x F. destruct (object_in k (now s)) as [y|] eqn:A; [|exact (K1 k x F)]. injection F as ->.
      apply (object_in_iff eqo d) in A; [|exact Ho]. exact (id_in_self eqo E d k x (now s) Ho A).
    + intros i es e F He. destruct (object_in (e_v e) (now s)) eqn:A; [discriminate|].
      destruct (is_listed i (now s)).
      * injection F as <-. apply (incident_dst eqo d) in He; [|exact Ho]. apply object_in_none in A. contradiction.
      * exact (K2 i es e F He).
  - destruct (pub_next s c P) as [E1 E2]. split; rewrite E1, ?E2; [|exact K2].
    intros k x F. apply id_in_next; [exact Hc|]. exact (K1 k x F).
Qed.
Lemma kept_run cs : forall (p : pnet) (s : pstate), psim p s -> p_good_run eqo d s cs -> forallb (fun c => negb (p_removes_node c)) cs = true ->
  p_kept s -> p_kept (p_run eqo d s cs).
Proof.
  induction cs as [|c cs IH]; intros p s S G Hc K; [exact K|]. cbn [forallb] in Hc. apply andb_prop in Hc. destruct Hc as [H1 H2]. apply negb_true_iff in H1.
  destruct G as [G1 G2]. destruct (pcall_ref eqo E hash n d p s c S G1) as (p1 & r & _ & _ & S1). cbn [p_run].
  apply (IH p1 _ S1 G2 H2). apply kept_next; [apply (s_ok _ _ _ _ _ _ S)|exact H1|exact K].
Qed.

(** ** Plain histories are good *)
Definition p_added (cs : list pnop) : list O := flat_map (fun c => match c with PAddNode u => [u] | _ => [] end) cs.
(** add_node, add_edge, update_node, update, remove_all_edges and the queries; in a
    directed network also remove_edge, if remove_all_edges is not used. *)
Definition p_plain (drops : bool) (c : pnop) : Prop :=
  match c with
  | PAddNode _ | PAddEdge _ _ _ | PUpdateNode _ | PGetEdge _ _ | PGetEdges _ | PGetObject _ => True
  | PUpdate it it' => reorders it /\ reorders it'
  | PRemoveAllEdges => drops = true
  | PRemoveEdge _ _ => d = true /\ drops = false
  | PRemoveIncoming _ _ | PRemoveOutgoing _ _ | PRemoveNode _ _ _ => False
  end.
Record p_line (drops : bool) (done : list O) (s : pstate) : Prop := PLine {
  n_kept : p_kept s;
  n_ids : map fst (nodes (now s)) = map N.of_nat (seq 0 (length (nodes (now s))));
  n_len : length (nodes (now s)) = length done;
  n_in : forall x, In x (map snd (nodes (now s))) -> exists y, In y done /\ eqo x y = true;
  n_all : drops = false -> all_listed (now s)
}.
Lemma line_good drops done (p : pnet) (s : pstate) c rest : psim p s -> p_line drops done s -> p_plain drops c ->
  different eqo (done ++ p_added [c] ++ rest) -> N.of_nat (length (done ++ p_added [c] ++ rest)) <= 4294967296 ->
  p_good eqo d s c /\ p_line drops (done ++ p_added [c]) (p_next eqo d s c).
Proof.
  intros S [K I Ln In_ A] Pc D Le. pose proof (s_ok _ _ _ _ _ _ S) as Ho.
  assert (KN : forall Hc : p_removes_node c = false, p_kept (p_next eqo d s c)) by (intros Hc; apply kept_next; assumption).
  assert (AL : p_drops c = false -> drops = false -> all_listed (now (p_next eqo d s c))) by (intros H1 H2; apply p_listed_next; auto).
  assert (SAME : nodes (now (p_next eqo d s c)) = nodes (now s) -> p_added [c] = [] -> p_removes_node c = false -> (p_drops c = false \/ drops = true) ->
    p_line drops (done ++ p_added [c]) (p_next eqo d s c)).
  { intros H1 H2 H3 H4. rewrite H2, app_nil_r. split; rewrite ?H1; auto. destruct H4 as [H4|H4]; [auto|congruence]. }
  destruct c as [u|u v o|u v| |u it|u it|u it it'|u|it it'|u v|u|i]; cbn [p_plain] in Pc; try contradiction.
  - split.
    + cbn [p_good].
      assert (FR : ~ In (N.of_nat (length (nodes (now s)))) (map fst (nodes (now s)))).
      { rewrite I. intros F. apply in_map_iff in F. destruct F as (j & F1 & F2). apply in_seq in F2. lia. }
      split; [|split; [|split]].
      * destruct (id_in u (now s)) as [i|] eqn:F; [|reflexivity]. apply (id_in_iff eqo E d) in F; [|exact Ho]. destruct F as (x & F1 & F2).
        destruct (In_ x) as (y & Y1 & Y2); [apply in_map_iff; exists (i, x); auto|]. exfalso.
        assert (XY : eqo u y = true) by exact (eq_trans_ _ E u x y F2 Y2). apply (eq_sym_ _ E) in XY.
        clear - D Y1 XY. cbn [p_added flat_map app] in D. induction done as [|z l IH]; [destruct Y1|]. cbn [app] in D. inversion D as [|? ? D1 D2]; subst.
        destruct Y1 as [->|Y1]; [|apply IH; assumption]. rewrite Forall_forall in D1. rewrite (D1 u) in XY; [discriminate|]. apply in_or_app. right. left. reflexivity.
      * destruct (object_in (N.of_nat (length (nodes (now s)))) (now s)) as [x|] eqn:F; [|reflexivity]. exfalso. apply FR.
        apply (object_in_iff eqo d) in F; [|exact Ho]. apply in_map_iff. exists (N.of_nat (length (nodes (now s))), x). auto.
      * destruct (slist s (N.of_nat (length (nodes (now s))))) as [es|] eqn:F; [|reflexivity]. exfalso. apply FR.
        destruct (sobj s (N.of_nat (length (nodes (now s))))) as [x|] eqn:G.
        -- apply (k_obj _ K) in G. exact (id_in_known eqo E d x _ (now s) Ho G).
        -- exfalso. apply (s_pub _ _ _ _ _ _ S (N.of_nat (length (nodes (now s))))); [rewrite F; discriminate|exact G].
      * rewrite Ln. cbn [p_added flat_map app] in Le. rewrite app_length in Le. cbn [length] in Le. lia.
    + split; [apply KN; reflexivity| | | |intros H; apply AL; [reflexivity|exact H]]; cbn [p_next set_now now a_add_node nodes p_added flat_map app].
      * rewrite map_app, app_length, I. cbn [map fst length]. rewrite Nat.add_1_r, seq_S, map_app. reflexivity.
      * rewrite !app_length, Ln. reflexivity.
      * intros x Hx. rewrite map_app in Hx. apply in_app_or in Hx. destruct Hx as [Hx|[<-|[]]].
        -- destruct (In_ x Hx) as (y & Y1 & Y2). exists y. split; [apply in_or_app; left; exact Y1|exact Y2].
        -- exists u. split; [apply in_or_app; right; left; reflexivity|apply (eq_refl_ _ E)].
  - split; [exact Logic.I|]. apply SAME; try reflexivity; [|left; reflexivity]. cbn [p_next set_now now]. unfold a_add_edge.
    destruct (id_in u (now s)); [|reflexivity]. destruct (id_in v (now s)); reflexivity.
  - destruct Pc as [Dd Dr]. split.
    + cbn [p_good]. intros i j Hi Hj. split; [|left; exact Dd]. apply (A Dr). exact (id_in_known eqo E d u i (now s) Ho Hi).
    + apply SAME; try reflexivity; [|left; reflexivity]. cbn [p_next]. destruct (id_in u (now s)); [|reflexivity]. destruct (id_in v (now s)); reflexivity.
  - split; [exact Logic.I|]. apply SAME; try reflexivity. right. exact Pc.
  - split; [exact Logic.I|]. split; [apply KN; reflexivity| | | |intros H; apply AL; [reflexivity|exact H]]; cbn [p_next set_now now a_update_node nodes p_added flat_map].
    + rewrite map_map, map_length. rewrite <- I. apply map_ext. intros q. destruct (eqo u (snd q)); reflexivity.
    + rewrite map_length, app_nil_r. exact Ln.
    + rewrite app_nil_r. intros x Hx. rewrite map_map in Hx. apply in_map_iff in Hx. destruct Hx as ([k y] & Q1 & Q2). cbn [fst snd] in Q1.
      destruct (In_ y) as (z & Z1 & Z2); [apply in_map_iff; exists (k, y); auto|].
      destruct (eqo u y) eqn:B; cbn [snd] in Q1; subst x; exists z; split; try exact Z1; [exact (eq_trans_ _ E u y z B Z2)|exact Z2].
  - split; [exact Pc|]. apply SAME; try reflexivity. left. reflexivity.
  - split.
    + cbn [p_good]. intros i es e Hi Hv Hes He. pose proof (k_end _ K i es e Hes He) as F. destruct (sobj s (e_v e)) as [x|] eqn:G; [|contradiction].
      exists x. split; [reflexivity|]. exact (k_obj _ K _ _ G).
    + apply SAME; try reflexivity. left. reflexivity.
  - split; [exact Logic.I|]. apply SAME; try reflexivity. left. reflexivity.
  - split; [exact Logic.I|]. apply SAME; try reflexivity. left. reflexivity.
Qed.
Lemma line_run drops cs : forall done (p : pnet) (s : pstate), psim p s -> p_line drops done s -> Forall (p_plain drops) cs ->
  different eqo (done ++ p_added cs) -> N.of_nat (length (done ++ p_added cs)) <= 4294967296 -> p_good_run eqo d s cs.
Proof.
  induction cs as [|c cs IH]; intros done p s S Ln F D Le; [exact I|]. inversion F as [|? ? F1 F2]; subst.
  assert (AC : p_added (c :: cs) = p_added [c] ++ p_added cs) by (unfold p_added; cbn [flat_map]; rewrite app_nil_r; reflexivity).
  rewrite AC in D, Le. destruct (line_good drops done p s c (p_added cs) S Ln F1 D Le) as [G L1]. cbn [p_good_run]. split; [exact G|].
  destruct (pcall_ref eqo E hash n d p s c S G) as (p1 & r & _ & _ & S1). rewrite app_assoc in D, Le. exact (IH _ p1 _ S1 L1 F2 D Le).
Qed.
End Facts.

(** ** Preferential attachment and add_prob_edge *)
Section Attach.
Context {O L W : Type}.
Variable eqo : O -> O -> bool.
Variable E : equivalence eqo.
Variable hash : N -> N.
Variable n : nat.
Variable d : bool.

Local Notation edge := (edge L W).
Local Notation opts := (edge_options L W).
Local Notation agraph := (agraph O L W).
Local Notation pnet := (pnet O L W).
Local Notation pstate := (pstate O L W).
Local Notation psim := (psim eqo hash n d).
Local Notation ok := (ok eqo d).
Local Notation id_in := (@id_in O L W eqo).

(** The graph after the edges from [u] to [xs]. *)
Definition joined_to (u : O) (xs : list O) (a : agraph) : agraph := fold_left (fun a x => a_add_edge eqo d u x Simple a) xs a.
Lemma link_psim xs : forall (p : pnet) (s : pstate) u, psim p s ->
  exists p', pn_link eqo hash p u xs = Some p' /\ psim p' (set_now s (joined_to u xs (now s))).
Proof.
  induction xs as [|x xs IH]; intros p s u S; cbn [pn_link].
  - exists p. split; [reflexivity|]. destruct s; exact S.
  - destruct (add_edge_psim eqo E hash n d p s u x Simple S) as (p1 & -> & S1). destruct (IH p1 _ u S1) as (p' & -> & S').
    exists p'. split; [reflexivity|exact S'].
Qed.
Lemma len_nodes (p : pnet) (s : pstate) : psim p s -> len (p_i2n p) = length (nodes (now s)).
Proof.
  intros S. unfold len. rewrite (len_concat (p_i2n p).(d_shards)). fold (wl (p_i2n p)). pose proof (s_rep _ _ _ _ _ _ S) as R. pose proof (s_ok _ _ _ _ _ _ S) as H.
  apply Permutation_length, NoDup_Permutation.
  - apply (NoDup_map_inv fst). apply (proj2 (kuniq_nodes _)), (r_ui _ _ _ _ R).
  - apply (NoDup_map_inv fst), (ok_ids _ _ _ H).
  - intros [k x]. exact (in_nodes_it eqo d (sq p) (now s) (fun l => l) R H (fun l => Permutation_refl l) k x).
Qed.
Lemma remove_all_psim_now (p : pnet) (s : pstate) : psim p s -> psim (pn_remove_all_edges p) (set_now s (AGraph (nodes (now s)) [] [])).
Proof.
  intros S. destruct (pcall_ref eqo E hash n d p s PRemoveAllEdges S I) as (p' & r & E1 & _ & S1). injection E1 as <- <-. exact S1.
Qed.

Variable choose : nat -> list (O * N * nat) -> nat -> list (O * N * nat).
Variable C : choose_ok choose.
Variable node_set : list O.
Variable m : nat.
Variable idn : nat -> N.
Local Notation linked := (linked (L := L) (W := W) idn).

Lemma joined_linked a pairs b node i (cs : list (O * N * nat)) : linked a pairs b -> id_in node a = Some (idn i) ->
  (forall c, In c cs -> id_in (fst (fst c)) a = Some (idn (snd c))) ->
  linked a (pairs ++ map (fun c => (i, snd c)) cs) (joined_to node (map (fun c => fst (fst c)) cs) b).
Proof.
  revert pairs b. induction cs as [|c cs IH]; intros pairs b HL Hn Hc.
  - cbn. rewrite app_nil_r. exact HL.
  - cbn [map joined_to fold_left]. destruct HL as [HL1 HL2].
    assert (IDB : forall u, id_in u b = id_in u a) by (intros u; unfold NetSpec.id_in; rewrite HL1; reflexivity).
    assert (L1 : linked a (pairs ++ [(i, snd c)]) (a_add_edge eqo d node (fst (fst c)) Simple b)).
    { unfold a_add_edge. rewrite !IDB, Hn, (Hc c (or_introl eq_refl)). split; cbn [nodes edges]; [exact HL1|]. rewrite HL2. unfold as_edges. rewrite map_app. reflexivity. }
    specialize (IH _ _ L1 Hn (fun c' Hc' => Hc c' (or_intror Hc'))). rewrite <- app_assoc in IH. exact IH.
Qed.
Lemma pba_loop_psim a k0 : (k0 <= length node_set)%nat -> (forall k x, (k < k0)%nat -> nth_error node_set k = Some x -> id_in x a = Some (idn k)) ->
  forall todo e (p : pnet) (s : pstate), (2 + e + todo = k0)%nat -> psim p s -> linked a (attached choose node_set m e) (now s) ->
  exists p' b, pba_loop eqo hash choose m node_set todo (2 + e) (weighted node_set (2 + e) (attached choose node_set m e)) p = Some p' /\
    psim p' (set_now s b) /\ linked a (attached choose node_set m (e + todo)) b.
Proof.
  intros Hn Hid. induction todo as [|todo IH]; intros e p s HS HSim HL.
  - exists p, (now s). rewrite Nat.add_0_r. split; [reflexivity|]. split; [destruct s; exact HSim|exact HL].
  - cbn [pba_loop]. set (pairs := attached choose node_set m e) in *. set (i := (2 + e)%nat) in *.
    destruct (nth_error node_set i) as [node|] eqn:F; [|apply nth_error_None in F; lia].
    rewrite weighted_length by lia.
    assert (AM : (if Nat.ltb i m then i else m) = Nat.min i m). { destruct (Nat.ltb i m) eqn:B; [apply Nat.ltb_lt in B|apply Nat.ltb_ge in B]; lia. }
    rewrite AM. destruct (C i (weighted node_set i pairs) (Nat.min i m)) as (C1 & C2 & C3).
    { apply weighted_nodup. lia. } { rewrite weighted_length; lia. }
    set (cs := choose i (weighted node_set i pairs) (Nat.min i m)) in *.
    assert (D0 : degree i pairs = 0%nat) by (apply degree_zero; apply (attached_lt choose C); lia).
    rewrite <- C1, (bump_weighted node_set i pairs cs ltac:(lia) C3 node F D0).
    unfold pba_link. destruct (link_psim (map (fun c => fst (fst c)) cs) p s node HSim) as (p1 & -> & S1).
    pose proof (joined_linked a pairs (now s) node i cs HL (Hid i node ltac:(lia) F)) as L1.
    assert (HC : forall c, In c cs -> id_in (fst (fst c)) a = Some (idn (snd c))).
    { intros c Hc. apply C3, weighted_in in Hc; [|lia]. destruct Hc as (k & x & Hk & Hx & ->). cbn [fst snd]. apply Hid; [lia|exact Hx]. }
    specialize (L1 HC).
    assert (AT : pairs ++ map (fun c => (i, snd c)) cs = attached choose node_set m (S e)) by reflexivity.
    rewrite AT in *. replace (e + S todo)%nat with (S e + todo)%nat by lia.
    destruct (IH (S e) p1 _ ltac:(lia) S1 L1) as (p' & b & Q1 & Q2 & Q3). exists p', b. split; [exact Q1|]. split; [exact Q2|exact Q3].
Qed.
Lemma pba_psim (p : pnet) (s : pstate) it it' : psim p s -> reorders it -> reorders it' ->
  (2 <= length (nodes (now s)) <= length node_set)%nat ->
  (forall k x, (k < length (nodes (now s)))%nat -> nth_error node_set k = Some x -> id_in x (now s) = Some (idn k)) ->
  exists p' b, pn_preferential eqo hash choose it it' n p node_set m = Some p' /\ psim p' (p_publish d (set_now s b)) /\
    nodes b = nodes (now s) /\ edges b = as_edges idn (attached choose node_set m (length (nodes (now s)) - 2)) /\ ok b.
Proof.
  intros S P P' [H2 Hn] Hid. unfold pn_preferential. rewrite (len_nodes p s S).
  destruct node_set as [|na [|nb ns]] eqn:NS; cbn [length] in Hn; try lia.
  pose proof (remove_all_psim_now p s S) as S0.
  pose proof (Hid 0%nat na ltac:(lia) eq_refl) as I0. pose proof (Hid 1%nat nb ltac:(lia) eq_refl) as I1.
  destruct (add_edge_psim eqo E hash n d _ _ na nb Simple S0) as (p1 & -> & S1). cbn [set_now now sobj slist] in S1.
  set (b1 := a_add_edge eqo d na nb Simple (AGraph (nodes (now s)) [] [])) in *.
  assert (LK : linked (now s) [(0%nat, 1%nat)] b1).
  { unfold b1, a_add_edge, NetSpec.id_in. cbn [nodes]. unfold NetSpec.id_in in I0, I1. rewrite I0, I1. split; reflexivity. }
  rewrite <- NS in *.
  destruct (pba_loop_psim (now s) (length (nodes (now s)))) with (todo := (length (nodes (now s)) - 2)%nat) (e := 0%nat) (p := p1) (s := set_now (set_now s (AGraph (nodes (now s)) [] [])) b1)
    as (p2 & b & E1 & S2 & L2).
  { rewrite NS. cbn [length]. lia. } { exact Hid. } { lia. } { exact S1. } { exact LK. }
  assert (WT : weighted node_set (2 + 0) (attached choose node_set m 0) = [(na, 1%N, 0%nat); (nb, 1%N, 1%nat)]) by (rewrite NS; reflexivity).
  rewrite WT in E1. cbn [Nat.add] in E1. rewrite E1.
  destruct (update_psim eqo hash n d p2 _ it it' S2 P P') as (p3 & E3 & S3). exists p3, b. split; [exact E3|]. split; [exact S3|].
  destruct L2 as [L2 L3]. cbn [Nat.add] in L3. split; [exact L2|]. split; [exact L3|]. exact (s_ok _ _ _ _ _ _ S2).
Qed.
End Attach.

Section Prob.
Context {O L W : Type}.
Variable eqo : O -> O -> bool.
Variable E : equivalence eqo.
Variable hash : N -> N.
Variable n : nat.
Variable d : bool.
Local Notation pnet := (pnet O L W).
Local Notation pstate := (pstate O L W).
Local Notation psim := (psim eqo hash n d).
Local Notation id_in := (@id_in O L W eqo).
(** The candidates of add_prob_edge: the published nodes that are still known, weighted
    with the number of their published edges. *)
Definition candidate (s : pstate) (k : N) : list (O * nat) :=
  match sobj s k with
  | Some x => match id_in x (now s) with
              | Some j => match slist s j with Some es => [(x, length es)] | None => [] end
              | None => [] end
  | None => [] end.
Lemma degrees_psim ks : forall (p : pnet) (s : pstate), psim p s -> (forall k, In k ks -> sobj s k <> None) ->
  pn_degrees eqo hash p ks = Some (flat_map (candidate s) ks).
Proof.
  induction ks as [|k ks IH]; intros p s S H; [reflexivity|]. cbn [pn_degrees flat_map]. rewrite (object_now eqo hash n d p s k S).
  unfold candidate at 1. destruct (sobj s k) as [x|] eqn:F; [|exfalso; exact (H k (or_introl eq_refl) F)].
  rewrite (pn_edges_sim eqo hash n d p s x S), (IH p s S) by (intros k' Hk; apply H; right; exact Hk).
  destruct (id_in x (now s)) as [j|]; [|reflexivity]. destruct (slist s j); reflexivity.
Qed.
Lemma keys_nodup (p : pnet) (s : pstate) it : psim p s -> reorders it ->
  NoDup (keys it (p_edges p)) /\ forall k, In k (keys it (p_edges p)) <-> slist s k <> None.
Proof.
  intros S P. destruct (v_keys N.eqb hash (LN hash) n (p_edges p) it (s_we _ _ _ _ _ _ S) P) as (l & [HL HU] & HK).
  rewrite HK. split.
  - apply (proj2 (kuniq_nodes _)). exact HU.
  - intros k. rewrite <- (s_re _ _ _ _ _ _ S). split.
    + intros F. apply in_map_iff in F. destruct F as (q & <- & F). rewrite (proj2 (HL (fst q) q) (conj F (N.eqb_refl _))). discriminate.
    + intros F. destruct (rv N.eqb hash (p_edges p) k) as [q|] eqn:A; [|contradiction]. apply HL in A. destruct A as [A1 A2].
      apply N.eqb_eq in A2. subst k. apply in_map. exact A1.
Qed.
Lemma len_listed (p : pnet) (s : pstate) : psim p s ->
  len (p_edges p) = length (filter (fun i => is_listed i (now s)) (map fst (nodes (now s)))).
Proof.
  intros S. unfold len. rewrite (len_concat (p_edges p).(d_shards)). fold (wl (p_edges p)). pose proof (s_rep _ _ _ _ _ _ S) as R. pose proof (s_ok _ _ _ _ _ _ S) as H.
  rewrite <- (map_length fst (wl (p_edges p))). apply Permutation_length, NoDup_Permutation.
  - apply (proj2 (kuniq_nodes _)), (r_ua _ _ _ _ R).
  - apply NoDup_filter, (ok_ids _ _ _ H).
  - intros k. rewrite filter_In. pose proof (r_adj _ _ _ _ R k) as A. cbn [wg adj] in A. split.
    + intros F. assert (LI : is_listed k (now s) = true).
      { destruct (is_listed k (now s)) eqn:B; [reflexivity|]. apply in_map_iff in F. destruct F as (q & <- & F).
        pose proof (lk_none_inv N.eqb _ _ A q F) as G. rewrite N.eqb_refl in G. discriminate. }
      split; [exact (ok_listed _ _ _ H k LI)|exact LI].
    + intros [_ F]. rewrite F in A. apply lk_some_in in A. destruct A as (k' & A1 & A2). apply N.eqb_eq in A2. subst k'.
      apply in_map_iff. eexists. split; [|exact A1]. reflexivity.
Qed.
End Prob.
