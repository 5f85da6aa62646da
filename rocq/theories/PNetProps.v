(** * Property theorems: the parallel Network (C92-C99) *)
From Coq Require Import List Bool NArith Arith Lia Permutation.
From Verif Require Import DashModel NetModel NetSpec NetBASpec NetProofs NetRef NetRun NetBA NetIds NetFacts PNetModel PNetSpec PNetProofs PNetFacts.
Import ListNotations.
Open Scope N_scope.

Local Notation shards cpus := (N.to_nat (shard_amount cpus)).
(** A number of processors for which the shards can be counted. *)
Definition some_cpus (cpus : N) : Prop := (1 <= cpus)%N /\ (cpus * 4 <= 2 ^ 63)%N.

(** ** Concrete vocabulary: nodes, labels and weights are numbers; one processor. *)
Local Notation call := (pnop N N N).
Local Notation state := (pstate N N N).
Definition keep {X} (l : list X) := l.
Definition pAdd (u : N) : call := PAddNode u.
Definition pLink (u v : N) : call := PAddEdge u v Simple.
Definition pLinkw (u v w : N) : call := PAddEdge u v (Weighted w).
Definition pCut (u v : N) : call := PRemoveEdge u v.
Definition pGone (u : N) : call := PRemoveNode u keep keep.
Definition pPublish : call := PUpdate keep (@rev _).
Definition hid (i : N) : N := i * 2 ^ 50.
Definition prun (d : bool) (cs : list call) := pn_run N.eqb hid (shards 1) (pn_new 1 d) cs.
Definition pfinal (d : bool) (cs : list call) : pnet N N N := match prun d cs with Some (p, _) => p | None => pn_new 1 d end.

(** Deciding [p_good_run] for the examples.  [b] bounds the ids in use. *)
Definition upto (b : N) : list N := map N.of_nat (seq 0 (N.to_nat b)).
Lemma upto_in b k : k < b -> In k (upto b).
Proof. intros H. apply in_map_iff. exists (N.to_nat k). split; [apply N2Nat.id|]. apply in_seq. lia. Qed.
Record bounded (b : N) (s : state) : Prop := Bounded {
  b_len : N.of_nat (length (nodes (now s))) <= b;
  b_ids : forall i, In i (map fst (nodes (now s))) -> i < b;
  b_lst : forall i, is_listed i (now s) = true -> i < b;
  b_pub : forall i, slist s i <> None -> i < b
}.
Definition more (c : call) : N := match c with PAddNode _ => 1 | _ => 0 end.
Lemma bounded_next d b s c : bounded b s -> bounded (b + more c) (p_next N.eqb d s c).
Proof.
  intros [H1 H2 H3 H4].
  assert (BI : forall u i, id_in N.eqb u (now s) = Some i -> i < b).
  { intros u i F. unfold id_in in F. destruct (find _ (nodes (now s))) as [q|] eqn:G; [|discriminate]. injection F as <-. apply find_some in G.
    apply H2. apply in_map. apply G. }
  assert (SAME : forall a, nodes a = nodes (now s) -> (forall i, is_listed i a = true -> i < b) -> bounded (b + 0) (set_now s a)).
  { intros a Ha Hl. rewrite N.add_0_r. constructor; cbn [set_now now slist]; rewrite ?Ha; assumption. }
  assert (ID : bounded (b + 0) s) by (rewrite N.add_0_r; constructor; assumption).
  destruct c as [u|u v o|u v| |u it|u it|u it it'|u|it it'|u v|u|i]; cbn [more p_next]; try exact ID.
  - constructor; cbn [set_now now slist a_add_node nodes].
    + rewrite app_length. cbn [length]. lia.
    + intros i Hi. rewrite map_app in Hi. apply in_app_or in Hi. destruct Hi as [Hi|[<-|[]]]; [specialize (H2 i Hi)|cbn [fst]]; lia.
    + intros i Hi. unfold is_listed in Hi. cbn [listed existsb] in Hi. apply orb_prop in Hi. destruct Hi as [Hi|Hi]; [apply N.eqb_eq in Hi; subst; lia|].
      specialize (H3 i Hi). lia.
    + intros i Hi. specialize (H4 i Hi). lia.
  - unfold a_add_edge. destruct (id_in N.eqb u (now s)) as [i|] eqn:Fu; [|apply SAME; auto]. destruct (id_in N.eqb v (now s)) as [j|] eqn:Fv; [|apply SAME; auto].
    apply SAME; [reflexivity|]. intros k Hk. unfold is_listed in Hk. cbn [listed existsb] in Hk. rewrite existsb_app in Hk.
    apply orb_prop in Hk. destruct Hk as [Hk|Hk]; [apply N.eqb_eq in Hk; subst; exact (BI u i Fu)|]. apply orb_prop in Hk. destruct Hk as [Hk|Hk]; [|apply H3; exact Hk].
    destruct d; [discriminate|]. cbn [existsb] in Hk. rewrite orb_false_r in Hk. apply N.eqb_eq in Hk. subst. exact (BI v j Fv).
  - destruct (id_in N.eqb u (now s)); [|exact ID]. destruct (id_in N.eqb v (now s)); [|exact ID]. apply SAME; [reflexivity|exact H3].
  - apply SAME; [reflexivity|]. discriminate.
  - destruct (id_in N.eqb u (now s)); [|exact ID]. apply SAME; [reflexivity|exact H3].
  - destruct (id_in N.eqb u (now s)); [|exact ID]. apply SAME; [reflexivity|exact H3].
  - destruct (id_in N.eqb u (now s)) as [i|]; [|exact ID]. rewrite N.add_0_r. constructor; cbn [set_now now slist a_remove_node nodes].
    + unfold drop. assert (F : forall l : list (N * N), (length (filter (fun x => negb (fst x =? i)%N) l) <= length l)%nat).
      { induction l as [|q l IH]; [cbn; lia|]. cbn [filter]. destruct (negb (fst q =? i)); cbn [length]; lia. }
      specialize (F (nodes (now s))). lia.
    + intros k Hk. apply in_map_iff in Hk. destruct Hk as (q & <- & Hk). unfold drop in Hk. apply filter_In in Hk. apply H2. apply in_map. apply Hk.
    + intros k Hk. apply H3. unfold is_listed in *. cbn [listed] in Hk. unfold drop in Hk. apply existsb_exists in Hk. destruct Hk as (x & X1 & X2).
      apply filter_In in X1. apply existsb_exists. exists x. split; [apply X1|exact X2].
    + exact H4.
  - rewrite N.add_0_r. constructor; cbn [set_now now slist a_update_node nodes].
    + rewrite map_length. exact H1.
    + intros k Hk. apply H2. rewrite map_map in Hk. apply in_map_iff in Hk. destruct Hk as (q & <- & Hk). destruct (u =? snd q); cbn [fst]; exact (in_map fst _ q Hk).
    + exact H3.
    + exact H4.
  - rewrite N.add_0_r. constructor; cbn [p_publish now slist]; try assumption. intros k Hk. destruct (is_listed k (now s)) eqn:A; [apply H3; exact A|apply H4; exact Hk].
Qed.
Definition stableb (b : N) (s : state) : bool :=
  forallb (fun k => match slist s k, sobj s k with
                    | Some _, Some x => match id_in N.eqb x (now s) with None => true | Some k' => (k' =? k) && is_listed k (now s) end
                    | _, _ => true end) (upto b).
Lemma stableb_ok b s : bounded b s -> stableb b s = true -> p_stable N.eqb s.
Proof.
  intros B H k x Hk Hx. unfold stableb in H. rewrite forallb_forall in H. specialize (H k (upto_in b k (b_pub _ _ B k Hk))). rewrite Hx in H.
  destruct (slist s k); [|contradiction]. destruct (id_in N.eqb x (now s)) as [k'|]; [|left; reflexivity]. right. apply andb_prop in H. destruct H as [H1 H2].
  apply N.eqb_eq in H1. subst. auto.
Qed.
Definition reachedb (s : state) (i : N) (f : N * N * edge_options N N -> bool) : bool :=
  forallb (fun e => negb (f e) || match slist s (the_other i e) with
                                  | None => false
                                  | Some _ => match sobj s (the_other i e) with
                                              | None => true
                                              | Some x => match id_in N.eqb x (now s) with Some k => k =? the_other i e | None => false end
                                              end
                                  end) (edges (now s)).
Lemma reachedb_ok s i f : reachedb s i f = true -> p_reached N.eqb s i f.
Proof.
  intros H e He Hf. unfold reachedb in H. rewrite forallb_forall in H. specialize (H e He). rewrite Hf in H. cbn [negb orb] in H.
  destruct (slist s (the_other i e)); [|discriminate]. split; [discriminate|]. intros x Hx. rewrite Hx in H.
  destruct (id_in N.eqb x (now s)); [|discriminate]. apply N.eqb_eq in H. congruence.
Qed.
Definition singleb (s : state) (i : N) (f : N * N * edge_options N N -> bool) : bool :=
  forallb (fun e => Nat.leb (length (filter (fun e' => f e' && (the_other i e' =? the_other i e)) (edges (now s)))) 1) (edges (now s)).
Lemma singleb_ok s i f : singleb s i f = true -> p_single s i f.
Proof.
  intros H k. unfold singleb in H. rewrite forallb_forall in H.
  destruct (filter (fun e => f e && (the_other i e =? k)) (edges (now s))) as [|e0 l] eqn:F; [cbn; lia|]. rewrite <- F.
  assert (HI : In e0 (filter (fun e => f e && (the_other i e =? k)) (edges (now s)))) by (rewrite F; left; reflexivity).
  apply filter_In in HI. destruct HI as [HI HK]. apply andb_prop in HK. destruct HK as [_ HK]. apply N.eqb_eq in HK. subst k. apply Nat.leb_le. apply (H _ HI).
Qed.
Definition pgoodb (d : bool) (b : N) (s : state) (c : call) : bool :=
  let all i f := is_listed i (now s) && stableb b s && reachedb s i f in
  match c with
  | PAddNode u =>
      match id_in N.eqb u (now s), object_in (N.of_nat (length (nodes (now s)))) (now s), slist s (N.of_nat (length (nodes (now s)))) with
      | None, None, None => N.of_nat (length (nodes (now s))) <? 4294967296 | _, _, _ => false end
  | PRemoveEdge u v =>
      match id_in N.eqb u (now s), id_in N.eqb v (now s) with
      | Some i, Some j => is_listed i (now s) && (d || Nat.leb (count_between d i j (now s)) 1)
      | _, _ => true end
  | PRemoveOutgoing u _ => match id_in N.eqb u (now s) with Some i => all i (leaves d i) && singleb s i (leaves d i) | None => true end
  | PRemoveIncoming u _ => match id_in N.eqb u (now s) with Some i => all i (enters d i) && singleb s i (enters d i) | None => true end
  | PRemoveNode u _ _ => match id_in N.eqb u (now s) with Some i => all i (enters d i) && (negb d || singleb s i (enters d i)) | None => true end
  | PGetEdge u v =>
      match id_in N.eqb u (now s) with
      | Some i => match slist s i with
                  | Some es => forallb (fun e => match sobj s (e_v e) with
                                                 | Some x => match id_in N.eqb x (now s) with Some k => k =? e_v e | None => false end
                                                 | None => false end) es
                  | None => true end
      | None => true end
  | _ => true
  end.
Definition pplain (c : call) : Prop :=
  match c with
  | PRemoveNode _ it it' => reorders it /\ reorders it'
  | PRemoveIncoming _ it | PRemoveOutgoing _ it => reorders it
  | PUpdate it it' => reorders it /\ reorders it'
  | _ => True
  end.
Fixpoint pgood_runb (d : bool) (b : N) (s : state) (cs : list call) : bool :=
  match cs with [] => true | c :: cs' => pgoodb d b s c && pgood_runb d (b + more c) (p_next N.eqb d s c) cs' end.
Lemma pgood_runb_ok d cs : forall b s, bounded b s -> Forall pplain cs -> pgood_runb d b s cs = true -> p_good_run N.eqb d s cs.
Proof.
  induction cs as [|c cs IH]; intros b s B P H; [exact I|]. inversion P as [|? ? P1 P2]; subst. cbn [pgood_runb] in H. apply andb_prop in H. destruct H as [H1 H2].
  cbn [p_good_run]. split; [|apply (IH (b + more c)); [apply bounded_next; exact B|exact P2|exact H2]]. clear H2 IH P.
  destruct c as [u|u v o|u v| |u it|u it|u it it'|u|it it'|u v|u|i]; try exact I; cbn [pgoodb] in H1; cbn [p_good]; cbn [pplain] in P1.
  - destruct (id_in N.eqb u (now s)); [discriminate|]. destruct (object_in _ _); [discriminate|]. destruct (slist s _); [discriminate|]. apply N.ltb_lt in H1. auto.
  - intros i j Hi Hj. rewrite Hi, Hj in H1. apply andb_prop in H1. destruct H1 as [H1 H2]. split; [exact H1|]. apply orb_prop in H2. destruct H2 as [H2|H2]; [left; exact H2|right; apply Nat.leb_le; exact H2].
  - split; [exact P1|]. intros i Hi. rewrite Hi in H1. repeat (apply andb_prop in H1; destruct H1 as [H1 ?]).
    split; [assumption|]. split; [apply (stableb_ok b); assumption|]. split; [apply reachedb_ok; assumption|apply singleb_ok; assumption].
  - split; [exact P1|]. intros i Hi. rewrite Hi in H1. repeat (apply andb_prop in H1; destruct H1 as [H1 ?]).
    split; [assumption|]. split; [apply (stableb_ok b); assumption|]. split; [apply reachedb_ok; assumption|apply singleb_ok; assumption].
  - destruct P1 as [P1 P1']. split; [exact P1|]. split; [exact P1'|]. intros i Hi. rewrite Hi in H1. apply andb_prop in H1. destruct H1 as [H1 H4].
    apply andb_prop in H1. destruct H1 as [H1 H3]. apply andb_prop in H1. destruct H1 as [H1 H2].
    split; [assumption|]. split; [apply (stableb_ok b); assumption|]. split; [apply reachedb_ok; assumption|]. intros ->. apply singleb_ok. exact H4.
  - exact P1.
  - intros i es e Hi _ Hes He. rewrite Hi, Hes in H1. rewrite forallb_forall in H1. specialize (H1 e He). destruct (sobj s (e_v e)) as [x|]; [|discriminate].
    exists x. split; [reflexivity|]. destruct (id_in N.eqb x (now s)) as [k|]; [|discriminate]. apply N.eqb_eq in H1. congruence.
Qed.
Lemma bounded_new : bounded 0 p_new.
Proof. constructor; [apply N.le_refl|intros i []|intros i F; discriminate F|intros i F; exfalso; apply F; reflexivity]. Qed.
Lemma keep_reorders {X} : reorders (@keep X).
Proof. intros l. apply Permutation_refl. Qed.
Lemma rev_reorders {X} : reorders (@rev X).
Proof. intros l. apply Permutation_sym, Permutation_rev. Qed.
Ltac pgood := apply (pgood_runb_ok _ _ 0 _ bounded_new);
  [repeat constructor; first [exact keep_reorders|exact rev_reorders]|vm_compute; reflexivity].
Lemma N_equivalence : equivalence N.eqb.
Proof. constructor; intros; repeat match goal with H : (_ =? _) = true |- _ => apply N.eqb_eq in H end; subst; apply N.eqb_refl. Qed.
Definition pex_history : list call :=
  [pAdd 10; pAdd 20; pAdd 30; pLinkw 10 20 7; pPublish; pLink 20 30; pLinkw 30 10 5; pCut 20 10; pPublish;
   pAdd 40; pLink 40 30; pLink 20 20; pPublish; pGone 40; pPublish; PGetEdges 30; PGetEdge 30 20; PGetObject 3].
Lemma pex_good d : p_good_run N.eqb d p_new pex_history.
Proof. destruct d; pgood. Qed.

(** ** C92: a history of calls behaves like the same history on an abstract graph *)
Theorem C92_refines_graph :
  forall (O L W : Type) (eqo : O -> O -> bool) hash cpus (directed : bool) (cs : list (pnop O L W)),
    equivalence eqo -> some_cpus cpus -> p_good_run eqo directed p_new cs ->
    exists p rs, pn_run eqo hash (shards cpus) (pn_new cpus directed) cs = Some (p, rs) /\ p_answers eqo directed p_new cs rs.
Proof.
  intros O L W eqo hash cpus d cs E [C1 C2] G.
  destruct (prun_ref eqo E hash (shards cpus) d cs _ _ (psim_new eqo hash _ d cpus C1 C2 eq_refl) G) as (p & rs & H1 & H2 & _). exists p, rs. auto.
Qed.
Print Assumptions C92_refines_graph.
(** Histories that only add different nodes, add edges, update nodes, remove all edges,
    query and update always qualify; in a directed network also those that remove single
    edges, if they do not remove all edges. *)
Theorem C92_plain_histories :
  forall (O L W : Type) (eqo : O -> O -> bool) (directed drops : bool) (cs : list (pnop O L W)),
    equivalence eqo -> Forall (p_plain directed drops) cs ->
    different eqo (p_added cs) -> N.of_nat (length (p_added cs)) <= 4294967296 ->
    p_good_run eqo directed p_new cs.
Proof.
  intros O L W eqo d drops cs E F D Le.
  apply (line_run eqo E (fun i => i) (shards 1) d drops cs [] (pn_new 1 d) p_new); try assumption.
  - apply (psim_new eqo _ _ d 1); [lia|lia|reflexivity].
  - split; cbn [p_new now a_empty nodes map length seq]; try reflexivity; [apply kept_new|intros x []|intros _ i []].
Qed.
Print Assumptions C92_plain_histories.
Example C92_concrete :
  p_good_run N.eqb false p_new pex_history /\
  exists p rs, prun false pex_history = Some (p, rs) /\
    skipn 15 rs = [NEdges (Some [Edge 2 1 None None; Edge 2 0 None (Some 5)]); NEdge (Some (Edge 2 1 None None)); NObject (Some 40)].
Proof. split; [apply pex_good|]. eexists _, _. split; [vm_compute; reflexivity|]. reflexivity. Qed.

(** ** C93: between updates the queries do not change *)
Theorem C93_last_update_partial :
  forall (O L W : Type) (eqo : O -> O -> bool) hash cpus (directed : bool) (cs later : list (pnop O L W)) p rs,
    equivalence eqo -> some_cpus cpus -> p_good_run eqo directed p_new (cs ++ later) ->
    forallb (fun c => negb (p_removes_node c)) (cs ++ later) = true ->
    forallb (fun c => negb (p_publishes c)) later = true ->
    pn_run eqo hash (shards cpus) (pn_new cpus directed) (cs ++ later) = Some (p, rs) ->
    exists p0 rs0, pn_run eqo hash (shards cpus) (pn_new cpus directed) cs = Some (p0, rs0) /\
      (forall i, pn_get_object hash p i = pn_get_object hash p0 i) /\
      (forall u, pn_get_edges eqo hash p u = pn_get_edges eqo hash p0 u) /\
      (forall u v, pn_get_edge eqo hash p u v = pn_get_edge eqo hash p0 u v).
Proof.
  intros O L W eqo hash cpus d cs later p rs E [C1 C2] G R P H.
  pose proof (good_psim eqo E hash _ d cpus _ _ _ C1 C2 eq_refl G H) as S. rewrite p_run_app in S.
  pose proof H as H'. rewrite prun_app in H'. destruct (pn_run eqo hash (shards cpus) (pn_new cpus d) cs) as [[p0 rs0]|] eqn:H0; [|discriminate].
  apply p_good_app in G. destruct G as [G1 G2]. pose proof (good_psim eqo E hash _ d cpus _ _ _ C1 C2 eq_refl G1 H0) as S0. set (s0 := p_run eqo d p_new cs) in *.
  rewrite forallb_app in R. apply andb_prop in R. destruct R as [R1 R2].
  assert (K0 : p_kept eqo s0) by (apply (kept_run eqo E hash (shards cpus) d cs _ _ (psim_new eqo hash _ d cpus C1 C2 eq_refl) G1 R1), kept_new).
  assert (PUB : forall cs0 (s1 : pstate O L W), forallb (fun c => negb (p_publishes c)) cs0 = true ->
    sobj (p_run eqo d s1 cs0) = sobj s1 /\ slist (p_run eqo d s1 cs0) = slist s1).
  { induction cs0 as [|c cs0 IH]; intros s1 F; [split; reflexivity|]. cbn [forallb] in F. apply andb_prop in F. destruct F as [F1 F2]. apply negb_true_iff in F1.
    cbn [p_run]. destruct (IH (p_next eqo d s1 c) F2) as [-> ->]. apply pub_next. exact F1. }
  assert (IDS : forall cs0 (s1 : pstate O L W) x k, forallb (fun c => negb (p_removes_node c)) cs0 = true ->
    id_in eqo x (now s1) = Some k -> id_in eqo x (now (p_run eqo d s1 cs0)) = Some k).
  { induction cs0 as [|c cs0 IH]; intros s1 x k F Hx; [exact Hx|]. cbn [forallb] in F. apply andb_prop in F. destruct F as [F1 F2]. apply negb_true_iff in F1.
    cbn [p_run]. apply IH; [exact F2|]. apply (id_in_next eqo E); assumption. }
  specialize (PUB later s0 P). specialize (fun x k => IDS later s0 x k R2). set (s := p_run eqo d s0 later) in *. destruct PUB as [PO PL].
  pose proof (s_ok _ _ _ _ _ _ S) as Ho. pose proof (s_ok _ _ _ _ _ _ S0) as Ho0.
  assert (SAMEID : forall x y k, id_in eqo x (now s) = Some k -> id_in eqo y (now s0) = Some k -> id_in eqo x (now s0) = Some k).
  { intros x y k Hx Hy. pose proof (IDS y k Hy) as Hy'. apply (id_in_iff eqo E d) in Hx; [|exact Ho]. apply (id_in_iff eqo E d) in Hy'; [|exact Ho].
    destruct Hx as (a & A1 & A2). destruct Hy' as (b & B1 & B2). apply (object_in_iff eqo d) in A1; [|exact Ho]. apply (object_in_iff eqo d) in B1; [|exact Ho].
    rewrite A1 in B1. injection B1 as <-. apply (id_in_iff eqo E d) in Hy; [|exact Ho0]. destruct Hy as (c & F1 & F2). apply (id_in_iff eqo E d); [exact Ho0|].
    exists c. split; [exact F1|]. apply (eq_trans_ _ E x a c A2). apply (eq_trans_ _ E a y c (eq_sym_ _ E _ _ B2) F2). }
  assert (NEW : forall x k, id_in eqo x (now s0) = None -> id_in eqo x (now s) = Some k -> slist s0 k = None).
  { intros x k H1 H2. destruct (slist s0 k) as [es|] eqn:F; [|reflexivity]. exfalso.
    destruct (sobj s0 k) as [y|] eqn:Sy.
    - pose proof (k_obj _ _ K0 k y Sy) as Iy. rewrite (SAMEID x y k H2 Iy) in H1. discriminate.
    - apply (s_pub _ _ _ _ _ _ S0 k); [rewrite F; discriminate|exact Sy]. }
  exists p0, rs0. split; [reflexivity|]. split; [|split].
  - intros i. rewrite (pn_object_sim eqo hash _ d _ _ i S), (pn_object_sim eqo hash _ d _ _ i S0), PO. reflexivity.
  - intros u. rewrite (pn_edges_sim eqo hash _ d _ _ u S), (pn_edges_sim eqo hash _ d _ _ u S0), PL. f_equal.
    destruct (id_in eqo u (now s0)) as [i|] eqn:F; [rewrite (IDS u i F); reflexivity|]. destruct (id_in eqo u (now s)) as [i|] eqn:F'; [|reflexivity]. exact (NEW u i F F').
  - intros u v.
    assert (GE : forall s1 : pstate O L W, p_kept eqo s1 -> p_good eqo d s1 (PGetEdge u v)).
    { intros s1 K i es e Hi Hv Hes He. pose proof (k_end _ _ K i es e Hes He) as F. destruct (sobj s1 (e_v e)) as [x|] eqn:Sx; [|contradiction].
      exists x. split; [reflexivity|]. exact (k_obj _ _ K _ _ Sx). }
    assert (K : p_kept eqo s) by (apply (kept_run eqo E hash (shards cpus) d later p0 s0 S0 G2 R2 K0)).
    rewrite (get_edge_psim eqo hash _ d p s u v S (GE s K)), (get_edge_psim eqo hash _ d p0 s0 u v S0 (GE s0 K0)). f_equal. rewrite PL.
    destruct (id_in eqo u (now s0)) as [i|] eqn:Fu.
    + rewrite (IDS u i Fu). destruct (id_in eqo v (now s0)) as [j|] eqn:Fv; [rewrite (IDS v j Fv); reflexivity|].
      destruct (id_in eqo v (now s)) as [j|] eqn:Fv'; [|reflexivity]. destruct (slist s0 i) as [es|] eqn:Fl; [|reflexivity].
      destruct (find (fun e => e_v e =? j) es) as [e|] eqn:Fe; [|reflexivity]. exfalso. apply find_some in Fe. destruct Fe as [F1 F2]. apply N.eqb_eq in F2.
      pose proof (k_end _ _ K0 i es e Fl F1) as F3. destruct (sobj s0 (e_v e)) as [x|] eqn:Sx; [|contradiction].
      pose proof (k_obj _ _ K0 _ _ Sx) as Ix. rewrite F2 in Ix. rewrite (SAMEID v x j Fv' Ix) in Fv. discriminate.
    + destruct (id_in eqo u (now s)) as [i|] eqn:Fu'; [|reflexivity]. rewrite (NEW u i Fu Fu'). destruct (id_in eqo v (now s)); reflexivity.
Qed.
Print Assumptions C93_last_update_partial.
(** A removed node is unknown before the next update, and get_edge panics on its
    neighbours. *)
Theorem C93_removed_refuted :
  exists (cs : list call) p0 rs0 p rs,
    prun false cs = Some (p0, rs0) /\ pn_get_edges N.eqb hid p0 20 = Some (Some [Edge 1 0 None None]) /\
    pn_get_edge N.eqb hid p0 10 30 = Some (Some (Edge 0 2 None None)) /\
    prun false (cs ++ [pGone 20]) = Some (p, rs) /\ pn_get_edges N.eqb hid p 20 = Some None /\
    pn_get_edge N.eqb hid p 10 30 = None.
Proof.
  exists [pAdd 10; pAdd 20; pAdd 30; pLink 10 20; pLink 10 30; pPublish]. eexists _, _, _, _. split; [vm_compute; reflexivity|].
  split; [vm_compute; reflexivity|]. split; [vm_compute; reflexivity|]. split; [vm_compute; reflexivity|]. split; vm_compute; reflexivity.
Qed.
Print Assumptions C93_removed_refuted.
Example C93_concrete :
  let cs := [pAdd 10; pAdd 20; pLink 10 20; pPublish] in
  let later := [pAdd 30; pCut 10 20; pLink 30 10; PUpdateNode 20; PRemoveAllEdges] in
  p_good_run N.eqb false p_new (cs ++ later) /\ pn_id N.eqb (pfinal false (cs ++ later)) 30 = Some 2 /\
  pn_get_edge N.eqb hid (pfinal false (cs ++ later)) 20 10 = Some (Some (Edge 1 0 None None)) /\
  pn_get_edges N.eqb hid (pfinal false (cs ++ later)) 30 = Some None /\
  pn_get_edges N.eqb hid (pfinal false (cs ++ [pAdd 30; pCut 10 20; pLink 30 10; pPublish])) 10 = Some (Some [Edge 0 2 None None]).
Proof. split; [pgood|]. repeat split; vm_compute; reflexivity. Qed.

(** ** C94: remove_all_edges *)
(** Only the edges that were never published disappear: after remove_all_edges and an
    update every node shows the edges it showed before. *)
Theorem C94_unpublished_partial :
  forall (O L W : Type) (eqo : O -> O -> bool) hash cpus (directed : bool) (cs : list (pnop O L W)) it it' p0 rs0,
    equivalence eqo -> some_cpus cpus -> p_good_run eqo directed p_new cs -> reorders it -> reorders it' ->
    pn_run eqo hash (shards cpus) (pn_new cpus directed) cs = Some (p0, rs0) ->
    exists p rs, pn_run eqo hash (shards cpus) (pn_new cpus directed) (cs ++ [PRemoveAllEdges; PUpdate it it']) = Some (p, rs) /\
      (forall u, pn_get_edges eqo hash p u = pn_get_edges eqo hash p0 u) /\ (forall u, pn_id eqo p u = pn_id eqo p0 u).
Proof.
  intros O L W eqo hash cpus d cs it it' p0 rs0 E [C1 C2] G P P' H0.
  pose proof (good_psim eqo E hash _ d cpus _ _ _ C1 C2 eq_refl G H0) as S0.
  assert (GK : p_good_run eqo d p_new (cs ++ [PRemoveAllEdges; PUpdate it it'])).
  { apply p_good_app. split; [exact G|]. split; [exact I|]. split; [split; assumption|exact I]. }
  destruct (prun_ref eqo E hash (shards cpus) d _ _ _ (psim_new eqo hash _ d cpus C1 C2 eq_refl) GK) as (p & rs & R1 & _ & S).
  exists p, rs. split; [exact R1|]. rewrite p_run_app in S. cbn [p_run p_next] in S. split.
  - intros u. rewrite (pn_edges_sim eqo hash _ d _ _ u S), (pn_edges_sim eqo hash _ d _ _ u S0). reflexivity.
  - intros u. rewrite (pn_id_sim eqo hash _ d _ _ u S), (pn_id_sim eqo hash _ d _ _ u S0). reflexivity.
Qed.
Print Assumptions C94_unpublished_partial.
(** So the published edges stay; and the next remove_edge panics. *)
Theorem C94_published_refuted :
  exists (cs : list call) p rs,
    prun false (cs ++ [PRemoveAllEdges; pPublish]) = Some (p, rs) /\
    pn_get_edges N.eqb hid p 10 = Some (Some [Edge 0 1 None None]) /\ pn_get_edge N.eqb hid p 20 10 = Some (Some (Edge 1 0 None None)) /\
    pn_call N.eqb hid (shards 1) p (pCut 10 20) = None.
Proof.
  exists [pAdd 10; pAdd 20; pLink 10 20; pPublish]. eexists _, _. split; [vm_compute; reflexivity|]. split; [vm_compute; reflexivity|]. split; vm_compute; reflexivity.
Qed.
Print Assumptions C94_published_refuted.
Example C94_concrete :
  let cs := [pAdd 10; pAdd 20; pAdd 30; pLink 10 20; pPublish; pLink 10 30] in
  p_good_run N.eqb true p_new cs /\ pn_get_edges N.eqb hid (pfinal true cs) 10 = Some (Some [Edge 0 1 None None]) /\
  pn_get_edges N.eqb hid (pfinal true (cs ++ [pPublish])) 10 = Some (Some [Edge 0 1 None None; Edge 0 2 None None]) /\
  pn_get_edges N.eqb hid (pfinal true (cs ++ [PRemoveAllEdges; pPublish])) 10 = Some (Some [Edge 0 1 None None]).
Proof. split; [pgood|]. repeat split; vm_compute; reflexivity. Qed.

(** ** C95: remove_node *)
Theorem C95_removed_partial :
  forall (O L W : Type) (eqo : O -> O -> bool) hash cpus (directed : bool) (cs : list (pnop O L W)) u it it' ut ut' p0 rs0 i,
    equivalence eqo -> some_cpus cpus -> p_good_run eqo directed p_new (cs ++ [PRemoveNode u it it']) -> reorders ut -> reorders ut' ->
    forallb (fun c => negb (p_drops c)) cs = true ->
    pn_run eqo hash (shards cpus) (pn_new cpus directed) (cs ++ [PUpdate ut ut']) = Some (p0, rs0) -> pn_id eqo p0 u = Some i ->
    exists p rs, pn_run eqo hash (shards cpus) (pn_new cpus directed) (cs ++ [PRemoveNode u it it'; PUpdate ut ut']) = Some (p, rs) /\
      nth_error rs (length cs) = Some (NBool true) /\
      pn_id eqo p u = None /\ pn_get_edges eqo hash p u = Some None /\
      (forall v e, In e (pn_edges_of eqo hash p v) -> e_u e <> i /\ e_v e <> i) /\
      (forall v, eqo v u = false -> pn_id eqo p v = pn_id eqo p0 v /\
         pn_edges_of eqo hash p v = filter (fun e => negb (e_v e =? i)) (pn_edges_of eqo hash p0 v)).
Proof.
  intros O L W eqo hash cpus d cs u it it' ut ut' p0 rs0 i E [C1 C2] G P P' ND H0 Hi. apply p_good_app in G. destruct G as [G1 G2].
  assert (GU : p_good_run eqo d p_new (cs ++ [PUpdate ut ut'])) by (apply p_good_app; split; [exact G1|split; [split; assumption|exact I]]).
  pose proof (good_psim eqo E hash _ d cpus _ _ _ C1 C2 eq_refl GU H0) as S0. rewrite p_run_app in S0. cbn [p_run p_next] in S0. set (s := p_run eqo d p_new cs) in *.
  rewrite (pn_id_sim eqo hash _ d _ _ _ S0) in Hi. cbn [p_publish now] in Hi.
  assert (AL : all_listed (now s)) by (apply p_listed_run; [exact ND|apply all_listed_empty]).
  assert (GK : p_good_run eqo d p_new (cs ++ [PRemoveNode u it it'; PUpdate ut ut'])).
  { apply p_good_app. split; [exact G1|]. fold s. split; [apply G2|]. split; [split; assumption|exact I]. }
  destruct (prun_ref eqo E hash (shards cpus) d _ _ _ (psim_new eqo hash _ d cpus C1 C2 eq_refl) GK) as (p & rs & R1 & R2 & R3). exists p, rs. split; [exact R1|].
  rewrite p_run_app in R3. fold s in R3. cbn [p_run p_next] in R3. rewrite Hi in R3.
  pose proof (s_ok _ _ _ _ _ _ S0) as Oc. cbn [p_publish now] in Oc. pose proof (s_ok _ _ _ _ _ _ R3) as On. cbn [p_publish set_now now] in On.
  split.
  { apply p_answers_app in R2. destruct R2 as (r1 & r2 & -> & R2 & L1). fold s in R2. destruct r2 as [|r [|r' r2]]; cbn [p_answers] in R2; try tauto.
    destruct R2 as [R2 _]. cbn [p_answer] in R2. rewrite Hi in R2. rewrite nth_error_app2, L1, Nat.sub_diag by lia. cbn [nth_error]. congruence. }
  assert (UN : id_in eqo u (a_remove_node i (now s)) = None).
  { destruct (id_in eqo u (a_remove_node i (now s))) as [i'|] eqn:F; [|reflexivity]. apply (id_in_iff eqo E d) in F; [|exact On]. destruct F as (x & F1 & F2).
    cbn [a_remove_node nodes] in F1. unfold drop in F1. apply filter_In in F1. destruct F1 as [F1 F3]. cbn [fst] in F3.
    assert (FF : id_in eqo u (now s) = Some i') by (apply (id_in_iff eqo E d); [exact Oc|]; exists x; split; assumption). rewrite Hi in FF. injection FF as <-.
    rewrite N.eqb_refl in F3. discriminate. }
  split; [rewrite (pn_id_sim eqo hash _ d _ _ _ R3); exact UN|].
  split; [rewrite (pn_edges_sim eqo hash _ d _ _ _ R3); cbn [p_publish set_now now]; rewrite UN; reflexivity|].
  assert (NI : forall v j, id_in eqo v (a_remove_node i (now s)) = Some j -> j <> i /\ is_listed j (a_remove_node i (now s)) = true).
  { intros v j F. apply (id_in_known eqo E d) in F; [|exact On]. apply (nodes_drop (O := O) (L := L) (W := W)) in F. destruct F as [K1 K2]. split; [exact K1|].
    rewrite is_listed_drop, (AL j K2), (proj2 (N.eqb_neq _ _) K1). reflexivity. }
  assert (EO : forall v, pn_edges_of eqo hash p v = match id_in eqo v (a_remove_node i (now s)) with Some j => incident d j (a_remove_node i (now s)) | None => [] end).
  { intros v. rewrite (pn_edges_of_sim eqo hash _ d _ _ v R3). cbn [p_publish set_now now slist]. destruct (id_in eqo v (a_remove_node i (now s))) as [j|] eqn:F; [|reflexivity].
    rewrite (proj2 (NI v j F)). reflexivity. }
  assert (EO0 : forall v, pn_edges_of eqo hash p0 v = match id_in eqo v (now s) with Some j => incident d j (now s) | None => [] end).
  { intros v. rewrite (pn_edges_of_sim eqo hash _ d _ _ v S0). cbn [p_publish set_now now slist]. destruct (id_in eqo v (now s)) as [j|] eqn:F; [|reflexivity].
    rewrite (AL j); [reflexivity|]. exact (id_in_known eqo E d v j (now s) Oc F). }
  split.
  - intros v e He. rewrite EO in He. destruct (id_in eqo v (a_remove_node i (now s))) as [j|]; [|destruct He].
    apply in_flat_map in He. destruct He as ([[x y] o] & H1 & H2). cbn [a_remove_node edges] in H1. unfold drop in H1. apply filter_In in H1. destruct H1 as [_ H1].
    apply negb_true_iff in H1. unfold touches in H1. apply orb_false_elim in H1. destruct H1 as [X Y]. apply N.eqb_neq in X, Y.
    unfold seen_from in H2. apply in_app_or in H2. destruct H2 as [H2|H2].
    + destruct (x =? j) eqn:A; [|destruct H2]. destruct H2 as [<-|[]]. cbn [shown e_u e_v]. apply N.eqb_eq in A. subst. split; assumption.
    + destruct (negb d && (y =? j)) eqn:A; [|destruct H2]. destruct H2 as [<-|[]]. cbn [shown e_u e_v]. apply andb_prop in A. destruct A as [_ A]. apply N.eqb_eq in A. subst. split; assumption.
  - intros v Hv. rewrite (pn_id_sim eqo hash _ d _ _ _ R3), (pn_id_sim eqo hash _ d _ _ _ S0), EO, EO0. cbn [p_publish set_now now].
    assert (VI : id_in eqo v (a_remove_node i (now s)) = id_in eqo v (now s)).
    { destruct (id_in eqo v (now s)) as [j|] eqn:F.
      - apply (id_in_iff eqo E d); [exact On|]. apply (id_in_iff eqo E d) in F; [|exact Oc]. destruct F as (x & F1 & F2). exists x. split; [|exact F2].
        cbn [a_remove_node nodes]. unfold drop. apply filter_In. split; [exact F1|]. cbn [fst]. apply negb_true_iff, N.eqb_neq. intros ->.
        apply (id_in_iff eqo E d) in Hi; [|exact Oc]. destruct Hi as (y & Y1 & Y2). apply (object_in_iff eqo d) in Y1; [|exact Oc]. apply (object_in_iff eqo d) in F1; [|exact Oc].
        rewrite Y1 in F1. injection F1 as ->. rewrite (eq_trans_ _ E v x u F2 (eq_sym_ _ E _ _ Y2)) in Hv. discriminate.
      - destruct (id_in eqo v (a_remove_node i (now s))) as [j|] eqn:F'; [|reflexivity]. apply (id_in_iff eqo E d) in F'; [|exact On]. destruct F' as (x & F1 & F2).
        cbn [a_remove_node nodes] in F1. unfold drop in F1. apply filter_In in F1.
        assert (FF : id_in eqo v (now s) = Some j) by (apply (id_in_iff eqo E d); [exact Oc|]; exists x; split; [apply F1|exact F2]). congruence. }
    rewrite VI. split; [reflexivity|]. destruct (id_in eqo v (now s)) as [j|] eqn:F; [|reflexivity].
    destruct (NI v j VI) as [Hji _]. apply incident_removed. exact Hji.
Qed.
Print Assumptions C95_removed_partial.
(** get_object keeps showing the removed node, even after the update. *)
Theorem C95_object_refuted :
  exists (cs : list call) p rs, p_good_run N.eqb false p_new cs /\ prun false cs = Some (p, rs) /\ last (removelast rs) NUnit = NBool true /\
    pn_id N.eqb p 20 = None /\ pn_get_object hid p 1 = Some (Some 20).
Proof. exists [pAdd 10; pAdd 20; pLink 10 20; pPublish; pGone 20; pPublish]. eexists _, _. split; [pgood|]. split; [vm_compute; reflexivity|]. repeat split; vm_compute; reflexivity. Qed.
Print Assumptions C95_object_refuted.
(** A node added after a removal takes over the removed node's id and with it its
    published edges; removing one of its edges panics. *)
Theorem C95_inherits_refuted :
  exists (cs : list call) p rs, prun true cs = Some (p, rs) /\
    pn_id N.eqb p 20 = None /\ pn_id N.eqb p 30 = Some 1 /\ pn_get_edges N.eqb hid p 30 = Some (Some [Edge 1 0 None None]) /\
    pn_call N.eqb hid (shards 1) p (pCut 30 10) = None.
Proof. exists [pAdd 10; pAdd 20; pLink 20 10; pPublish; pGone 20; pPublish; pAdd 30; pPublish]. eexists _, _. split; [vm_compute; reflexivity|]. repeat split; vm_compute; reflexivity. Qed.
Print Assumptions C95_inherits_refuted.
(** Or it takes the id of a node that is still there. *)
Theorem C95_shared_id_refuted :
  exists (cs : list call) p rs, prun true cs = Some (p, rs) /\ pn_id N.eqb p 20 = Some 1 /\ pn_id N.eqb p 30 = Some 1 /\ pn_get_object hid p 1 = Some (Some 30).
Proof. exists [pAdd 10; pAdd 20; pPublish; pGone 10; pAdd 30; pPublish]. eexists _, _. split; [vm_compute; reflexivity|]. repeat split; vm_compute; reflexivity. Qed.
Print Assumptions C95_shared_id_refuted.
Example C95_concrete :
  let cs := [pAdd 10; pAdd 20; pAdd 30; pLink 10 20; pLinkw 30 10 5; pLink 20 30; pPublish] in
  p_good_run N.eqb true p_new (cs ++ [pGone 10]) /\ pn_id N.eqb (pfinal true (cs ++ [pPublish])) 10 = Some 0 /\
  pn_edges_of N.eqb hid (pfinal true (cs ++ [pPublish])) 30 = [Edge 2 0 None (Some 5)] /\
  pn_edges_of N.eqb hid (pfinal true (cs ++ [pGone 10; pPublish])) 30 = [] /\ pn_edges_of N.eqb hid (pfinal true (cs ++ [pGone 10; pPublish])) 20 = [Edge 1 2 None None].
Proof. split; [pgood|]. repeat split; vm_compute; reflexivity. Qed.

(** ** C96: remove_edge *)
(** Any history of good calls without remove_all_edges, then [remove_edge u v] and an
    update, compared with the same history and an update.  [i], [j] are the ids of [u], [v]. *)
Definition one_edge (directed : bool) (i j : N) {L W} (e : edge L W) : bool :=
  ((e_u e =? i) && (e_v e =? j)) || (negb directed && (e_u e =? j) && (e_v e =? i)).
Lemma shown_after {O L W} (eqo : O -> O -> bool) hash n d (p : pnet O L W) (s : pstate O L W) v :
  equivalence eqo -> psim eqo hash n d p (p_publish d s) -> all_listed (now s) ->
  pn_edges_of eqo hash p v = match id_in eqo v (now s) with Some j => incident d j (now s) | None => [] end.
Proof.
  intros E S AL. rewrite (pn_edges_of_sim eqo hash n d _ _ v S). cbn [p_publish set_now now slist]. destruct (id_in eqo v (now s)) as [j|] eqn:F; [|reflexivity].
  rewrite (AL j); [reflexivity|]. exact (id_in_known eqo E d v j (now s) (s_ok _ _ _ _ _ _ S) F).
Qed.
Theorem C96_removed_partial :
  forall (O L W : Type) (eqo : O -> O -> bool) hash cpus (directed : bool) (cs : list (pnop O L W)) u v i j ut ut' p0 rs0,
    equivalence eqo -> some_cpus cpus -> p_good_run eqo directed p_new (cs ++ [PRemoveEdge u v]) -> reorders ut -> reorders ut' ->
    forallb (fun c => negb (p_drops c)) cs = true ->
    pn_run eqo hash (shards cpus) (pn_new cpus directed) (cs ++ [PUpdate ut ut']) = Some (p0, rs0) ->
    pn_id eqo p0 u = Some i -> pn_id eqo p0 v = Some j ->
    (* they are joined at most once *)
    (length (filter (fun e => (e_v e =? j)%N) (pn_edges_of eqo hash p0 u)) <= 1)%nat -> i <> j ->
    exists p rs, pn_run eqo hash (shards cpus) (pn_new cpus directed) (cs ++ [PRemoveEdge u v; PUpdate ut ut']) = Some (p, rs) /\
      nth_error rs (length cs) = Some (NEdge (find (fun e => e_v e =? j) (pn_edges_of eqo hash p0 u))) /\
      (forall w, pn_id eqo p w = pn_id eqo p0 w) /\ (forall l, pn_get_object hash p l = pn_get_object hash p0 l) /\
      (forall w, pn_edges_of eqo hash p w = filter (fun e => negb (one_edge directed i j e)) (pn_edges_of eqo hash p0 w)).
Proof.
  intros O L W eqo hash cpus d cs u v i j ut ut' p0 rs0 E [C1 C2] G P P' ND H0 Iu Iv HC Hij. apply p_good_app in G. destruct G as [G1 G2].
  assert (GU : p_good_run eqo d p_new (cs ++ [PUpdate ut ut'])) by (apply p_good_app; split; [exact G1|split; [split; assumption|exact I]]).
  pose proof (good_psim eqo E hash _ d cpus _ _ _ C1 C2 eq_refl GU H0) as S0. rewrite p_run_app in S0. cbn [p_run p_next] in S0. set (s := p_run eqo d p_new cs) in *.
  rewrite (pn_id_sim eqo hash _ d _ _ _ S0) in Iu. rewrite (pn_id_sim eqo hash _ d _ _ _ S0) in Iv. cbn [p_publish now] in Iu, Iv.
  assert (AL : all_listed (now s)) by (apply p_listed_run; [exact ND|apply all_listed_empty]).
  assert (GK : p_good_run eqo d p_new (cs ++ [PRemoveEdge u v; PUpdate ut ut'])).
  { apply p_good_app. split; [exact G1|]. fold s. split; [apply G2|]. split; [split; assumption|exact I]. }
  destruct (prun_ref eqo E hash (shards cpus) d _ _ _ (psim_new eqo hash _ d cpus C1 C2 eq_refl) GK) as (p & rs & R1 & R2 & R3). exists p, rs. split; [exact R1|].
  rewrite p_run_app in R3. fold s in R3. cbn [p_run p_next] in R3. rewrite Iu, Iv in R3.
  pose proof (fun w => shown_after eqo hash _ d _ _ w E S0 AL) as EO0.
  pose proof (fun w => shown_after eqo hash _ d _ _ w E R3 AL) as EO. cbn [set_now now] in EO.
  rewrite EO0, Iu in HC |- *.
  assert (CB : (count_between d i j (now s) <= 1)%nat) by (rewrite <- count_incident by exact Hij; exact HC).
  split.
  { apply p_answers_app in R2. destruct R2 as (r1 & r2 & -> & R2 & L1). fold s in R2. destruct r2 as [|r [|r' r2]]; cbn [p_answers] in R2; try tauto.
    destruct R2 as [R2 _]. cbn [p_answer] in R2. rewrite Iu, Iv in R2. rewrite nth_error_app2, L1, Nat.sub_diag by lia. cbn [nth_error]. rewrite R2.
    do 2 f_equal. symmetry. apply find_incident. exact Hij. }
  split; [intros w; rewrite (pn_id_sim eqo hash _ d _ _ _ R3), (pn_id_sim eqo hash _ d _ _ _ S0); reflexivity|].
  split; [intros l; rewrite (pn_object_sim eqo hash _ d _ _ _ R3), (pn_object_sim eqo hash _ d _ _ _ S0); reflexivity|].
  intros w. rewrite EO, EO0. change (id_in eqo w (a_remove_edge d i j (now s))) with (id_in eqo w (now s)).
  destruct (id_in eqo w (now s)) as [l|]; [|reflexivity]. apply incident_cut; assumption.
Qed.
Print Assumptions C96_removed_partial.
(** Directed networks: of several edges from [u] to [v] the first is removed. *)
Theorem C96_directed_partial :
  forall (O L W : Type) (eqo : O -> O -> bool) hash cpus (cs : list (pnop O L W)) u v i j ut ut' p0 rs0,
    equivalence eqo -> some_cpus cpus -> p_good_run eqo true p_new (cs ++ [PRemoveEdge u v]) -> reorders ut -> reorders ut' ->
    forallb (fun c => negb (p_drops c)) cs = true ->
    pn_run eqo hash (shards cpus) (pn_new cpus true) (cs ++ [PUpdate ut ut']) = Some (p0, rs0) ->
    pn_id eqo p0 u = Some i -> pn_id eqo p0 v = Some j ->
    exists p rs, pn_run eqo hash (shards cpus) (pn_new cpus true) (cs ++ [PRemoveEdge u v; PUpdate ut ut']) = Some (p, rs) /\
      nth_error rs (length cs) = Some (NEdge (find (fun e => e_v e =? j) (pn_edges_of eqo hash p0 u))) /\
      (forall w, pn_edges_of eqo hash p w =
         if eqo w u then without_first (fun e => e_v e =? j) (pn_edges_of eqo hash p0 w) else pn_edges_of eqo hash p0 w).
Proof.
  intros O L W eqo hash cpus cs u v i j ut ut' p0 rs0 E [C1 C2] G P P' ND H0 Iu Iv. apply p_good_app in G. destruct G as [G1 G2].
  assert (GU : p_good_run eqo true p_new (cs ++ [PUpdate ut ut'])) by (apply p_good_app; split; [exact G1|split; [split; assumption|exact I]]).
  pose proof (good_psim eqo E hash _ true cpus _ _ _ C1 C2 eq_refl GU H0) as S0. rewrite p_run_app in S0. cbn [p_run p_next] in S0. set (s := p_run eqo true p_new cs) in *.
  rewrite (pn_id_sim eqo hash _ true _ _ _ S0) in Iu. rewrite (pn_id_sim eqo hash _ true _ _ _ S0) in Iv. cbn [p_publish now] in Iu, Iv.
  assert (AL : all_listed (now s)) by (apply p_listed_run; [exact ND|apply all_listed_empty]).
  assert (GK : p_good_run eqo true p_new (cs ++ [PRemoveEdge u v; PUpdate ut ut'])).
  { apply p_good_app. split; [exact G1|]. fold s. split; [apply G2|]. split; [split; assumption|exact I]. }
  destruct (prun_ref eqo E hash (shards cpus) true _ _ _ (psim_new eqo hash _ true cpus C1 C2 eq_refl) GK) as (p & rs & R1 & R2 & R3). exists p, rs. split; [exact R1|].
  rewrite p_run_app in R3. fold s in R3. cbn [p_run p_next] in R3. rewrite Iu, Iv in R3.
  pose proof (fun w => shown_after eqo hash _ true _ _ w E S0 AL) as EO0.
  pose proof (fun w => shown_after eqo hash _ true _ _ w E R3 AL) as EO. cbn [set_now now] in EO.
  pose proof (s_ok _ _ _ _ _ _ S0) as Oc. cbn [p_publish now] in Oc.
  split.
  { apply p_answers_app in R2. destruct R2 as (r1 & r2 & -> & R2 & L1). fold s in R2. destruct r2 as [|r [|r' r2]]; cbn [p_answers] in R2; try tauto.
    destruct R2 as [R2 _]. cbn [p_answer] in R2. rewrite Iu, Iv in R2. rewrite nth_error_app2, L1, Nat.sub_diag by lia. cbn [nth_error]. rewrite R2.
    do 2 f_equal. rewrite EO0, Iu. symmetry. apply find_incident_directed. }
  intros w. rewrite EO, EO0. change (id_in eqo w (a_remove_edge true i j (now s))) with (id_in eqo w (now s)).
  destruct (eqo w u) eqn:A.
  - assert (Cw : id_in eqo w (now s) = Some i).
    { apply (id_in_iff eqo E true); [exact Oc|]. apply (id_in_iff eqo E true) in Iu; [|exact Oc]. destruct Iu as (x & X1 & X2). exists x. split; [exact X1|]. exact (eq_trans_ _ E w u x A X2). }
    rewrite Cw. apply incident_cut_self.
  - destruct (id_in eqo w (now s)) as [l|] eqn:Cw; [|reflexivity]. apply incident_cut_other. intros ->.
    apply (id_in_iff eqo E true) in Iu; [|exact Oc]. apply (id_in_iff eqo E true) in Cw; [|exact Oc]. destruct Iu as (x & X1 & X2). destruct Cw as (y & Y1 & Y2).
    apply (object_in_iff eqo true) in X1; [|exact Oc]. apply (object_in_iff eqo true) in Y1; [|exact Oc]. rewrite X1 in Y1. injection Y1 as <-.
    rewrite (eq_trans_ _ E w x u Y2 (eq_sym_ _ E _ _ X2)) in A. discriminate.
Qed.
Print Assumptions C96_directed_partial.
(** Undirected and joined twice: more than one edge is gone from the far side. *)
Theorem C96_parallel_refuted :
  exists (cs : list call) p rs,
    prun false cs = Some (p, rs) /\ last (removelast rs) NUnit = NEdge (Some (Edge 0 1 None (Some 7))) /\
    pn_edges_of N.eqb hid p 10 = [Edge 0 1 None (Some 8)] /\ pn_edges_of N.eqb hid p 20 = [].
Proof.
  exists [pAdd 10; pAdd 20; pLinkw 10 20 7; pLinkw 10 20 8; pPublish; pCut 10 20; pPublish]. eexists _, _. split; [vm_compute; reflexivity|]. repeat split; vm_compute; reflexivity.
Qed.
Print Assumptions C96_parallel_refuted.
Example C96_concrete :
  let cs := [pAdd 10; pAdd 20; pAdd 30; pLinkw 10 20 5; pLinkw 30 10 6; pPublish; pLink 20 30] in
  p_good_run N.eqb false p_new (cs ++ [pCut 20 10]) /\
  pn_id N.eqb (pfinal false (cs ++ [pPublish])) 20 = Some 1 /\ pn_id N.eqb (pfinal false (cs ++ [pPublish])) 10 = Some 0 /\
  pn_edges_of N.eqb hid (pfinal false (cs ++ [pPublish])) 20 = [Edge 1 0 None (Some 5); Edge 1 2 None None] /\
  pn_edges_of N.eqb hid (pfinal false (cs ++ [pCut 20 10; pPublish])) 20 = [Edge 1 2 None None] /\
  pn_edges_of N.eqb hid (pfinal false (cs ++ [pCut 20 10; pPublish])) 10 = [Edge 0 2 None (Some 6)] /\
  p_good_run N.eqb true p_new (cs ++ [pLinkw 10 20 9; pCut 10 20]) /\
  pn_edges_of N.eqb hid (pfinal true (cs ++ [pLinkw 10 20 9; pCut 10 20; pPublish])) 10 = [Edge 0 1 None (Some 9)].
Proof. split; [pgood|]. do 5 (split; [vm_compute; reflexivity|]). split; [pgood|]. vm_compute. reflexivity. Qed.

(** ** C97: preferential attachment *)
(** Every node that gets edges shows exactly the links [attached] describes (their shape
    is C37_shape); in an undirected network with at least one link per node that is every
    node. *)
Theorem C97_network_partial :
  forall (O L W : Type) (eqo : O -> O -> bool) hash cpus (directed : bool) choose node_set m (cs : list (pnop O L W)) it it' p rs,
    equivalence eqo -> some_cpus cpus -> choose_ok choose -> p_good_run eqo directed p_new cs -> reorders it -> reorders it' ->
    pn_run eqo hash (shards cpus) (pn_new cpus directed) cs = Some (p, rs) ->
    let known := nodes (now (p_run eqo directed p_new cs)) in
    let n := length known in
    (2 <= n <= length node_set)%nat ->
    (* the first n entries of node_set are the nodes of the network *)
    different eqo (firstn n node_set) -> (forall x, In x (firstn n node_set) -> exists i y, In (i, y) known /\ eqo x y = true) ->
    let pairs := attached choose node_set m (n - 2) in
    exists p' id, pn_preferential eqo hash choose it it' (shards cpus) p node_set m = Some p' /\
      (forall x, pn_id eqo p' x = pn_id eqo p x) /\
      (forall k x, (k < n)%nat -> nth_error node_set k = Some x ->
         pn_id eqo p' x = Some (id k) /\
         (neighbours directed k pairs <> [] ->
            pn_get_edges eqo hash p' x = Some (Some (map (fun j => Edge (id k) (id j) None None) (neighbours directed k pairs))))) /\
      (directed = false -> (1 <= m)%nat -> forall k, (k < n)%nat -> neighbours directed k pairs <> []).
Proof.
  intros O L W eqo hash cpus d choose node_set m cs it it' p rs E [C1 C2] C G P P' H known n Hn HD HK pairs.
  pose proof (good_psim eqo E hash _ d cpus _ _ _ C1 C2 eq_refl G H) as S. set (s := p_run eqo d p_new cs) in *. pose proof (s_ok _ _ _ _ _ _ S) as Oc.
  set (idn := fun k => match nth_error node_set k with Some x => match id_in eqo x (now s) with Some i => i | None => 0 end | None => 0 end).
  assert (HID : forall k x, (k < n)%nat -> nth_error node_set k = Some x -> id_in eqo x (now s) = Some (idn k)).
  { intros k x Hk Hx. unfold idn. rewrite Hx. destruct (HK x) as (i & y & Y1 & Y2).
    - apply (nth_error_In _ k). rewrite nth_error_firstn_ by exact Hk. exact Hx.
    - rewrite (proj2 (id_in_iff eqo E d x i (now s) Oc)); [reflexivity|]. exists y. split; assumption. }
  destruct (pba_psim eqo E hash (shards cpus) d choose C node_set m idn p s it it' S P P' Hn HID) as (p' & b & B1 & B2 & B3 & B4 & B5).
  exists p', idn. split; [exact B1|]. change (nodes (now s)) with known in B4. fold n in B4. fold pairs in B4.
  assert (IB : forall x, id_in eqo x b = id_in eqo x (now s)) by (intros x; unfold id_in; rewrite B3; reflexivity).
  assert (LT : forall q, In q pairs -> (fst q < n /\ snd q < n)%nat).
  { intros q Hq. pose proof (attached_lt choose C node_set m (n - 2) ltac:(lia) q Hq). lia. }
  assert (INJ : forall i j, (i < n)%nat -> (j < n)%nat -> idn i = idn j -> i = j).
  { intros i j Hi Hj F.
    destruct (nth_error node_set i) as [x1|] eqn:X1; [|apply nth_error_None in X1; lia]. destruct (nth_error node_set j) as [x2|] eqn:X2; [|apply nth_error_None in X2; lia].
    pose proof (HID i x1 Hi X1) as I1. pose proof (HID j x2 Hj X2) as I2. rewrite <- F in I2.
    apply (id_in_iff eqo E d) in I1; [|exact Oc]. apply (id_in_iff eqo E d) in I2; [|exact Oc]. destruct I1 as (y1 & Y1 & Z1). destruct I2 as (y2 & Y2 & Z2).
    apply (object_in_iff eqo d) in Y1; [|exact Oc]. apply (object_in_iff eqo d) in Y2; [|exact Oc]. rewrite Y1 in Y2. injection Y2 as <-.
    assert (E12 : eqo x1 x2 = true) by (apply (eq_trans_ _ E x1 y1 x2 Z1), (eq_sym_ _ E), Z2).
    assert (E21 : eqo x2 x1 = true) by (apply (eq_sym_ _ E), E12).
    destruct (Nat.lt_trichotomy i j) as [Hl|[Hl|Hl]]; [|exact Hl|]; exfalso.
    + pose proof (different_nth eqo (firstn n node_set) HD i j x1 x2 Hl) as F0. rewrite !nth_error_firstn_ in F0 by assumption. rewrite (F0 X1 X2) in E12. discriminate.
    + pose proof (different_nth eqo (firstn n node_set) HD j i x2 x1 Hl) as F0. rewrite !nth_error_firstn_ in F0 by assumption. rewrite (F0 X2 X1) in E21. discriminate. }
  split; [|split].
  - intros x. rewrite (pn_id_sim eqo hash _ d _ _ _ B2), (pn_id_sim eqo hash _ d _ _ _ S). cbn [p_publish set_now now]. apply IB.
  - intros k x Hk Hx. rewrite (pn_id_sim eqo hash _ d _ _ _ B2), (pn_edges_sim eqo hash _ d _ _ _ B2). cbn [p_publish set_now now slist]. rewrite IB, (HID k x Hk Hx). split; [reflexivity|].
    intros NE. assert (INC : incident d (idn k) b = map (fun j => Edge (idn k) (idn j) None None) (neighbours d k pairs)) by (apply (incident_pairs d idn n); assumption).
    assert (LI : is_listed (idn k) b = true).
    { destruct (is_listed (idn k) b) eqn:A; [reflexivity|]. exfalso. apply (incident_unlisted eqo d) in A; [|exact B5]. rewrite A in INC.
      destruct (neighbours d k pairs); [contradiction|discriminate]. }
    rewrite LI, INC. reflexivity.
  - intros Hd Hm k Hk. rewrite Hd. assert (EX : exists q, In q pairs /\ (fst q = k \/ snd q = k)).
    { assert (Q2 : (2 <= n)%nat) by lia. destruct (Nat.le_gt_cases 2 k) as [H2|H2].
      - destruct (attached_links choose C node_set m (n - 2) ltac:(lia) k ltac:(lia)) as (links & L1 & L2 & _).
        destruct links as [|j links]; [cbn in L2; lia|].
        assert (IN : In (k, j) (filter (fun q => Nat.eqb (fst q) k) pairs)) by (unfold pairs; rewrite L1; left; reflexivity).
        apply filter_In in IN. exists (k, j). split; [apply IN|left; reflexivity].
      - assert (IN : In (0, 1)%nat (filter (fun q => Nat.ltb (fst q) 2) pairs)) by (unfold pairs; rewrite (attached_first choose C node_set m (n - 2)) by lia; left; reflexivity).
        apply filter_In in IN. exists (0, 1)%nat. split; [apply IN|]. cbn [fst snd]. lia. }
    destruct EX as ([x y] & Q1 & Q2). cbn [fst snd] in Q2. intros F.
    assert (FI : forall j, In j (neighbours false k pairs) -> False) by (rewrite F; intros j []). unfold neighbours in FI.
    destruct Q2 as [<-|<-].
    + apply (FI y). apply in_flat_map. exists (x, y). split; [exact Q1|]. cbn [fst snd]. rewrite Nat.eqb_refl. left. reflexivity.
    + apply (FI x). apply in_flat_map. exists (x, y). split; [exact Q1|]. cbn [fst snd negb andb]. rewrite Nat.eqb_refl. apply in_or_app. right. left. reflexivity.
Qed.
Print Assumptions C97_network_partial.
(** In a directed network the nodes that get no outgoing edge keep showing their old ones. *)
Theorem C97_stale_refuted :
  exists (cs : list call) p rs p', p_good_run N.eqb true p_new cs /\ prun true cs = Some (p, rs) /\
    pn_preferential N.eqb hid (fun _ l k => firstn k l) keep keep (shards 1) p [10; 20; 30] 1 = Some p' /\
    attached (fun (_ : nat) (l : list (N * N * nat)) k => firstn k l) [10; 20; 30] 1 1 = [(0, 1); (2, 0)]%nat /\
    pn_get_edges N.eqb hid p' 20 = Some (Some [Edge 1 2 None None]).
Proof.
  exists [pAdd 10; pAdd 20; pAdd 30; pLink 20 30; pPublish]. eexists _, _, _. split; [pgood|]. split; [vm_compute; reflexivity|]. split; [vm_compute; reflexivity|]. split; vm_compute; reflexivity.
Qed.
Print Assumptions C97_stale_refuted.
(** A slice shorter than the network: panic.  One node or none: the edges are dropped from
    the edited graph, but nothing is published. *)
Theorem C97_short_slice_refuted :
  exists (cs : list call) p rs, p_good_run N.eqb false p_new cs /\ prun false cs = Some (p, rs) /\
    pn_preferential N.eqb hid (fun _ l k => firstn k l) keep keep (shards 1) p [10; 20] 1 = None /\
    exists p1, pn_preferential N.eqb hid (fun _ l k => firstn k l) keep keep (shards 1) p [10] 1 = Some p1 /\
      pn_get_edges N.eqb hid p1 10 = Some (Some [Edge 0 1 None None]) /\ pn_call N.eqb hid (shards 1) p1 (pCut 10 20) = None.
Proof.
  exists [pAdd 10; pAdd 20; pAdd 30; pLink 10 20; pPublish]. eexists _, _. split; [pgood|]. split; [vm_compute; reflexivity|]. split; [vm_compute; reflexivity|].
  eexists. split; [vm_compute; reflexivity|]. split; vm_compute; reflexivity.
Qed.
Print Assumptions C97_short_slice_refuted.
Example C97_concrete :
  let cs := [pAdd 10; pAdd 20; pAdd 30; pAdd 40; pLink 30 40; pPublish] in
  let choose := (fun (_ : nat) (l : list (N * N * nat)) k => firstn k l) in
  p_good_run N.eqb false p_new cs /\ attached choose [10; 20; 30; 40] 2 2 = [(0, 1); (2, 0); (2, 1); (3, 0); (3, 1)]%nat /\
  option_map (fun p => pn_get_edges N.eqb hid p 20) (pn_preferential N.eqb hid choose keep keep (shards 1) (pfinal false cs) [10; 20; 30; 40] 2)
    = Some (Some (Some [Edge 1 0 None None; Edge 1 2 None None; Edge 1 3 None None])).
Proof. split; [pgood|]. split; vm_compute; reflexivity. Qed.

(** ** C98: add_prob_edge *)
(** The candidates: every published node that is still known, once, weighted with the
    number of edges it shows; at most [n_sample] and at most as many as there are edge
    lists are drawn.  Edges from [u] to exactly the drawn nodes are added, as by add_edge;
    nothing else changes. *)
Theorem C98_candidates :
  forall (O L W : Type) (eqo : O -> O -> bool) hash cpus (directed : bool) (cs : list (pnop O L W)) p rs it choose u n_sample,
    equivalence eqo -> some_cpus cpus -> p_good_run eqo directed p_new cs -> reorders it ->
    pn_run eqo hash (shards cpus) (pn_new cpus directed) cs = Some (p, rs) ->
    let s := p_run eqo directed p_new cs in
    exists ids, NoDup ids /\ (forall i, In i ids <-> slist s i <> None) /\
      let dist := flat_map (candidate eqo s) ids in
      let amount := Nat.min (length (filter (fun i => is_listed i (now s)) (map fst (nodes (now s))))) n_sample in
      (forall x k, In (x, k) dist <-> exists i es, In i ids /\ pn_get_object hash p i = Some (Some x) /\
                                           pn_get_edges eqo hash p x = Some (Some es) /\ length es = k) /\
      pn_add_prob_edge eqo hash choose it p u n_sample =
        match choose dist amount with
        | Some picked => option_map fst (pn_run eqo hash (shards cpus) p (map (fun c => PAddEdge u (fst c) Simple) picked))
        | None => None
        end.
Proof.
  intros O L W eqo hash cpus d cs p rs it choose u n_sample E [C1 C2] G P H s.
  pose proof (good_psim eqo E hash _ d cpus _ _ _ C1 C2 eq_refl G H) as S. fold s in S.
  destruct (keys_nodup eqo hash _ d p s it S P) as [K1 K2]. exists (keys it (p_edges p)). split; [exact K1|]. split; [exact K2|]. cbv zeta. split.
  - intros x k. rewrite in_flat_map. split.
    + intros (i & I1 & I2). unfold candidate in I2. destruct (sobj s i) as [y|] eqn:Sy; [|destruct I2]. destruct (id_in eqo y (now s)) as [j|] eqn:Fj; [|destruct I2].
      destruct (slist s j) as [es|] eqn:Fl; [|destruct I2]. destruct I2 as [I2|[]]. injection I2 as -> <-. exists i, es. split; [exact I1|].
      rewrite (pn_object_sim eqo hash _ d _ _ _ S), (pn_edges_sim eqo hash _ d _ _ _ S), Sy, Fj, Fl. auto.
    + intros (i & es & I1 & I2 & I3 & I4). rewrite (pn_object_sim eqo hash _ d _ _ _ S) in I2. rewrite (pn_edges_sim eqo hash _ d _ _ _ S) in I3. injection I2 as I2. injection I3 as I3.
      exists i. split; [exact I1|]. unfold candidate. rewrite I2. destruct (id_in eqo x (now s)) as [j|]; [|discriminate]. rewrite I3, <- I4. left. reflexivity.
  - unfold pn_add_prob_edge. rewrite (degrees_psim eqo hash _ d _ p s S).
    2:{ intros k Hk. apply (s_pub _ _ _ _ _ _ S). apply K2. exact Hk. }
    rewrite (len_listed eqo hash _ d p s S). set (a := length (filter _ _)).
    assert (AM : (if Nat.ltb a n_sample then a else n_sample) = Nat.min a n_sample) by (destruct (Nat.ltb a n_sample) eqn:B; [apply Nat.ltb_lt in B|apply Nat.ltb_ge in B]; lia).
    rewrite AM. destruct (choose (flat_map (candidate eqo s) (keys it (p_edges p))) (Nat.min a n_sample)) as [picked|]; [|reflexivity].
    clear. revert p. induction picked as [|c picked IH]; intros p; [reflexivity|]. cbn [map pn_link pn_run pn_call].
    destruct (pn_add_edge eqo hash p u (fst c) Simple) as [[p1 q]|]; [|reflexivity]. cbn [option_map fst snd]. rewrite IH.
    destruct (pn_run eqo hash (shards cpus) p1 _) as [[p2 rs]|]; reflexivity.
Qed.
Print Assumptions C98_candidates.
(** An unknown node gets no edges; and after remove_all_edges nobody does: no node is
    drawn, although the published degrees are used as weights. *)
Theorem C98_unknown :
  forall (O L W : Type) (eqo : O -> O -> bool) hash cpus (directed : bool) (cs : list (pnop O L W)) p rs it choose u n_sample p',
    equivalence eqo -> some_cpus cpus -> p_good_run eqo directed p_new cs -> reorders it ->
    pn_run eqo hash (shards cpus) (pn_new cpus directed) cs = Some (p, rs) -> pn_id eqo p u = None ->
    pn_add_prob_edge eqo hash choose it p u n_sample = Some p' -> p' = p.
Proof.
  intros O L W eqo hash cpus d cs p rs it choose u n_sample p' E K G P H Hu F. unfold pn_add_prob_edge in F.
  destruct (pn_degrees eqo hash p (keys it (p_edges p))) as [dist|]; [|discriminate]. destruct (choose dist _) as [picked|]; [|discriminate].
  clear - Hu F. induction picked as [|c picked IH]; cbn [map pn_link] in F; [injection F as <-; reflexivity|].
  unfold pn_add_edge in F. unfold pn_id in Hu. rewrite Hu in F. apply IH. exact F.
Qed.
Print Assumptions C98_unknown.
(** A node may be joined to itself. *)
Theorem C98_self_loop_refuted :
  exists (cs : list call) p rs p', p_good_run N.eqb false p_new cs /\ prun false cs = Some (p, rs) /\
    pn_add_prob_edge N.eqb hid (fun l k => Some (firstn k l)) keep p 10 1 = Some p' /\
    option_map (fun q => pn_get_edges N.eqb hid (fst q) 10) (pn_call N.eqb hid (shards 1) p' pPublish) =
      Some (Some (Some [Edge 0 1 None None; Edge 0 0 None None; Edge 0 0 None None])).
Proof.
  exists [pAdd 10; pAdd 20; pLink 10 20; pPublish]. eexists _, _, _. split; [pgood|]. split; [vm_compute; reflexivity|]. split; vm_compute; reflexivity.
Qed.
Print Assumptions C98_self_loop_refuted.
Example C98_concrete :
  let cs := [pAdd 10; pAdd 20; pAdd 30; pLink 10 20; pPublish; pAdd 40] in
  p_good_run N.eqb true p_new cs /\
  flat_map (candidate N.eqb (p_run N.eqb true p_new cs)) (keys keep (p_edges (pfinal true cs))) = [(10, 1%nat); (20, 0%nat); (30, 0%nat)] /\
  option_map (fun p => option_map (fun q => pn_get_edges N.eqb hid (fst q) 40) (pn_call N.eqb hid (shards 1) p pPublish))
    (pn_add_prob_edge N.eqb hid (fun l k => Some (firstn k l)) keep (pfinal true cs) 40 2) =
  Some (Some (Some (Some [Edge 3 0 None None; Edge 3 1 None None]))).
Proof. split; [pgood|]. split; vm_compute; reflexivity. Qed.

(** ** C99: symmetry of undirected networks *)
Theorem C99_symmetric_partial :
  forall (O L W : Type) (eqo : O -> O -> bool) hash cpus (cs : list (pnop O L W)) ut ut' p rs u v i j,
    equivalence eqo -> some_cpus cpus -> p_good_run eqo false p_new (cs ++ [PUpdate ut ut']) ->
    forallb (fun c => negb (p_drops c)) cs = true ->
    pn_run eqo hash (shards cpus) (pn_new cpus false) (cs ++ [PUpdate ut ut']) = Some (p, rs) ->
    pn_id eqo p u = Some i -> pn_id eqo p v = Some j ->
    map (fun e => (e_label e, e_weight e)) (filter (fun e => e_v e =? j) (pn_edges_of eqo hash p u)) =
    map (fun e => (e_label e, e_weight e)) (filter (fun e => e_v e =? i) (pn_edges_of eqo hash p v)).
Proof.
  intros O L W eqo hash cpus cs ut ut' p rs u v i j E [C1 C2] G ND H Hi Hj.
  pose proof (good_psim eqo E hash _ false cpus _ _ _ C1 C2 eq_refl G H) as S. rewrite p_run_app in S. cbn [p_run p_next] in S.
  assert (AL : all_listed (now (p_run eqo false p_new cs))) by (apply p_listed_run; [exact ND|apply all_listed_empty]).
  rewrite (pn_id_sim eqo hash _ false _ _ _ S) in Hi. rewrite (pn_id_sim eqo hash _ false _ _ _ S) in Hj. cbn [p_publish now] in Hi, Hj.
  rewrite (shown_after eqo hash _ false _ _ u E S AL), (shown_after eqo hash _ false _ _ v E S AL), Hi, Hj. apply incident_sym. reflexivity.
Qed.
Print Assumptions C99_symmetric_partial.
(** After remove_all_edges: an edge shown at one end only. *)
Theorem C99_refuted :
  exists (cs : list call) p rs, p_good_run N.eqb false p_new cs /\ prun false cs = Some (p, rs) /\
    pn_id N.eqb p 10 = Some 0 /\ pn_id N.eqb p 20 = Some 1 /\
    filter (fun e => e_v e =? 1) (pn_edges_of N.eqb hid p 10) = [] /\
    filter (fun e => e_v e =? 0) (pn_edges_of N.eqb hid p 20) = [Edge 1 0 None None].
Proof.
  exists [pAdd 10; pAdd 20; pAdd 30; pLink 10 20; pPublish; PRemoveAllEdges; pLink 10 30; pPublish]. eexists _, _. split; [pgood|]. split; [vm_compute; reflexivity|]. repeat split; vm_compute; reflexivity.
Qed.
Print Assumptions C99_refuted.
Example C99_concrete :
  let cs := [pAdd 10; pAdd 20; pLinkw 10 20 7; pLinkw 20 10 8; pAdd 30; pLink 30 10; pPublish; pCut 30 10] in
  let p := pfinal false (cs ++ [pPublish]) in
  p_good_run N.eqb false p_new (cs ++ [pPublish]) /\
  pn_edges_of N.eqb hid p 10 = [Edge 0 1 None (Some 7); Edge 0 1 None (Some 8)] /\
  pn_edges_of N.eqb hid p 20 = [Edge 1 0 None (Some 7); Edge 1 0 None (Some 8)] /\ pn_edges_of N.eqb hid p 30 = [].
Proof. split; [pgood|]. repeat split; vm_compute; reflexivity. Qed.
