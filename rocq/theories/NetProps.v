(** * Property theorems: Network (C33-C38, C65-C67) *)
From Coq Require Import List Bool NArith Arith Lia Permutation.
From Verif Require Import DashModel NetModel NetSpec NetBASpec NetProofs NetRef NetRun NetBA NetIds NetFacts.
Import ListNotations.
Open Scope N_scope.

(** The histories of the examples: nodes are numbers, labels and weights too. *)
Local Notation call := (nop N N N).
Definition same (l : list (N * N)) := l.
Definition addN (u : N) : call := NAddNode u.
Definition link (u v : N) : call := NAddEdge u v Simple.
Definition linkw (u v w : N) : call := NAddEdge u v (Weighted w).
Definition cut (u v : N) : call := NRemoveEdge u v.
Definition gone (u : N) : call := NRemoveNode u same same.
Definition publish : call := NUpdate.
Definition final (d : bool) (cs : list call) : net N N N :=
  match net_run N.eqb (net_new d) cs with Some (g, _) => g | None => net_new d end.
(** Deciding [a_good_run] for the examples. *)
Definition ids_agreeb (s : astate N N N) : bool :=
  forallb (fun p => match id_in N.eqb (snd p) (cur s) with Some j => fst p =? j | None => true end) (nodes (pub s)).
Definition knownb (s : astate N N N) (x : N) : bool := match id_in N.eqb x (pub s) with Some _ => true | None => false end.
Definition removableb (s : astate N N N) (i : N) (f : N * N * edge_options N N -> bool) : bool :=
  ids_agreeb s &&
  forallb (fun p => negb (knownb s (snd p)) || is_listed (fst p) (cur s)) (nodes (cur s)) &&
  forallb (fun e => negb (f e) || forallb (fun p => negb (fst p =? the_other i e) || knownb s (snd p)) (nodes (cur s))) (edges (cur s)) &&
  forallb (fun e => Nat.leb (length (filter (fun e' => f e' && (the_other i e' =? the_other i e)) (edges (cur s)))) 1) (edges (cur s)).
Lemma ids_agreeb_ok s : ids_agreeb s = true -> ids_agree N.eqb s.
Proof.
  intros H u i j Hi Hj. unfold ids_agreeb in H. rewrite forallb_forall in H. unfold id_in in Hi.
  destruct (find _ (nodes (pub s))) as [[i' x]|] eqn:F; [|discriminate]. apply find_some in F. destruct F as [F1 F2]. cbn in Hi, F2. injection Hi as ->.
  apply N.eqb_eq in F2. subst x. specialize (H _ F1). cbn [fst snd] in H. rewrite Hj in H. apply N.eqb_eq in H. exact H.
Qed.
Lemma knownb_ok s x : knownb s x = true -> id_in N.eqb x (pub s) <> None.
Proof. unfold knownb. destruct (id_in N.eqb x (pub s)); discriminate. Qed.
Lemma removableb_ok s i f : removableb s i f = true -> removable N.eqb s i f.
Proof.
  unfold removableb. intros H. apply andb_prop in H. destruct H as [H H4]. apply andb_prop in H. destruct H as [H H3]. apply andb_prop in H. destruct H as [H1 H2].
  rewrite forallb_forall in H2, H3, H4. split; [apply ids_agreeb_ok; exact H1|]. split; [|split].
  - intros k x Hk Hx. specialize (H2 _ Hk). cbn [fst snd] in H2. unfold knownb in H2. destruct (id_in N.eqb x (pub s)); [exact H2|contradiction].
  - intros e x He Hf Hx. specialize (H3 _ He). rewrite Hf in H3. cbn [negb orb] in H3. rewrite forallb_forall in H3. specialize (H3 _ Hx). cbn [fst snd] in H3.
    rewrite N.eqb_refl in H3. apply knownb_ok. exact H3.
  - intros k. destruct (filter (fun e => f e && (the_other i e =? k)) (edges (cur s))) as [|e0 l] eqn:F; [cbn; lia|]. rewrite <- F.
    assert (HI : In e0 (filter (fun e => f e && (the_other i e =? k)) (edges (cur s)))) by (rewrite F; left; reflexivity).
    apply filter_In in HI. destruct HI as [HI HK]. apply andb_prop in HK. destruct HK as [_ HK]. apply N.eqb_eq in HK. subst k.
    apply Nat.leb_le. apply (H4 _ HI).
Qed.
Definition goodb (d : bool) (s : astate N N N) (c : call) : bool :=
  match c with
  | NAddNode u =>
      match id_in N.eqb u (cur s), object_in (N.of_nat (length (nodes (cur s)))) (cur s) with
      | None, None => N.of_nat (length (nodes (cur s))) <? 4294967296 | _, _ => false end
  | NRemoveEdge u v =>
      match id_in N.eqb u (pub s), id_in N.eqb v (pub s), id_in N.eqb u (cur s), id_in N.eqb v (cur s) with
      | Some i, Some j, Some i', Some j' =>
          (i' =? i) && (j' =? j) && is_listed i (cur s) && (d || Nat.leb (count_between d i j (cur s)) 1)
      | _, _, _, _ => false end
  | NRemoveOutgoing _ _ | NRemoveIncoming _ _ => false
  | NRemoveNode u _ _ =>
      match id_in N.eqb u (cur s), id_in N.eqb u (pub s) with
      | Some i, Some i' => (i' =? i) && removableb s i (if d then enters d i else fun _ => false) &&
           removableb s i (fun e => false) &&
           forallb (fun e => negb (touches i e) || forallb (fun p => negb (fst p =? the_other i e) || knownb s (snd p)) (nodes (cur s))) (edges (cur s))
      | _, _ => false end
  | _ => true
  end.
Fixpoint good_runb (d : bool) (s : astate N N N) (cs : list call) : bool :=
  match cs with [] => true | c :: cs' => goodb d s c && good_runb d (a_next N.eqb d s c) cs' end.
(** The iteration orders of the examples. *)
Definition plain (c : call) : Prop :=
  match c with
  | NRemoveNode _ it it' => (forall l, Permutation (it l) l) /\ (forall l, Permutation (it' l) l)
  | _ => True
  end.
Lemma good_runb_ok d cs : forall s, Forall plain cs -> good_runb d s cs = true -> a_good_run N.eqb d s cs.
Proof.
  induction cs as [|c cs IH]; intros s P H; [exact I|]. inversion P as [|? ? P1 P2]; subst. cbn [good_runb] in H. apply andb_prop in H. destruct H as [H1 H2].
  split; [|apply IH; assumption].
  destruct c as [u|u v o|u v| |u it|u it|u it it'|u| | |u v|u|i|u]; try exact I; cbn [goodb] in H1; try discriminate; cbn [a_good].
  - destruct (id_in N.eqb u (cur s)); [discriminate|]. destruct (object_in _ _); [discriminate|]. split; [reflexivity|]. split; [reflexivity|]. apply N.ltb_lt. exact H1.
  - destruct (id_in N.eqb u (pub s)) as [i|]; [|discriminate]. destruct (id_in N.eqb v (pub s)) as [j|]; [|discriminate].
    destruct (id_in N.eqb u (cur s)) as [i'|]; [|discriminate]. destruct (id_in N.eqb v (cur s)) as [j'|]; [|discriminate].
    apply andb_prop in H1. destruct H1 as [H1 H4]. apply andb_prop in H1. destruct H1 as [H1 H3]. apply andb_prop in H1. destruct H1 as [H0 H1].
    apply N.eqb_eq in H0, H1. intros i0 j0 E1 E2. injection E1 as <-. injection E2 as <-. subst. split; [reflexivity|]. split; [reflexivity|]. split; [exact H3|].
    apply orb_prop in H4. destruct H4 as [H4|H4]; [left; exact H4|right; apply Nat.leb_le; exact H4].
  - cbn [plain] in P1. split; [apply P1|]. split; [apply P1|]. destruct (id_in N.eqb u (cur s)) as [i|]; [|discriminate]. destruct (id_in N.eqb u (pub s)) as [i'|]; [|discriminate].
    apply andb_prop in H1. destruct H1 as [H1 H4]. apply andb_prop in H1. destruct H1 as [H1 _]. apply andb_prop in H1. destruct H1 as [H0 H1].
    apply N.eqb_eq in H0. subst i'. intros i0 E1. injection E1 as <-. split; [reflexivity|]. split; [apply removableb_ok; exact H1|].
    intros e x He Ht Hx. rewrite forallb_forall in H4. specialize (H4 _ He). rewrite Ht in H4. cbn [negb orb] in H4. rewrite forallb_forall in H4. specialize (H4 _ Hx).
    cbn [fst snd] in H4. rewrite N.eqb_refl in H4. apply knownb_ok. exact H4.
Qed.
Lemma same_perm : forall l, Permutation (same l) l.
Proof. reflexivity. Qed.
Ltac good := apply good_runb_ok; [repeat constructor; try exact same_perm|vm_compute; reflexivity].
Definition ex_history : list call :=
  [addN 10; addN 20; addN 30; linkw 10 20 7; publish; link 20 30; linkw 30 10 5; cut 20 10; publish;
   addN 40; link 40 30; link 20 20; publish; gone 10; publish; NGetEdges 30; NGetEdge 30 20].
Lemma ex_good d : a_good_run N.eqb d a_new ex_history.
Proof. destruct d; good. Qed.

(** ** C65: a history of calls behaves like the same history on an abstract graph

    For every history that keeps to [a_good] (new nodes whose next id is free, removals
    between published nodes that are joined at most once) no call panics and every answer
    is the answer of the abstract graph. *)
Theorem C65_refines_graph :
  forall (O L W : Type) (eqo : O -> O -> bool) (directed : bool) (cs : list (nop O L W)),
    equivalence eqo -> a_good_run eqo directed a_new cs ->
    exists g rs, net_run eqo (net_new directed) cs = Some (g, rs) /\ a_answers eqo directed a_new cs rs.
Proof.
  intros O L W eqo d cs E G. destruct (run_ref eqo E d cs _ _ (new_simulates eqo d) G) as (g & rs & H1 & H2 & _). exists g, rs. split; assumption.
Qed.
Print Assumptions C65_refines_graph.

Example C65_concrete :
  a_good_run N.eqb false a_new ex_history /\
  exists g rs, net_run N.eqb (net_new false) ex_history = Some (g, rs) /\
    last (removelast rs) NUnit = NEdges (Some [Edge 2 1 None None; Edge 2 3 None None]) /\
    last rs NUnit = NEdge (Some (Edge 2 1 None None)).
Proof. split; [apply ex_good|]. eexists _, _. split; [vm_compute; reflexivity|]. split; reflexivity. Qed.

(** ** C33: symmetry of undirected networks *)
Theorem C33_symmetric_partial :
  forall (O L W : Type) (eqo : O -> O -> bool) (cs : list (nop O L W)) g rs u v i j,
    equivalence eqo -> a_good_run eqo false a_new cs -> net_run eqo (net_new false) cs = Some (g, rs) ->
    get_id eqo g u = Some i -> get_id eqo g v = Some j ->
    map (fun e => (e_label e, e_weight e)) (filter (fun e => e_v e =? j) (edges_of eqo g u)) =
    map (fun e => (e_label e, e_weight e)) (filter (fun e => e_v e =? i) (edges_of eqo g v)).
Proof.
  intros O L W eqo cs g rs u v i j E G H Hi Hj. pose proof (good_sim eqo E false cs g rs G H) as S.
  rewrite (get_id_sim eqo false _ _ _ S) in Hi. rewrite (get_id_sim eqo false _ _ _ S) in Hj. rewrite (edges_of_sim eqo false _ _ u S), (edges_of_sim eqo false _ _ v S), Hi, Hj. apply incident_sym. reflexivity.
Qed.
Print Assumptions C33_symmetric_partial.
(** Two edges between the same nodes: remove_edge takes one from one side and both from
    the other. *)
Theorem C33_refuted :
  exists (cs : list (nop N N N)) g rs,
    net_run N.eqb (net_new false) cs = Some (g, rs) /\ forallb (fun c => negb (removes_node c)) cs = true /\
    get_id N.eqb g 10 = Some 0 /\ get_id N.eqb g 20 = Some 1 /\
    length (filter (fun e => e_v e =? 1) (edges_of N.eqb g 10)) = 1%nat /\
    length (filter (fun e => e_v e =? 0) (edges_of N.eqb g 20)) = 0%nat.
Proof.
  exists [addN 10; addN 20; link 10 20; link 10 20; publish; cut 10 20; publish]. eexists _, _. split; [vm_compute; reflexivity|]. repeat split.
Qed.
Print Assumptions C33_refuted.
Example C33_concrete :
  let g := final false [addN 10; addN 20; linkw 10 20 7; linkw 20 10 8; addN 30; link 30 10; publish; cut 30 10; publish] in
  a_good_run N.eqb false a_new [addN 10; addN 20; linkw 10 20 7; linkw 20 10 8; addN 30; link 30 10; publish; cut 30 10; publish] /\
  edges_of N.eqb g 10 = [Edge 0 1 None (Some 7); Edge 0 1 None (Some 8)] /\
  edges_of N.eqb g 20 = [Edge 1 0 None (Some 7); Edge 1 0 None (Some 8)] /\ edges_of N.eqb g 30 = [].
Proof. split; [good|]. vm_compute. repeat split. Qed.

(** ** C34: ids *)
(** Without remove_node: whatever else the history does, the published nodes have their
    positions as ids. *)
Theorem C34_ids_partial :
  forall (O L W : Type) (eqo : O -> O -> bool) (directed : bool) (cs : list (nop O L W)) g rs,
    equivalence eqo -> net_run eqo (net_new directed) cs = Some (g, rs) ->
    forallb (fun c => negb (removes_node c)) cs = true ->
    different eqo (added cs) -> N.of_nat (length (added cs)) <= 4294967296 ->
    (forall u k, get_id eqo g u = Some k <->
       exists x, nth_error (added (upto_update cs)) (N.to_nat k) = Some x /\ eqo u x = true) /\
    (forall u v k, get_id eqo g u = Some k -> get_id eqo g v = Some k -> eqo u v = true) /\
    (forall u k, get_id eqo g u = Some k -> exists x, get_object g k = Some x /\ eqo u x = true).
Proof.
  intros O L W eqo d cs g rs E H H1 H2 H3. pose proof (ids_history eqo E d cs g rs H1 H2 H3 H) as I.
  assert (A : forall u k, get_id eqo g u = Some k <-> exists x, nth_error (added (upto_update cs)) (N.to_nat k) = Some x /\ eqo u x = true).
  { intros u k. apply (v_id _ _ _ I). }
  split; [exact A|]. split.
  - intros u v k Hu Hv. apply A in Hu, Hv. destruct Hu as (x & X1 & X2). destruct Hv as (y & Y1 & Y2). rewrite X1 in Y1. injection Y1 as <-.
    apply (eq_trans_ _ E u x v X2). apply (eq_sym_ _ E). exact Y2.
  - intros u k Hu. apply A in Hu. destruct Hu as (x & X1 & X2). pose proof (v_obj _ _ _ I k) as V. rewrite X1 in V. destruct V as (y & V1 & V2).
    exists y. split; [exact V1|]. apply (eq_trans_ _ E u x y X2). apply (eq_sym_ _ E). exact V2.
Qed.
Print Assumptions C34_ids_partial.
(** With remove_node, as long as the next id is free when a node is added. *)
Theorem C34_good_partial :
  forall (O L W : Type) (eqo : O -> O -> bool) (directed : bool) (cs : list (nop O L W)) g rs,
    equivalence eqo -> a_good_run eqo directed a_new cs -> net_run eqo (net_new directed) cs = Some (g, rs) ->
    (forall u v k, get_id eqo g u = Some k -> get_id eqo g v = Some k -> eqo u v = true) /\
    (forall u k, get_id eqo g u = Some k -> exists x, get_object g k = Some x /\ eqo u x = true) /\
    (forall k x, get_object g k = Some x -> get_id eqo g x = Some k).
Proof.
  intros O L W eqo d cs g rs E G H. pose proof (good_sim eqo E d cs g rs G H) as S. pose proof S as (_ & _ & Op & _).
  split; [|split].
  - intros u v k Hu Hv. rewrite (get_id_sim eqo d _ _ _ S) in Hu. rewrite (get_id_sim eqo d _ _ _ S) in Hv. apply (id_in_iff eqo E d) in Hu; [|exact Op]. apply (id_in_iff eqo E d) in Hv; [|exact Op].
    destruct Hu as (x & X1 & X2). destruct Hv as (y & Y1 & Y2). apply (object_in_iff eqo d) in X1; [|exact Op]. apply (object_in_iff eqo d) in Y1; [|exact Op].
    rewrite X1 in Y1. injection Y1 as <-. apply (eq_trans_ _ E u x v X2). apply (eq_sym_ _ E). exact Y2.
  - intros u k Hu. rewrite (get_id_sim eqo d _ _ _ S) in Hu. apply (id_in_iff eqo E d) in Hu; [|exact Op]. destruct Hu as (x & X1 & X2).
    exists x. split; [|exact X2]. rewrite (get_object_sim eqo d _ _ _ S). apply (object_in_iff eqo d); assumption.
  - intros k x Hx. rewrite (get_object_sim eqo d _ _ _ S) in Hx. apply (object_in_iff eqo d) in Hx; [|exact Op]. rewrite (get_id_sim eqo d _ _ _ S).
    apply (id_in_self eqo E d); assumption.
Qed.
Print Assumptions C34_good_partial.
(** Removing a node and adding another one: two nodes share an id. *)
Theorem C34_removed_refuted :
  exists (cs : list (nop N N N)) g rs,
    net_run N.eqb (net_new false) cs = Some (g, rs) /\
    get_id N.eqb g 20 = Some 1 /\ get_id N.eqb g 30 = Some 1 /\ get_object g 1 = Some 30.
Proof.
  exists [addN 10; addN 20; publish; gone 10; addN 30; publish]. eexists _, _. split; [vm_compute; reflexivity|]. repeat split.
Qed.
Print Assumptions C34_removed_refuted.
(** Adding a node a second time changes its id and the next node gets the same id. *)
Theorem C34_readded_refuted :
  exists (cs : list (nop N N N)) g rs,
    net_run N.eqb (net_new false) cs = Some (g, rs) /\ forallb (fun c => negb (removes_node c)) cs = true /\
    get_id N.eqb g 10 = Some 1 /\ get_id N.eqb g 20 = Some 1.
Proof.
  exists [addN 10; addN 10; addN 20; publish]. eexists _, _. split; [vm_compute; reflexivity|]. repeat split.
Qed.
Print Assumptions C34_readded_refuted.
Example C34_concrete :
  (let cs := [addN 10; link 10 20; addN 20; publish; cut 10 20; addN 30] in
   exists g rs, net_run N.eqb (net_new true) cs = Some (g, rs) /\ added (upto_update cs) = [10; 20] /\
     different N.eqb (added cs) /\ get_id N.eqb g 20 = Some 1 /\ get_id N.eqb g 30 = None /\ get_object g 1 = Some 20) /\
  a_good_run N.eqb true a_new ex_history /\ get_id N.eqb (final true ex_history) 40 = Some 3.
Proof.
  split.
  - eexists _, _. split; [vm_compute; reflexivity|]. split; [reflexivity|]. split; [repeat constructor|]. repeat split.
  - split; [apply ex_good|]. vm_compute. reflexivity.
Qed.

(** ** C35: reads see the last update *)
Theorem C35_last_update :
  forall (O L W : Type) (eqo : O -> O -> bool) (directed : bool) (cs later : list (nop O L W)) g rs,
    net_run eqo (net_new directed) (cs ++ later) = Some (g, rs) ->
    forallb (fun c => negb (publishes c)) later = true ->
    exists g0 rs0, net_run eqo (net_new directed) cs = Some (g0, rs0) /\
      (forall u, get_id eqo g u = get_id eqo g0 u) /\ (forall i, get_object g i = get_object g0 i) /\
      (forall u, get_edges eqo g u = get_edges eqo g0 u) /\ (forall u v, get_edge eqo g u v = get_edge eqo g0 u v).
Proof.
  intros O L W eqo d cs later g rs H HP. rewrite run_app in H. destruct (net_run eqo (net_new d) cs) as [[g0 rs0]|] eqn:E0; [|discriminate].
  exists g0, rs0. split; [reflexivity|]. destruct (net_run eqo g0 later) as [[g1 rs1]|] eqn:E1; [|discriminate]. cbn in H. injection H as -> _.
  assert (A : nr g = nr g0 /\ direct g = direct g0).
  { clear E0. revert g0 rs1 E1. induction later as [|c later IH]; intros g0 rs1 E1; cbn [net_run] in E1; [injection E1 as <- _; split; reflexivity|].
    cbn [forallb] in HP. apply andb_prop in HP. destruct HP as [P1 P2]. apply negb_true_iff in P1.
    destruct (net_call eqo g0 c) as [[g2 r]|] eqn:EC; [|discriminate]. destruct (net_run eqo g2 later) as [[g3 rs3]|] eqn:ER; [|discriminate].
    injection E1 as -> _. destruct (IH P2 g2 rs3 ER) as [I1 I2]. destruct (call_keeps_read eqo g0 c g2 r P1 EC) as [K1 K2]. split; congruence. }
  destruct A as [A1 A2]. unfold get_id, get_object, get_edges, get_edge. rewrite A1, A2. repeat split; reflexivity.
Qed.
Print Assumptions C35_last_update.
(** update publishes everything done before it: see C65; in particular a node added before
    an update is known after it. *)
Theorem C35_published :
  forall (O L W : Type) (eqo : O -> O -> bool) (directed : bool) (cs : list (nop O L W)) u k g rs,
    equivalence eqo -> net_run eqo (net_new directed) (cs ++ [k]) = Some (g, rs) -> publishes k = true ->
    forallb (fun c => negb (removes_node c)) cs = true -> In (NAddNode u) cs -> get_id eqo g u <> None.
Proof.
  intros O L W eqo d cs u k g rs E H HK HR HI. rewrite run_app in H. destruct (net_run eqo (net_new d) cs) as [[g0 rs0]|] eqn:E0; [|discriminate].
  assert (A : exists i, lk eqo u (n2i (nw g0)) = Some i) by (apply (added_known eqo E cs (net_new d) g0 rs0 u HR E0); left; exact HI).
  destruct A as (i & A). cbn [net_run] in H.
  assert (B : net_call eqo g0 k = Some (net_update g0, NUnit)) by (destruct k; try discriminate; reflexivity).
  rewrite B in H. cbn in H. injection H as <- _. unfold get_id, net_update, id_of. cbn [nr]. unfold lk in A. rewrite A. discriminate.
Qed.
Print Assumptions C35_published.
Example C35_concrete :
  let cs := [addN 10; addN 20; link 10 20; publish] in
  let later := [addN 30; cut 10 20; gone 20; link 30 30] in
  exists g rs, net_run N.eqb (net_new false) (cs ++ later) = Some (g, rs) /\
    forallb (fun c => negb (publishes c)) later = true /\
    get_edges N.eqb g 20 = Some [Edge 1 0 None None] /\ get_id N.eqb g 30 = None /\ get_edge N.eqb g 10 20 = Some (Some (Edge 0 1 None None)).
Proof. eexists _, _. split; [vm_compute; reflexivity|]. repeat split. Qed.

(** ** C36: remove_node *)
Theorem C36_removed_partial :
  forall (O L W : Type) (eqo : O -> O -> bool) (directed : bool) (cs : list (nop O L W)) u it it' k g0 rs0 i,
    equivalence eqo -> a_good_run eqo directed a_new (cs ++ [NRemoveNode u it it']) -> publishes k = true ->
    net_run eqo (net_new directed) (cs ++ [NUpdate]) = Some (g0, rs0) -> get_id eqo g0 u = Some i ->
    exists g rs, net_run eqo (net_new directed) (cs ++ [NRemoveNode u it it'; k]) = Some (g, rs) /\
      nth_error rs (length cs) = Some (NBool true) /\
      get_id eqo g u = None /\ get_object g i = None /\
      (forall v e, In e (edges_of eqo g v) -> e_u e <> i /\ e_v e <> i) /\
      (forall v, eqo v u = false -> get_id eqo g v = get_id eqo g0 v /\
         edges_of eqo g v = filter (fun e => negb (e_v e =? i)) (edges_of eqo g0 v)).
Proof.
  intros O L W eqo d cs u it it' k g0 rs0 i E G HK H0 Hi. apply a_good_app in G. destruct G as [G1 G2].
  assert (GU : a_good_run eqo d a_new (cs ++ [NUpdate])) by (apply a_good_app; split; [exact G1|split; exact I]).
  pose proof (good_sim eqo E d _ _ _ GU H0) as S0. rewrite a_run_app in S0. cbn [a_run a_next] in S0. set (s := a_run eqo d a_new cs) in *.
  rewrite (get_id_sim eqo d _ _ _ S0) in Hi. cbn [pub] in Hi.
  assert (GK : a_good_run eqo d a_new (cs ++ [NRemoveNode u it it'; k])).
  { apply a_good_app. split; [exact G1|]. fold s. split; [apply G2|]. split; [|exact I]. destruct k; try discriminate; exact I. }
  destruct (run_ref eqo E d _ _ _ (new_simulates eqo d) GK) as (g & rs & R1 & R2 & R3). exists g, rs. split; [exact R1|].
  rewrite a_run_app in R3. fold s in R3. cbn [a_run a_next] in R3. rewrite Hi in R3.
  assert (RK : a_next eqo d (AState (pub s) (a_remove_node i (cur s))) k = AState (a_remove_node i (cur s)) (a_remove_node i (cur s))) by (destruct k; try discriminate; reflexivity).
  rewrite RK in R3.
  pose proof S0 as (_ & _ & Oc & _). cbn [pub] in Oc. pose proof R3 as (_ & _ & On & _). cbn [pub] in On.
  assert (NB : nth_error rs (length cs) = Some (NBool true)).
  { apply a_answers_app in R2. destruct R2 as (r1 & r2 & -> & R2 & L1). fold s in R2. destruct r2 as [|r [|r' r2]]; cbn [a_answers] in R2; try tauto.
    destruct R2 as [R2 _]. cbn [a_answer] in R2. rewrite Hi in R2. rewrite nth_error_app2, L1, Nat.sub_diag by lia. cbn [nth_error]. congruence. }
  split; [exact NB|].
  assert (UN : id_in eqo u (a_remove_node i (cur s)) = None).
  { destruct (id_in eqo u (a_remove_node i (cur s))) as [i'|] eqn:F; [|reflexivity]. apply (id_in_iff eqo E d) in F; [|exact On]. destruct F as (x & F1 & F2).
    cbn [a_remove_node nodes] in F1. unfold drop in F1. apply filter_In in F1. destruct F1 as [F1 F3]. cbn [fst] in F3.
    assert (FF : id_in eqo u (cur s) = Some i') by (apply (id_in_iff eqo E d); [exact Oc|]; exists x; split; assumption). rewrite Hi in FF. injection FF as <-.
    rewrite N.eqb_refl in F3. discriminate. }
  split; [rewrite (get_id_sim eqo d _ _ _ R3); exact UN|].
  split.
  { rewrite (get_object_sim eqo d _ _ _ R3). cbn [pub]. destruct (object_in i (a_remove_node i (cur s))) as [x|] eqn:F; [|reflexivity].
    apply (object_in_iff eqo d) in F; [|exact On]. cbn [a_remove_node nodes] in F. unfold drop in F. apply filter_In in F. destruct F as [_ F]. cbn [fst] in F. rewrite N.eqb_refl in F. discriminate. }
  split.
  - intros v e He. rewrite (edges_of_sim eqo d _ _ _ R3) in He. cbn [pub] in He. destruct (id_in eqo v (a_remove_node i (cur s))) as [j|]; [|destruct He].
    apply in_flat_map in He. destruct He as ([[x y] o] & H1 & H2). cbn [a_remove_node edges] in H1. unfold drop in H1. apply filter_In in H1. destruct H1 as [_ H1].
    apply negb_true_iff in H1. unfold touches in H1. apply orb_false_elim in H1. destruct H1 as [X Y]. apply N.eqb_neq in X, Y.
    unfold seen_from in H2. apply in_app_or in H2. destruct H2 as [H2|H2].
    + destruct (x =? j) eqn:A; [|destruct H2]. destruct H2 as [<-|[]]. cbn [shown e_u e_v]. apply N.eqb_eq in A. subst. split; assumption.
    + destruct (negb d && (y =? j)) eqn:A; [|destruct H2]. destruct H2 as [<-|[]]. cbn [shown e_u e_v]. apply andb_prop in A. destruct A as [_ A]. apply N.eqb_eq in A. subst. split; assumption.
  - intros v Hv. rewrite (get_id_sim eqo d _ _ _ R3), (get_id_sim eqo d _ _ _ S0), (edges_of_sim eqo d _ _ _ R3), (edges_of_sim eqo d _ _ _ S0). cbn [pub].
    assert (VI : id_in eqo v (a_remove_node i (cur s)) = id_in eqo v (cur s)).
    { destruct (id_in eqo v (cur s)) as [j|] eqn:F.
      - apply (id_in_iff eqo E d); [exact On|]. apply (id_in_iff eqo E d) in F; [|exact Oc]. destruct F as (x & F1 & F2). exists x. split; [|exact F2].
        cbn [a_remove_node nodes]. unfold drop. apply filter_In. split; [exact F1|]. cbn [fst]. apply negb_true_iff, N.eqb_neq. intros ->.
        apply (id_in_iff eqo E d) in Hi; [|exact Oc]. destruct Hi as (y & Y1 & Y2). apply (object_in_iff eqo d) in Y1; [|exact Oc]. apply (object_in_iff eqo d) in F1; [|exact Oc].
        rewrite Y1 in F1. injection F1 as ->. rewrite (eq_trans_ _ E v x u F2 (eq_sym_ _ E _ _ Y2)) in Hv. discriminate.
      - destruct (id_in eqo v (a_remove_node i (cur s))) as [j|] eqn:F'; [|reflexivity]. apply (id_in_iff eqo E d) in F'; [|exact On]. destruct F' as (x & F1 & F2).
        cbn [a_remove_node nodes] in F1. unfold drop in F1. apply filter_In in F1.
        assert (FF : id_in eqo v (cur s) = Some j) by (apply (id_in_iff eqo E d); [exact Oc|]; exists x; split; [apply F1|exact F2]). congruence. }
    rewrite VI. split; [reflexivity|]. destruct (id_in eqo v (cur s)) as [j|] eqn:F; [|reflexivity].
    assert (Hji : j <> i).
    { intros ->. apply (id_in_iff eqo E d) in F; [|exact Oc]. destruct F as (x & F1 & F2). apply (id_in_iff eqo E d) in Hi; [|exact Oc]. destruct Hi as (y & Y1 & Y2).
      apply (object_in_iff eqo d) in Y1; [|exact Oc]. apply (object_in_iff eqo d) in F1; [|exact Oc]. rewrite Y1 in F1. injection F1 as ->.
      rewrite (eq_trans_ _ E v x u F2 (eq_sym_ _ E _ _ Y2)) in Hv. discriminate. }
    apply incident_removed. exact Hji.
Qed.
Print Assumptions C36_removed_partial.
(** An edge to a node added since the last update survives the removal of its other end;
    the node at the far end then hands out an edge to an unknown id and get_edge panics. *)
Theorem C36_unpublished_refuted :
  exists (cs : list (nop N N N)) g rs,
    net_run N.eqb (net_new false) cs = Some (g, rs) /\ last (removelast rs) NUnit = NBool true /\
    get_id N.eqb g 10 = None /\ get_object g 0 = None /\ edges_of N.eqb g 30 = [Edge 2 0 None None] /\
    get_edge N.eqb g 30 20 = None.
Proof.
  exists [addN 10; addN 20; publish; addN 30; link 30 10; gone 10; publish]. eexists _, _. split; [vm_compute; reflexivity|]. repeat split.
Qed.
Print Assumptions C36_unpublished_refuted.
(** Two directed edges to the removed node: one stays. *)
Theorem C36_parallel_refuted :
  exists (cs : list (nop N N N)) g rs,
    net_run N.eqb (net_new true) cs = Some (g, rs) /\ last (removelast rs) NUnit = NBool true /\
    get_id N.eqb g 10 = None /\ edges_of N.eqb g 20 = [Edge 1 0 None None].
Proof.
  exists [addN 10; addN 20; link 20 10; link 20 10; publish; gone 10; publish]. eexists _, _. split; [vm_compute; reflexivity|]. repeat split.
Qed.
Print Assumptions C36_parallel_refuted.
(** Removing a node panics if another node has lost its list of edges. *)
Theorem C36_panic_refuted :
  exists (cs : list (nop N N N)) g rs,
    net_run N.eqb (net_new false) cs = Some (g, rs) /\ net_call N.eqb g (gone 10) = None.
Proof.
  exists [addN 10; addN 20; link 10 20; publish; NRemoveAllEdges]. eexists _, _. split; vm_compute; reflexivity.
Qed.
Print Assumptions C36_panic_refuted.
(** A node that is not published yet cannot be removed. *)
Theorem C36_unpublished_kept_refuted :
  exists (cs : list (nop N N N)) g rs,
    net_run N.eqb (net_new false) (cs ++ [addN 20; gone 20; publish]) = Some (g, rs) /\
    last (removelast rs) NUnit = NBool false /\ get_id N.eqb g 20 = Some 1.
Proof. exists [addN 10]. eexists _, _. split; [vm_compute; reflexivity|]. split; reflexivity. Qed.
Print Assumptions C36_unpublished_kept_refuted.
Example C36_concrete :
  let cs := [addN 10; addN 20; addN 30; link 10 20; linkw 30 10 5; link 20 30; publish] in
  a_good_run N.eqb true a_new (cs ++ [gone 10]) /\ get_id N.eqb (final true (cs ++ [publish])) 10 = Some 0 /\
  edges_of N.eqb (final true (cs ++ [publish])) 30 = [Edge 2 0 None (Some 5)] /\
  edges_of N.eqb (final true (cs ++ [gone 10; publish])) 30 = [] /\ edges_of N.eqb (final true (cs ++ [gone 10; publish])) 20 = [Edge 1 2 None None].
Proof. split; [good|]. vm_compute. repeat split. Qed.

(** ** C38: remove_edge *)
(** Any history of good calls, then [remove_edge u v] and an update, compared with the same
    history and an update.  [i], [j] are the ids of [u], [v]. *)
Definition the_edge (directed : bool) (i j : N) {L W} (e : edge L W) : bool :=
  ((e_u e =? i) && (e_v e =? j)) || (negb directed && (e_u e =? j) && (e_v e =? i)).
Theorem C38_removed_partial :
  forall (O L W : Type) (eqo : O -> O -> bool) (directed : bool) (cs : list (nop O L W)) u v i j k g0 rs0,
    equivalence eqo -> a_good_run eqo directed a_new (cs ++ [NRemoveEdge u v]) -> publishes k = true ->
    net_run eqo (net_new directed) (cs ++ [NUpdate]) = Some (g0, rs0) ->
    (* [u] and [v] are known at the last update and now *)
    (exists g1 rs1, net_run eqo (net_new directed) cs = Some (g1, rs1) /\ get_id eqo g1 u = Some i /\ get_id eqo g1 v = Some j) ->
    (* they are joined at most once *)
    (length (filter (fun e => (e_v e =? j)%N) (edges_of eqo g0 u)) <= 1)%nat -> i <> j ->
    exists g rs, net_run eqo (net_new directed) (cs ++ [NRemoveEdge u v; k]) = Some (g, rs) /\
      nth_error rs (length cs) = Some (NEdge (find (fun e => e_v e =? j) (edges_of eqo g0 u))) /\
      (forall w, get_id eqo g w = get_id eqo g0 w) /\ (forall l, get_object g l = get_object g0 l) /\
      (forall w, edges_of eqo g w = filter (fun e => negb (the_edge directed i j e)) (edges_of eqo g0 w)) /\
      get_edge eqo g u v = Some None.
Proof.
  intros O L W eqo d cs u v i j k g0 rs0 E G HK H0 (g1 & rs1 & H1 & Iu & Iv) HC Hij.
  apply a_good_app in G. destruct G as [G1 G2].
  assert (GU : a_good_run eqo d a_new (cs ++ [NUpdate])) by (apply a_good_app; split; [exact G1|split; exact I]).
  pose proof (good_sim eqo E d _ _ _ GU H0) as S0. rewrite a_run_app in S0. cbn [a_run a_next] in S0.
  pose proof (good_sim eqo E d _ _ _ G1 H1) as S1. set (s := a_run eqo d a_new cs) in *.
  rewrite (get_id_sim eqo d _ _ _ S1) in Iu. rewrite (get_id_sim eqo d _ _ _ S1) in Iv.
  destruct G2 as [G2 _]. cbn [a_good] in G2. destruct (G2 i j Iu Iv) as (Cu & Cv & Cl & Cc).
  rewrite (edges_of_sim eqo d _ _ u S0) in HC |- *. cbn [pub] in HC |- *. rewrite Cu in HC |- *.
  assert (GK : a_good_run eqo d a_new (cs ++ [NRemoveEdge u v; k])).
  { apply a_good_app. split; [exact G1|]. fold s. split; [exact G2|]. split; [|exact I]. destruct k; try discriminate; exact I. }
  destruct (run_ref eqo E d _ _ _ (new_simulates eqo d) GK) as (g & rs & R1 & R2 & R3). exists g, rs. split; [exact R1|].
  rewrite a_run_app in R3. fold s in R3. cbn [a_run a_next] in R3. rewrite Iu, Iv in R3.
  set (b := a_remove_edge d i j (cur s)) in *.
  assert (RK : a_next eqo d (AState (pub s) b) k = AState b b) by (destruct k; try discriminate; reflexivity). rewrite RK in R3.
  pose proof S0 as (_ & _ & Oc & _). cbn [pub] in Oc.
  assert (CB : (count_between d i j (cur s) <= 1)%nat) by (rewrite <- count_incident by exact Hij; exact HC).
  assert (INC : forall l, incident d l b = filter (fun e => negb (the_edge d i j e)) (incident d l (cur s))).
  { intros l. apply incident_cut; assumption. }
  split.
  { apply a_answers_app in R2. destruct R2 as (r1 & r2 & -> & R2 & L1). fold s in R2. destruct r2 as [|r [|r' r2]]; cbn [a_answers] in R2; try tauto.
    destruct R2 as [R2 _]. cbn [a_answer] in R2. rewrite Iu, Iv in R2. rewrite nth_error_app2, L1, Nat.sub_diag by lia. cbn [nth_error]. rewrite R2.
    do 2 f_equal. symmetry. apply find_incident. exact Hij. }
  split; [intros w; rewrite (get_id_sim eqo d _ _ _ R3), (get_id_sim eqo d _ _ _ S0); reflexivity|].
  split; [intros l; rewrite (get_object_sim eqo d _ _ _ R3), (get_object_sim eqo d _ _ _ S0); reflexivity|].
  split.
  - intros w. rewrite (edges_of_sim eqo d _ _ _ R3), (edges_of_sim eqo d _ _ _ S0). cbn [pub]. change (id_in eqo w b) with (id_in eqo w (cur s)).
    destruct (id_in eqo w (cur s)) as [l|]; [apply INC|reflexivity].
  - rewrite (get_edge_sim eqo E d _ _ u v R3). cbn [pub]. change (id_in eqo u b) with (id_in eqo u (cur s)). change (id_in eqo v b) with (id_in eqo v (cur s)). rewrite Cu, Cv.
    f_equal. rewrite INC. destruct (find (fun e => e_v e =? j) (filter _ (incident d i (cur s)))) as [e|] eqn:F; [|reflexivity].
    apply find_some in F. destruct F as [F1 F2]. apply filter_In in F1. destruct F1 as [F1 F3]. unfold the_edge in F3.
    rewrite F2, (incident_e_u d i _ _ F1), N.eqb_refl in F3. discriminate.
Qed.
Print Assumptions C38_removed_partial.
(** Directed networks: of several edges from [u] to [v] the first is removed. *)
Theorem C38_directed_partial :
  forall (O L W : Type) (eqo : O -> O -> bool) (cs : list (nop O L W)) u v i j k g0 rs0,
    equivalence eqo -> a_good_run eqo true a_new (cs ++ [NRemoveEdge u v]) -> publishes k = true ->
    net_run eqo (net_new true) (cs ++ [NUpdate]) = Some (g0, rs0) ->
    (exists g1 rs1, net_run eqo (net_new true) cs = Some (g1, rs1) /\ get_id eqo g1 u = Some i /\ get_id eqo g1 v = Some j) ->
    exists g rs, net_run eqo (net_new true) (cs ++ [NRemoveEdge u v; k]) = Some (g, rs) /\
      nth_error rs (length cs) = Some (NEdge (find (fun e => e_v e =? j) (edges_of eqo g0 u))) /\
      (forall w, edges_of eqo g w = if eqo w u then without_first (fun e => e_v e =? j) (edges_of eqo g0 w) else edges_of eqo g0 w).
Proof.
  intros O L W eqo cs u v i j k g0 rs0 E G HK H0 (g1 & rs1 & H1 & Iu & Iv).
  apply a_good_app in G. destruct G as [G1 G2].
  assert (GU : a_good_run eqo true a_new (cs ++ [NUpdate])) by (apply a_good_app; split; [exact G1|split; exact I]).
  pose proof (good_sim eqo E true _ _ _ GU H0) as S0. rewrite a_run_app in S0. cbn [a_run a_next] in S0.
  pose proof (good_sim eqo E true _ _ _ G1 H1) as S1. set (s := a_run eqo true a_new cs) in *.
  rewrite (get_id_sim eqo true _ _ _ S1) in Iu. rewrite (get_id_sim eqo true _ _ _ S1) in Iv.
  destruct G2 as [G2 _]. cbn [a_good] in G2. destruct (G2 i j Iu Iv) as (Cu & Cv & Cl & Cc).
  assert (GK : a_good_run eqo true a_new (cs ++ [NRemoveEdge u v; k])).
  { apply a_good_app. split; [exact G1|]. fold s. split; [exact G2|]. split; [|exact I]. destruct k; try discriminate; exact I. }
  destruct (run_ref eqo E true _ _ _ (new_simulates eqo true) GK) as (g & rs & R1 & R2 & R3). exists g, rs. split; [exact R1|].
  rewrite a_run_app in R3. fold s in R3. cbn [a_run a_next] in R3. rewrite Iu, Iv in R3.
  set (b := a_remove_edge true i j (cur s)) in *.
  assert (RK : a_next eqo true (AState (pub s) b) k = AState b b) by (destruct k; try discriminate; reflexivity). rewrite RK in R3.
  pose proof S0 as (_ & _ & Oc & _). cbn [pub] in Oc.
  split.
  { apply a_answers_app in R2. destruct R2 as (r1 & r2 & -> & R2 & L1). fold s in R2. destruct r2 as [|r [|r' r2]]; cbn [a_answers] in R2; try tauto.
    destruct R2 as [R2 _]. cbn [a_answer] in R2. rewrite Iu, Iv in R2. rewrite nth_error_app2, L1, Nat.sub_diag by lia. cbn [nth_error]. rewrite R2.
    do 2 f_equal. rewrite (edges_of_sim eqo true _ _ _ S0). cbn [pub]. rewrite Cu. symmetry. apply find_incident_directed. }
  intros w. rewrite (edges_of_sim eqo true _ _ _ R3), (edges_of_sim eqo true _ _ _ S0). cbn [pub]. change (id_in eqo w b) with (id_in eqo w (cur s)).
  destruct (eqo w u) eqn:A.
  - assert (Cw : id_in eqo w (cur s) = Some i).
    { apply (id_in_iff eqo E true); [exact Oc|]. apply (id_in_iff eqo E true) in Cu; [|exact Oc]. destruct Cu as (x & X1 & X2). exists x. split; [exact X1|]. exact (eq_trans_ _ E w u x A X2). }
    rewrite Cw. apply incident_cut_self.
  - destruct (id_in eqo w (cur s)) as [l|] eqn:Cw; [|reflexivity]. apply incident_cut_other. intros ->.
    apply (id_in_iff eqo E true) in Cu; [|exact Oc]. apply (id_in_iff eqo E true) in Cw; [|exact Oc]. destruct Cu as (x & X1 & X2). destruct Cw as (y & Y1 & Y2).
    apply (object_in_iff eqo true) in X1; [|exact Oc]. apply (object_in_iff eqo true) in Y1; [|exact Oc]. rewrite X1 in Y1. injection Y1 as <-.
    rewrite (eq_trans_ _ E w x u Y2 (eq_sym_ _ E _ _ X2)) in A. discriminate.
Qed.
Print Assumptions C38_directed_partial.
(** Undirected and joined twice: more than one edge is gone from the far side. *)
Theorem C38_parallel_refuted :
  exists (cs : list (nop N N N)) g rs,
    net_run N.eqb (net_new false) cs = Some (g, rs) /\
    last (removelast rs) NUnit = NEdge (Some (Edge 0 1 None (Some 7))) /\
    edges_of N.eqb g 10 = [Edge 0 1 None (Some 8)] /\ edges_of N.eqb g 20 = [].
Proof.
  exists [addN 10; addN 20; linkw 10 20 7; linkw 10 20 8; publish; cut 10 20; publish]. eexists _, _. split; [vm_compute; reflexivity|]. repeat split.
Qed.
Print Assumptions C38_parallel_refuted.
(** After remove_all_edges, remove_edge panics. *)
Theorem C38_panic_refuted :
  exists (cs : list (nop N N N)) g rs,
    net_run N.eqb (net_new false) cs = Some (g, rs) /\ get_id N.eqb g 10 <> None /\ get_id N.eqb g 20 <> None /\ net_call N.eqb g (cut 10 20) = None.
Proof.
  exists [addN 10; addN 20; link 10 20; NRemoveAllEdges; publish]. eexists _, _. split; [vm_compute; reflexivity|]. split; [discriminate|]. split; [discriminate|]. reflexivity.
Qed.
Print Assumptions C38_panic_refuted.
Example C38_concrete :
  let cs := [addN 10; addN 20; addN 30; linkw 10 20 5; linkw 30 10 6; publish; link 20 30] in
  a_good_run N.eqb false a_new (cs ++ [cut 20 10]) /\
  get_id N.eqb (final false cs) 20 = Some 1 /\ get_id N.eqb (final false cs) 10 = Some 0 /\
  edges_of N.eqb (final false (cs ++ [publish])) 20 = [Edge 1 0 None (Some 5); Edge 1 2 None None] /\
  edges_of N.eqb (final false (cs ++ [cut 20 10; publish])) 20 = [Edge 1 2 None None] /\
  edges_of N.eqb (final false (cs ++ [cut 20 10; publish])) 10 = [Edge 0 2 None (Some 6)] /\
  a_good_run N.eqb true a_new (cs ++ [linkw 10 20 9; cut 10 20]) /\
  edges_of N.eqb (final true (cs ++ [linkw 10 20 9; cut 10 20; publish])) 10 = [Edge 0 1 None (Some 9)].
Proof. split; [good|]. split; [reflexivity|]. split; [reflexivity|]. split; [vm_compute; reflexivity|]. split; [vm_compute; reflexivity|]. split; [vm_compute; reflexivity|].
  split; [good|]. vm_compute. reflexivity. Qed.

(** ** C37 and C66: preferential attachment *)
(** The links it makes.  Node numbers are positions in [node_set]. *)
Theorem C37_shape :
  forall (O : Type) (choose : nat -> list (O * N * nat) -> nat -> list (O * N * nat)) node_set m n,
    choose_ok choose -> (2 <= n <= length node_set)%nat ->
    let pairs := attached choose node_set m (n - 2) in
    filter (fun p => Nat.ltb (fst p) 2) pairs = [(0, 1)]%nat /\
    (forall i, (2 <= i < n)%nat -> exists links,
       filter (fun p => Nat.eqb (fst p) i) pairs = map (fun j => (i, j)) links /\
       length links = Nat.min i m /\ NoDup links /\ Forall (fun j => (j < i)%nat) links) /\
    (forall p, In p pairs -> (fst p < n)%nat /\ (snd p < n)%nat /\ fst p <> snd p) /\
    ((1 <= m)%nat -> forall i j, (i < n)%nat -> (j < n)%nat -> path pairs i j).
Proof.
  intros O choose node_set m n C [H2 Hn] pairs. assert (En : (2 + (n - 2))%nat = n) by lia.
  split; [apply (attached_first choose C); lia|]. split; [|split].
  - intros i Hi. apply (attached_links choose C); lia.
  - intros p Hp. destruct (attached_lt choose C node_set m (n - 2) ltac:(lia) p Hp). split; [lia|]. split; [lia|]. apply (attached_no_loop choose C node_set m (n - 2)); [lia|exact Hp].
  - intros Hm i j Hi Hj. apply (path_trans _ i 0%nat j); [|apply path_sym]; apply (attached_connected choose C); lia.
Qed.
Print Assumptions C37_shape.
(** The network it builds is the one with these links. *)
Theorem C37_network :
  forall (O L W : Type) (eqo : O -> O -> bool) (directed : bool) choose node_set m (cs : list (nop O L W)) g rs,
    equivalence eqo -> choose_ok choose -> a_good_run eqo directed a_new cs -> net_run eqo (net_new directed) cs = Some (g, rs) ->
    let known := nodes (cur (a_run eqo directed a_new cs)) in
    let n := length known in
    (2 <= n <= length node_set)%nat ->
    (* the first n entries of node_set are the nodes of the network *)
    different eqo (firstn n node_set) -> (forall x, In x (firstn n node_set) -> exists i y, In (i, y) known /\ eqo x y = true) ->
    exists g' id, preferential_attachment eqo choose g node_set m = Some g' /\
      (forall k x, (k < n)%nat -> nth_error node_set k = Some x ->
         get_id eqo g' x = Some (id k) /\
         edges_of eqo g' x = map (fun j => Edge (id k) (id j) None None) (neighbours directed k (attached choose node_set m (n - 2)))) /\
      (forall x, get_id eqo g' x = id_in eqo x (cur (a_run eqo directed a_new cs))).
Proof.
  intros O L W eqo d choose node_set m cs g rs E C G H known n Hn HD HK.
  pose proof (good_sim eqo E d cs g rs G H) as S. set (s := a_run eqo d a_new cs) in *. pose proof S as (_ & _ & _ & _ & Oc).
  set (idn := fun k => match nth_error node_set k with Some x => match id_in eqo x (cur s) with Some i => i | None => 0 end | None => 0 end).
  assert (HID : forall k x, (k < n)%nat -> nth_error node_set k = Some x -> id_in eqo x (cur s) = Some (idn k)).
  { intros k x Hk Hx. unfold idn. rewrite Hx. destruct (HK x) as (i & y & Y1 & Y2).
    - apply (nth_error_In _ k). rewrite nth_error_firstn_ by exact Hk. exact Hx.
    - rewrite (proj2 (id_in_iff eqo E d x i (cur s) Oc)); [reflexivity|]. exists y. split; assumption. }
  destruct (ba_ref eqo E d choose C node_set m idn g s S Hn HID) as (g' & b & B1 & B2 & B3 & B4). exists g', idn. split; [exact B1|].
  assert (IB : forall x, id_in eqo x b = id_in eqo x (cur s)) by (intros x; unfold id_in; rewrite B3; reflexivity).
  split; [|intros x; rewrite (get_id_sim eqo d _ _ _ B2); apply IB].
  intros k x Hk Hx. rewrite (get_id_sim eqo d _ _ _ B2), (edges_of_sim eqo d _ _ _ B2). cbn [pub]. rewrite IB, (HID k x Hk Hx). split; [reflexivity|].
  apply (incident_pairs d idn n); [exact B4| | |exact Hk].
  - intros p Hp. pose proof (attached_lt choose C node_set m (n - 2) ltac:(lia) p Hp). lia.
  - intros i j Hi Hj F.
    destruct (nth_error node_set i) as [x1|] eqn:X1; [|apply nth_error_None in X1; lia]. destruct (nth_error node_set j) as [x2|] eqn:X2; [|apply nth_error_None in X2; lia].
    pose proof (HID i x1 Hi X1) as I1. pose proof (HID j x2 Hj X2) as I2. rewrite <- F in I2.
    apply (id_in_iff eqo E d) in I1; [|exact Oc]. apply (id_in_iff eqo E d) in I2; [|exact Oc]. destruct I1 as (y1 & Y1 & Z1). destruct I2 as (y2 & Y2 & Z2).
    apply (object_in_iff eqo d) in Y1; [|exact Oc]. apply (object_in_iff eqo d) in Y2; [|exact Oc]. rewrite Y1 in Y2. injection Y2 as <-.
    assert (E12 : eqo x1 x2 = true) by (apply (eq_trans_ _ E x1 y1 x2 Z1), (eq_sym_ _ E), Z2).
    assert (E21 : eqo x2 x1 = true) by (apply (eq_sym_ _ E), E12).
    destruct (Nat.lt_trichotomy i j) as [Hl|[Hl|Hl]]; [|exact Hl|]; exfalso.
    + pose proof (different_nth eqo (firstn n node_set) HD i j x1 x2 Hl) as F0. rewrite !nth_error_firstn_ in F0 by assumption. rewrite (F0 X1 X2) in E12. discriminate.
    + pose proof (different_nth eqo (firstn n node_set) HD j i x2 x1 Hl) as F0. rewrite !nth_error_firstn_ in F0 by assumption. rewrite (F0 X2 X1) in E21. discriminate.
Qed.
Print Assumptions C37_network.
(** A slice shorter than the network: panic. *)
Theorem C37_short_slice_refuted :
  exists (cs : list (nop N N N)) g rs, a_good_run N.eqb false a_new cs /\ net_run N.eqb (net_new false) cs = Some (g, rs) /\
    preferential_attachment N.eqb (fun _ l k => firstn k l) g [10; 20] 1 = None.
Proof. exists [addN 10; addN 20; addN 30; publish]. eexists _, _. split; [good|]. split; vm_compute; reflexivity. Qed.
Print Assumptions C37_short_slice_refuted.

(** C66: the weights from which node [i] draws are the degrees of the nodes before it in
    the network built so far (this is how [attached] is defined, and C37_network says the
    code builds [attached]).  Spelled out: *)
Theorem C66_weights_are_degrees :
  forall (O : Type) (choose : nat -> list (O * N * nat) -> nat -> list (O * N * nat)) node_set m n,
    (2 <= n < length node_set)%nat ->
    let before := attached choose node_set m (n - 2) in
    attached choose node_set m (n - 1) = before ++ map (fun c => (n, snd c)) (choose n (weighted node_set n before) (Nat.min n m)) /\
    (forall k x, (k < n)%nat -> nth_error node_set k = Some x -> nth_error (weighted node_set n before) k = Some (x, N.of_nat (degree k before), k)) /\
    length (weighted node_set n before) = n.
Proof.
  intros O choose node_set m n Hn before. split; [|split].
  - replace (n - 1)%nat with (S (n - 2)) by lia. cbn [attached]. replace (2 + (n - 2))%nat with n by lia. reflexivity.
  - intros k x Hk Hx. destruct (weighted_nth node_set n before k ltac:(lia) Hk) as (x' & X1 & X2). rewrite X1 in Hx. injection Hx as <-. exact X2.
  - apply weighted_length. lia.
Qed.
Print Assumptions C66_weights_are_degrees.
Example C37_concrete :
  let cs := [addN 10; addN 20; addN 30; addN 40; link 30 40; publish] in
  let choose := (fun (_ : nat) (l : list (N * N * nat)) k => firstn k (rev l)) in
  choose_ok choose /\ a_good_run N.eqb false a_new cs /\ attached choose [10; 20; 30; 40] 2 2 = [(0, 1); (2, 1); (2, 0); (3, 2); (3, 1)]%nat /\
  option_map (fun g => edges_of N.eqb g 20) (preferential_attachment N.eqb choose (final false cs) [10; 20; 30; 40] 2)
    = Some [Edge 1 0 None None; Edge 1 2 None None; Edge 1 3 None None] /\
  weighted [10; 20; 30; 40] 3 (attached choose [10; 20; 30; 40] 2 1) = [(10, 2, 0%nat); (20, 2, 1%nat); (30, 2, 2%nat)].
Proof.
  split.
  { intros i l k HN Hk. assert (P : Permutation (rev l) l) by (symmetry; apply Permutation_rev).
    split; [rewrite firstn_length, rev_length; lia|]. split.
    - apply (Permutation_NoDup (Permutation_sym P)) in HN. rewrite <- (firstn_skipn k (rev l)) in HN. apply NoDup_app_remove_r_ in HN. exact HN.
    - intros x Hx. apply in_rev. rewrite <- (firstn_skipn k (rev l)). apply in_or_app. left. exact Hx. }
  split; [good|]. split; [vm_compute; reflexivity|]. split; vm_compute; reflexivity.
Qed.

(** ** C67: get_edges of a known node *)
Theorem C67_get_edges_partial :
  forall (O L W : Type) (eqo : O -> O -> bool) (directed : bool) (cs : list (nop O L W)) g rs u,
    equivalence eqo -> a_good_run eqo directed a_new cs -> forallb (fun c => negb (drops_lists c)) cs = true ->
    net_run eqo (net_new directed) cs = Some (g, rs) -> get_id eqo g u <> None -> get_edges eqo g u <> None.
Proof.
  intros O L W eqo d cs g rs u E G HD H Hu. pose proof (good_sim eqo E d cs g rs G H) as S. rewrite (get_edges_sim eqo d _ _ _ S). rewrite (get_id_sim eqo d _ _ _ S) in Hu.
  destruct (id_in eqo u (pub (a_run eqo d a_new cs))) as [i|] eqn:F; [|contradiction].
  destruct (listed_run eqo d cs a_new HD) as [A _]; [split; intros k []|]. rewrite (A i); [discriminate|]. destruct S as (_ & _ & Op & _). apply (id_in_known eqo E d u); assumption.
Qed.
Print Assumptions C67_get_edges_partial.
(** The example in the documentation of remove_all_edges expects an empty list for a node
    without edges; the answer is None. *)
Theorem C67_removed_all_refuted :
  exists (cs : list (nop N N N)) g rs,
    net_run N.eqb (net_new false) cs = Some (g, rs) /\ get_id N.eqb g 10 = Some 0 /\ get_edges N.eqb g 10 = None.
Proof. exists [addN 10; addN 20; link 10 20; publish; NRemoveAllEdges; publish]. eexists _, _. split; [vm_compute; reflexivity|]. split; reflexivity. Qed.
Print Assumptions C67_removed_all_refuted.
Example C67_concrete :
  a_good_run N.eqb true a_new ex_history /\ forallb (fun c => negb (drops_lists c)) ex_history = true /\
  get_id N.eqb (final true ex_history) 40 = Some 3 /\ get_edges N.eqb (final true ex_history) 40 = Some [Edge 3 2 None None].
Proof. split; [apply ex_good|]. vm_compute. repeat split. Qed.
