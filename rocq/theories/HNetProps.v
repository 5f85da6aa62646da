(** * Property theorems: HNetwork (C39-C41, C69) *)
From Coq Require Import List Bool NArith Arith Lia Permutation.
From Verif Require Import DashModel NetModel NetSpec NetProofs NetRef NetRun HNetModel HNetSpec HNetProofs HNetFacts.
Import ListNotations.
Open Scope N_scope.

(** The histories of the examples: nodes, labels and weights are numbers. *)
Local Notation call := (hop N N N).
Definition hadd (u : N) : call := HAddNode u.
Definition hjoin (us : list N) : call := HAddEdge us Simple.
Definition hjoinw (us : list N) (w : N) : call := HAddEdge us (Weighted w).
Definition hcut (us : list N) : call := HRemoveEdge us.
Definition hgone (u : N) : call := HRemoveObject u (fun l => l).
Definition hpub : call := HUpdate.
Definition hfinal (cs : list call) : hnet N N N :=
  match hnet_run N.eqb hnet_new cs with Some (g, _) => g | None => hnet_new end.
(** Deciding [hgood_run] for the examples. *)
Fixpoint nodupb (l : list N) : bool := match l with [] => true | i :: l' => negb (in_list i l') && nodupb l' end.
Lemma nodupb_ok l : nodupb l = true -> NoDup l.
Proof.
  induction l as [|i l IH]; intros H; [constructor|]. cbn [nodupb] in H. apply andb_prop in H. destruct H as [H1 H2]. apply negb_true_iff, in_list_false in H1.
  constructor; [exact H1|apply IH; exact H2].
Qed.
Definition hgoodb (s : hstate N N N) (c : call) : bool :=
  match c with
  | HAddNode u =>
      match hid N.eqb u (cur_nodes s), hobject (N.of_nat (length (cur_nodes s))) (cur_nodes s) with
      | None, None => N.of_nat (length (cur_nodes s)) <? 4294967296 | _, _ => false end
  | HAddEdge us _ => match hids N.eqb us (cur_nodes s) with Some is => nodupb is | None => true end
  | HRemoveEdge us => match hids N.eqb us (cur_nodes s) with Some is => forallb (fun i => in_list i (cur_lists s)) is | None => true end
  | HRemoveObject u _ =>
      match hid N.eqb u (cur_nodes s) with
      | None => true
      | Some i =>
          forallb (fun e => negb (in_list i (fst e)) || existsb (fun p => same_members (fst p) (fst e)) (pub_edges s)) (cur_edges s) &&
          forallb (fun p => negb (in_list i (fst p)) || forallb (fun j => in_list j (cur_lists s)) (fst p)) (pub_edges s)
      end
  | _ => true
  end.
Fixpoint hgood_runb (s : hstate N N N) (cs : list call) : bool :=
  match cs with [] => true | c :: cs' => hgoodb s c && hgood_runb (hnext N.eqb s c) cs' end.
Definition hplain (c : call) : Prop := match c with HRemoveObject _ it => forall l, Permutation (it l) l | _ => True end.
Lemma hgood_runb_ok cs : forall s, Forall hplain cs -> hgood_runb s cs = true -> hgood_run N.eqb s cs.
Proof.
  induction cs as [|c cs IH]; intros s P H; [exact I|]. inversion P as [|? ? P1 P2]; subst. cbn [hgood_runb] in H. apply andb_prop in H. destruct H as [H1 H2].
  split; [|apply IH; assumption].
  destruct c as [u|us o|us| |u it|u| | |us|u|i|u]; try exact I; cbn [hgoodb] in H1; cbn [hgood].
  - destruct (hid N.eqb u (cur_nodes s)); [discriminate|]. destruct (hobject _ _); [discriminate|]. split; [reflexivity|]. split; [reflexivity|]. apply N.ltb_lt. exact H1.
  - intros is Q. rewrite Q in H1. apply nodupb_ok. exact H1.
  - intros is Q. rewrite Q in H1. rewrite forallb_forall in H1. exact H1.
  - split; [exact P1|]. intros i Q. rewrite Q in H1. apply andb_prop in H1. destruct H1 as [H1 H3]. rewrite forallb_forall in H1, H3. split.
    + intros e He Hi. specialize (H1 e He). rewrite Hi in H1. cbn [negb orb] in H1. apply existsb_exists in H1. destruct H1 as (p & A & B). exists p. split; assumption.
    + intros p j Hp Hi Hj. specialize (H3 p Hp). rewrite Hi in H3. cbn [negb orb] in H3. rewrite forallb_forall in H3. exact (H3 j Hj).
Qed.
Ltac hgood := apply hgood_runb_ok; [repeat constructor; exact (fun l => Permutation_refl l)|vm_compute; reflexivity].
Definition ex_h : list call :=
  [hadd 10; hadd 20; hadd 30; hadd 40; hjoinw [10; 20; 30] 7; hjoin [30; 40]; hjoin [20; 10; 30]; hjoin [10]; hpub;
   hcut [40; 30]; hjoin [40; 20]; hpub; hgone 10; hpub; HGetEdges 20; HGetEdges 30; HGetEdge [20; 40]; HGetId 10; HGetObject 3].

(** ** C69: a history of calls behaves like the same history on an abstract hypergraph

    For every history that keeps to [hgood] no call panics and every answer is that of
    the abstract hypergraph. *)
Theorem C69_refines_hypergraph :
  forall (O L W : Type) (eqo : O -> O -> bool) (cs : list (hop O L W)),
    equivalence eqo -> hgood_run eqo hs_new cs ->
    exists g, hnet_run eqo hnet_new cs = Some (g, hanswers eqo hs_new cs).
Proof. intros O L W eqo cs E G. destruct (hrun_ref eqo E cs _ _ (new_hsim eqo) G) as (g & H & _). exists g. exact H. Qed.
Print Assumptions C69_refines_hypergraph.
(** Without the condition, remove_edge panics: here after remove_all_edges. *)
Theorem C69_panic_refuted :
  exists cs : list (hop N N N), forallb (fun c => negb (hremoves c)) cs = true /\ hnet_run N.eqb hnet_new cs = None.
Proof. exists [hadd 10; hadd 20; hjoin [10; 20]; hpub; HRemoveAllEdges; hcut [10; 20]]. split; vm_compute; reflexivity. Qed.
Print Assumptions C69_panic_refuted.
Example C69_concrete :
  hgood_run N.eqb hs_new ex_h /\
  exists g rs, hnet_run N.eqb hnet_new ex_h = Some (g, rs) /\
    nth 6 rs HUnit = HBool false /\ nth 9 rs HUnit = HHedge (Some (HEdge [2; 3] None None)) /\
    skipn 14 rs = [HHedges (Some [HEdge [3; 1] None None]); HHedges (Some []); HHedge (Some (HEdge [3; 1] None None)); HId None; HObject (Some 40)].
Proof. split; [hgood|]. eexists _, _. split; [vm_compute; reflexivity|]. repeat split. Qed.

(** ** C39: a hyperedge is listed by each of its members *)
(** In every history, a node's list holds only hyperedges it is a member of. *)
Theorem C39_lists_own :
  forall (O L W : Type) (eqo : O -> O -> bool) (cs : list (hop O L W)) g rs u i es e,
    hnet_run eqo hnet_new cs = Some (g, rs) ->
    h_get_id eqo g u = Some i -> h_get_edges eqo g u = Some es -> In e es -> In i (h_nodes e).
Proof.
  intros O L W eqo cs g rs u i es e H HI HE He. pose proof (hself_run eqo cs _ _ _ hself_new H) as S. unfold h_get_edges in HE. unfold h_get_id in HI. rewrite HI in HE.
  exact (hf_r _ S i es e HE He).
Qed.
Print Assumptions C39_lists_own.
(** Good histories: a hyperedge listed by one node is listed by exactly its members. *)
Theorem C39_shared_partial :
  forall (O L W : Type) (eqo : O -> O -> bool) (cs : list (hop O L W)) g rs u e w j,
    equivalence eqo -> hgood_run eqo hs_new cs -> hnet_run eqo hnet_new cs = Some (g, rs) ->
    In e (hedges_of eqo g u) -> h_get_id eqo g w = Some j ->
    (In e (hedges_of eqo g w) <-> In j (h_nodes e)).
Proof.
  intros O L W eqo cs g rs u e w j E G H He Hj. pose proof (hgood_sim eqo E cs g rs G H) as S.
  rewrite (hget_id_sim eqo _ _ w S) in Hj. rewrite (hedges_of_sim eqo _ _ u S) in He. rewrite (hedges_of_sim eqo _ _ w S), Hj.
  destruct (hid eqo u (cur_nodes (hs_run eqo hs_new cs))) as [i|]; [|destruct He]. apply in_hlist in He. destruct He as (a & A1 & A2 & ->). rewrite in_hlist. split.
  - intros (b & B1 & B2 & B3). injection B3 as B3 _ _. cbn [hshown h_nodes]. rewrite B3. exact B2.
  - intros Hn. exists a. split; [exact A1|]. split; [exact Hn|reflexivity].
Qed.
Print Assumptions C39_shared_partial.
(** A hyperedge that was added is listed, after the update, by exactly its members. *)
Theorem C39_added_partial :
  forall (O L W : Type) (eqo : O -> O -> bool) (cs : list (hop O L W)) us o g rs g' rs' is w j,
    equivalence eqo -> hgood_run eqo hs_new (cs ++ [HAddEdge us o]) ->
    hnet_run eqo hnet_new cs = Some (g, rs) -> map (h_get_id eqo g) us = map Some is ->
    hnet_run eqo g [HAddEdge us o; HUpdate] = Some (g', rs') -> hd HUnit rs' = HBool true ->
    h_get_id eqo g' w = Some j ->
    (In (HEdge is (label_of o) (weight_of o)) (hedges_of eqo g' w) <-> In j is) /\
    forall e, ~ In j is -> (In e (hedges_of eqo g' w) <-> In e (hedges_of eqo (h_update g) w)).
Proof.
  intros O L W eqo cs us o g rs g' rs' is w j E G H HM H' HT Hj. apply hgood_app in G. destruct G as [G1 G2].
  pose proof (hgood_sim eqo E cs g rs G1 H) as S. set (s := hs_run eqo hs_new cs) in *.
  assert (HI : hids eqo us (cur_nodes s) = Some is).
  { clear -HM S. revert is HM. induction us as [|u us IH]; intros is HM; destruct is as [|i is]; try discriminate; [reflexivity|]. cbn [map] in HM. injection HM as M1 M2.
    rewrite (hget_id_sim eqo _ _ u S) in M1. cbn [hids]. rewrite M1, (IH is M2). reflexivity. }
  destruct G2 as [G2 _]. destruct (hcall_ref eqo E _ _ (HAddEdge us o) S G2) as (g1 & E1 & S1). destruct (hcall_ref eqo E _ _ HUpdate S1 I) as (g2 & E2 & S2).
  destruct (hcall_ref eqo E _ _ HUpdate S I) as (gu & Eu & Su). cbn [hnet_call] in Eu. injection Eu as <-.
  cbn [hnet_run] in H'. rewrite E1, E2 in H'. cbn [option_map fst snd] in H'. injection H' as <- <-. cbn [hd] in HT. cbn [hanswer] in HT. rewrite HI in HT.
  rewrite (hget_id_sim eqo _ _ w S2) in Hj. rewrite (hedges_of_sim eqo _ _ w S2), (hedges_of_sim eqo _ _ w Su), Hj.
  destruct is as [|i is]; [discriminate|]. destruct (existsb (fun e => same_members (i :: is) (fst e)) (cur_edges s)) eqn:X; [discriminate|].
  cbn [hnext pub_edges cur_edges cur_nodes] in *. rewrite HI, X in *. cbn [pub_edges cur_edges cur_nodes] in *. rewrite Hj. split.
  - rewrite in_hlist. split.
    + intros (a & A1 & A2 & A3). injection A3 as A3 _ _. rewrite A3. exact A2.
    + intros Hi. exists (i :: is, o). split; [apply in_or_app; right; left; reflexivity|]. split; [exact Hi|reflexivity].
  - intros e Hn. rewrite !in_hlist. split; intros (a & A1 & A2 & A3).
    + apply in_app_or in A1. destruct A1 as [A1|[<-|[]]]; [|contradiction]. exists a. auto.
    + exists a. split; [apply in_or_app; left; exact A1|]. auto.
Qed.
Print Assumptions C39_added_partial.
(** remove_edge takes the hyperedge with these members out of every list, and nothing else. *)
Theorem C39_removed_partial :
  forall (O L W : Type) (eqo : O -> O -> bool) (cs : list (hop O L W)) us g rs g' rs' is w,
    equivalence eqo -> hgood_run eqo hs_new (cs ++ [HRemoveEdge us]) ->
    hnet_run eqo hnet_new cs = Some (g, rs) -> us <> [] -> map (h_get_id eqo g) us = map Some is ->
    hnet_run eqo g [HRemoveEdge us; HUpdate] = Some (g', rs') ->
    h_get_edges eqo g' w =
    option_map (filter (fun e => negb (same_members is (h_nodes e)))) (h_get_edges eqo (h_update g) w).
Proof.
  intros O L W eqo cs us g rs g' rs' is w E G H Hus HM H'. apply hgood_app in G. destruct G as [G1 G2].
  pose proof (hgood_sim eqo E cs g rs G1 H) as S. set (s := hs_run eqo hs_new cs) in *.
  assert (HI : hids eqo us (cur_nodes s) = Some is).
  { clear -HM S. revert is HM. induction us as [|u us IH]; intros is HM; destruct is as [|i is]; try discriminate; [reflexivity|]. cbn [map] in HM. injection HM as M1 M2.
    rewrite (hget_id_sim eqo _ _ u S) in M1. cbn [hids]. rewrite M1, (IH is M2). reflexivity. }
  destruct G2 as [G2 _]. destruct (hcall_ref eqo E _ _ (HRemoveEdge us) S G2) as (g1 & E1 & S1). destruct (hcall_ref eqo E _ _ HUpdate S1 I) as (g2 & E2 & S2).
  destruct (hcall_ref eqo E _ _ HUpdate S I) as (gu & Eu & Su). cbn [hnet_call] in Eu. injection Eu as <-.
  cbn [hnet_run] in H'. rewrite E1, E2 in H'. cbn [option_map fst snd] in H'. injection H' as <- <-.
  rewrite (hget_edges_sim eqo _ _ w S2), (hget_edges_sim eqo _ _ w Su).
  destruct is as [|i is]; [exfalso; exact (hids_nil eqo us _ Hus HI)|].
  cbn [hnext]. rewrite HI. cbn [pub_edges pub_lists cur_edges cur_nodes cur_lists]. destruct (hid eqo w (cur_nodes s)) as [k|]; [|reflexivity].
  destruct (in_list k (cur_lists s)); [|reflexivity]. cbn [option_map]. f_equal. apply hlist_drop_. intros e _. reflexivity.
Qed.
Print Assumptions C39_removed_partial.
(** A node named twice: add_edge answers false, has added the hyperedge to the list of the
    first member only. *)
Theorem C39_refuted :
  exists (cs : list (hop N N N)) g rs,
    hnet_run N.eqb hnet_new cs = Some (g, rs) /\ In (HBool false) rs /\ ~ In (HBool true) rs /\
    h_get_id N.eqb g 20 = Some 1 /\ h_get_edges N.eqb g 10 = Some [HEdge [0; 1] None None] /\ h_get_edges N.eqb g 20 = Some [].
Proof.
  exists [hadd 10; hadd 20; hjoin [10; 10; 20]; hpub]. eexists _, _. split; [vm_compute; reflexivity|]. split; [right; right; left; reflexivity|].
  split; [intros H; repeat (destruct H as [H|H]; [discriminate|]); destruct H|]. repeat split.
Qed.
Print Assumptions C39_refuted.
Example C39_concrete :
  let g := hfinal ex_h in
  hgood_run N.eqb hs_new ex_h /\ In (HEdge [3; 1] None None) (hedges_of N.eqb g 40) /\ h_get_id N.eqb g 20 = Some 1 /\ h_get_id N.eqb g 30 = Some 2 /\
  In (HEdge [3; 1] None None) (hedges_of N.eqb g 20) /\ hedges_of N.eqb g 30 = [].
Proof. split; [hgood|]. vm_compute. repeat split; left; reflexivity. Qed.
Example C39_removed_concrete :
  let cs := [hadd 10; hadd 20; hadd 30; hjoinw [10; 20; 30] 7; hjoin [30; 20]] in
  let g := hfinal cs in
  hgood_run N.eqb hs_new (cs ++ [hcut [20; 30; 10]]) /\ map (h_get_id N.eqb g) [20; 30; 10] = map Some [1; 2; 0] /\
  h_get_edges N.eqb (h_update g) 30 = Some [HEdge [0; 1; 2] None (Some 7); HEdge [2; 1] None None] /\
  h_get_edges N.eqb (hfinal (cs ++ [hcut [20; 30; 10]; hpub])) 30 = Some [HEdge [2; 1] None None].
Proof. split; [hgood|]. vm_compute. repeat split. Qed.
Example C39_added_concrete :
  let cs := [hadd 10; hadd 20; hadd 30; hjoin [30; 20]] in
  let g := hfinal cs in
  hgood_run N.eqb hs_new (cs ++ [hjoinw [20; 10] 4]) /\ map (h_get_id N.eqb g) [20; 10] = map Some [1; 0] /\
  exists g' rs', hnet_run N.eqb g [hjoinw [20; 10] 4; hpub] = Some (g', rs') /\ hd HUnit rs' = HBool true /\ h_get_id N.eqb g' 30 = Some 2 /\
    hedges_of N.eqb g' 20 = [HEdge [2; 1] None None; HEdge [1; 0] None (Some 4)] /\ hedges_of N.eqb g' 30 = [HEdge [2; 1] None None].
Proof. split; [hgood|]. split; [vm_compute; reflexivity|]. eexists _, _. split; [vm_compute; reflexivity|]. repeat split. Qed.

(** ** C40: removing an object removes its hyperedges everywhere *)
Theorem C40_removed_partial :
  forall (O L W : Type) (eqo : O -> O -> bool) (cs : list (hop O L W)) u it g rs g' rs' i,
    equivalence eqo -> hgood_run eqo hs_new (cs ++ [HRemoveObject u it]) ->
    hnet_run eqo hnet_new cs = Some (g, rs) -> h_get_id eqo g u = Some i ->
    hnet_run eqo g [HRemoveObject u it; HUpdate] = Some (g', rs') ->
    (* it is gone *)
    hd HUnit rs' = HBool true /\ h_get_id eqo g' u = None /\ h_get_edges eqo g' u = None /\ h_get_object g' i = None /\
    (forall w e, In e (hedges_of eqo g' w) -> ~ In i (h_nodes e)) /\
    (* everything else stays *)
    (forall w, eqo u w = false -> h_get_id eqo g' w = h_get_id eqo g w) /\
    (forall k, k <> i -> h_get_object g' k = h_get_object (h_update g) k) /\
    (forall w, eqo u w = false ->
       h_get_edges eqo g' w = option_map (filter (fun e => negb (in_list i (h_nodes e)))) (h_get_edges eqo (h_update g) w)).
Proof.
  intros O L W eqo cs u it g rs g' rs' i E G H Hu H'. apply hgood_app in G. destruct G as [G1 G2].
  pose proof (hgood_sim eqo E cs g rs G1 H) as S. set (s := hs_run eqo hs_new cs) in *.
  rewrite (hget_id_sim eqo _ _ u S) in Hu. pose proof (s_nok _ _ _ S) as K.
  destruct G2 as [G2 _]. destruct (hcall_ref eqo E _ _ (HRemoveObject u it) S G2) as (g1 & E1 & S1). destruct (hcall_ref eqo E _ _ HUpdate S1 I) as (g2 & E2 & S2).
  destruct (hcall_ref eqo E _ _ HUpdate S I) as (gu & Eu & Su). cbn [hnet_call] in Eu. injection Eu as <-.
  cbn [hnet_run] in H'. rewrite E1, E2 in H'. cbn [option_map fst snd] in H'. injection H' as <- <-. cbn [hd hanswer]. rewrite Hu.
  assert (DN : drop (fun p => fst p =? i) (cur_nodes s) = filter (fun p => negb (fst p =? i)) (cur_nodes s)) by reflexivity.
  assert (NI : forall w, hid eqo w (drop (fun p => fst p =? i) (cur_nodes s)) = if eqo w u then None else hid eqo w (cur_nodes s)).
  { intros w. destruct (remove_names eqo E (h_n2i g) (h_i2n g) _ u i (s_names _ _ _ S) K Hu) as [R _].
    rewrite <- (nr_id _ _ _ _ R w), (lk_remove _ E) by apply (nr_un _ _ _ _ (s_names _ _ _ S)). rewrite (nr_id _ _ _ _ (s_names _ _ _ S)). reflexivity. }
  assert (S2' := S2). cbn [hnext] in S2'. rewrite Hu in S2'. cbn [cur_nodes cur_edges cur_lists] in S2'.
  split; [reflexivity|]. rewrite (hget_id_sim eqo _ _ u S2'), (hget_edges_sim eqo _ _ u S2'), (hget_object_sim eqo _ _ i S2'). cbn [cur_nodes pub_nodes pub_edges pub_lists].
  rewrite NI, (eq_refl_ _ E). split; [reflexivity|]. split; [reflexivity|]. split; [|split; [|split; [|split]]].
  - unfold hobject. rewrite find_drop. reflexivity.
  - intros w e. rewrite (hedges_of_sim eqo _ _ w S2'). cbn [cur_nodes pub_edges]. destruct (hid eqo w _) as [k|]; [|intros []]. intros He. apply in_hlist in He.
    destruct He as (a & A1 & A2 & ->). apply filter_In in A1. destruct A1 as [_ A1]. apply negb_true_iff, in_list_false in A1. exact A1.
  - intros w Hw. rewrite (hget_id_sim eqo _ _ w S2'), (hget_id_sim eqo _ _ w S). cbn [cur_nodes]. rewrite NI.
    destruct (eqo w u) eqn:A; [apply (eq_sym_ _ E) in A; congruence|reflexivity].
  - intros k Hk. rewrite (hget_object_sim eqo _ _ k S2'), (hget_object_sim eqo _ _ k Su). cbn [hnext pub_nodes cur_nodes].
    destruct (remove_names eqo E (h_n2i g) (h_i2n g) _ u i (s_names _ _ _ S) K Hu) as [R _].
    rewrite <- (nr_obj _ _ _ _ R k), (lk_remove _ Neq) by apply (nr_ui _ _ _ _ (s_names _ _ _ S)). rewrite (nr_obj _ _ _ _ (s_names _ _ _ S)).
    destruct (k =? i) eqn:A; [apply N.eqb_eq in A; contradiction|reflexivity].
  - intros w Hw. rewrite (hget_edges_sim eqo _ _ w S2'), (hget_edges_sim eqo _ _ w Su). cbn [hnext pub_nodes cur_nodes pub_lists pub_edges]. rewrite NI.
    destruct (eqo w u) eqn:A; [apply (eq_sym_ _ E) in A; congruence|]. destruct (hid eqo w (cur_nodes s)) as [k|]; [|reflexivity].
    destruct (in_list k (cur_lists s)); [|reflexivity]. cbn [option_map]. f_equal. apply hlist_drop_. intros e _. reflexivity.
Qed.
Print Assumptions C40_removed_partial.
(** A hyperedge added since the last update survives its member. *)
Theorem C40_unpublished_refuted :
  exists (cs : list (hop N N N)) g rs,
    hnet_run N.eqb hnet_new (cs ++ [hgone 10; hpub]) = Some (g, rs) /\ h_get_id N.eqb (hfinal cs) 10 = Some 0 /\
    h_get_id N.eqb g 10 = None /\ h_get_edges N.eqb g 20 = Some [HEdge [0; 1] None None].
Proof.
  exists [hadd 10; hadd 20; hpub; hjoin [10; 20]]. eexists _, _. split; [vm_compute; reflexivity|]. repeat split.
Qed.
Print Assumptions C40_unpublished_refuted.
(** remove_object panics when its published hyperedges were cleared by remove_all_edges. *)
Theorem C40_panic_refuted :
  exists (cs : list (hop N N N)) g rs,
    hnet_run N.eqb hnet_new cs = Some (g, rs) /\ h_get_id N.eqb g 10 = Some 0 /\ hnet_run N.eqb hnet_new (cs ++ [hgone 10]) = None.
Proof.
  exists [hadd 10; hadd 20; hjoin [10; 20]; hpub; HRemoveAllEdges]. eexists _, _. split; [vm_compute; reflexivity|]. split; vm_compute; reflexivity.
Qed.
Print Assumptions C40_panic_refuted.
Example C40_concrete :
  let cs := [hadd 10; hadd 20; hadd 30; hjoinw [10; 20; 30] 7; hjoin [30; 20]; hjoin [10]; hpub] in
  let g := hfinal cs in
  hgood_run N.eqb hs_new (cs ++ [hgone 10]) /\ h_get_id N.eqb g 10 = Some 0 /\
  h_get_edges N.eqb (h_update g) 30 = Some [HEdge [0; 1; 2] None (Some 7); HEdge [2; 1] None None] /\
  h_get_edges N.eqb (hfinal (cs ++ [hgone 10; hpub])) 30 = Some [HEdge [2; 1] None None].
Proof. split; [hgood|]. vm_compute. repeat split. Qed.

(** ** C41: reads see the last update; ids *)
(** get_object never changes between updates; get_edges and get_edge do not as long as no
    node is added or removed. *)
Theorem C41_frozen_partial :
  forall (O L W : Type) (eqo : O -> O -> bool) (g : hnet O L W) (cs : list (hop O L W)) g' rs,
    hnet_run eqo g cs = Some (g', rs) -> forallb (fun c => negb (hpublishes c)) cs = true ->
    (forall k, h_get_object g' k = h_get_object g k) /\
    (forallb (fun c => negb (hnames c)) cs = true ->
       (forall u, h_get_edges eqo g' u = h_get_edges eqo g u) /\ (forall us, h_get_edge eqo g' us = h_get_edge eqo g us) /\
       (forall u, h_get_id eqo g' u = h_get_id eqo g u)).
Proof.
  intros O L W eqo g cs g' rs H P. destruct (run_frame eqo cs _ _ _ H P) as (A & B & C). split; [intros k; unfold h_get_object; rewrite B; reflexivity|]. intros Q. specialize (C Q).
  assert (I : forall us, ids_of eqo g' us = ids_of eqo g us).
  { induction us as [|u us IH]; [reflexivity|]. cbn [ids_of]. rewrite C, IH. reflexivity. }
  split; [|split].
  - intros u. unfold h_get_edges. rewrite C, A. reflexivity.
  - intros us. unfold h_get_edge. rewrite I, A. reflexivity.
  - intros u. unfold h_get_id. rewrite C. reflexivity.
Qed.
Print Assumptions C41_frozen_partial.
(** What an update publishes is what was written; and reads then answer it. *)
Theorem C41_published :
  forall (O L W : Type) (eqo : O -> O -> bool) (g : hnet O L W) c g' r u k es x,
    hpublishes c = true -> hnet_call eqo g c = Some (g', r) ->
    h_get_id eqo g' u = h_get_id eqo g u /\
    (hm_find N.eqb k (h_i2n g) = Some (k, x) -> h_get_object g' k = Some x) /\
    (h_get_id eqo g u = Some k -> hm_find N.eqb k (h_edges g) = Some (k, es) -> h_get_edges eqo g' u = Some es).
Proof.
  intros O L W eqo g c g' r u k es x P H. destruct c; try discriminate; cbn [hnet_call] in H; injection H as <- <-.
  all: split; [reflexivity|]; split; [intros Q; unfold h_get_object, val_of; cbn [h_update h_ri2n]; rewrite Q; reflexivity|].
  all: intros Q1 Q2; unfold h_get_id in Q1; unfold h_get_edges, val_of; cbn [h_update h_n2i h_redges]; rewrite Q1, Q2; reflexivity.
Qed.
Print Assumptions C41_published.
(** Removing (or adding) a node shows at once in get_edges: an unknown node has no list,
    although nothing was published, and a new node with the freed id is shown the old
    hyperedges of that id. *)
Theorem C41_frozen_refuted :
  exists (cs : list (hop N N N)) g1 rs1 g2 rs2,
    hnet_run N.eqb hnet_new cs = Some (g1, rs1) /\ h_get_edges N.eqb g1 20 = Some [HEdge [0; 1] None None] /\ h_get_edges N.eqb g1 30 = None /\
    hnet_run N.eqb g1 [hgone 20; hadd 30] = Some (g2, rs2) /\
    h_get_edges N.eqb g2 20 = None /\ h_get_edges N.eqb g2 30 = Some [HEdge [0; 1] None None].
Proof.
  exists [hadd 10; hadd 20; hjoin [10; 20]; hpub]. eexists _, _, _, _. split; [vm_compute; reflexivity|]. split; [reflexivity|]. split; [reflexivity|]. split; [vm_compute; reflexivity|]. split; reflexivity.
Qed.
Print Assumptions C41_frozen_refuted.
(** Ids, without removals: whatever else the history does, a node's id is its position
    among the added nodes. *)
Theorem C41_ids_partial :
  forall (O L W : Type) (eqo : O -> O -> bool) (cs : list (hop O L W)) g rs,
    equivalence eqo -> hnet_run eqo hnet_new cs = Some (g, rs) ->
    forallb (fun c => negb (hremoves c)) cs = true ->
    different eqo (hadded cs) -> N.of_nat (length (hadded cs)) <= 4294967296 ->
    (forall u k, h_get_id eqo g u = Some k <-> exists x, nth_error (hadded cs) (N.to_nat k) = Some x /\ eqo u x = true) /\
    (forall u v k, h_get_id eqo g u = Some k -> h_get_id eqo g v = Some k -> eqo u v = true).
Proof.
  intros O L W eqo cs g rs E H P D B.
  assert (I0 : hpos eqo (h_n2i (hnet_new (O := O) (L := L) (W := W))) []).
  { constructor; [reflexivity|constructor|]. intros u k. split; [discriminate|]. intros (x & X & _). destruct (N.to_nat k); discriminate. }
  pose proof (run_pos eqo E cs _ _ _ [] H P D B I0) as I. cbn [app] in I.
  assert (A : forall u k, h_get_id eqo g u = Some k <-> exists x, nth_error (hadded cs) (N.to_nat k) = Some x /\ eqo u x = true) by (intros u k; apply (hp_id _ _ _ I)).
  split; [exact A|]. intros u v k Hu Hv. apply A in Hu, Hv. destruct Hu as (x & X1 & X2). destruct Hv as (y & Y1 & Y2). rewrite X1 in Y1. injection Y1 as <-.
  apply (eq_trans_ _ E u x v X2). apply (eq_sym_ _ E). exact Y2.
Qed.
Print Assumptions C41_ids_partial.
(** With removals, as long as the next id is free when a node is added. *)
Theorem C41_good_ids_partial :
  forall (O L W : Type) (eqo : O -> O -> bool) (cs : list (hop O L W)) g rs,
    equivalence eqo -> hgood_run eqo hs_new cs -> hnet_run eqo hnet_new cs = Some (g, rs) ->
    (forall u v k, h_get_id eqo g u = Some k -> h_get_id eqo g v = Some k -> eqo u v = true) /\
    (forall u k, h_get_id eqo g u = Some k -> exists x, h_get_object (h_update g) k = Some x /\ eqo u x = true) /\
    (forall k x, h_get_object (h_update g) k = Some x -> h_get_id eqo g x = Some k).
Proof.
  intros O L W eqo cs g rs E G H. pose proof (hgood_sim eqo E cs g rs G H) as S. pose proof (s_nok _ _ _ S) as K.
  destruct (hcall_ref eqo E _ _ HUpdate S I) as (gu & Eu & Su). cbn [hnet_call] in Eu. injection Eu as <-.
  split; [|split].
  - intros u v k Hu Hv. rewrite (hget_id_sim eqo _ _ u S) in Hu. rewrite (hget_id_sim eqo _ _ v S) in Hv. apply (hid_iff eqo E) in Hu; [|exact K]. apply (hid_iff eqo E) in Hv; [|exact K].
    destruct Hu as (x & X1 & X2). destruct Hv as (y & Y1 & Y2). rewrite (same_id_obj eqo _ _ _ _ K X1 Y1) in X2. apply (eq_trans_ _ E u y v X2). apply (eq_sym_ _ E). exact Y2.
  - intros u k Hu. rewrite (hget_id_sim eqo _ _ u S) in Hu. apply (hid_iff eqo E) in Hu; [|exact K]. destruct Hu as (x & X1 & X2). exists x. split; [|exact X2].
    rewrite (hget_object_sim eqo _ _ k Su). apply (hobject_iff eqo); assumption.
  - intros k x Hx. rewrite (hget_object_sim eqo _ _ k Su) in Hx. cbn [hnext pub_nodes] in Hx. apply (hobject_iff eqo) in Hx; [|exact K]. rewrite (hget_id_sim eqo _ _ x S).
    apply (hid_iff eqo E); [exact K|]. exists x. split; [exact Hx|apply (eq_refl_ _ E)].
Qed.
Print Assumptions C41_good_ids_partial.
(** Removing a node and adding another one: two nodes share an id, and one has lost its object. *)
Theorem C41_ids_refuted :
  exists (cs : list (hop N N N)) g rs,
    hnet_run N.eqb hnet_new cs = Some (g, rs) /\ different N.eqb (hadded cs) /\
    h_get_id N.eqb g 20 = Some 1 /\ h_get_id N.eqb g 30 = Some 1 /\ h_get_object g 1 = Some 30.
Proof.
  exists [hadd 10; hadd 20; hpub; hgone 10; hadd 30; hpub]. eexists _, _. split; [vm_compute; reflexivity|]. split; [unfold different; repeat constructor|]. repeat split.
Qed.
Print Assumptions C41_ids_refuted.
(** Adding a node again moves it to a new id; its hyperedges stay with the old one. *)
Theorem C41_again_refuted :
  exists (cs : list (hop N N N)) g rs,
    hnet_run N.eqb hnet_new cs = Some (g, rs) /\ forallb (fun c => negb (hremoves c)) cs = true /\
    h_get_id N.eqb (hfinal (firstn 4 cs)) 10 = Some 0 /\ h_get_id N.eqb g 10 = Some 2 /\
    h_get_edges N.eqb (hfinal (firstn 4 cs)) 10 = Some [HEdge [0; 1] None None] /\ h_get_edges N.eqb g 10 = Some [] /\
    h_get_object g 0 = Some 10 /\ h_get_object g 2 = Some 10.
Proof.
  exists [hadd 10; hadd 20; hjoin [10; 20]; hpub; hadd 10; hpub]. eexists _, _. split; [vm_compute; reflexivity|]. repeat split.
Qed.
Print Assumptions C41_again_refuted.
Example C41_concrete :
  let cs := [hadd 10; hadd 20; hjoin [10; 20]; hpub] in
  exists g g' rs rs', hnet_run N.eqb hnet_new cs = Some (g, rs) /\ hnet_run N.eqb g [hjoin [20]; hcut [10; 20]; HUpdateNode 10] = Some (g', rs') /\
    h_get_edges N.eqb g' 20 = Some [HEdge [0; 1] None None] /\ h_edges g' <> h_edges g /\
    different N.eqb (hadded cs) /\ h_get_id N.eqb g' 20 = Some 1.
Proof. eexists _, _, _, _. split; [vm_compute; reflexivity|]. split; [vm_compute; reflexivity|]. split; [reflexivity|]. split; [discriminate|]. split; [unfold different; repeat constructor|reflexivity]. Qed.
