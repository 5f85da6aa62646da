(** * Network: consequences of the refinement *)
From Coq Require Import List Bool NArith Arith Lia Permutation.
From Verif Require Import DashModel NetModel NetSpec NetProofs NetRef NetRun NetBASpec NetBA NetIds.
Import ListNotations.
Local Open Scope N_scope.

Section Facts.
Context {O L W : Type}.
Variable eqo : O -> O -> bool.
Variable E : equivalence eqo.
Variable d : bool.
Local Notation edge := (edge L W).
Local Notation opts := (edge_options L W).
Local Notation agraph := (agraph O L W).
Local Notation net := (net O L W).
Local Notation nop := (nop O L W).

(** The edges handed out for a node ([get_edges], an absent list counting as empty). *)
Definition edges_of (g : net) (u : O) : list edge := match get_edges eqo g u with Some es => es | None => [] end.

Lemma get_id_sim (g : net) (s : astate O L W) u : simulates eqo d g s -> get_id eqo g u = id_in eqo u (pub s).
Proof. intros (_ & Rp & _). apply (r_id _ _ _ _ Rp). Qed.
Lemma get_object_sim (g : net) (s : astate O L W) i : simulates eqo d g s -> get_object g i = object_in i (pub s).
Proof. intros (_ & Rp & _). apply (r_obj _ _ _ _ Rp). Qed.
Lemma get_edges_sim (g : net) (s : astate O L W) u : simulates eqo d g s ->
  get_edges eqo g u = match id_in eqo u (pub s) with
                      | Some i => if is_listed i (pub s) then Some (incident d i (pub s)) else None
                      | None => None end.
Proof.
  intros (_ & Rp & _). unfold get_edges, id_of. change (option_map snd (hm_find eqo u (n2i (nr g)))) with (lk eqo u (n2i (nr g))).
  rewrite (r_id _ _ _ _ Rp). destruct (id_in eqo u (pub s)) as [i|]; [|reflexivity]. apply (r_adj _ _ _ _ Rp).
Qed.
Lemma edges_of_sim (g : net) (s : astate O L W) u : simulates eqo d g s ->
  edges_of g u = match id_in eqo u (pub s) with Some i => incident d i (pub s) | None => [] end.
Proof.
  intros S. unfold edges_of. rewrite (get_edges_sim g s u S). destruct S as (_ & _ & Op & _). destruct (id_in eqo u (pub s)) as [i|]; [|reflexivity].
  destruct (is_listed i (pub s)) eqn:F; [reflexivity|]. symmetry. apply (incident_unlisted eqo d); assumption.
Qed.
Lemma run_app cs cs' (g : net) : net_run eqo g (cs ++ cs') =
  match net_run eqo g cs with
  | Some (g1, rs) => option_map (fun p => (fst p, rs ++ snd p)) (net_run eqo g1 cs')
  | None => None
  end.
Proof.
  revert g. induction cs as [|c cs IH]; intros g; cbn [app net_run].
  - destruct (net_run eqo g cs') as [[g1 rs]|]; reflexivity.
  - destruct (net_call eqo g c) as [[g1 r]|]; [|reflexivity]. rewrite IH. destruct (net_run eqo g1 cs) as [[g2 rs]|]; [|reflexivity].
    cbn [option_map fst snd]. destruct (net_run eqo g2 cs') as [[g3 rs3]|]; reflexivity.
Qed.
Lemma a_run_app cs cs' (s : astate O L W) : a_run eqo d s (cs ++ cs') = a_run eqo d (a_run eqo d s cs) cs'.
Proof. revert s. induction cs as [|c cs IH]; intros s; [reflexivity|]. apply IH. Qed.
Lemma a_good_app cs cs' (s : astate O L W) : a_good_run eqo d s (cs ++ cs') <-> a_good_run eqo d s cs /\ a_good_run eqo d (a_run eqo d s cs) cs'.
Proof. revert s. induction cs as [|c cs IH]; intros s; cbn [app a_good_run a_run]; [tauto|]. rewrite IH. tauto. Qed.
(** The result of a run of good calls. *)
Lemma good_sim cs (g : net) rs : a_good_run eqo d a_new cs -> net_run eqo (net_new d) cs = Some (g, rs) ->
  simulates eqo d g (a_run eqo d a_new cs).
Proof.
  intros G H. destruct (run_ref eqo E d cs _ _ (new_simulates eqo d) G) as (g' & rs' & E1 & _ & S). rewrite E1 in H. injection H as <- <-. exact S.
Qed.

(** ** Symmetry *)
Definition options_of (e : edge) : option L * option W := (e_label e, e_weight e).
Lemma incident_sym i j (a : agraph) : d = false ->
  map options_of (filter (fun e => e_v e =? j) (incident d i a)) = map options_of (filter (fun e => e_v e =? i) (incident d j a)).
Proof.
  intros D. destruct (N.eq_dec i j) as [->|Hne]; [reflexivity|]. unfold incident. induction (edges a) as [|[[x y] o] l IH]; [reflexivity|].
  cbn [flat_map]. rewrite !filter_app, !map_app, IH. f_equal. unfold seen_from. rewrite D. cbn [negb andb].
  destruct (x =? i) eqn:A, (y =? i) eqn:B, (x =? j) eqn:A', (y =? j) eqn:B'; cbn [app filter shown e_v]; rewrite ?A, ?B, ?A', ?B'; cbn [app filter map]; try reflexivity;
    apply N.eqb_eq in A || apply N.eqb_eq in B; try (apply N.eqb_eq in A'); try (apply N.eqb_eq in B'); subst; try contradiction; congruence.
Qed.

(** ** All nodes have a list unless remove_all_edges was called *)
Definition drops_lists (c : nop) : bool := match c with NRemoveAllEdges => true | _ => false end.
Definition all_listed (a : agraph) : Prop := forall i, In i (map fst (nodes a)) -> is_listed i a = true.
Lemma listed_next (s : astate O L W) c : drops_lists c = false -> all_listed (pub s) /\ all_listed (cur s) ->
  all_listed (pub (a_next eqo d s c)) /\ all_listed (cur (a_next eqo d s c)).
Proof.
  intros Hc [Hp H].
  destruct c as [u|u v o|u v| |u it|u it|u it it'|u| | |u v|u|i|u]; cbn [a_next]; try discriminate; try (split; assumption).
  - split; [exact Hp|]. cbn [cur]. intros i Hi. unfold a_add_node in *. cbn [nodes] in Hi. rewrite map_app in Hi. apply in_app_or in Hi.
    unfold is_listed. cbn [listed existsb]. destruct Hi as [Hi|[<-|[]]]; [|cbn [fst]; rewrite N.eqb_refl; reflexivity].
    specialize (H i Hi). unfold is_listed in H. rewrite H. apply orb_true_r.
  - split; [exact Hp|]. cbn [cur]. unfold a_add_edge. destruct (id_in eqo u (cur s)) as [i|]; [|exact H]. destruct (id_in eqo v (cur s)) as [j|]; [|exact H].
    intros k Hk. cbn [nodes] in Hk. specialize (H k Hk). unfold is_listed in *. cbn [listed existsb]. rewrite existsb_app, H, !orb_true_r. reflexivity.
  - destruct (id_in eqo u (pub s)); [|split; assumption]. destruct (id_in eqo v (pub s)); [|split; assumption]. split; [exact Hp|exact H].
  - destruct (id_in eqo u (pub s)); [|split; assumption]. split; [exact Hp|exact H].
  - destruct (id_in eqo u (pub s)); [|split; assumption]. split; [exact Hp|exact H].
  - destruct (id_in eqo u (cur s)) as [i|]; [|split; assumption]. split; [exact Hp|]. cbn [cur]. intros k Hk. apply (nodes_drop (O := O) (L := L) (W := W)) in Hk. destruct Hk as [K1 K2].
    rewrite is_listed_drop, (H k K2), (proj2 (N.eqb_neq _ _) K1). reflexivity.
  - split; [exact Hp|]. cbn [cur]. intros k Hk. unfold a_update_node in Hk. cbn [nodes] in Hk. rewrite map_map in Hk.
    assert (MF : map (fun x => fst (if eqo u (snd x) then (fst x, u) else x)) (nodes (cur s)) = map fst (nodes (cur s))).
    { apply map_ext. intros q. destruct (eqo u (snd q)); reflexivity. }
    rewrite MF in Hk. exact (H k Hk).
Qed.
Lemma listed_run cs : forall s : astate O L W, forallb (fun c => negb (drops_lists c)) cs = true -> all_listed (pub s) /\ all_listed (cur s) ->
  all_listed (pub (a_run eqo d s cs)) /\ all_listed (cur (a_run eqo d s cs)).
Proof.
  induction cs as [|c cs IH]; intros s Hc H; [exact H|]. cbn [forallb] in Hc. apply andb_prop in Hc. destruct Hc as [H1 H2]. apply negb_true_iff in H1.
  cbn [a_run]. apply IH; [exact H2|]. apply listed_next; assumption.
Qed.

(** ** Preferential attachment *)
Lemma nodup_map_snd {X Y} (l : list (X * Y)) (c : list (X * Y)) : NoDup c -> incl c l -> (forall p q, In p l -> In q l -> snd p = snd q -> p = q) -> NoDup (map snd c).
Proof.
  intros H. induction H as [|p c H1 H2 IH]; intros HI HS; [constructor|]. cbn [map]. constructor.
  - intros F. apply in_map_iff in F. destruct F as (q & F1 & F2). apply H1. rewrite (HS p q); [exact F2|apply HI; left; reflexivity|apply HI; right; exact F2|congruence].
  - apply IH; [|exact HS]. intros q Hq. apply HI. right. exact Hq.
Qed.
Section Attached.
Variable choose : nat -> list (O * N * nat) -> nat -> list (O * N * nat).
Variable C : choose_ok choose.
Variable node_set : list O.
Variable m : nat.
Local Notation pairs e := (attached choose node_set m e).

Lemma attached_new e : (2 + e < length node_set)%nat -> exists links,
  pairs (S e) = pairs e ++ map (fun j => ((2 + e)%nat, j)) links /\ length links = Nat.min (2 + e) m /\ NoDup links /\ Forall (fun j => (j < 2 + e)%nat) links.
Proof.
  intros H. cbn [attached]. set (cs := choose _ _ _).
  destruct (C (2 + e)%nat (weighted node_set (2 + e) (pairs e)) (Nat.min (2 + e) m)) as (C1 & C2 & C3).
  { apply weighted_nodup. lia. } { rewrite weighted_length; lia. }
  fold cs in C1, C2, C3. exists (map snd cs). split; [rewrite map_map; reflexivity|]. split; [rewrite map_length; exact C1|]. split.
  - apply (nodup_map_snd (weighted node_set (2 + e) (pairs e))); [exact C2|exact C3|]. intros p q Hp Hq F.
    apply weighted_in in Hp; [|lia]. apply weighted_in in Hq; [|lia]. destruct Hp as (k & x & _ & X & ->). destruct Hq as (k' & x' & _ & X' & ->). cbn [snd] in F. subst k'. congruence.
  - apply Forall_forall. intros j Hj. apply in_map_iff in Hj. destruct Hj as (c & <- & Hc). apply C3, weighted_in in Hc; [|lia]. destruct Hc as (k & x & Hk & _ & ->). exact Hk.
Qed.
Lemma filter_new (i : nat) links : filter (fun p => Nat.eqb (fst p) i) (map (fun j : nat => (i, j)) links) = map (fun j => (i, j)) links.
Proof. apply filter_all. intros p Hp. apply in_map_iff in Hp. destruct Hp as (j & <- & _). apply Nat.eqb_refl. Qed.
Lemma attached_links e : (2 + e <= length node_set)%nat -> forall i, (2 <= i < 2 + e)%nat -> exists links,
  filter (fun p => Nat.eqb (fst p) i) (pairs e) = map (fun j => (i, j)) links /\ length links = Nat.min i m /\ NoDup links /\ Forall (fun j => (j < i)%nat) links.
Proof.
  induction e as [|e IH]; intros H i Hi; [lia|]. destruct (attached_new e ltac:(lia)) as (links & -> & L1 & L2 & L3). rewrite filter_app.
  destruct (Nat.eq_dec i (2 + e)) as [->|Hne].
  - exists links. rewrite filter_new, filter_none; [repeat split; assumption|].
    intros p Hp. apply Nat.eqb_neq. destruct (attached_lt choose C node_set m e ltac:(lia) p Hp). lia.
  - destruct (IH ltac:(lia) i ltac:(lia)) as (links' & -> & K). exists links'. rewrite (filter_none _ (map _ links)), app_nil_r; [split; [reflexivity|exact K]|].
    intros p Hp. apply in_map_iff in Hp. destruct Hp as (j & <- & _). apply Nat.eqb_neq. cbn [fst]. lia.
Qed.
Lemma attached_first e : (2 + e <= length node_set)%nat -> filter (fun p => Nat.ltb (fst p) 2) (pairs e) = [(0%nat, 1%nat)].
Proof.
  induction e as [|e IH]; intros H; [reflexivity|]. destruct (attached_new e ltac:(lia)) as (links & -> & _). rewrite filter_app, IH by lia.
  rewrite filter_none; [reflexivity|]. intros p Hp. apply in_map_iff in Hp. destruct Hp as (j & <- & _). apply Nat.ltb_ge. cbn [fst]. lia.
Qed.
Lemma attached_no_loop e : (2 + e <= length node_set)%nat -> forall p, In p (pairs e) -> fst p <> snd p.
Proof.
  induction e as [|e IH]; intros H p Hp; [destruct Hp as [<-|[]]; discriminate|]. destruct (attached_new e ltac:(lia)) as (links & EQ & _ & _ & L3). rewrite EQ in Hp.
  apply in_app_or in Hp. destruct Hp as [Hp|Hp]; [apply IH; [lia|exact Hp]|]. apply in_map_iff in Hp. destruct Hp as (j & <- & Hj). rewrite Forall_forall in L3. specialize (L3 j Hj). cbn [fst snd]. lia.
Qed.
Lemma path_mono P Q i j : (forall p, In p P -> In p Q) -> path P i j -> path Q i j.
Proof. intros H F. induction F as [|i j k F1 F2 IH]; [constructor|]. apply (path_step _ i j k); [destruct F1; [left|right]; apply H; assumption|exact IH]. Qed.
Lemma path_trans P i j k : path P i j -> path P j k -> path P i k.
Proof. intros F. induction F as [|i j l F1 F2 IH]; intros G; [exact G|]. apply (path_step _ i j k F1). apply IH. exact G. Qed.
Lemma path_sym P i j : path P i j -> path P j i.
Proof.
  intros F. induction F as [|i j k F1 F2 IH]; [constructor|]. apply (path_trans P k j i IH). apply (path_step P j i i); [tauto|constructor].
Qed.
Lemma attached_connected e : (1 <= m)%nat -> (2 + e <= length node_set)%nat -> forall i, (i < 2 + e)%nat -> path (pairs e) i 0.
Proof.
  intros Hm. induction e as [|e IH]; intros H i Hi.
  - destruct i as [|[|i]]; [constructor| |lia]. apply (path_step _ 1%nat 0%nat 0%nat); [right; left; reflexivity|constructor].
  - destruct (attached_new e ltac:(lia)) as (links & EQ & L1 & _ & L3). rewrite EQ.
    assert (MO : forall j, (j < 2 + e)%nat -> path (pairs e ++ map (fun j => ((2 + e)%nat, j)) links) j 0%nat).
    { intros j Hj. eapply path_mono; [|apply IH; [lia|exact Hj]]. intros p Hp. apply in_or_app. left. exact Hp. }
    destruct (Nat.eq_dec i (2 + e)) as [->|Hne]; [|apply MO; lia].
    destruct links as [|j links]; [cbn [length] in L1; lia|]. inversion L3 as [|? ? L4 _]; subst.
    apply (path_step _ (2 + e)%nat j 0%nat); [|apply MO; exact L4]. left. apply in_or_app. right. left. reflexivity.
Qed.
End Attached.

Lemma flat_map_map_ {X Y Z} (f : X -> Y) (g : Y -> list Z) l : flat_map g (map f l) = flat_map (fun x => g (f x)) l.
Proof. induction l as [|x l IH]; [reflexivity|]. cbn [map flat_map]. rewrite IH. reflexivity. Qed.
Lemma flat_map_ext_in {X Y} (f g : X -> list Y) l : (forall x, In x l -> f x = g x) -> flat_map f l = flat_map g l.
Proof.
  induction l as [|x l IH]; intros H; [reflexivity|]. cbn [flat_map]. rewrite (H x (or_introl eq_refl)), IH; [reflexivity|]. intros y Hy. apply H. right. exact Hy.
Qed.
Lemma incident_pairs idn n k P (b : agraph) : edges b = as_edges (L := L) (W := W) idn P -> (forall p, In p P -> (fst p < n /\ snd p < n)%nat) ->
  (forall i j, (i < n)%nat -> (j < n)%nat -> idn i = idn j -> i = j) -> (k < n)%nat ->
  incident d (idn k) b = map (fun j => Edge (idn k) (idn j) None None) (neighbours d k P).
Proof.
  intros HE HP HI Hk. unfold incident, neighbours. rewrite HE. unfold as_edges. clear HE. rewrite flat_map_map_.
  induction P as [|p P IH]; [reflexivity|]. cbn [flat_map]. rewrite map_app, IH by (intros q Hq; apply HP; right; exact Hq). f_equal.
  destruct (HP p (or_introl eq_refl)) as [P1 P2].
  assert (EQ : forall x, (x < n)%nat -> (idn x =? idn k) = Nat.eqb x k).
  { intros x Hx. destruct (Nat.eqb x k) eqn:A; [apply Nat.eqb_eq in A; subst; apply N.eqb_refl|]. apply N.eqb_neq. intros F. apply HI in F; [|exact Hx|exact Hk]. subst. rewrite Nat.eqb_refl in A. discriminate. }
  unfold seen_from. rewrite !EQ by assumption. rewrite map_app. destruct (Nat.eqb (fst p) k); destruct (negb d && Nat.eqb (snd p) k); reflexivity.
Qed.

(** ** Answers of a concatenation *)
Lemma a_answers_app cs cs' : forall (s : astate O L W) rs, a_answers eqo d s (cs ++ cs') rs ->
  exists r1 r2, rs = r1 ++ r2 /\ a_answers eqo d (a_run eqo d s cs) cs' r2 /\ length r1 = length cs.
Proof.
  induction cs as [|c cs IH]; intros s rs H; [exists [], rs; split; [reflexivity|]; split; [exact H|reflexivity]|].
  destruct rs as [|r rs]; cbn [app a_answers] in H; [destruct H|]. destruct H as [_ H]. destruct (IH _ _ H) as (r1 & r2 & -> & H2 & H3).
  exists (r :: r1), r2. split; [reflexivity|]. split; [exact H2|]. cbn [length]. rewrite H3. reflexivity.
Qed.

(** ** Calls other than update leave the read buffers alone *)
Definition kept (g g' : net) : Prop := nr g' = nr g /\ direct g' = direct g.
Lemma kept_trans (g g1 g2 : net) : kept g g1 -> kept g1 g2 -> kept g g2.
Proof. unfold kept. intuition congruence. Qed.
Lemma remove_edge_kept (g : net) u v g' r : remove_edge eqo g u v = Some (g', r) -> kept g g'.
Proof.
  unfold remove_edge. destruct (id_of eqo u (n2i (nr g))) as [i|]; [|intros H; injection H as <- <-; split; reflexivity].
  destruct (id_of eqo v (n2i (nr g))) as [j|]; [|intros H; injection H as <- <-; split; reflexivity].
  destruct (val_of i (adj (nw g))) as [es|]; [|discriminate].
  destruct (remove_first (joins i j) es) as [[e es']|]; [|intros H; injection H as <- <-; split; reflexivity].
  destruct (direct g) eqn:D; [intros H; injection H as <- <-; split; [reflexivity|assumption || reflexivity]|].
  destruct (val_of j _); [|discriminate]. intros H. injection H as <- <-. split; [reflexivity|assumption || reflexivity].
Qed.
Lemma remove_loop_kept flip u i l : forall (g : net) g' rs, remove_loop eqo flip g u i l = Some (g', rs) -> kept g g'.
Proof.
  induction l as [|[k x] l IH]; intros g g' rs; cbn [remove_loop].
  - intros H. injection H as <- <-. split; reflexivity.
  - destruct (k =? i); [apply IH|].
    destruct (if flip then remove_edge eqo g u x else remove_edge eqo g x u) as [[g1 r]|] eqn:F; [|discriminate].
    assert (S : kept g g1) by (destruct flip; eapply remove_edge_kept; exact F).
    destruct (remove_loop eqo flip g1 u i l) as [[g2 rs2]|] eqn:G; [|discriminate]. cbn [option_map fst snd].
    intros H. injection H as <- <-. eapply kept_trans; [exact S|eapply IH; exact G].
Qed.
Lemma remove_all_of_kept flip (g : net) u it g' r : remove_all_of eqo flip g u it = Some (g', r) -> kept g g'.
Proof.
  unfold remove_all_of. destruct (id_of eqo u (n2i (nr g))) as [i|]; [|intros H; injection H as <- <-; split; reflexivity].
  destruct (remove_loop _ _ _ _ _ _) as [[g1 rs]|] eqn:F; [|discriminate]. intros H. injection H as <- <-. eapply remove_loop_kept. exact F.
Qed.
Lemma call_keeps_read (g : net) c g' r : publishes c = false -> net_call eqo g c = Some (g', r) -> kept g g'.
Proof.
  intros P F. destruct c as [u|u v o|u v| |u it|u it|u it it'|u| | |u v|u|i|u]; cbn [net_call] in F; try discriminate P.
  - injection F as <- <-. split; reflexivity.
  - destruct (add_edge eqo g u v o) as [g1' r'] eqn:A. injection F as <- <-.
    unfold add_edge in A. destruct (id_of eqo u (n2i (nw g))); [|injection A as <- <-; split; reflexivity].
    destruct (id_of eqo v (n2i (nw g))); injection A as <- <-; split; reflexivity.
  - destruct (remove_edge eqo g u v) as [[g1' r']|] eqn:A; [|discriminate]. injection F as <- <-. exact (remove_edge_kept _ _ _ _ _ A).
  - injection F as <- <-. split; reflexivity.
  - destruct (remove_incoming_edges eqo g u it) as [[g1' r']|] eqn:A; [|discriminate]. injection F as <- <-. exact (remove_all_of_kept _ _ _ _ _ _ A).
  - destruct (remove_outgoing_edges eqo g u it) as [[g1' r']|] eqn:A; [|discriminate]. injection F as <- <-. exact (remove_all_of_kept _ _ _ _ _ _ A).
  - destruct (remove_node eqo g u it it') as [[g1' r']|] eqn:A; [|discriminate]. injection F as <- <-. unfold remove_node in A.
    destruct (id_of eqo u (n2i (nw g))) as [i|]; [|injection A as <- <-; split; reflexivity].
    destruct (remove_outgoing_edges eqo g u it) as [[g1 [es|]]|] eqn:A1; [| |discriminate].
    + pose proof (remove_all_of_kept _ _ _ _ _ _ A1) as K1.
      destruct (remove_incoming_edges eqo (drop_list g1 i) u it') as [[g2 [es2|]]|] eqn:A2; [| |discriminate].
      * pose proof (remove_all_of_kept _ _ _ _ _ _ A2) as K2. injection A as <- <-. eapply kept_trans; [exact K1|]. eapply kept_trans; [|].
        { instantiate (1 := drop_list g1 i). split; reflexivity. } eapply kept_trans; [exact K2|]. split; reflexivity.
      * pose proof (remove_all_of_kept _ _ _ _ _ _ A2) as K2. injection A as <- <-. eapply kept_trans; [exact K1|]. eapply kept_trans; [|].
        { instantiate (1 := drop_list g1 i). split; reflexivity. } exact K2.
    + injection A as <- <-. exact (remove_all_of_kept _ _ _ _ _ _ A1).
  - injection F as <- <-. unfold update_node. destruct (id_of eqo u (n2i (nw g))); split; reflexivity.
  - destruct (get_edge eqo g u v); [|discriminate]. injection F as <- <-. split; reflexivity.
  - injection F as <- <-. split; reflexivity.
  - injection F as <- <-. split; reflexivity.
  - injection F as <- <-. split; reflexivity.
Qed.

(** ** A node stays known until it is removed *)
Lemma added_known cs : forall (g : net) g' rs u, forallb (fun c => negb (removes_node c)) cs = true -> net_run eqo g cs = Some (g', rs) ->
  In (NAddNode u) cs \/ (exists i, lk eqo u (n2i (nw g)) = Some i) -> exists i, lk eqo u (n2i (nw g')) = Some i.
Proof.
  induction cs as [|c cs IH]; intros g g' rs u HR H HI; cbn [net_run] in H.
  - injection H as <- <-. destruct HI as [[]|HI]. exact HI.
  - cbn [forallb] in HR. apply andb_prop in HR. destruct HR as [R1 R2]. destruct (net_call eqo g c) as [[g1 r]|] eqn:F; [|discriminate].
    destruct (net_run eqo g1 cs) as [[g2 rs2]|] eqn:G; [|discriminate]. injection H as -> _. apply (IH g1 g' rs2 u R2 G).
    destruct HI as [[HI|HI]|HI]; [right|left; exact HI|right].
    + subst c. cbn in F. injection F as <- <-. unfold add_node, set_w. cbn [nw n2i]. rewrite (lk_insert _ E), (eq_refl_ _ E). eexists. reflexivity.
    + destruct HI as (i & HI).
      assert (SN : same_nodes g g1 -> exists i, lk eqo u (n2i (nw g1)) = Some i) by (intros (S1 & _); rewrite S1; exists i; exact HI).
      destruct c as [w|w v o|w v| |w it|w it|w it it'|w| | |w v|w|j|w]; cbn [net_call] in F; try discriminate R1.
      * injection F as <- <-. unfold add_node, set_w. cbn [nw n2i]. rewrite (lk_insert _ E). destruct (eqo u w); eexists; [reflexivity|exact HI].
      * destruct (add_edge eqo g w v o) as [g1' r'] eqn:A. injection F as <- <-. apply SN.
        unfold add_edge in A. destruct (id_of eqo w (n2i (nw g))); [|injection A as <- <-; repeat split].
        destruct (id_of eqo v (n2i (nw g))); injection A as <- <-; repeat split.
      * destruct (remove_edge eqo g w v) as [[g1' r']|] eqn:A; [|discriminate]. injection F as <- <-. apply SN. exact (remove_edge_nodes _ _ _ _ _ _ A).
      * injection F as <- <-. exists i. exact HI.
      * destruct (remove_incoming_edges eqo g w it) as [[g1' r']|] eqn:A; [|discriminate]. injection F as <- <-. apply SN. exact (remove_all_of_nodes _ _ _ _ _ _ _ A).
      * destruct (remove_outgoing_edges eqo g w it) as [[g1' r']|] eqn:A; [|discriminate]. injection F as <- <-. apply SN. exact (remove_all_of_nodes _ _ _ _ _ _ _ A).
      * injection F as <- <-. unfold update_node. destruct (id_of eqo w (n2i (nw g))); exists i; exact HI.
      * injection F as <- <-. exists i. exact HI.
      * injection F as <- <-. exists i. exact HI.
      * destruct (get_edge eqo g w v); [|discriminate]. injection F as <- <-. exists i. exact HI.
      * injection F as <- <-. exists i. exact HI.
      * injection F as <- <-. exists i. exact HI.
      * injection F as <- <-. exists i. exact HI.
Qed.

(** ** Edges seen from a node after a removal *)
Lemma incident_removed i j (a : agraph) : j <> i ->
  incident d j (a_remove_node i a) = filter (fun e => negb (e_v e =? i)) (incident d j a).
Proof.
  intros Hji. unfold incident. cbn [a_remove_node edges]. unfold drop. induction (edges a) as [|[[x y] o] l IH]; [reflexivity|].
  cbn [flat_map filter]. rewrite filter_app, <- IH. unfold touches at 1. unfold seen_from at 2.
  destruct (x =? i) eqn:A, (y =? i) eqn:B; cbn [orb negb].
  - apply N.eqb_eq in A, B. subst. rewrite (proj2 (N.eqb_neq i j)) by congruence. rewrite andb_false_r. reflexivity.
  - apply N.eqb_eq in A. subst. rewrite (proj2 (N.eqb_neq i j)) by congruence. destruct (negb d && (y =? j)); cbn [app filter shown e_v]; [rewrite N.eqb_refl|]; reflexivity.
  - apply N.eqb_eq in B. subst. rewrite (proj2 (N.eqb_neq i j)) by congruence. rewrite andb_false_r. destruct (x =? j); cbn [app filter shown e_v]; [rewrite N.eqb_refl|]; reflexivity.
  - cbn [flat_map]. f_equal. unfold seen_from. destruct (x =? j), (negb d && (y =? j)); cbn [app filter shown e_v]; rewrite ?A, ?B; reflexivity.
Qed.
Lemma count_incident i j (a : agraph) : i <> j ->
  length (filter (fun e => e_v e =? j) (incident d i a)) = count_between d i j a.
Proof. intros H. apply inc_count. right. exact H. Qed.
Lemma find_incident i j (a : agraph) : i <> j ->
  find (fun e => e_v e =? j) (incident d i a) = option_map (fun e => shown i j (snd e)) (find (between d i j) (edges a)).
Proof. intros _. apply inc_find. Qed.
Lemma incident_e_u i (a : agraph) e : In e (incident d i a) -> e_u e = i.
Proof. apply incident_src. Qed.
Lemma get_edge_sim (g : net) (s : astate O L W) u v : simulates eqo d g s ->
  get_edge eqo g u v = Some (match id_in eqo u (pub s), id_in eqo v (pub s) with
                             | Some i, Some j => find (fun e => e_v e =? j) (incident d i (pub s))
                             | _, _ => None
                             end).
Proof. intros (D & Rp & Op & _). apply (get_edge_ref eqo E d); assumption. Qed.
Lemma incident_cut i j k (a : agraph) : i <> j -> (count_between d i j a <= 1)%nat ->
  incident d k (a_remove_edge d i j a) =
  filter (fun e => negb (((e_u e =? i) && (e_v e =? j)) || (negb d && (e_u e =? j) && (e_v e =? i)))) (incident d k a).
Proof.
  intros Hij HC. unfold incident, a_remove_edge, with_edges. cbn [edges]. unfold count_between in HC.
  rewrite (without_first_drop (between d i j) (edges a)) by exact HC. clear HC. unfold drop.
  induction (edges a) as [|[[x y] o] l IH]; [reflexivity|]. cbn [flat_map filter]. rewrite filter_app, <- IH. clear IH.
  unfold between at 1. unfold seen_from at 2.
  assert (D : d = true \/ d = false) by (destruct d; auto).
  destruct (x =? k) eqn:XK, (y =? k) eqn:YK; [apply N.eqb_eq in XK, YK; subst x y|apply N.eqb_eq in XK; subst x|apply N.eqb_eq in YK; subst y|].
  - destruct (k =? i) eqn:A; destruct (k =? j) eqn:B; cbn [andb orb]; rewrite ?andb_false_r; cbn [andb orb negb].
    + apply N.eqb_eq in A, B. congruence.
    + cbn [flat_map]. f_equal. unfold seen_from. rewrite N.eqb_refl. destruct D as [DD | DD]; rewrite ?DD; cbn [negb andb app filter shown e_u e_v]; rewrite ?A, ?B, ?andb_false_r; reflexivity.
    + cbn [flat_map]. f_equal. unfold seen_from. rewrite N.eqb_refl. destruct D as [DD | DD]; rewrite ?DD; cbn [negb andb app filter shown e_u e_v]; rewrite ?A, ?B, ?andb_false_r; reflexivity.
    + cbn [flat_map]. f_equal. unfold seen_from. rewrite N.eqb_refl. destruct D as [DD | DD]; rewrite ?DD; cbn [negb andb app filter shown e_u e_v]; rewrite ?A, ?B, ?andb_false_r; reflexivity.
  - rewrite andb_false_r, app_nil_r. cbn [filter shown e_u e_v].
    destruct (((k =? i) && (y =? j)) || (negb d && (k =? j) && (y =? i))) eqn:T; cbn [negb app]; [reflexivity|].
    cbn [flat_map]. f_equal. unfold seen_from. rewrite N.eqb_refl, YK, andb_false_r. reflexivity.
  - cbn [app]. rewrite andb_true_r. destruct D as [DD | DD]; rewrite DD; cbn [negb andb].
    + rewrite orb_false_r. cbn [app filter]. destruct ((x =? i) && (k =? j)); cbn [negb flat_map]; [reflexivity|]. unfold seen_from at 1. rewrite XK. reflexivity.
    + cbn [app filter shown e_u e_v negb andb]. rewrite (andb_comm (k =? i) (x =? j)), (andb_comm (k =? j) (x =? i)), (orb_comm ((x =? j) && (k =? i))).
      destruct (((x =? i) && (k =? j)) || ((x =? j) && (k =? i))); cbn [negb flat_map app]; [reflexivity|]. unfold seen_from at 1. rewrite XK, N.eqb_refl. reflexivity.
  - rewrite andb_false_r. cbn [app filter]. destruct (((x =? i) && (y =? j)) || _); cbn [negb flat_map]; [reflexivity|]. unfold seen_from at 1. rewrite XK, YK, andb_false_r. reflexivity.
Qed.

Lemma nth_error_firstn_ {X} (l : list X) : forall n k, (k < n)%nat -> nth_error (firstn n l) k = nth_error l k.
Proof.
  induction l as [|x l IH]; intros n k H; [rewrite firstn_nil; destruct k; reflexivity|]. destruct n as [|n]; [lia|]. destruct k as [|k]; [reflexivity|].
  cbn [firstn nth_error]. apply IH. lia.
Qed.
Lemma different_nth (l : list O) : different eqo l -> forall i j x y, (i < j)%nat -> nth_error l i = Some x -> nth_error l j = Some y -> eqo x y = false.
Proof.
  unfold different. intros H. induction H as [|z l H1 H2 IH]; intros i j x y Hl Hx Hy; [destruct i; discriminate|].
  destruct j as [|j]; [lia|]. cbn [nth_error] in Hy. destruct i as [|i].
  - injection Hx as <-. rewrite Forall_forall in H1. apply H1. apply (nth_error_In _ j). exact Hy.
  - apply (IH i j x y); [lia|exact Hx|exact Hy].
Qed.
End Facts.

Section Directed.
Context {O L W : Type}.
Local Notation agraph := (agraph O L W).
Lemma find_incident_directed i j (a : agraph) :
  find (fun e => e_v e =? j) (incident true i a) = option_map (fun e => shown i j (snd e)) (find (between true i j) (edges a)).
Proof. apply inc_find. Qed.
Lemma incident_cut_self i j (a : agraph) : incident true i (a_remove_edge true i j a) = without_first (fun e => e_v e =? j) (incident true i a).
Proof. symmetry. apply inc_without_first. reflexivity. Qed.
Lemma incident_cut_other i j k (a : agraph) : k <> i -> incident true k (a_remove_edge true i j a) = incident true k a.
Proof. intros H. apply (inc_same true i j k (edges a)); [exact H|discriminate|left; reflexivity]. Qed.
End Directed.
Lemma NoDup_app_remove_r_ {X} (l l' : list X) : NoDup (l ++ l') -> NoDup l.
Proof.
  induction l as [|x l IH]; intros H; [constructor|]. cbn [app] in H. inversion H as [|? ? H1 H2]; subst. constructor; [|apply IH; exact H2].
  intros F. apply H1, in_or_app. left. exact F.
Qed.
