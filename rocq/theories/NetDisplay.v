(** * Display of a Network: C68 *)
From Coq Require Import List Bool NArith Arith Lia Permutation.
From Verif Require Import DashModel NetModel NetSpec NetBASpec NetProofs NetRef NetRun NetBA NetIds NetFacts NetProps.
Import ListNotations.
Open Scope N_scope.

Section D.
Context {O L W : Type}.
Variable eqo : O -> O -> bool.
Variable E : equivalence eqo.
Variable d : bool.
Local Notation agraph := (agraph O L W).

Definition numbered (a : agraph) : Prop := map fst (nodes a) = map N.of_nat (seq 0 (length (nodes a))).
Lemma numbered_next (s : astate O L W) c : removes_node c = false -> numbered (pub s) /\ numbered (cur s) ->
  numbered (pub (a_next eqo d s c)) /\ numbered (cur (a_next eqo d s c)).
Proof.
  intros Hc [Hp H].
  destruct c as [u|u v o|u v| |u it|u it|u it it'|u| | |u v|u|i|u]; cbn [a_next]; try discriminate; try (split; assumption).
  - split; [exact Hp|]. cbn [cur]. unfold numbered, a_add_node in *. cbn [nodes]. rewrite map_app, app_length, H. cbn [map fst length].
    rewrite seq_app, map_app. reflexivity.
  - split; [exact Hp|]. cbn [cur]. unfold a_add_edge. destruct (id_in eqo u (cur s)); [|exact H]. destruct (id_in eqo v (cur s)); exact H.
  - destruct (id_in eqo u (pub s)); [|split; assumption]. destruct (id_in eqo v (pub s)); split; assumption.
  - destruct (id_in eqo u (pub s)); split; assumption.
  - destruct (id_in eqo u (pub s)); split; assumption.
  - split; [exact Hp|]. cbn [cur]. unfold numbered, a_update_node in *. cbn [nodes]. rewrite map_length, map_map, <- H.
    apply map_ext. intros q. destruct (eqo u (snd q)); reflexivity.
Qed.
Lemma numbered_run cs : forall s : astate O L W, forallb (fun c => negb (removes_node c)) cs = true -> numbered (pub s) /\ numbered (cur s) ->
  numbered (pub (a_run eqo d s cs)).
Proof.
  induction cs as [|c cs IH]; intros s Hc H; [apply H|]. cbn [forallb] in Hc. apply andb_prop in Hc. destruct Hc as [H1 H2]. apply negb_true_iff in H1.
  cbn [a_run]. apply IH; [exact H2|]. apply numbered_next; assumption.
Qed.

Lemma mapM_ids_ok {X} (f : N -> option X) n : (forall i, (i < n)%nat -> f (N.of_nat i) <> None) ->
  exists l, mapM_ids f n = Some l /\ length l = n /\ forall i, (i < n)%nat -> nth_error l i = f (N.of_nat i).
Proof.
  unfold mapM_ids. intros H.
  assert (G : forall k b, (b + k = n)%nat -> exists l, fold_right (fun i acc => match f (N.of_nat i), acc with Some x, Some l => Some (x :: l) | _, _ => None end) (Some []) (seq b k) = Some l /\
    length l = k /\ forall i, (i < k)%nat -> nth_error l i = f (N.of_nat (b + i))).
  { induction k as [|k IH]; intros b Hb; cbn [seq fold_right].
    - exists []. split; [reflexivity|]. split; [reflexivity|]. intros i Hi. lia.
    - destruct (IH (S b) ltac:(lia)) as (l & -> & L1 & L2). pose proof (H b ltac:(lia)) as Hf. destruct (f (N.of_nat b)) as [x|] eqn:F; [|contradiction].
      exists (x :: l). split; [reflexivity|]. split; [cbn [length]; lia|]. intros [|i] Hi; cbn [nth_error].
      + rewrite Nat.add_0_r. symmetry. exact F.
      + rewrite L2 by lia. f_equal. f_equal. lia. }
  destruct (G n 0%nat eq_refl) as (l & G1 & G2 & G3). exists l. split; [exact G1|]. split; [exact G2|]. intros i Hi. rewrite G3 by exact Hi. reflexivity.
Qed.

Lemma display_ok (g : net O L W) (s : astate O L W) : simulates eqo d g s -> numbered (pub s) ->
  exists rows, display eqo g = Some rows /\ length rows = length (nodes (pub s)) /\
    forall i j, (i < length (nodes (pub s)))%nat -> (j < length (nodes (pub s)))%nat ->
      exists row x, nth_error rows i = Some row /\ length row = length (nodes (pub s)) /\ get_object g (N.of_nat i) = Some x /\
        nth_error row j = Some (existsb (fun e => e_v e =? N.of_nat j) (edges_of eqo g x)).
Proof.
  intros S HN. pose proof S as (_ & Rp & Op & _). unfold display.
  assert (LI : length (i2n (nr g)) = length (nodes (pub s))).
  { apply Permutation_length, NoDup_Permutation.
    - apply (NoDup_map_inv fst). apply (proj2 (kuniq_nodes _)), (r_ui _ _ _ _ Rp).
    - apply (NoDup_map_inv fst), (ok_ids _ _ _ Op).
    - intros [k x]. rewrite <- (object_in_iff eqo d k x (pub s) Op), <- (r_obj _ _ _ _ Rp).
      split; [apply lk_in_some; [exact Neq|apply (r_ui _ _ _ _ Rp)]|]. intros F. apply lk_some_in in F. destruct F as (k' & F1 & F2). apply N.eqb_eq in F2. subst k'. exact F1. }
  rewrite LI. set (n := length (nodes (pub s))) in *.
  assert (OBJ : forall i, (i < n)%nat -> exists x, object_in (N.of_nat i) (pub s) = Some x /\ id_in eqo x (pub s) = Some (N.of_nat i)).
  { intros i Hi. assert (I : In (N.of_nat i) (map fst (nodes (pub s)))) by (rewrite HN; apply in_map, in_seq; fold n; lia).
    apply in_map_iff in I. destruct I as ([k x] & I1 & I2). cbn [fst] in I1. subst k. exists x. split; [apply (object_in_iff eqo d); assumption|apply (id_in_self eqo E d); assumption]. }
  set (cell := fun i j => match get_object g i, get_object g j with
                          | Some a, Some b => option_map (fun r : option (edge L W) => match r with Some _ => true | None => false end) (get_edge eqo g a b)
                          | _, _ => None end).
  assert (CELL : forall i j, (i < n)%nat -> (j < n)%nat -> exists x, get_object g (N.of_nat i) = Some x /\
            cell (N.of_nat i) (N.of_nat j) = Some (existsb (fun e => e_v e =? N.of_nat j) (edges_of eqo g x))).
  { intros i j Hi Hj. unfold cell. destruct (OBJ i Hi) as (x & X1 & X2). destruct (OBJ j Hj) as (y & Y1 & Y2).
    exists x. rewrite (get_object_sim eqo d _ _ (N.of_nat i) S), X1, (get_object_sim eqo d _ _ (N.of_nat j) S), Y1. split; [reflexivity|].
    rewrite (get_edge_sim eqo E d _ _ x y S), X2, Y2. cbn [option_map]. rewrite (edges_of_sim eqo d _ _ _ S), X2. f_equal.
    destruct (find (fun e => e_v e =? N.of_nat j) (incident d (N.of_nat i) (pub s))) as [e|] eqn:F; symmetry.
    - apply existsb_exists. apply find_some in F. exists e. exact F.
    - apply not_true_is_false. intros G. apply existsb_exists in G. destruct G as (e & G1 & G2). pose proof (find_none _ _ F e G1) as G3. cbn in G3. congruence. }
  destruct (mapM_ids_ok (fun i => mapM_ids (cell i) n) n) as (rows & R1 & R2 & R3).
  { intros i Hi. destruct (mapM_ids_ok (cell (N.of_nat i)) n) as (row & Q1 & _).
    - intros j Hj. destruct (CELL i j Hi Hj) as (x & _ & C). rewrite C. discriminate.
    - rewrite Q1. discriminate. }
  exists rows. split; [exact R1|]. split; [exact R2|]. intros i j Hi Hj.
  destruct (mapM_ids_ok (cell (N.of_nat i)) n) as (row & Q1 & Q2 & Q3).
  { intros j' Hj'. destruct (CELL i j' Hi Hj') as (x & _ & C). rewrite C. discriminate. }
  destruct (CELL i j Hi Hj) as (x & X1 & X2). exists row, x. split; [rewrite R3 by exact Hi; exact Q1|]. split; [exact Q2|]. split; [exact X1|]. rewrite Q3 by exact Hj. exact X2.
Qed.
End D.

(** The printed matrix has one row and one column per published node, in the order of the
    ids, and a 1 at (i, j) exactly when node i has an edge to node j. *)
Theorem C68_display_partial :
  forall (O L W : Type) (eqo : O -> O -> bool) (directed : bool) (cs : list (nop O L W)) g rs,
    equivalence eqo -> a_good_run eqo directed a_new cs -> forallb (fun c => negb (removes_node c)) cs = true ->
    net_run eqo (net_new directed) cs = Some (g, rs) ->
    let n := length (added (upto_update cs)) in
    exists rows, display eqo g = Some rows /\ length rows = n /\
      forall i j, (i < n)%nat -> (j < n)%nat ->
        exists row x, nth_error rows i = Some row /\ length row = n /\ get_object g (N.of_nat i) = Some x /\
          nth_error row j = Some (existsb (fun e => e_v e =? N.of_nat j) (edges_of eqo g x)).
Proof.
  intros O L W eqo d cs g rs E G HR H. pose proof (good_sim eqo E d cs g rs G H) as S.
  assert (HN : numbered (pub (a_run eqo d a_new cs))) by (apply numbered_run; [exact HR|split; reflexivity]).
  assert (LN : forall (cs : list (nop O L W)) s, forallb (fun c => negb (removes_node c)) cs = true ->
     length (nodes (cur (a_run eqo d s cs))) = (length (nodes (cur s)) + length (added cs))%nat /\
     length (nodes (pub (a_run eqo d s cs))) = if existsb publishes cs then (length (nodes (cur s)) + length (added (upto_update cs)))%nat else length (nodes (pub s))).
  { clear. induction cs as [|c cs IH]; intros s HR; [split; [cbn; lia|reflexivity]|].
    cbn [forallb] in HR. apply andb_prop in HR. destruct HR as [R1 R2]. apply negb_true_iff in R1. cbn [a_run]. destruct (IH (a_next eqo d s c) R2) as [I1 I2]. rewrite I1, I2. clear IH I1 I2.
    assert (U : upto_update (c :: cs) = if publishes c || existsb publishes cs then c :: upto_update cs else []) by reflexivity.
    change (existsb publishes (c :: cs)) with (publishes c || existsb publishes cs). rewrite U. clear U.
    assert (UN : existsb publishes cs = false -> upto_update cs = []). { intros F. destruct cs; [reflexivity|]. cbn [upto_update]. rewrite F. reflexivity. }
    destruct c as [u|u v o|u v| |u it|u it|u it it'|u| | |u v|u|i|u]; try discriminate R1; cbn [publishes orb added flat_map app a_next];
      try (change (flat_map _ cs) with (added cs); split; [reflexivity|]; destruct (existsb publishes cs); reflexivity).
    - cbn [cur pub a_add_node nodes length]. rewrite app_length. cbn [length]. change (flat_map _ cs) with (added cs). split; [lia|]. destruct (existsb publishes cs); [|reflexivity].
      cbn [flat_map app length]. change (flat_map _ (upto_update cs)) with (added (upto_update cs)). lia.
    - assert (Q : length (nodes (a_add_edge eqo d u v o (cur s))) = length (nodes (cur s))).
      { unfold a_add_edge. destruct (id_in eqo u (cur s)); [|reflexivity]. destruct (id_in eqo v (cur s)); reflexivity. }
      cbn [cur pub]. rewrite Q. split; [reflexivity|]. destruct (existsb publishes cs); reflexivity.
    - destruct (id_in eqo u (pub s)); [destruct (id_in eqo v (pub s))|]; (split; [reflexivity|]; destruct (existsb publishes cs); reflexivity).
    - destruct (id_in eqo u (pub s)); (split; [reflexivity|]; destruct (existsb publishes cs); reflexivity).
    - destruct (id_in eqo u (pub s)); (split; [reflexivity|]; destruct (existsb publishes cs); reflexivity).
    - cbn [cur pub a_update_node nodes]. rewrite map_length. split; [reflexivity|]. destruct (existsb publishes cs); reflexivity.
    - split; [reflexivity|]. destruct (existsb publishes cs) eqn:F; [reflexivity|]. rewrite (UN eq_refl). cbn. lia.
    - split; [reflexivity|]. destruct (existsb publishes cs) eqn:F; [reflexivity|]. rewrite (UN eq_refl). cbn. lia. }
  destruct (LN cs a_new HR) as [_ L2].
  assert (EN : length (nodes (pub (a_run eqo d a_new cs))) = length (added (upto_update cs))).
  { rewrite L2. destruct (existsb publishes cs) eqn:F; [reflexivity|]. destruct cs; [reflexivity|]. cbn [upto_update]. rewrite F. reflexivity. }
  intros n. unfold n. rewrite <- EN. apply (display_ok eqo E d g _ S HN).
Qed.
Print Assumptions C68_display_partial.
(** After a node was removed, printing panics. *)
Theorem C68_removed_refuted :
  exists (cs : list (nop N N N)) g rs,
    a_good_run N.eqb false a_new cs /\ net_run N.eqb (net_new false) cs = Some (g, rs) /\ display N.eqb g = None.
Proof. exists [addN 10; addN 20; publish; gone 10; publish]. eexists _, _. split; [good|]. split; vm_compute; reflexivity. Qed.
Print Assumptions C68_removed_refuted.
Example C68_concrete :
  let cs := [addN 10; addN 20; addN 30; link 10 20; link 30 20; publish; addN 40] in
  a_good_run N.eqb true a_new cs /\
  display N.eqb (final true cs) = Some [[false; true; false]; [false; false; false]; [false; true; false]].
Proof. split; [good|]. vm_compute. reflexivity. Qed.
