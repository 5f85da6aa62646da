(** * Network: ids over histories without remove_node *)
From Coq Require Import List Bool NArith Arith Lia Permutation.
From Verif Require Import DashModel NetModel NetSpec NetProofs NetRef NetRun.
Import ListNotations.
Local Open Scope N_scope.

Section Ids.
Context {O L W : Type}.
Variable eqo : O -> O -> bool.
Variable E : equivalence eqo.

Local Notation graph := (graph O L W).
Local Notation net := (net O L W).
Local Notation nop := (nop O L W).
Local Notation lkN := (lk N.eqb).

(** The nodes [ns] have the ids 0, 1, ... *)
Record idinv (g : graph) (ns : list O) : Prop := IdInv {
  v_len : length (n2i g) = length ns;
  v_id : forall u k, lk eqo u (n2i g) = Some k <-> exists x, nth_error ns (N.to_nat k) = Some x /\ eqo u x = true;
  v_obj : forall k, match nth_error ns (N.to_nat k) with
                    | Some x => exists y, lkN k (i2n g) = Some y /\ eqo y x = true
                    | None => lkN k (i2n g) = None
                    end
}.

(** Calls on edges do not change the nodes. *)
Definition same_nodes (g g' : net) : Prop :=
  n2i (nw g') = n2i (nw g) /\ i2n (nw g') = i2n (nw g) /\ nr g' = nr g.
Lemma remove_edge_nodes (g : net) u v g' r : remove_edge eqo g u v = Some (g', r) -> same_nodes g g'.
Proof.
  unfold remove_edge. destruct (id_of eqo u (n2i (nr g))) as [i|]; [|intros H; injection H as <- <-; repeat split].
  destruct (id_of eqo v (n2i (nr g))) as [j|]; [|intros H; injection H as <- <-; repeat split].
  destruct (val_of i (adj (nw g))) as [es|]; [|discriminate].
  destruct (remove_first (joins i j) es) as [[e es']|]; [|intros H; injection H as <- <-; repeat split].
  destruct (direct g); [intros H; injection H as <- <-; repeat split|].
  destruct (val_of j _); [|discriminate]. intros H; injection H as <- <-; repeat split.
Qed.
Lemma same_nodes_trans (g g1 g2 : net) : same_nodes g g1 -> same_nodes g1 g2 -> same_nodes g g2.
Proof. unfold same_nodes. intuition congruence. Qed.
Lemma remove_loop_nodes flip u i l : forall (g : net) g' rs, remove_loop eqo flip g u i l = Some (g', rs) -> same_nodes g g'.
Proof.
  induction l as [|[k x] l IH]; intros g g' rs; cbn [remove_loop].
  - intros H. injection H as <- <-. repeat split.
  - destruct (k =? i); [apply IH|].
    destruct (if flip then remove_edge eqo g u x else remove_edge eqo g x u) as [[g1 r]|] eqn:F; [|discriminate].
    assert (S : same_nodes g g1) by (destruct flip; eapply remove_edge_nodes; exact F).
    destruct (remove_loop eqo flip g1 u i l) as [[g2 rs2]|] eqn:G; [|discriminate]. cbn [option_map fst snd].
    intros H. injection H as <- <-. eapply same_nodes_trans; [exact S|eapply IH; exact G].
Qed.
Lemma remove_all_of_nodes flip (g : net) u it g' r : remove_all_of eqo flip g u it = Some (g', r) -> same_nodes g g'.
Proof.
  unfold remove_all_of. destruct (id_of eqo u (n2i (nr g))) as [i|]; [|intros H; injection H as <- <-; repeat split].
  destruct (remove_loop _ _ _ _ _ _) as [[g1 rs]|] eqn:F; [|discriminate]. intros H. injection H as <- <-. eapply remove_loop_nodes. exact F.
Qed.

Lemma idinv_add g ns u : idinv g ns -> (forall x, In x ns -> eqo u x = false) -> N.of_nat (length ns) < 4294967296 ->
  idinv (Graph (fst (hm_insert eqo u (N.of_nat (length (n2i g)) mod 4294967296) (n2i g)))
               (fst (hm_insert N.eqb (N.of_nat (length (n2i g)) mod 4294967296) u (i2n g))) (adj g)) (ns ++ [u]).
Proof.
  intros I Hu Hl. rewrite (v_len _ _ I), N.mod_small by exact Hl. constructor; cbn [n2i i2n].
  - rewrite length_insert. destruct (lk eqo u (n2i g)) as [k|] eqn:F.
    + apply (v_id _ _ I) in F. destruct F as (x & F1 & F2). apply nth_error_In in F1. rewrite (Hu x F1) in F2. discriminate.
    + rewrite app_length, (v_len _ _ I). cbn [length]. lia.
  - intros v k. rewrite (lk_insert _ E). destruct (eqo v u) eqn:A.
    + split.
      * intros F. injection F as <-. exists u. rewrite Nnat.Nat2N.id, nth_error_app2, Nat.sub_diag by lia. split; [reflexivity|exact A].
      * intros (x & F1 & F2). destruct (Nat.lt_ge_cases (N.to_nat k) (length ns)) as [G|G].
        -- rewrite nth_error_app1 in F1 by exact G. apply nth_error_In in F1. specialize (Hu x F1).
           rewrite (eq_trans_ _ E u v x (eq_sym_ _ E _ _ A) F2) in Hu. discriminate.
        -- rewrite nth_error_app2 in F1 by exact G. destruct (N.to_nat k - length ns)%nat as [|r] eqn:R; [|destruct r; discriminate F1].
           f_equal. lia.
    + rewrite (v_id _ _ I). split; intros (x & F1 & F2).
      * exists x. split; [|exact F2]. rewrite nth_error_app1; [exact F1|]. apply nth_error_Some. rewrite F1. discriminate.
      * exists x. split; [|exact F2]. destruct (Nat.lt_ge_cases (N.to_nat k) (length ns)) as [G|G].
        -- rewrite nth_error_app1 in F1 by exact G. exact F1.
        -- rewrite nth_error_app2 in F1 by exact G. destruct (N.to_nat k - length ns)%nat as [|r] eqn:R; [|destruct r; discriminate F1].
           injection F1 as <-. congruence.
  - intros k. rewrite (lk_insert _ Neq). pose proof (v_obj _ _ I k) as F. destruct (Nat.lt_trichotomy (N.to_nat k) (length ns)) as [G|[G|G]].
    + rewrite nth_error_app1 by exact G. destruct (k =? N.of_nat (length ns)) eqn:A; [apply N.eqb_eq in A; lia|exact F].
    + rewrite nth_error_app2, G, Nat.sub_diag by lia. cbn [nth_error]. assert (k =? N.of_nat (length ns) = true) as -> by (apply N.eqb_eq; lia).
      exists u. split; [reflexivity|apply (eq_refl_ _ E)].
    + rewrite (proj2 (nth_error_None (ns ++ [u]) (N.to_nat k))) by (rewrite app_length; cbn [length]; lia).
      rewrite (proj2 (nth_error_None ns (N.to_nat k))) in F by lia. destruct (k =? N.of_nat (length ns)) eqn:A; [apply N.eqb_eq in A; lia|exact F].
Qed.
Lemma idinv_same (g g' : graph) ns : n2i g' = n2i g -> i2n g' = i2n g -> idinv g ns -> idinv g' ns.
Proof. intros H1 H2 [A B D]. constructor; [rewrite H1; exact A|rewrite H1; exact B|rewrite H2; exact D]. Qed.
Lemma idinv_update (g : net) ns u : idinv (nw g) ns -> idinv (nw (update_node eqo g u)) ns.
Proof.
  intros I. unfold update_node. destruct (id_of eqo u (n2i (nw g))) as [i|] eqn:F; [|exact I]. unfold set_w. cbn [nw].
  constructor; cbn [n2i i2n]; [apply (v_len _ _ I)|apply (v_id _ _ I)|]. intros k. rewrite (lk_modify _ Neq). pose proof (v_obj _ _ I k) as G.
  destruct (k =? i) eqn:A; [|exact G]. apply N.eqb_eq in A. subst k. apply (v_id _ _ I) in F. destruct F as (x & F1 & F2). rewrite F1 in *.
  destruct G as (y & -> & G). exists u. split; [reflexivity|exact F2].
Qed.

Lemma ids_run cs : forall (g : net) p c g' rs, idinv (nr g) p -> idinv (nw g) c ->
  forallb (fun x => negb (removes_node x)) cs = true -> different eqo (c ++ added cs) -> N.of_nat (length (c ++ added cs)) <= 4294967296 ->
  net_run eqo g cs = Some (g', rs) ->
  idinv (nr g') (if existsb publishes cs then c ++ added (upto_update cs) else p).
Proof.
  induction cs as [|x cs IH]; intros g p c g' rs Ip Ic Hr Hd Hl.
  - cbn. intros H. injection H as <- <-. exact Ip.
  - cbn [net_run]. destruct (net_call eqo g x) as [[g1 r]|] eqn:F; [|discriminate].
    destruct (net_run eqo g1 cs) as [[g2 rs2]|] eqn:G; [|discriminate]. cbn [option_map fst snd]. intros H. injection H as <- <-.
    cbn [forallb] in Hr. apply andb_prop in Hr. destruct Hr as [Hr1 Hr2].
    assert (UP : upto_update (x :: cs) = if publishes x || existsb publishes cs then x :: upto_update cs else []) by reflexivity.
    cbn [existsb].
    assert (EDGE : same_nodes g g1 -> added [x] = [] -> publishes x = false ->
      idinv (nr g2) (if publishes x || existsb publishes cs then c ++ added (upto_update (x :: cs)) else p)).
    { intros (S1 & S2 & S3) Ha Hp. rewrite UP, Hp. cbn [orb].
      assert (AC : forall l, added (x :: l) = added l) by (intros l; change (x :: l) with ([x] ++ l); unfold added in *; rewrite flat_map_app, Ha; reflexivity).
      rewrite AC in Hd, Hl. pose proof (IH g1 p c g2 rs2) as K. rewrite S3 in K.
      specialize (K Ip (idinv_same _ _ _ S1 S2 Ic) Hr2 Hd Hl G). destruct (existsb publishes cs); [rewrite AC|]; exact K. }
    assert (PUB : g1 = net_update g -> added [x] = [] -> publishes x = true ->
      idinv (nr g2) (if publishes x || existsb publishes cs then c ++ added (upto_update (x :: cs)) else p)).
    { intros -> Ha Hp. rewrite UP, Hp. cbn [orb].
      assert (AC : forall l, added (x :: l) = added l) by (intros l; change (x :: l) with ([x] ++ l); unfold added in *; rewrite flat_map_app, Ha; reflexivity).
      rewrite AC in *. pose proof (IH (net_update g) c c g2 rs2 Ic Ic Hr2 Hd Hl G) as K.
      destruct (existsb publishes cs) eqn:P; [exact K|]. assert (U : upto_update cs = []) by (destruct cs; [reflexivity|]; cbn [upto_update]; rewrite P; reflexivity).
      rewrite U. cbn [added flat_map]. rewrite app_nil_r. exact K. }
    destruct x as [u|u v o|u v| |u it|u it|u it it'|u| | |u v|u|i|u]; cbn [net_call] in F.
    + injection F as <- <-. rewrite UP. cbn [publishes orb]. change (added (NAddNode u :: cs)) with (u :: added cs) in Hd, Hl.
      assert (AA : forall l, c ++ u :: l = (c ++ [u]) ++ l) by (intros l; rewrite <- app_assoc; reflexivity). rewrite AA in Hd, Hl.
      assert (Hu : forall x, In x c -> eqo u x = false).
      { intros x Hx. assert (DD : different eqo (c ++ [u])).
        { unfold different in *. clear -Hd. induction (c ++ [u]) as [|z l IHl]; [constructor|]. cbn [app] in Hd. inversion Hd as [|a b H1 H2]; subst.
          constructor; [|apply IHl; exact H2]. rewrite Forall_forall in *. intros y Hy. apply H1, in_or_app. left. exact Hy. }
        clear -DD Hx E. unfold different in DD. induction c as [|z l IHl]; [destruct Hx|]. cbn [app] in DD. inversion DD as [|a b H1 H2]; subst.
        destruct Hx as [->|Hx]; [|apply IHl; assumption]. rewrite Forall_forall in H1. rewrite (eqk_sym eqo E). apply H1, in_or_app. right. left. reflexivity. }
      rewrite !app_length in Hl. cbn [length] in Hl.
      pose proof (idinv_add (nw g) c u Ic Hu ltac:(lia)) as I1.
      assert (I2 : idinv (nw (add_node eqo g u)) (c ++ [u])).
      { eapply idinv_same; [| |exact I1]; reflexivity. }
      pose proof (IH (add_node eqo g u) p (c ++ [u]) g2 rs2 Ip I2 Hr2 Hd) as K. rewrite !app_length in K. cbn [length] in K.
      specialize (K ltac:(lia) G). destruct (existsb publishes cs); [|exact K].
      change (added (NAddNode u :: upto_update cs)) with (u :: added (upto_update cs)). rewrite AA. exact K.
    + destruct (add_edge eqo g u v o) as [g1' r'] eqn:A. injection F as <- <-. apply EDGE; try reflexivity.
      unfold add_edge in A. destruct (id_of eqo u (n2i (nw g))); [|injection A as <- <-; repeat split].
      destruct (id_of eqo v (n2i (nw g))); injection A as <- <-; repeat split.
    + destruct (remove_edge eqo g u v) as [[g1' r']|] eqn:A; [|discriminate]. injection F as <- <-. apply EDGE; try reflexivity. exact (remove_edge_nodes _ _ _ _ _ A).
    + injection F as <- <-. apply EDGE; try reflexivity. repeat split.
    + destruct (remove_incoming_edges eqo g u it) as [[g1' r']|] eqn:A; [|discriminate]. injection F as <- <-. apply EDGE; try reflexivity. exact (remove_all_of_nodes _ _ _ _ _ _ A).
    + destruct (remove_outgoing_edges eqo g u it) as [[g1' r']|] eqn:A; [|discriminate]. injection F as <- <-. apply EDGE; try reflexivity. exact (remove_all_of_nodes _ _ _ _ _ _ A).
    + discriminate Hr1.
    + injection F as <- <-. rewrite UP. cbn [publishes orb]. change (added (NUpdateNode u :: cs)) with (added cs) in Hd, Hl.
      assert (N1 : nr (update_node eqo g u) = nr g). { unfold update_node. destruct (id_of eqo u (n2i (nw g))); reflexivity. }
      pose proof (IH (update_node eqo g u) p c g2 rs2) as K. rewrite N1 in K. specialize (K Ip (idinv_update g c u Ic) Hr2 Hd Hl G).
      destruct (existsb publishes cs); exact K.
    + injection F as <- <-. apply PUB; reflexivity.
    + injection F as <- <-. apply PUB; reflexivity.
    + destruct (get_edge eqo g u v); [|discriminate]. injection F as <- <-. apply EDGE; try reflexivity. repeat split.
    + injection F as <- <-. apply EDGE; try reflexivity. repeat split.
    + injection F as <- <-. apply EDGE; try reflexivity. repeat split.
    + injection F as <- <-. apply EDGE; try reflexivity. repeat split.
Qed.
Lemma ids_history d cs (g : net) rs :
  forallb (fun x => negb (removes_node x)) cs = true -> different eqo (added cs) -> N.of_nat (length (added cs)) <= 4294967296 ->
  net_run eqo (net_new d) cs = Some (g, rs) -> idinv (nr g) (added (upto_update cs)).
Proof.
  intros H1 H2 H3 H.
  assert (I0 : idinv (Graph [] [] []) (@nil O)).
  { constructor; [reflexivity| |].
    - intros u k. split; [discriminate|]. intros (x & F & _). destruct (N.to_nat k); discriminate.
    - intros k. destruct (N.to_nat k); reflexivity. }
  pose proof (ids_run cs (net_new d) [] [] g rs I0 I0 H1 H2 H3 H) as K. destruct (existsb publishes cs) eqn:P; [exact K|].
  assert (U : upto_update cs = []) by (destruct cs; [reflexivity|]; cbn [upto_update]; rewrite P; reflexivity). rewrite U. exact K.
Qed.
End Ids.
