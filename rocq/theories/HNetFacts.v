(** * HNetwork: the answers after a history *)
From Coq Require Import List Bool NArith Arith Lia Permutation.
From Verif Require Import DashModel NetModel NetSpec NetProofs NetRef NetRun HNetModel HNetSpec HNetProofs.
Import ListNotations.
Local Open Scope N_scope.
Local Notation lkN := (lk N.eqb).

Section Facts.
Context {O L W : Type}.
Variable eqo : O -> O -> bool.
Variable E : equivalence eqo.
Local Notation hedge := (hedge L W).
Local Notation opts := (edge_options L W).
Local Notation aedge := (list N * opts)%type.

Lemma hrun_app (g : hnet O L W) cs ds : hnet_run eqo g (cs ++ ds) =
  match hnet_run eqo g cs with
  | None => None
  | Some (g1, rs) => option_map (fun p => (fst p, rs ++ snd p)) (hnet_run eqo g1 ds)
  end.
Proof.
  revert g. induction cs as [|c cs IH]; intros g; cbn [app hnet_run].
  - destruct (hnet_run eqo g ds) as [[g' rs]|]; reflexivity.
  - destruct (hnet_call eqo g c) as [[g1 r]|]; [|reflexivity]. rewrite IH. destruct (hnet_run eqo g1 cs) as [[g2 rs]|]; [|reflexivity]. cbn [option_map fst snd].
    destruct (hnet_run eqo g2 ds) as [[g3 rs']|]; reflexivity.
Qed.
Lemma hs_run_app (s : hstate O L W) cs ds : hs_run eqo s (cs ++ ds) = hs_run eqo (hs_run eqo s cs) ds.
Proof. revert s. induction cs as [|c cs IH]; intros s; [reflexivity|]. apply IH. Qed.
Lemma hgood_app (s : hstate O L W) cs ds : hgood_run eqo s (cs ++ ds) <-> hgood_run eqo s cs /\ hgood_run eqo (hs_run eqo s cs) ds.
Proof. revert s. induction cs as [|c cs IH]; intros s; cbn [app hgood_run hs_run]; [tauto|]. rewrite IH. tauto. Qed.
Lemma hgood_sim cs (g : hnet O L W) rs : hgood_run eqo hs_new cs -> hnet_run eqo hnet_new cs = Some (g, rs) -> hsim eqo g (hs_run eqo hs_new cs).
Proof. intros G H. destruct (hrun_ref eqo E cs _ _ (new_hsim eqo) G) as (g' & H1 & H2). rewrite H in H1. injection H1 as -> _. exact H2. Qed.

Lemma hget_id_sim (g : hnet O L W) s u : hsim eqo g s -> h_get_id eqo g u = hid eqo u (cur_nodes s).
Proof. intros S. exact (nr_id _ _ _ _ (s_names _ _ _ S) u). Qed.
Lemma hget_object_sim (g : hnet O L W) s i : hsim eqo g s -> h_get_object g i = hobject i (pub_nodes s).
Proof. intros S. exact (s_robj _ _ _ S i). Qed.
Lemma hget_edges_sim (g : hnet O L W) s u : hsim eqo g s -> h_get_edges eqo g u =
  match hid eqo u (cur_nodes s) with Some i => if in_list i (pub_lists s) then Some (hlist i (pub_edges s)) else None | None => None end.
Proof.
  intros S. unfold h_get_edges. change (id_of eqo u (h_n2i g)) with (h_get_id eqo g u). rewrite (hget_id_sim _ _ _ S).
  destruct (hid eqo u (cur_nodes s)) as [i|]; [|reflexivity]. exact (er_lk _ _ _ (s_redges _ _ _ S) i).
Qed.
(** The hyperedges of a node, none if it has no list. *)
Definition hedges_of (g : hnet O L W) (u : O) : list hedge := match h_get_edges eqo g u with Some l => l | None => [] end.
Lemma hedges_of_sim (g : hnet O L W) s u : hsim eqo g s -> hedges_of g u =
  match hid eqo u (cur_nodes s) with Some i => hlist i (pub_edges s) | None => [] end.
Proof.
  intros S. unfold hedges_of. rewrite (hget_edges_sim _ _ _ S). destruct (hid eqo u (cur_nodes s)) as [i|]; [|reflexivity].
  destruct (in_list i (pub_lists s)) eqn:F; [reflexivity|]. symmetry. apply (hlist_unlisted i _ _ (s_reok _ _ _ S) F).
Qed.
Lemma in_hlist x i (es : list aedge) : In x (hlist i es) <-> exists e, In e es /\ In i (fst e) /\ x = hshown e.
Proof.
  unfold hlist. rewrite in_map_iff. split.
  - intros (e & <- & H). apply filter_In in H. destruct H as [H1 H2]. exists e. split; [exact H1|]. split; [apply in_list_iff; exact H2|reflexivity].
  - intros (e & H1 & H2 & ->). exists e. split; [reflexivity|]. apply filter_In. split; [exact H1|apply in_list_iff; exact H2].
Qed.
Lemma hlist_drop_ P i (es : list aedge) (Q : hedge -> bool) : (forall e, In e es -> Q (hshown e) = P e) ->
  hlist i (drop P es) = drop Q (hlist i es).
Proof.
  intros H. unfold hlist, drop. induction es as [|e es IH]; [reflexivity|].
  assert (IH' := IH (fun x Hx => H x (or_intror Hx))). pose proof (H e (or_introl eq_refl)) as He. cbn [filter].
  destruct (P e) eqn:PE; cbn [negb filter].
  - destruct (in_list i (fst e)); cbn [map filter]; [rewrite He; cbn [negb]|]; exact IH'.
  - destruct (in_list i (fst e)); cbn [map filter]; [rewrite He; cbn [negb]; rewrite IH'; reflexivity|exact IH'].
Qed.

(** ** Without conditions on the history *)
(** Every listed hyperedge contains the id whose list it is in. *)
Definition own (m : list (N * list hedge)) : Prop := forall i l e, lkN i m = Some l -> In e l -> In i (h_nodes e).
Record hself (g : hnet O L W) : Prop := HSelf {
  hf_u : kuniq N.eqb (h_edges g); hf_o : own (h_edges g); hf_r : own (h_redges g) }.
Lemma add_loop_own e todo : forall m, kuniq N.eqb m -> own m -> (forall i, In i todo -> In i (h_nodes e)) ->
  kuniq N.eqb (fst (h_add_loop e todo m)) /\ own (fst (h_add_loop e todo m)).
Proof.
  induction todo as [|i todo IH]; intros m U H HT; cbn [h_add_loop]; [split; assumption|]. change (val_of i m) with (lkN i m).
  assert (HT' : forall j, In j todo -> In j (h_nodes e)) by (intros j Hj; apply HT; right; exact Hj).
  destruct (lkN i m) as [es|] eqn:F.
  - destruct (existsb (hedge_eq e) es); [split; assumption|]. apply IH; [apply kuniq_modify; exact U| |exact HT'].
    intros j l x. rewrite (lk_modify _ Neq). destruct (j =? i) eqn:A; [|apply H]. apply N.eqb_eq in A. subst j. rewrite F. cbn [option_map]. intros Q. injection Q as <-.
    intros Hx. apply in_app_or in Hx. destruct Hx as [Hx|[<-|[]]]; [exact (H i es x F Hx)|apply HT; left; reflexivity].
  - apply IH; [apply kuniq_insert; [exact Neq|exact U]| |exact HT']. intros j l x. rewrite (lk_insert _ Neq). destruct (j =? i) eqn:A; [|apply H]. apply N.eqb_eq in A. subst j.
    intros Q. injection Q as <-. intros [<-|[]]. apply HT. left. reflexivity.
Qed.
Lemma remove_loop_own e todo : forall m acc m' r, kuniq N.eqb m -> own m -> h_remove_loop e todo m acc = Some (m', r) -> kuniq N.eqb m' /\ own m'.
Proof.
  induction todo as [|i todo IH]; intros m acc m' r U H; cbn [h_remove_loop]; [intros Q; injection Q as <- <-; split; assumption|]. change (val_of i m) with (lkN i m).
  destruct (lkN i m) as [es|] eqn:F; [|discriminate]. pose proof (remove_first_spec (fun x => hedge_eq x e) es) as RF. destruct (remove_first _ es) as [[x es']|]; [|apply IH; assumption].
  destruct RF as [_ ->]. apply IH; [apply kuniq_modify; exact U|]. intros j l y. rewrite (lk_modify _ Neq). destruct (j =? i) eqn:A; [|apply H]. apply N.eqb_eq in A. subst j. rewrite F.
  cbn [option_map]. intros Q. injection Q as <-. intros Hy. apply (H i es y F). clear -Hy. induction es as [|a es IH]; [exact Hy|]. cbn [without_first] in Hy. destruct (hedge_eq a e); [right; exact Hy|].
  destruct Hy as [<-|Hy]; [left; reflexivity|right; apply IH, Hy].
Qed.
Lemma remove_all_own it es : forall m m', kuniq N.eqb m -> own m -> h_remove_all it es m = Some m' -> kuniq N.eqb m' /\ own m'.
Proof.
  induction es as [|e es IH]; intros m m' U H; cbn [h_remove_all]; [intros Q; injection Q as <-; split; assumption|].
  destruct (h_remove_loop e (it (h_nodes e)) m None) as [[m1 r]|] eqn:F; [|discriminate]. destruct (remove_loop_own _ _ _ _ _ _ U H F) as [U1 H1]. apply IH; assumption.
Qed.
Lemma hself_call (g : hnet O L W) c g' r : hself g -> hnet_call eqo g c = Some (g', r) -> hself g'.
Proof.
  intros S. pose proof S as [U H R].
  destruct c as [u|us o|us| |u it|u| | |us|u|i|u]; cbn [hnet_call]; try (intros Q; injection Q as <- <-; exact S); try (intros Q; injection Q as <- <-; constructor; assumption).
  - intros Q. injection Q as <- _. constructor; cbn [h_add_node h_edges h_redges]; [| |exact R]; destruct (hm_find N.eqb _ (h_edges g)); try assumption.
    + apply kuniq_insert; [exact Neq|exact U].
    + intros j l x. rewrite (lk_insert _ Neq). destruct (j =? _); [|apply H]. intros Q. injection Q as <-. intros [].
  - unfold h_add_edge. destruct us as [|u0 us']; [intros Q; injection Q as <- <-; exact S|]. destruct (ids_of eqo g (u0 :: us')) as [ids|]; [|intros Q; injection Q as <- <-; exact S].
    destruct (add_loop_own (hedge_new ids o) ids (h_edges g) U H) as [U' H'].
    { intros i Hi. rewrite hedge_new_nodes. apply (dedup_ok ids [] (NoDup_nil _)). right. exact Hi. }
    destruct (h_add_loop (hedge_new ids o) ids (h_edges g)) as [m b]. intros Q. injection Q as <- <-. constructor; assumption.
  - unfold h_remove_edge. destruct us as [|u0 us']; [intros Q; injection Q as <- <-; exact S|]. destruct (ids_of eqo g (u0 :: us')) as [ids|]; [|intros Q; injection Q as <- <-; exact S].
    destruct (h_remove_loop (hedge_new ids Simple) ids (h_edges g) None) as [[m x]|] eqn:F; [|discriminate]. cbn [option_map fst snd]. intros Q. injection Q as <- <-.
    destruct (remove_loop_own _ _ _ _ _ _ U H F). constructor; assumption.
  - intros Q. injection Q as <- <-. constructor; [constructor| |exact R]. intros i l e. discriminate.
  - unfold h_remove_object. destruct (id_of eqo u (h_n2i g)) as [i|]; [|intros Q; injection Q as <- <-; exact S].
    destruct (h_remove_all it _ (h_edges g)) as [m|] eqn:F; [|discriminate]. cbn [option_map fst snd]. intros Q. injection Q as <- <-. destruct (remove_all_own _ _ _ _ U H F). constructor; assumption.
  - intros Q. injection Q as <- <-. unfold h_update_node. destruct (id_of eqo u (h_n2i g)); constructor; assumption.
Qed.
Lemma hself_run cs : forall (g : hnet O L W) g' rs, hself g -> hnet_run eqo g cs = Some (g', rs) -> hself g'.
Proof.
  induction cs as [|c cs IH]; intros g g' rs S; cbn [hnet_run]; [intros Q; injection Q as <- <-; exact S|]. destruct (hnet_call eqo g c) as [[g1 r]|] eqn:F; [|discriminate].
  pose proof (hself_call _ _ _ _ S F) as S1. destruct (hnet_run eqo g1 cs) as [[g2 rs2]|] eqn:F2; [|discriminate]. cbn [option_map fst snd]. intros Q. injection Q as <- <-. exact (IH _ _ _ S1 F2).
Qed.
Lemma hself_new : hself hnet_new.
Proof. constructor; [constructor| |]; intros i l e; discriminate. Qed.

(** What calls leave alone. *)
Lemma call_frame (g : hnet O L W) c g' r : hnet_call eqo g c = Some (g', r) -> hpublishes c = false ->
  h_redges g' = h_redges g /\ h_ri2n g' = h_ri2n g /\ (hnames c = false -> h_n2i g' = h_n2i g).
Proof.
  destruct c as [u|us o|us| |u it|u| | |us|u|i|u]; cbn [hnet_call hpublishes hnames]; intros Q P; try discriminate; try (injection Q as <- <-; repeat split; discriminate || reflexivity).
  - unfold h_add_edge in Q. destruct us as [|u0 us']; [injection Q as <- <-; auto|]. destruct (ids_of eqo g (u0 :: us')); [|injection Q as <- <-; auto].
    destruct (h_add_loop _ _ _). injection Q as <- <-. auto.
  - unfold h_remove_edge in Q. destruct us as [|u0 us']; [injection Q as <- <-; auto|]. destruct (ids_of eqo g (u0 :: us')); [|injection Q as <- <-; auto].
    destruct (h_remove_loop _ _ _ _) as [[m x]|]; [|discriminate]. injection Q as <- <-. auto.
  - unfold h_remove_object in Q. destruct (id_of eqo u (h_n2i g)); [|injection Q as <- <-; repeat split; discriminate].
    destruct (h_remove_all _ _ _); [|discriminate]. injection Q as <- <-. repeat split; discriminate.
  - injection Q as <- <-. unfold h_update_node. destruct (id_of eqo u (h_n2i g)); auto.
Qed.
Lemma run_frame cs : forall (g : hnet O L W) g' rs, hnet_run eqo g cs = Some (g', rs) -> forallb (fun c => negb (hpublishes c)) cs = true ->
  h_redges g' = h_redges g /\ h_ri2n g' = h_ri2n g /\ (forallb (fun c => negb (hnames c)) cs = true -> h_n2i g' = h_n2i g).
Proof.
  induction cs as [|c cs IH]; intros g g' rs; cbn [hnet_run forallb]; [intros Q _; injection Q as <- <-; auto|]. destruct (hnet_call eqo g c) as [[g1 r]|] eqn:F; [|discriminate].
  destruct (hnet_run eqo g1 cs) as [[g2 rs2]|] eqn:F2; [|discriminate]. cbn [option_map fst snd]. intros Q P. injection Q as <- <-. apply andb_prop in P. destruct P as [P1 P2]. apply negb_true_iff in P1.
  destruct (call_frame _ _ _ _ F P1) as (A1 & A2 & A3). destruct (IH _ _ _ F2 P2) as (B1 & B2 & B3). rewrite B1, B2. split; [exact A1|]. split; [exact A2|].
  intros P. apply andb_prop in P. destruct P as [P3 P4]. rewrite (B3 P4). apply A3. apply negb_true_iff. exact P3.
Qed.

(** ** Ids without removals *)
Record hpos (n2i : list (O * N)) (us : list O) : Prop := HPos {
  hp_len : length n2i = length us;
  hp_u : kuniq eqo n2i;
  hp_id : forall u k, lk eqo u n2i = Some k <-> exists x, nth_error us (N.to_nat k) = Some x /\ eqo u x = true
}.
Lemma call_pos (g : hnet O L W) c g' r us : hnet_call eqo g c = Some (g', r) -> hremoves c = false ->
  different eqo (us ++ hadded [c]) -> N.of_nat (length (us ++ hadded [c])) <= 4294967296 -> hpos (h_n2i g) us -> hpos (h_n2i g') (us ++ hadded [c]).
Proof.
  intros Q P D B I.
  assert (F : hnames c = false -> h_n2i g' = h_n2i g).
  { destruct (hpublishes c) eqn:PB; [|exact (proj2 (proj2 (call_frame _ _ _ _ Q PB)))]. intros _. destruct c; try discriminate; cbn [hnet_call] in Q; injection Q as <- <-; reflexivity. }
  destruct c as [u|us' o|us'| |u it|u| | |us'|u|i|u]; try discriminate; cbn [hadded flat_map app] in *; try (rewrite app_nil_r, (F eq_refl); exact I).
  cbn [hnet_call] in Q. injection Q as <- <-. cbn [h_add_node h_n2i]. destruct I as [I1 I2 I3]. rewrite app_length in B. cbn [length] in B.
  assert (M : N.of_nat (length (h_n2i g)) mod 4294967296 = N.of_nat (length us)) by (rewrite I1; apply N.mod_small; lia). rewrite M.
  assert (FR : lk eqo u (h_n2i g) = None).
  { destruct (lk eqo u (h_n2i g)) as [k|] eqn:A; [|reflexivity]. exfalso. apply I3 in A. destruct A as (x & A1 & A2). apply nth_error_In in A1.
    clear -A1 A2 D E. unfold different in D. induction us as [|y us IH]; [destruct A1|]. cbn [app] in D. inversion D as [|? ? D1 D2]; subst. destruct A1 as [->|A1]; [|apply IH; assumption].
    rewrite Forall_forall in D1. specialize (D1 u).
    assert (Z : eqo x u = true) by (apply (eq_sym_ _ E); exact A2). rewrite D1 in Z; [discriminate|apply in_or_app; right; left; reflexivity]. }
  constructor.
  - rewrite length_insert, FR, app_length, I1. cbn. lia.
  - apply kuniq_insert; [exact E|exact I2].
  - intros v k. rewrite (lk_insert _ E). destruct (eqo v u) eqn:A.
    + split.
      * intros G. injection G as <-. exists u. split; [|exact A]. rewrite Nnat.Nat2N.id, nth_error_app2, Nat.sub_diag by lia. reflexivity.
      * intros (x & X1 & X2). destruct (Nat.ltb (N.to_nat k) (length us)) eqn:LT.
        -- apply Nat.ltb_lt in LT. rewrite nth_error_app1 in X1 by exact LT. assert (Z : lk eqo u (h_n2i g) = Some k).
           { apply I3. exists x. split; [exact X1|]. apply (eq_trans_ _ E u v x); [apply (eq_sym_ _ E); exact A|exact X2]. } congruence.
        -- apply Nat.ltb_ge in LT. rewrite nth_error_app2 in X1 by exact LT. destruct (N.to_nat k - length us)%nat as [|n] eqn:K; [f_equal; lia|]. cbn in X1. destruct n; discriminate.
    + rewrite I3. split.
      * intros (x & X1 & X2). exists x. split; [|exact X2]. rewrite nth_error_app1; [exact X1|]. apply nth_error_Some. congruence.
      * intros (x & X1 & X2). exists x. split; [|exact X2]. destruct (Nat.ltb (N.to_nat k) (length us)) eqn:LT.
        -- apply Nat.ltb_lt in LT. rewrite nth_error_app1 in X1 by exact LT. exact X1.
        -- apply Nat.ltb_ge in LT. rewrite nth_error_app2 in X1 by exact LT. destruct (N.to_nat k - length us)%nat as [|n]; cbn in X1; [injection X1 as <-; congruence|destruct n; discriminate].
Qed.
Lemma different_app_l us vs : different eqo (us ++ vs) -> different eqo us.
Proof.
  unfold different. induction us as [|u us IH]; intros H; [constructor|]. cbn [app] in H. inversion H as [|? ? H1 H2]; subst. constructor; [|apply IH; exact H2].
  apply Forall_forall. intros x Hx. rewrite Forall_forall in H1. apply H1, in_or_app. left. exact Hx.
Qed.
Lemma run_pos cs : forall (g : hnet O L W) g' rs us, hnet_run eqo g cs = Some (g', rs) -> forallb (fun c => negb (hremoves c)) cs = true ->
  different eqo (us ++ hadded cs) -> N.of_nat (length (us ++ hadded cs)) <= 4294967296 -> hpos (h_n2i g) us -> hpos (h_n2i g') (us ++ hadded cs).
Proof.
  induction cs as [|c cs IH]; intros g g' rs us; cbn [hnet_run forallb]; [intros Q _ _ _ I; injection Q as <- <-; cbn; rewrite app_nil_r; exact I|].
  destruct (hnet_call eqo g c) as [[g1 r]|] eqn:F; [|discriminate]. destruct (hnet_run eqo g1 cs) as [[g2 rs2]|] eqn:F2; [|discriminate]. cbn [option_map fst snd].
  intros Q P D B I. injection Q as <- <-. apply andb_prop in P. destruct P as [P1 P2]. apply negb_true_iff in P1.
  assert (AD : us ++ hadded (c :: cs) = (us ++ hadded [c]) ++ hadded cs).
  { rewrite <- app_assoc. f_equal. unfold hadded. cbn [flat_map]. rewrite app_nil_r. reflexivity. }
  rewrite AD in *. apply (IH _ _ _ _ F2 P2 D B). apply (call_pos _ _ _ _ _ F P1); [apply (different_app_l _ _ D)| |exact I].
  rewrite app_length in B. lia.
Qed.
End Facts.
