(** * Network: single calls refine the abstract graph *)
From Coq Require Import List Bool NArith Arith Lia Permutation.
From Verif Require Import DashModel NetModel NetSpec NetProofs.
Import ListNotations.
Local Open Scope N_scope.

Section Ref.
Context {O L W : Type}.
Variable eqo : O -> O -> bool.
Variable E : equivalence eqo.
Variable d : bool.

Local Notation edge := (edge L W).
Local Notation opts := (edge_options L W).
Local Notation graph := (graph O L W).
Local Notation agraph := (agraph O L W).
Local Notation lkN := (lk N.eqb).

(** Well-formed abstract graphs. *)
Record ok (a : agraph) : Prop := Ok {
  ok_ids : NoDup (map fst (nodes a));
  ok_objs : ForallOrdPairs (fun x y => eqo x y = false) (map snd (nodes a));
  ok_ends : forall x y o, In (x, y, o) (edges a) -> In x (map fst (nodes a)) /\ In y (map fst (nodes a));
  ok_src : forall x y o, In (x, y, o) (edges a) -> is_listed x a = true;
  ok_dst : forall x y o, In (x, y, o) (edges a) -> d = false -> is_listed y a = true;
  ok_listed : forall i, is_listed i a = true -> In i (map fst (nodes a))
}.
Record rep (g : graph) (a : agraph) : Prop := Rep {
  r_un : kuniq eqo (n2i g);
  r_ui : kuniq N.eqb (i2n g);
  r_ua : kuniq N.eqb (adj g);
  r_len : length (n2i g) = length (nodes a);
  r_obj : forall i, lkN i (i2n g) = object_in i a;
  r_id : forall u, lk eqo u (n2i g) = id_in eqo u a;
  r_adj : forall i, lkN i (adj g) = if is_listed i a then Some (incident d i a) else None
}.

Definition swap {X Y} (p : X * Y) : Y * X := (snd p, fst p).
Lemma id_in_lk u (a : agraph) : id_in eqo u a = lk eqo u (map swap (nodes a)).
Proof.
  unfold id_in, lk, hm_find. induction (nodes a) as [|p l IH]; [reflexivity|]. cbn [map find].
  change (fst (swap p)) with (snd p). destruct (eqo u (snd p)); [reflexivity|exact IH].
Qed.
Lemma object_in_lk i (a : agraph) : object_in i a = lkN i (nodes a).
Proof.
  unfold object_in, lk, hm_find. induction (nodes a) as [|p l IH]; [reflexivity|]. cbn [find].
  rewrite (N.eqb_sym i (fst p)). destruct (fst p =? i); [reflexivity|exact IH].
Qed.
Lemma kuniq_nodes l : NoDup (map fst l) <-> kuniq (V := O) N.eqb l.
Proof.
  induction l as [|p l IH]; cbn [map]; [split; constructor|]. rewrite kuniq_cons, <- IH. split.
  - intros H. inversion H as [|a b H1 H2]; subst. split; [|exact H2]. intros q Hq. apply N.eqb_neq. intros F.
    apply H1. rewrite F. apply in_map. exact Hq.
  - intros [H1 H2]. constructor; [|exact H2]. intros H. apply in_map_iff in H. destruct H as (q & F & Hq).
    specialize (H1 q Hq). apply N.eqb_neq in H1. congruence.
Qed.
Lemma kuniq_swap l : ForallOrdPairs (fun x y => eqo x y = false) (map snd l) <-> kuniq eqo (map (@swap N O) l).
Proof.
  induction l as [|p l IH]; cbn [map]; [split; constructor|]. rewrite kuniq_cons, <- IH. split.
  - intros H. inversion H as [|a b H1 H2]; subst. split; [|exact H2]. intros q Hq. apply in_map_iff in Hq.
    destruct Hq as (q' & <- & Hq). rewrite Forall_forall in H1. exact (H1 (snd q') (in_map snd _ _ Hq)).
  - intros [H1 H2]. constructor; [|exact H2]. apply Forall_forall. intros x Hx. apply in_map_iff in Hx.
    destruct Hx as (q & <- & Hq). exact (H1 (swap q) (in_map _ _ _ Hq)).
Qed.

Lemma object_in_iff i x (a : agraph) : ok a -> (object_in i a = Some x <-> In (i, x) (nodes a)).
Proof.
  intros H. rewrite object_in_lk. pose proof (proj1 (kuniq_nodes _) (ok_ids _ H)) as U. split.
  - intros F. apply lk_some_in in F. destruct F as (k & F1 & F2). apply N.eqb_eq in F2. subst. exact F1.
  - apply lk_in_some; [exact Neq|exact U].
Qed.
Lemma id_in_iff u i (a : agraph) : ok a -> (id_in eqo u a = Some i <-> exists x, In (i, x) (nodes a) /\ eqo u x = true).
Proof.
  intros H. rewrite id_in_lk. pose proof (proj1 (kuniq_swap _) (ok_objs _ H)) as U. split.
  - intros F. apply lk_some_in in F. destruct F as (k & F1 & F2). apply in_map_iff in F1. destruct F1 as ((i', x) & F & F1).
    injection F as -> ->. exists k. split; assumption.
  - intros (x & F1 & F2). rewrite (lk_cong eqo E u x _ F2). apply lk_in_some; [exact E|exact U|].
    apply in_map_iff. exists (i, x). split; [reflexivity|exact F1].
Qed.
Lemma id_in_self i x (a : agraph) : ok a -> In (i, x) (nodes a) -> id_in eqo x a = Some i.
Proof. intros H F. apply id_in_iff; [exact H|]. exists x. split; [exact F|apply (eq_refl_ _ E)]. Qed.
Lemma id_in_known u i (a : agraph) : ok a -> id_in eqo u a = Some i -> In i (map fst (nodes a)).
Proof. intros H F. apply id_in_iff in F; [|exact H]. destruct F as (x & F & _). exact (in_map fst _ _ F). Qed.
Lemma object_in_none i (a : agraph) : object_in i a = None -> ~ In i (map fst (nodes a)).
Proof.
  rewrite object_in_lk. intros F H. apply in_map_iff in H. destruct H as (p & <- & H).
  pose proof (lk_none_inv N.eqb _ _ F p H) as G. rewrite N.eqb_refl in G. discriminate.
Qed.

Lemma shown_new i j (o : opts) : edge_new i j o = shown i j o.
Proof. destruct o; reflexivity. Qed.
Lemma incident_empty i (a : agraph) : (forall x y o, In (x, y, o) (edges a) -> x <> i /\ y <> i) -> incident d i a = [].
Proof.
  unfold incident. induction (edges a) as [|[[x y] o] l IH]; intros H; [reflexivity|]. cbn [flat_map].
  destruct (H x y o (or_introl eq_refl)) as [H1 H2]. unfold seen_from at 1.
  rewrite (proj2 (N.eqb_neq x i) H1), (proj2 (N.eqb_neq y i) H2), andb_false_r. apply IH. intros x' y' o' H'.
  apply (H x' y' o'). right. exact H'.
Qed.
Lemma incident_unknown i (a : agraph) : ok a -> ~ In i (map fst (nodes a)) -> incident d i a = [].
Proof.
  intros H F. apply incident_empty. intros x y o G. destruct (ok_ends _ H x y o G) as [G1 G2].
  split; intros ->; contradiction.
Qed.
Lemma incident_unlisted i (a : agraph) : ok a -> is_listed i a = false -> incident d i a = [].
Proof.
  intros H F. destruct (incident d i a) as [|e l] eqn:I; [reflexivity|]. exfalso.
  assert (In e (incident d i a)) as HI by (rewrite I; left; reflexivity). apply in_flat_map in HI.
  destruct HI as ([[x y] o] & H1 & H2). unfold seen_from in H2. apply in_app_or in H2. destruct H2 as [H2|H2].
  - destruct (x =? i) eqn:A; [|destruct H2]. apply N.eqb_eq in A. subst. rewrite (ok_src _ H _ _ _ H1) in F. discriminate.
  - destruct (negb d && (y =? i)) eqn:A; [|destruct H2]. apply andb_prop in A. destruct A as [A1 A2].
    apply N.eqb_eq in A2. subst. apply negb_true_iff in A1. rewrite (ok_dst _ H _ _ _ H1 A1) in F. discriminate.
Qed.

Lemma rep_nil : rep (Graph [] [] []) a_empty.
Proof. constructor; try constructor; reflexivity. Qed.
Lemma ok_nil : ok a_empty.
Proof. constructor; cbn; try constructor; try contradiction; try discriminate. Qed.

(** ** add_node *)
Lemma add_node_ref g a u : rep (nw g) a -> ok a -> id_in eqo u a = None ->
  object_in (N.of_nat (length (nodes a))) a = None -> N.of_nat (length (nodes a)) < 4294967296 ->
  rep (nw (add_node eqo g u)) (a_add_node u a) /\ ok (a_add_node u a) /\
  nr (add_node eqo g u) = nr g /\ direct (add_node eqo g u) = direct g.
Proof.
  intros R H Hu Hn Hl. unfold add_node, set_w, a_add_node. cbn [nw nr direct].
  rewrite (r_len _ _ R), N.mod_small by exact Hl. set (n := N.of_nat (length (nodes a))) in *. clearbody n.
  assert (Hn' : ~ In n (map fst (nodes a))) by (apply object_in_none; exact Hn).
  assert (Hln : is_listed n a = false).
  { destruct (is_listed n a) eqn:F; [|reflexivity]. apply (ok_listed _ H) in F. contradiction. }
  assert (HF : hm_find N.eqb n (adj (nw g)) = None).
  { pose proof (r_adj _ _ R n) as F. rewrite Hln in F. unfold lk in F. destruct (hm_find N.eqb n (adj (nw g))); [discriminate|reflexivity]. }
  rewrite HF. split; [|split; [|split; reflexivity]].
  - constructor; cbn [n2i i2n adj].
    + apply kuniq_insert; [exact E|apply (r_un _ _ R)].
    + apply kuniq_insert; [exact Neq|apply (r_ui _ _ R)].
    + apply kuniq_insert; [exact Neq|apply (r_ua _ _ R)].
    + cbn [nodes]. rewrite length_insert, (r_id _ _ R), Hu, app_length, (r_len _ _ R), Nat.add_comm. reflexivity.
    + intros i. rewrite (lk_insert _ Neq), (r_obj _ _ R). unfold object_in. cbn [nodes]. 
      assert (FA : forall l, find (fun p : N * O => fst p =? i) (l ++ [(n, u)]) =
                match find (fun p => fst p =? i) l with Some p => Some p | None => if n =? i then Some (n, u) else None end).
      { induction l as [|p l IH]; cbn [find app fst]; [destruct (n =? i); reflexivity|]. destruct (fst p =? i); [reflexivity|exact IH]. }
      rewrite FA, (N.eqb_sym i n). destruct (n =? i) eqn:A.
      * apply N.eqb_eq in A. subst i. unfold object_in in Hn.
        destruct (find (fun p => fst p =? n) (nodes a)); [discriminate|reflexivity].
      * destruct (find (fun p => fst p =? i) (nodes a)); reflexivity.
    + intros x. rewrite (lk_insert _ E), (r_id _ _ R). unfold id_in. cbn [nodes].
      assert (FA : forall l, find (fun p : N * O => eqo x (snd p)) (l ++ [(n, u)]) =
                match find (fun p => eqo x (snd p)) l with Some p => Some p | None => if eqo x u then Some (n, u) else None end).
      { induction l as [|p l IH]; cbn [find app snd]; [destruct (eqo x u); reflexivity|]. destruct (eqo x (snd p)); [reflexivity|exact IH]. }
      rewrite FA. destruct (eqo x u) eqn:A.
      * assert (F : id_in eqo x a = None) by (rewrite id_in_lk, (lk_cong eqo E x u _ A), <- id_in_lk; exact Hu).
        unfold id_in in F. destruct (find (fun p => eqo x (snd p)) (nodes a)); [discriminate|reflexivity].
      * destruct (find (fun p => eqo x (snd p)) (nodes a)); reflexivity.
    + intros i. rewrite (lk_insert _ Neq), (r_adj _ _ R). unfold is_listed at 2. cbn [listed existsb].
      destruct (i =? n) eqn:A; cbn [orb].
      * apply N.eqb_eq in A. subst i. f_equal. symmetry.
        change (incident d n (AGraph (nodes a ++ [(n, u)]) (edges a) (n :: listed a))) with (incident d n a).
        apply incident_unknown; assumption.
      * reflexivity.
  - constructor; cbn [nodes edges].
    + rewrite map_app. cbn [map fst]. apply (NoDup_Add (a := n) (l := map fst (nodes a))); [|split; [exact (ok_ids _ H)|exact Hn']].
      pose proof (Add_app n (map fst (nodes a)) []) as G. rewrite app_nil_r in G. exact G.
    + rewrite map_app. cbn [map snd].  pose proof (ok_objs _ H) as U. clear -E U Hu. unfold id_in in Hu.
      induction (nodes a) as [|p l IH]; cbn [map app snd]; [repeat constructor|].
      cbn [find] in Hu. destruct (eqo u (snd p)) eqn:A; [discriminate|]. inversion U as [|x y U1 U2]; subst.
      constructor; [|apply IH; assumption]. apply Forall_forall. intros z Hz. apply in_app_or in Hz. destruct Hz as [Hz|[<-|[]]].
      * rewrite Forall_forall in U1. apply U1. exact Hz.
      * rewrite (eqk_sym eqo E). exact A.
    + intros x y o Hxy. rewrite !map_app. destruct (ok_ends _ H _ _ _ Hxy). split; apply in_or_app; left; assumption.
    + intros x y o Hxy. unfold is_listed. cbn [listed existsb]. fold (is_listed x a). rewrite (ok_src _ H _ _ _ Hxy). apply orb_true_r.
    + intros x y o Hxy Hd. unfold is_listed. cbn [listed existsb]. fold (is_listed y a). rewrite (ok_dst _ H _ _ _ Hxy Hd). apply orb_true_r.
    + intros i Hi. unfold is_listed in Hi. cbn [listed existsb] in Hi. fold (is_listed i a) in Hi. rewrite map_app. apply in_or_app.
      apply orb_prop in Hi. destruct Hi as [Hi|Hi].
      * apply N.eqb_eq in Hi. subst. right. left. reflexivity.
      * left. apply (ok_listed _ H). exact Hi.
Qed.

(** ** add_edge *)
Lemma lk_push i e x m : lkN x (push_edge i e m) =
  if x =? i then Some (match lkN i m with Some es => es | None => [] end ++ [e : edge]) else lkN x m.
Proof.
  unfold push_edge. destruct (hm_find N.eqb i m) as [p|] eqn:F.
  - rewrite (lk_modify _ Neq). destruct (x =? i) eqn:A; [|reflexivity]. apply N.eqb_eq in A. subst.
    unfold lk. rewrite F. reflexivity.
  - rewrite (lk_insert _ Neq). destruct (x =? i) eqn:A; [|reflexivity]. unfold lk. rewrite F. reflexivity.
Qed.
Lemma kuniq_push i e m : kuniq N.eqb m -> kuniq N.eqb (push_edge i (e : edge) m).
Proof.
  intros H. unfold push_edge. destruct (hm_find N.eqb i m); [apply kuniq_modify|apply kuniq_insert; [exact Neq|]]; exact H.
Qed.
Lemma listed_inc (a : agraph) i : ok a -> match (if is_listed i a then Some (incident d i a) else None) with Some es => es | None => [] end = incident d i a.
Proof. intros H. destruct (is_listed i a) eqn:F; [reflexivity|]. symmetry. apply incident_unlisted; assumption. Qed.

Lemma add_edge_ref g a u v o : direct g = d -> rep (nw g) a -> ok a ->
  rep (nw (fst (add_edge eqo g u v o))) (a_add_edge eqo d u v o a) /\ ok (a_add_edge eqo d u v o a) /\
  nr (fst (add_edge eqo g u v o)) = nr g /\ direct (fst (add_edge eqo g u v o)) = direct g /\
  snd (add_edge eqo g u v o) =
    match id_in eqo u a, id_in eqo v a with Some _, Some _ => (true, negb d) | _, _ => (false, false) end.
Proof.
  intros Hd R H. unfold add_edge, a_add_edge, id_of.
  change (option_map snd (hm_find eqo u (n2i (nw g)))) with (lk eqo u (n2i (nw g))).
  change (option_map snd (hm_find eqo v (n2i (nw g)))) with (lk eqo v (n2i (nw g))).
  rewrite !(r_id _ _ R). destruct (id_in eqo u a) as [i|] eqn:Iu; [|repeat (split; [assumption || reflexivity|]); reflexivity].
  destruct (id_in eqo v a) as [j|] eqn:Iv; [|repeat (split; [assumption || reflexivity|]); reflexivity].
  rewrite Hd. cbn [fst snd]. unfold set_w. cbn [nw nr direct].
  assert (AL : forall x, is_listed x (AGraph (nodes a) (edges a ++ [(i, j, o)]) (i :: (if d then [] else [j]) ++ listed a))
                = ((x =? i) || (negb d && (x =? j)) || is_listed x a)).
  { intros x. unfold is_listed. cbn [listed existsb]. rewrite existsb_app. destruct d; cbn [existsb orb negb andb].
    - rewrite orb_false_r. reflexivity.
    - rewrite orb_false_r, orb_assoc. reflexivity. }
  split; [|split; [|repeat split; try reflexivity; exact Hd]].
  - constructor; cbn [n2i i2n adj]; [apply (r_un _ _ R)|apply (r_ui _ _ R)| |apply (r_len _ _ R)|apply (r_obj _ _ R)|apply (r_id _ _ R)|].
    + destruct d; [|apply kuniq_push]; apply kuniq_push, (r_ua _ _ R).
    + intros x. rewrite AL. unfold incident. cbn [edges]. rewrite flat_map_app. cbn [flat_map]. rewrite app_nil_r.
      fold (incident d x a). unfold seen_from. rewrite (N.eqb_sym i x), (N.eqb_sym j x).
      assert (P1 : lkN x (push_edge i (edge_new i j o) (adj (nw g))) =
                   if x =? i then Some (incident d i a ++ [shown i j o]) else if is_listed x a then Some (incident d x a) else None).
      { rewrite lk_push, !(r_adj _ _ R), (listed_inc a i H), shown_new. reflexivity. }
      pose proof (listed_inc a j H) as LJ. revert P1 LJ. destruct d; intros P1 LJ; cbn [negb andb orb].
      * rewrite P1. destruct (x =? i) eqn:A; cbn [orb app].
        -- apply N.eqb_eq in A. subst. reflexivity.
        -- rewrite app_nil_r. reflexivity.
      * rewrite lk_push. destruct (x =? j) eqn:B.
        -- apply N.eqb_eq in B. subst x. rewrite P1, shown_new. destruct (j =? i) eqn:A; cbn [orb app].
           ++ apply N.eqb_eq in A. subst i. rewrite <- app_assoc. reflexivity.
           ++ rewrite LJ. reflexivity.
        -- rewrite P1. destruct (x =? i) eqn:A; cbn [orb app].
           ++ apply N.eqb_eq in A. subst. reflexivity.
           ++ rewrite app_nil_r. reflexivity.
  - pose proof (id_in_known _ _ _ H Iu) as Ku. pose proof (id_in_known _ _ _ H Iv) as Kv.
    constructor; cbn [nodes edges]; [apply (ok_ids _ H)|apply (ok_objs _ H)| | | |].
    + intros x y o' F. apply in_app_or in F. destruct F as [F|[F|[]]]; [exact (ok_ends _ H _ _ _ F)|].
      injection F as <- <- <-. split; assumption.
    + intros x y o' F. rewrite AL. apply in_app_or in F. destruct F as [F|[F|[]]].
      * rewrite (ok_src _ H _ _ _ F). apply orb_true_r.
      * injection F as <- <- <-. rewrite N.eqb_refl. reflexivity.
    + intros x y o' F Hd'. rewrite AL. apply in_app_or in F. destruct F as [F|[F|[]]].
      * rewrite (ok_dst _ H _ _ _ F Hd'). apply orb_true_r.
      * injection F as <- <- <-. rewrite N.eqb_refl, Hd'. cbn [negb andb]. rewrite orb_true_r. reflexivity.
    + intros x. rewrite AL. intros F. apply orb_prop in F. destruct F as [F|F]; [|exact (ok_listed _ H _ F)].
      apply orb_prop in F. destruct F as [F|F].
      * apply N.eqb_eq in F. subst. exact Ku.
      * apply andb_prop in F. destruct F as [_ F]. apply N.eqb_eq in F. subst. exact Kv.
Qed.

(** ** The lists of edges *)
Lemma incident_src i (a : agraph) e : In e (incident d i a) -> e_u e = i.
Proof.
  intros H. apply in_flat_map in H. destruct H as ([[x y] o] & _ & H). unfold seen_from in H. apply in_app_or in H.
  destruct H as [H|H].
  - destruct (x =? i); [|destruct H]. destruct H as [<-|[]]. reflexivity.
  - destruct (negb d && (y =? i)); [|destruct H]. destruct H as [<-|[]]. reflexivity.
Qed.
Lemma incident_dst i (a : agraph) e : ok a -> In e (incident d i a) -> In (e_v e) (map fst (nodes a)).
Proof.
  intros Ha H. apply in_flat_map in H. destruct H as ([[x y] o] & HI & H). unfold seen_from in H. apply in_app_or in H.
  destruct (ok_ends _ Ha _ _ _ HI) as [H1 H2]. destruct H as [H|H].
  - destruct (x =? i); [|destruct H]. destruct H as [<-|[]]. exact H2.
  - destruct (negb d && (y =? i)); [|destruct H]. destruct H as [<-|[]]. exact H1.
Qed.
Lemma joins_src i j (e : edge) : e_u e = i -> joins i j e = (e_v e =? j).
Proof.
  intros <-. unfold joins. rewrite N.eqb_refl. cbn [andb]. destruct (e_v e =? j) eqn:A; [reflexivity|]. cbn [orb].
  destruct (e_u e =? j) eqn:B; [|reflexivity]. cbn [andb]. apply N.eqb_eq in B. rewrite B. exact A.
Qed.
Lemma joins_dst i j (e : edge) : e_u e = j -> joins i j e = (e_v e =? i).
Proof. intros H. rewrite <- (joins_src j i e H). unfold joins. apply orb_comm. Qed.

Lemma seen_find i j e : find (fun e => e_v e =? j) (seen_from d i e) =
  if between d i j e then Some (shown (L := L) (W := W) i j (snd e)) else None.
Proof.
  destruct e as [[x y] o]. unfold seen_from, between. cbn [snd]. destruct (x =? i) eqn:A; cbn [app andb orb].
  - cbn [find]. unfold shown at 1. cbn [e_v]. destruct (y =? j) eqn:B; cbn [orb].
    + apply N.eqb_eq in B. subst. reflexivity.
    + destruct d; cbn [negb andb]; [reflexivity|]. destruct (y =? i) eqn:C; cbn [find]; [|rewrite andb_false_r; reflexivity].
      unfold shown at 1. cbn [e_v]. destruct (x =? j) eqn:D; [|reflexivity].
      apply N.eqb_eq in A, C, D. apply N.eqb_neq in B. subst. contradiction.
  - destruct d; cbn [negb andb]; [reflexivity|]. destruct (y =? i) eqn:C; cbn [find]; [|rewrite andb_false_r; reflexivity].
    unfold shown at 1. cbn [e_v]. rewrite andb_true_r. destruct (x =? j) eqn:D; [|reflexivity].
    apply N.eqb_eq in D. subst. reflexivity.
Qed.
Lemma seen_drop i j e : filter (fun e => negb (e_v e =? j)) (seen_from d i e) =
  if between d i j e then [] else seen_from (L := L) (W := W) d i e.
Proof.
  destruct e as [[x y] o]. unfold seen_from, between. destruct (x =? i) eqn:A; cbn [app andb orb].
  - cbn [filter]. unfold shown at 1. cbn [e_v]. destruct (y =? j) eqn:B; cbn [orb negb].
    + destruct d; cbn [negb andb filter]; [reflexivity|]. destruct (y =? i) eqn:C; [|reflexivity]. cbn [filter].
      unfold shown at 1. cbn [e_v]. apply N.eqb_eq in A, B, C. subst. rewrite N.eqb_refl. reflexivity.
    + destruct d; cbn [negb andb filter]; [reflexivity|]. destruct (y =? i) eqn:C; cbn [filter]; [|rewrite andb_false_r; reflexivity].
      unfold shown at 2. cbn [e_v]. destruct (x =? j) eqn:D; [|reflexivity].
      apply N.eqb_eq in A, C, D. apply N.eqb_neq in B. subst. contradiction.
  - destruct d; cbn [negb andb filter]; [reflexivity|]. destruct (y =? i) eqn:C; cbn [filter]; [|rewrite andb_false_r; reflexivity].
    unfold shown at 1. cbn [e_v]. rewrite andb_true_r. destruct (x =? j) eqn:D; reflexivity.
Qed.
Lemma seen_count i j e : d = true \/ i <> j -> length (filter (fun e => e_v e =? j) (seen_from (L := L) (W := W) d i e)) =
  if between d i j e then 1%nat else 0%nat.
Proof.
  intros Hc. destruct e as [[x y] o]. unfold seen_from, between. destruct (x =? i) eqn:A; cbn [app andb orb].
  - cbn [filter]. unfold shown at 1. cbn [e_v]. destruct (y =? j) eqn:B; cbn [orb].
    + destruct d; cbn [negb andb filter]; [reflexivity|]. destruct (y =? i) eqn:C; [|reflexivity].
      apply N.eqb_eq in A, B, C. destruct Hc as [Hc|Hc]; [discriminate|]. congruence.
    + destruct d; cbn [negb andb filter]; [reflexivity|]. destruct (y =? i) eqn:C; cbn [filter]; [|rewrite andb_false_r; reflexivity].
      unfold shown at 1. cbn [e_v]. destruct (x =? j) eqn:D; [|reflexivity].
      apply N.eqb_eq in A, C, D. apply N.eqb_neq in B. subst. contradiction.
  - destruct d; cbn [negb andb filter]; [reflexivity|]. destruct (y =? i) eqn:C; cbn [filter]; [|rewrite andb_false_r; reflexivity].
    unfold shown at 1. cbn [e_v]. rewrite andb_true_r. destruct (x =? j) eqn:D; reflexivity.
Qed.
Lemma find_app_ {X} (f : X -> bool) l l' : find f (l ++ l') = match find f l with Some x => Some x | None => find f l' end.
Proof. induction l as [|x l IH]; [reflexivity|]. cbn [app find]. destruct (f x); [reflexivity|exact IH]. Qed.
Lemma inc_find i j (a : agraph) : find (fun e => e_v e =? j) (incident d i a) =
  option_map (fun e => shown i j (snd e)) (find (between d i j) (edges a)).
Proof.
  unfold incident. induction (edges a) as [|e l IH]; [reflexivity|]. cbn [flat_map find].
  rewrite find_app_, seen_find. destruct (between d i j e); [reflexivity|exact IH].
Qed.
Lemma inc_drop i j (l : list (N * N * opts)) :
  filter (fun e => negb (e_v e =? j)) (flat_map (seen_from d i) l) = flat_map (seen_from d i) (drop (between d i j) l).
Proof.
  unfold drop. induction l as [|e l IH]; [reflexivity|]. cbn [flat_map filter]. rewrite filter_app, seen_drop, IH.
  destruct (between d i j e); reflexivity.
Qed.
Lemma inc_count i j (l : list (N * N * opts)) : d = true \/ i <> j ->
  length (filter (fun e => e_v e =? j) (flat_map (seen_from d i) l)) = length (filter (between d i j) l).
Proof.
  intros Hc. induction l as [|e l IH]; [reflexivity|]. cbn [flat_map filter]. rewrite filter_app, app_length, seen_count, IH by exact Hc.
  destruct (between d i j e); reflexivity.
Qed.
Lemma inc_same i j k (l l' : list (N * N * opts)) : k <> i -> (d = false -> k <> j) ->
  l' = without_first (between d i j) l \/ l' = drop (between d i j) l ->
  flat_map (seen_from d k) l' = flat_map (seen_from d k) l.
Proof.
  intros Hi Hj.
  assert (S0 : forall e, between d i j e = true -> seen_from (L := L) (W := W) d k e = []).
  { intros [[x y] o] B. unfold between in B. unfold seen_from. apply orb_prop in B. destruct B as [B|B].
    - apply andb_prop in B. destruct B as [B1 B2]. apply N.eqb_eq in B1, B2. subst.
      rewrite (proj2 (N.eqb_neq i k)) by congruence. destruct d; [reflexivity|]. rewrite (proj2 (N.eqb_neq j k)); [reflexivity|].
      specialize (Hj eq_refl). congruence.
    - apply andb_prop in B. destruct B as [B B2]. apply andb_prop in B. destruct B as [B B1].
      apply negb_true_iff in B. specialize (Hj B). apply N.eqb_eq in B1, B2. subst.
      rewrite (proj2 (N.eqb_neq j k)) by congruence. rewrite (proj2 (N.eqb_neq i k)) by congruence. rewrite andb_false_r. reflexivity. }
  intros [->| ->].
  - induction l as [|e l IH]; [reflexivity|]. cbn [without_first flat_map]. destruct (between d i j e) eqn:B.
    + rewrite S0 by exact B. reflexivity.
    + cbn [flat_map]. rewrite IH. reflexivity.
  - unfold drop. induction l as [|e l IH]; [reflexivity|]. cbn [filter flat_map]. destruct (between d i j e) eqn:B; cbn [negb].
    + rewrite S0 by exact B. exact IH.
    + cbn [flat_map]. rewrite IH. reflexivity.
Qed.
Lemma inc_without_first i j (l : list (N * N * opts)) : d = true ->
  without_first (fun e => e_v e =? j) (flat_map (seen_from d i) l) = flat_map (seen_from d i) (without_first (between d i j) l).
Proof.
  intros Hd.
  assert (S1 : forall x y o, seen_from (L := L) (W := W) d i (x, y, o) = if x =? i then [shown i y o] else []).
  { intros x y o. unfold seen_from. rewrite Hd. cbn [negb andb]. apply app_nil_r. }
  assert (B1 : forall x y (o : opts), between d i j (x, y, o) = (x =? i) && (y =? j)).
  { intros x y o. unfold between. rewrite Hd. cbn [negb andb]. apply orb_false_r. }
  induction l as [|[[x y] o] l IH]; [reflexivity|]. cbn [flat_map without_first]. rewrite S1, B1.
  destruct (x =? i) eqn:A; cbn [app andb].
  - cbn [without_first]. unfold shown at 1. cbn [e_v]. destruct (y =? j) eqn:B; [reflexivity|].
    cbn [flat_map]. rewrite S1, A, IH. reflexivity.
  - cbn [flat_map]. rewrite S1, A. exact IH.
Qed.

Lemma ok_sub (a : agraph) es : ok a -> (forall e, In e es -> In e (edges a)) -> ok (with_edges a es).
Proof.
  intros H S. constructor; cbn [with_edges nodes edges listed]; [apply (ok_ids _ H)|apply (ok_objs _ H)| | | |].
  - intros x y o F. exact (ok_ends _ H _ _ _ (S _ F)).
  - intros x y o F. exact (ok_src _ H _ _ _ (S _ F)).
  - intros x y o F. exact (ok_dst _ H _ _ _ (S _ F)).
  - exact (ok_listed _ H).
Qed.
Lemma in_without_first {X} (f : X -> bool) l x : In x (without_first f l) -> In x l.
Proof.
  induction l as [|y l IH]; [intros []|]. cbn [without_first]. destruct (f y); [intros H; right; exact H|].
  intros [->|H]; [left; reflexivity|right; exact (IH H)].
Qed.
Lemma drop_without_first {X} (f : X -> bool) l : drop f (without_first f l) = drop f l.
Proof.
  unfold drop. induction l as [|y l IH]; [reflexivity|]. cbn [without_first filter]. destruct (f y) eqn:F; cbn [negb]; [reflexivity|].
  cbn [filter]. rewrite F. cbn [negb]. rewrite IH. reflexivity.
Qed.

(** ** remove_edge *)
Lemma remove_edge_none g p u v : rep (nr g) p -> id_in eqo u p = None \/ id_in eqo v p = None ->
  remove_edge eqo g u v = Some (g, None).
Proof.
  intros R H. unfold remove_edge, id_of.
  change (option_map snd (hm_find eqo u (n2i (nr g)))) with (lk eqo u (n2i (nr g))).
  change (option_map snd (hm_find eqo v (n2i (nr g)))) with (lk eqo v (n2i (nr g))).
  rewrite !(r_id _ _ R). destruct (id_in eqo u p); [|reflexivity]. destruct (id_in eqo v p); [|reflexivity].
  destruct H; discriminate.
Qed.
Lemma remove_edge_unfold g p u v i j : rep (nr g) p -> id_in eqo u p = Some i -> id_in eqo v p = Some j ->
  remove_edge eqo g u v =
  match lkN i (adj (nw g)) with
  | None => None
  | Some es =>
      match find (joins i j) es with
      | None => Some (g, None)
      | Some e =>
          let a := hm_modify N.eqb i (fun _ => without_first (joins i j) es) (adj (nw g)) in
          if direct g then Some (set_w g (Graph (n2i (nw g)) (i2n (nw g)) a), Some e)
          else
            match lkN j a with
            | None => None
            | Some _ =>
                Some (set_w g (Graph (n2i (nw g)) (i2n (nw g)) (hm_modify N.eqb j (drop (joins i j)) a)), Some e)
            end
      end
  end.
Proof.
  intros R Hu Hv. unfold remove_edge, id_of.
  change (option_map snd (hm_find eqo u (n2i (nr g)))) with (lk eqo u (n2i (nr g))).
  change (option_map snd (hm_find eqo v (n2i (nr g)))) with (lk eqo v (n2i (nr g))).
  rewrite !(r_id _ _ R), Hu, Hv. change (val_of i (adj (nw g))) with (lkN i (adj (nw g))).
  destruct (lkN i (adj (nw g))) as [es|]; [|reflexivity]. pose proof (remove_first_spec (joins i j) es) as F.
  destruct (remove_first (joins i j) es) as [[e es']|]; destruct F as [-> F]; [rewrite F|]; reflexivity.
Qed.
Lemma rep_adj (g : graph) a es m : rep g a -> kuniq N.eqb m ->
  (forall i, lkN i m = if is_listed i a then Some (flat_map (seen_from d i) es) else None) ->
  rep (Graph (n2i g) (i2n g) m) (with_edges a es).
Proof.
  intros R U H. constructor; cbn [n2i i2n adj with_edges nodes]; [apply (r_un _ _ R)|apply (r_ui _ _ R)|exact U|apply (r_len _ _ R)|apply (r_obj _ _ R)|apply (r_id _ _ R)|exact H].
Qed.
Lemma with_edges_id (a : agraph) : with_edges a (edges a) = a.
Proof. destruct a. reflexivity. Qed.

Lemma remove_edge_ref g p a u v i j : direct g = d -> rep (nr g) p -> rep (nw g) a -> ok a ->
  id_in eqo u p = Some i -> id_in eqo v p = Some j -> is_listed i a = true ->
  d = true \/ (count_between d i j a <= 1)%nat ->
  exists g', remove_edge eqo g u v = Some (g', option_map (fun e => shown i j (snd e)) (find (between d i j) (edges a))) /\
    rep (nw g') (a_remove_edge d i j a) /\ ok (a_remove_edge d i j a) /\ nr g' = nr g /\ direct g' = direct g.
Proof.
  intros Hd Rp R H Hu Hv Hl Hc. rewrite (remove_edge_unfold g p u v i j Rp Hu Hv), (r_adj _ _ R), Hl.
  assert (J : forall e, In e (incident d i a) -> joins i j e = (e_v e =? j)).
  { intros e He. apply joins_src. exact (incident_src _ _ _ He). }
  assert (OK : ok (a_remove_edge d i j a)).
  { apply ok_sub; [exact H|]. intros e. apply in_without_first. }
  rewrite (find_cong _ _ _ J), inc_find. destruct (find (between d i j) (edges a)) as [[[x y] o]|] eqn:F; cbn [option_map snd].
  2:{ exists g. split; [reflexivity|]. split; [|split; [exact OK|split; reflexivity]].
      unfold a_remove_edge.
      pose proof (remove_first_spec (between d i j) (edges a)) as G. destruct (remove_first (between d i j) (edges a)) as [[z l]|].
      - destruct G as [G _]. congruence.
      - destruct G as [_ ->]. rewrite with_edges_id. exact R. }
  rewrite (without_first_cong _ _ _ J). apply find_some in F. destruct F as [F1 F2].
  assert (D : d = true \/ d = false) by (destruct d; auto). destruct D as [D|D]; rewrite (eq_trans Hd D).
  - eexists. split; [reflexivity|]. unfold set_w. cbn [nw nr direct].
    split; [|split; [exact OK|split; [reflexivity|congruence]]].
    apply rep_adj; [exact R|apply kuniq_modify, (r_ua _ _ R)|]. intros k. rewrite (lk_modify _ Neq), (r_adj _ _ R).
    destruct (k =? i) eqn:A.
    + apply N.eqb_eq in A. subst k. rewrite Hl. cbn [option_map]. f_equal. apply inc_without_first. exact D.
    + apply N.eqb_neq in A. destruct (is_listed k a); [|reflexivity]. f_equal. symmetry. apply (inc_same i j); [exact A|congruence|left; reflexivity].
  - destruct Hc as [Hc|Hc]; [congruence|].
    assert (Hj : is_listed j a = true).
    { unfold between in F2. apply orb_prop in F2. destruct F2 as [F2|F2].
      - apply andb_prop in F2. destruct F2 as [_ F2]. apply N.eqb_eq in F2. subst. exact (ok_dst _ H _ _ _ F1 D).
      - apply andb_prop in F2. destruct F2 as [F2 _]. apply andb_prop in F2. destruct F2 as [_ F2]. apply N.eqb_eq in F2. subst.
        exact (ok_src _ H _ _ _ F1). }
    rewrite (lk_modify _ Neq), !(r_adj _ _ R), Hj. 
    assert (exists z, (if j =? i then option_map (fun _ : list edge => without_first (fun e => e_v e =? j) (incident d i a)) (Some (incident d j a)) else Some (incident d j a)) = Some z) as [z ->].
    { destruct (j =? i); eexists; reflexivity. }
    eexists. split; [reflexivity|]. unfold set_w. cbn [nw nr direct]. split; [|split; [exact OK|split; [reflexivity|congruence]]].
    unfold a_remove_edge. rewrite (without_first_drop (between d i j)) by exact Hc.
    apply rep_adj; [exact R|apply kuniq_modify, kuniq_modify, (r_ua _ _ R)|]. intros k. rewrite !(lk_modify _ Neq), (r_adj _ _ R).
    assert (BC : forall e : N * N * opts, between d i j e = between d j i e).
    { intros [[x' y'] o']. unfold between. rewrite D. cbn [negb andb]. apply orb_comm. }
    destruct (k =? j) eqn:B.
    + apply N.eqb_eq in B. subst k. rewrite Hj. destruct (j =? i) eqn:A; cbn [option_map]; f_equal.
      * apply N.eqb_eq in A. subst j.
        transitivity (drop (fun e : edge => e_v e =? i) (without_first (fun e => e_v e =? i) (incident d i a))).
        -- unfold drop. apply filter_ext_in. intros e He. f_equal. apply J. exact (in_without_first _ _ _ He).
        -- rewrite drop_without_first. apply inc_drop.
      * transitivity (drop (fun e : edge => e_v e =? i) (incident d j a)).
        -- unfold drop. apply filter_ext_in. intros e He. f_equal. apply joins_dst. exact (incident_src _ _ _ He).
        -- unfold drop at 1, incident. rewrite inc_drop. f_equal. unfold drop. apply filter_ext. intros e. f_equal. symmetry. apply BC.
    + destruct (k =? i) eqn:A.
      * apply N.eqb_eq in A. subst k. rewrite Hl. cbn [option_map]. f_equal. rewrite without_first_drop.
        -- apply inc_drop.
        -- unfold incident. rewrite inc_count; [exact Hc|]. right. apply N.eqb_neq. exact B.
      * destruct (is_listed k a); [|reflexivity]. f_equal. symmetry. apply N.eqb_neq in A, B.
        apply (inc_same i j); [exact A|intros _; exact B|right; reflexivity].
Qed.

(** ** get_edge *)
Lemma get_edge_ref g p u v : direct g = d -> rep (nr g) p -> ok p ->
  get_edge eqo g u v = Some (match id_in eqo u p, id_in eqo v p with
                             | Some i, Some j => find (fun e => e_v e =? j) (incident d i p)
                             | _, _ => None
                             end).
Proof.
  intros Hd R H. unfold get_edge, id_of.
  change (option_map snd (hm_find eqo u (n2i (nr g)))) with (lk eqo u (n2i (nr g))).
  change (option_map snd (hm_find eqo v (n2i (nr g)))) with (lk eqo v (n2i (nr g))).
  rewrite !(r_id _ _ R). destruct (id_in eqo u p) as [i|] eqn:Iu; [|reflexivity].
  change (val_of i (adj (nr g))) with (lkN i (adj (nr g))). rewrite (r_adj _ _ R).
  destruct (is_listed i p) eqn:Hl.
  2:{ rewrite (incident_unlisted i p H Hl). destruct (id_in eqo v p); reflexivity. }
  destruct (id_in eqo v p) as [j|] eqn:Iv; [|reflexivity].
  assert (G : forall e, In e (incident d i p) -> e_u e = i /\ In (e_v e) (map fst (nodes p))).
  { intros e He. split; [exact (incident_src _ _ _ He)|exact (incident_dst _ _ _ H He)]. }
  revert G. induction (incident d i p) as [|e l IH]; intros G; [reflexivity|]. cbn [get_edge_loop find].
  destruct (G e (or_introl eq_refl)) as [G1 G2]. apply in_map_iff in G2. destruct G2 as ([k x] & G2 & G3). cbn [fst] in G2. subst k.
  unfold val_of. change (option_map snd (hm_find N.eqb (e_v e) (i2n (nr g)))) with (lkN (e_v e) (i2n (nr g))).
  rewrite (r_obj _ _ R), (proj2 (object_in_iff _ _ _ H) G3). unfold id_of.
  change (option_map snd (hm_find eqo x (n2i (nr g)))) with (lk eqo x (n2i (nr g))). rewrite (r_id _ _ R), (id_in_self _ _ _ H G3).
  rewrite G1, N.eqb_refl. cbn [andb]. destruct (e_v e =? j) eqn:A; cbn [orb]; [reflexivity|].
  assert (B : (negb (direct g) && (e_v e =? i) && (i =? j)) = false).
  { destruct (e_v e =? i) eqn:B; [|rewrite andb_false_r; reflexivity]. destruct (i =? j) eqn:C; [|rewrite andb_false_r; reflexivity].
    apply N.eqb_eq in B, C. apply N.eqb_neq in A. congruence. }
  rewrite B. apply IH. intros e' He'. apply G. right. exact He'.
Qed.
End Ref.
