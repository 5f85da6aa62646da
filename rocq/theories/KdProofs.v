(** * Kdtree: facts that hold in any arithmetic *)
From Coq Require Import List Bool ZArith NArith Arith Lia Sorted.
From Verif Require Import F32 Grid ObjModel FieldModel KdModel.
Import ListNotations.

Section Any.
Variable A : arith.
Notation T := (num A).
Notation rect := (rect A).
Notation block := (block A).

(** The first [m] rectangles are split. *)
Fixpoint refine (m : nat) (a : axis) (l : list rect) : list rect :=
  match m, l with
  | S m', r :: l' => fst (split A a r) :: snd (split A a r) :: refine m' a l'
  | _, _ => l
  end.
Lemma refine_length m a l : (m <= length l)%nat -> length (refine m a l) = (length l + m)%nat.
Proof. revert l. induction m as [|m IH]; intros [|r l] H; cbn in *; try lia. rewrite IH by lia. lia. Qed.
Lemma refine_nil m a : refine m a [] = [].
Proof. destruct m; reflexivity. Qed.

Lemma lset_app {X} (l1 : list X) x y l2 : lset (length l1) y (l1 ++ x :: l2) = l1 ++ y :: l2.
Proof. induction l1; cbn; congruence. Qed.

Lemma split_pass_eq a p todo : forall n count done rest,
  length done = (n * 2)%nat -> (todo <= length rest)%nat ->
  split_pass A a p todo n count (done ++ rest) =
  Some (count + Nat.min todo (p - count), done ++ refine (Nat.min todo (p - count)) a rest)%nat.
Proof.
  induction todo as [|todo IH]; intros n count done rest Hd Hr; cbn [split_pass].
  - cbn. rewrite Nat.add_0_r. reflexivity.
  - destruct (Nat.leb_spec p count) as [H|H].
    + replace (p - count)%nat with 0%nat by lia. rewrite Nat.min_0_r. cbn. rewrite Nat.add_0_r. reflexivity.
    + destruct rest as [|r rest]; [cbn in Hr; lia|]. cbn [length] in Hr.
      rewrite <- Hd. rewrite nth_error_app2 by lia. rewrite Nat.sub_diag. cbn [nth_error]. cbv zeta.
      rewrite lset_app. unfold insert_at. rewrite app_length. cbn [length].
      destruct (Nat.leb_spec (length done + 1) (length done + S (length rest))); [|lia].
      replace (done ++ fst (split A a r) :: rest) with ((done ++ [fst (split A a r)]) ++ rest) by (rewrite <- app_assoc; reflexivity).
      rewrite firstn_app, skipn_app.
      assert (L : length (done ++ [fst (split A a r)]) = (length done + 1)%nat) by (rewrite app_length; cbn; lia).
      rewrite <- L, firstn_all, skipn_all, Nat.sub_diag. cbn [firstn skipn app]. rewrite app_nil_r.
      replace ((done ++ [fst (split A a r)]) ++ snd (split A a r) :: rest) with ((done ++ [fst (split A a r); snd (split A a r)]) ++ rest)
        by (rewrite <- !app_assoc; reflexivity).
      rewrite IH; [|rewrite app_length; cbn; lia|lia].
      replace (Nat.min (S todo) (p - count)) with (S (Nat.min todo (p - S count))) by lia.
      cbn [refine]. rewrite <- !app_assoc. cbn [app]. f_equal. f_equal. lia.
Qed.

(** The loop: full turns, then a last one that may stop early. *)
Lemma split_loop_inv (Q : axis -> list rect -> Prop) p :
  (forall a l, l <> [] -> (length l * 2 <= p)%nat -> Q a l -> Q (other_axis a) (refine (length l) a l)) ->
  forall fuel a l, l <> [] -> (length l <= p)%nat -> (p - length l <= fuel)%nat -> Q a l ->
  exists a' l0 m, Q a' l0 /\ (m <= length l0)%nat /\ (length l0 + m)%nat = p /\
    split_loop A fuel a p (length l) l = Some (refine m a' l0).
Proof.
  intros HQ. induction fuel as [|fuel IH]; intros a l Hne Hl Hf Q0.
  - exists a, l, 0%nat. repeat split; try lia; [exact Q0|]. cbn [split_loop].
    destruct (Nat.ltb_spec (length l) p); [lia|reflexivity].
  - cbn [split_loop]. destruct (Nat.ltb_spec (length l) p) as [H|H].
    + pose proof (split_pass_eq a p (length l) 0 (length l) [] l eq_refl (le_n _)) as SP. cbn [app] in SP. rewrite SP. clear SP.
      destruct (Nat.le_gt_cases (p - length l) (length l)) as [C|C].
      * rewrite Nat.min_r by lia. exists a, l, (p - length l)%nat. split; [exact Q0|]. split; [exact C|]. split; [lia|].
        replace (length l + (p - length l))%nat with p by lia.
        destruct fuel; cbn [split_loop]; rewrite Nat.ltb_irrefl; reflexivity.
      * rewrite Nat.min_l by lia.
        pose proof (refine_length (length l) a l ltac:(lia)) as RL. assert (1 <= length l)%nat by (destruct l; [congruence|cbn; lia]).
        rewrite <- RL. apply IH; try lia; [|apply HQ; [exact Hne|lia|exact Q0]].
        intros E; rewrite E in RL; cbn in RL; lia.
    + exists a, l, 0%nat. repeat split; try lia. exact Q0.
Qed.

Lemma subdivide_inv (Q : axis -> list rect -> Prop) p r : (2 <= p)%nat ->
  Q Horizontal [fst (split A Vertical r); snd (split A Vertical r)] ->
  (forall a l, l <> [] -> (length l * 2 <= p)%nat -> Q a l -> Q (other_axis a) (refine (length l) a l)) ->
  exists a' l0 m, Q a' l0 /\ (m <= length l0)%nat /\ (length l0 + m)%nat = p /\ subdivide A p r = Some (refine m a' l0).
Proof.
  intros Hp Q0 HQ. unfold subdivide. cbv zeta.
  apply (split_loop_inv Q p HQ p Horizontal [fst (split A Vertical r); snd (split A Vertical r)]); cbn [length]; try lia; [congruence|exact Q0].
Qed.

(** An invariant kept by every single split. *)
Lemma subdivide_all (P : list rect -> Prop) p r : (2 <= p)%nat -> P [r] ->
  (forall m a l, P l -> P (refine m a l)) ->
  exists l, subdivide A p r = Some l /\ length l = p /\ P l.
Proof.
  intros Hp P0 HP. destruct (subdivide_inv (fun _ l => P l) p r Hp) as (a & l0 & m & Q & Hm & Hl & E).
  - apply (HP 1%nat Vertical [r] P0).
  - intros; apply HP; assumption.
  - exists (refine m a l0). split; [exact E|]. split; [rewrite refine_length; lia|]. apply HP, Q.
Qed.

Lemma subdivide_some p r : (2 <= p)%nat -> exists l, subdivide A p r = Some l /\ length l = p.
Proof. intros Hp. destruct (subdivide_all (fun _ => True) p r Hp I (fun _ _ _ H => H)) as (l & E & L & _). eauto. Qed.

Lemma refine_Forall (P : rect -> Prop) m a l :
  (forall a r, P r -> P (fst (split A a r)) /\ P (snd (split A a r))) -> Forall P l -> Forall P (refine m a l).
Proof.
  intros HP. revert l. induction m as [|m IH]; intros [|r l] H; cbn; try assumption.
  inversion H; subst. destruct (HP a r H2). repeat constructor; auto.
Qed.

(** The first rectangle keeps its origin. *)
Lemma refine_head (x y : T) m a l :
  (exists r l', l = r :: l' /\ r_x r = x /\ r_y r = y) -> exists r l', refine m a l = r :: l' /\ r_x r = x /\ r_y r = y.
Proof.
  intros (r & l' & -> & Hx & Hy). destruct m; cbn; [exists r, l'; auto|].
  eexists _, _. split; [reflexivity|]. destruct a; cbn; auto.
Qed.

(** ** Numbering *)
Lemma number_length id l : length (number A id l) = length l.
Proof. revert id. induction l; intros; cbn; congruence. Qed.
Lemma number_ids id l : map b_id (number A id l) = map (fun k => (id + Z.of_nat k)%Z) (seq 0 (length l)).
Proof.
  revert id. induction l as [|r l IH]; intros id; [reflexivity|]. cbn [number map length seq b_id].
  rewrite IH. f_equal; [lia|]. rewrite <- seq_shift, map_map. apply map_ext. intros k. lia.
Qed.
Definition to_block (i : Z) (r : rect) : block := Block i (r_x r) (r_y r) (r_w r) (r_h r).
Lemma number_nth id l k r : nth_error l k = Some r -> nth_error (number A id l) k = Some (to_block (id + Z.of_nat k) r).
Proof.
  revert id k. induction l as [|r0 l IH]; intros id [|k] H; try discriminate; cbn in *.
  - injection H as ->. rewrite Z.add_0_r. reflexivity.
  - rewrite (IH (id + 1)%Z k H). do 2 f_equal. lia.
Qed.
Lemma number_nth_inv id l k b : nth_error (number A id l) k = Some b ->
  exists r, nth_error l k = Some r /\ b = to_block (id + Z.of_nat k) r.
Proof.
  intros H. destruct (nth_error l k) as [r|] eqn:E.
  - exists r. split; [reflexivity|]. rewrite (number_nth _ _ _ _ E) in H. congruence.
  - exfalso. apply nth_error_None in E. rewrite <- (number_length id) in E. apply nth_error_None in E. congruence.
Qed.
Lemma number_In id l b : In b (number A id l) -> exists k r, nth_error l k = Some r /\ b = to_block (id + Z.of_nat k) r.
Proof. intros H. apply In_nth_error in H. destruct H as [k H]. destruct (number_nth_inv _ _ _ _ H) as (r & H1 & H2). eauto. Qed.

(** Of a numbered list, one block has the id [id + k]. *)
Lemma number_filter id l k r : nth_error l k = Some r ->
  filter (fun b => (b_id b =? id + Z.of_nat k)%Z) (number A id l) = [to_block (id + Z.of_nat k) r].
Proof.
  revert id k. induction l as [|r0 l IH]; intros id [|k] H; try discriminate; cbn [number filter b_id].
  - injection H as ->. replace (id =? id + Z.of_nat 0)%Z with true by (symmetry; apply Z.eqb_eq; lia).
    unfold to_block. rewrite Z.add_0_r. f_equal. 
    assert (G : forall l' j, (id < j)%Z -> filter (fun b => (b_id b =? id + Z.of_nat 0)%Z) (number A j l') = []).
    { induction l' as [|r' l' IH']; intros j Hj; [reflexivity|]. cbn [number filter b_id].
      destruct (Z.eqb_spec j (id + Z.of_nat 0)); [lia|]. apply IH'. lia. }
    rewrite Z.add_0_r in G. apply G. lia.
  - destruct (Z.eqb_spec id (id + Z.of_nat (S k))); [lia|].
    replace (id + Z.of_nat (S k))%Z with (id + 1 + Z.of_nat k)%Z by lia. apply IH. exact H.
Qed.

(** ** Sharing corners *)
Lemma eqpt_sym p q : eqpt A p q = eqpt A q p.
Proof. unfold eqpt, eqn. f_equal; apply andb_comm. Qed.
Lemma share_sym ps qs : share_point A ps qs = share_point A qs ps.
Proof.
  apply eq_true_iff_eq. unfold share_point. rewrite !existsb_exists. split; intros (p & Hp & H);
    apply existsb_exists in H; destruct H as (q & Hq & E); exists q; (split; [exact Hq|]); apply existsb_exists;
    exists p; (split; [exact Hp|]); rewrite eqpt_sym; exact E.
Qed.
Lemma share_iff ps qs : share_point A ps qs = true <-> exists p q, In p ps /\ In q qs /\ eqpt A p q = true.
Proof.
  unfold share_point. rewrite existsb_exists. split.
  - intros (p & Hp & H). apply existsb_exists in H. destruct H as (q & Hq & E). eauto.
  - intros (p & q & Hp & Hq & E). exists p. split; [exact Hp|]. apply existsb_exists. eauto.
Qed.

(** ** The tree of one process *)
Context {O : Type}.
Notation kdtree := (kdtree A (O := O)).

Definition b_points (ow oh : T) (b : block) := block_points A ow oh b.

(** What [create_tree(0, ...)] builds on process [rank]: its own block, and the ids of the
    blocks that share a corner with it. *)
Lemma create_tree_eq p rank x y w h disc dist : (2 <= p)%nat -> (rank < p)%nat ->
  exists l r (k : kdtree),
    subdivide A p (Rect x y w h) = Some l /\ length l = p /\ nth_error l rank = Some r /\
    create_tree A p (Z.of_nat rank) 0 x y w h disc dist = Some k /\
    k_subtrees k = number A 0 l /\
    k_x k = r_x r /\ k_y k = r_y r /\ k_w k = r_w r /\ k_h k = r_h r /\ k_ow k = w /\ k_oh k = h /\
    k_neighbor_trees k =
      map b_id (filter (fun b => negb (b_id b =? Z.of_nat rank)%Z &&
                                 share_point A (block_points A w h (to_block (Z.of_nat rank) r)) (block_points A w h b)) (number A 0 l)) /\
    k_regions k = regions A dist (r_x r) (r_y r) (r_w r) (r_h r) /\
    k_neighbor_regions k = neighbor_regions A (Z.of_nat rank) w h (k_regions k) (number A 0 l) /\
    k_distance k = dist /\ k_disc k = disc /\ k_checked k = false /\ k_nagents k = 0%N /\
    k_dh k = wrap32 (ceil_i32 A (div A h disc) + 1) /\ k_dw k = wrap32 (ceil_i32 A (div A w disc) + 1) /\
    k_read k = repeat [] (N.to_nat (bag_count A w h disc)) /\ k_write k = repeat [] (N.to_nat (bag_count A w h disc)) /\
    k_neighbors k = repeat [] 4 /\ k_agents_to_send k = repeat [] p.
Proof.
  intros Hp Hr.
  destruct (subdivide_all (fun l => exists r l', l = r :: l' /\ r_x r = x /\ r_y r = y) p (Rect x y w h) Hp) as (l & E & L & (r0 & l' & El & Hx & Hy)).
  { exists (Rect x y w h), []. auto. }
  { intros m a l. apply refine_head. }
  destruct (nth_error l rank) as [r|] eqn:Er; [|apply nth_error_None in Er; lia].
  unfold create_tree, blocks. destruct (Nat.eqb_spec p 1) as [|N1]; [lia|]. rewrite E. cbn [option_map].
  pose proof (number_filter 0 l rank r Er) as F. cbn [Z.add] in F. rewrite F. cbn [fold_left some_in].
  destruct (Z.eqb_spec (Z.of_nat rank) 0) as [Z0|NZ].
  - assert (rank = 0)%nat by lia. subst rank. rewrite El in Er. cbn in Er. injection Er as ->. 
    eexists l, r, _. split; [reflexivity|]. split; [exact L|]. split; [rewrite El; reflexivity|]. split; [reflexivity|].
    cbn [k_x k_y k_w k_h k_ow k_oh k_subtrees k_neighbor_trees k_regions k_neighbor_regions k_distance k_disc k_checked k_nagents k_dh k_dw k_read k_write k_neighbors k_agents_to_send fst snd b_w b_h to_block].
    rewrite <- Hx, <- Hy. repeat split; reflexivity.
  - eexists l, r, _. split; [reflexivity|]. split; [exact L|]. split; [exact Er|]. split; [reflexivity|].
    cbn [k_x k_y k_w k_h k_ow k_oh k_subtrees k_neighbor_trees k_regions k_neighbor_regions k_distance k_disc k_checked k_nagents k_dh k_dw k_read k_write k_neighbors k_agents_to_send fst snd b_w b_h b_x b_y to_block].
    repeat split; reflexivity.
Qed.

(** The neighbour ids are increasing and in range. *)
Lemma number_sorted id l (f : block -> bool) : StronglySorted Z.lt (map b_id (filter f (number A id l))) /\
  Forall (fun i => id <= i < id + Z.of_nat (length l))%Z (map b_id (filter f (number A id l))).
Proof.
  revert id. induction l as [|r l IH]; intros id; [split; constructor|]. cbn [number filter length].
  destruct (IH (id + 1)%Z) as [SS F].
  assert (F' : Forall (fun i => id <= i < id + Z.of_nat (S (length l)))%Z (map b_id (filter f (number A (id + 1) l)))).
  { eapply Forall_impl; [|exact F]. cbn. intros; lia. }
  destruct (f _).
  - cbn [map b_id]. split.
    + constructor; [exact SS|]. eapply Forall_impl; [|exact F]. cbn. intros; lia.
    + constructor; [lia|exact F'].
  - split; assumption.
Qed.

Lemma neighbor_iff l rank (f : block -> bool) s :
  In s (map b_id (filter (fun b => negb (b_id b =? Z.of_nat rank)%Z && f b) (number A 0 l))) <->
  exists k r, s = Z.of_nat k /\ k <> rank /\ nth_error l k = Some r /\ f (to_block (Z.of_nat k) r) = true.
Proof.
  rewrite in_map_iff. split.
  - intros (b & <- & H). apply filter_In in H. destruct H as [Hb H]. apply number_In in Hb.
    destruct Hb as (k & r & Hk & ->). cbn [to_block b_id Z.add] in *. apply andb_prop in H. destruct H as [H1 H2].
    exists k, r. repeat split; auto. apply negb_true_iff, Z.eqb_neq in H1. lia.
  - intros (k & r & -> & Hk & Hn & Hf). exists (to_block (Z.of_nat k) r). split; [reflexivity|]. apply filter_In. split.
    + pose proof (number_nth 0 l k r Hn) as E. cbn [Z.add] in E. eapply nth_error_In; exact E.
    + cbn [to_block b_id]. destruct (Z.eqb_spec (Z.of_nat k) (Z.of_nat rank)); [lia|]. cbn. exact Hf.
Qed.

End Any.
