(** * Proofs about the Kdtree: what is stored after any sequence of calls *)
From Coq Require Import List Bool ZArith NArith Arith Lia.
From Verif Require Import F32 Grid ObjModel FieldModel FieldSpec FieldProofs KdModel KdSpec KdProofs.
Import ListNotations.
Local Open Scope Z_scope.

Lemma seq_lset {X} (f : nat -> X) s x n : forall a, (s < n)%nat ->
  lset s x (map f (seq a n)) = map (fun i => if (i =? a + s)%nat then x else f i) (seq a n).
Proof.
  revert s. induction n as [|n IH]; intros [|s] a H; try lia; cbn [seq map lset].
  - rewrite Nat.add_0_r, Nat.eqb_refl. f_equal. apply map_ext_in. intros i Hi. apply in_seq in Hi.
    destruct (Nat.eqb_spec i a); [lia|reflexivity].
  - destruct (Nat.eqb_spec a (a + S s)); [lia|]. rewrite IH by lia. f_equal. apply map_ext. intros i.
    replace (S a + s)%nat with (a + S s)%nat by lia. reflexivity.
Qed.
Lemma push_seq {X} (f : nat -> list X) s (o : X) n : (s < n)%nat ->
  push (map f (seq 0 n)) (Z.of_nat s) o = Some (map (fun i => if (i =? s)%nat then f i ++ [o] else f i) (seq 0 n)).
Proof.
  intros H. unfold push, vget, vset, as_index. destruct (Z.ltb_spec (Z.of_nat s) 0); [lia|]. rewrite Nat2Z.id.
  rewrite nth_error_map, (nth_error_nth' (seq 0 n) 0%nat) by (rewrite seq_length; exact H). rewrite seq_nth by exact H.
  cbn [option_map Nat.add]. rewrite map_length, seq_length. destruct (Nat.ltb_spec s n); [|lia].
  rewrite seq_lset by exact H. cbn [Nat.add]. f_equal. apply map_ext. intros i. destruct (Nat.eqb_spec i s); [subst|]; reflexivity.
Qed.
Lemma repeat_seq {X} (x : X) n : repeat x n = map (fun _ => x) (seq 0 n).
Proof. generalize 0%nat. induction n; intros a; cbn; congruence. Qed.

Section Store.
Variable A : arith.
Notation T := (num A).
Notation pt := (num A * num A)%type.
Context {O : Type}.
Variable eqo : O -> O -> bool.
Notation kop := (kop A (O := O)).
Notation kdtree := (kdtree A (O := O)).
Variables w h d : T.
Notation nw := (cols A w d).
Notation nh := (cols A h d).
Hypothesis GS : good_size A w h d.
Notation at_cell := (at_cell A d).

(** What no call changes. *)
Definition shape (k : kdtree) :=
  (k_x k, k_y k, k_w k, k_h k, k_ow k, k_oh k, k_dh k, k_dw k, k_disc k, k_subtrees k, k_neighbor_trees k, k_regions k, k_neighbor_regions k, k_distance k).

Definition kwf (k : kdtree) : Prop :=
  k_ow k = w /\ k_oh k = h /\ k_disc k = d /\ k_dh k = nh /\ k_dw k = nw /\
  Z.of_nat (length (k_read k)) = nw * nh /\ Z.of_nat (length (k_write k)) = nw * nh /\
  (k_checked k = false -> (N.of_nat (total (k_write k)) <= k_nagents k)%N).

Lemma cell_idx c : in_range nw nh c -> 0 <= cell_index nh c < nw * nh.
Proof. apply idx. exact GS. Qed.

Lemma set_bag (v : list (list O)) c b b' : Z.of_nat (length v) = nw * nh -> in_range nw nh c -> vget v (cell_index nh c) = Some b ->
  exists v', vset v (cell_index nh c) b' = Some v' /\ Z.of_nat (length v') = nw * nh /\
    (total v' + length b = total v + length b')%nat /\
    forall c', in_range nw nh c' -> vget v' (cell_index nh c') = if loc_eqb c c' then Some b' else vget v (cell_index nh c').
Proof.
  intros L Hc Hb. pose proof (cell_idx c Hc) as I. rewrite <- L in I.
  destruct (vset_in v (cell_index nh c) b' I) as (ws & E & EL & E1 & E2). exists ws. split; [exact E|]. split; [lia|]. split.
  - unfold vset, vget, as_index in *. destruct (cell_index nh c <? 0) eqn:Sg; [discriminate|].
    destruct (_ <? _)%nat; [|discriminate]. injection E as <-. exact (total_lset _ _ _ _ Hb).
  - intros c' Hc'. destruct (loc_eqb c c') eqn:EC.
    + apply loc_eqb_eq in EC. subst. exact E1.
    + apply E2; [apply cell_idx; exact Hc'|]. intros EI. apply loc_eqb_neq in EC. apply EC. apply (idx_inj A w h d GS); auto.
Qed.
Lemma push_bag (v : list (list O)) c (bag : loc -> list O) o : Z.of_nat (length v) = nw * nh -> in_range nw nh c ->
  (forall c, in_range nw nh c -> vget v (cell_index nh c) = Some (bag c)) ->
  exists v', push v (cell_index nh c) o = Some v' /\ Z.of_nat (length v') = nw * nh /\ total v' = S (total v) /\
    forall c', in_range nw nh c' -> vget v' (cell_index nh c') = Some (if loc_eqb c c' then bag c' ++ [o] else bag c').
Proof.
  intros L Hc Hb. unfold push. rewrite (Hb c Hc). destruct (set_bag v c (bag c) (bag c ++ [o]) L Hc (Hb c Hc)) as (v' & E & EL & ET & H).
  exists v'. split; [exact E|]. split; [exact EL|]. split; [rewrite app_length in ET; cbn in ET; lia|].
  intros c' Hc'. rewrite H by exact Hc'. destruct (loc_eqb c c') eqn:EC; [apply loc_eqb_eq in EC; subst; reflexivity|apply Hb; exact Hc'].
Qed.

(** ** The invariant *)
Variable p : nat.
Variable k0 : kdtree.
Hypothesis K0 : kwf k0.
Notation region := (region_of A k0).
Hypothesis region_id : forall l g, region l = Some g -> (0 <= g < 4).
Hypothesis fresh_read : forall c, in_range nw nh c -> vget (k_read k0) (cell_index nh c) = Some [].
Hypothesis fresh_write : forall c, in_range nw nh c -> vget (k_write k0) (cell_index nh c) = Some [].
Hypothesis fresh_neighbors : k_neighbors k0 = repeat [] 4.
Hypothesis fresh_prec : k_prec_neighbors k0 = [].
Hypothesis fresh_send : k_agents_to_send k0 = repeat [] p.

Definition by_region (epoch : list kop) : list (list O) := map (fun i => inserted_in A region epoch (Z.of_nat i)) (seq 0 4).

Definition k_after (cs : list kop) (k : kdtree) : Prop :=
  (forall c, in_range nw nh c ->
     vget (k_read k) (cell_index nh c) = Some (at_cell c (k_readable A eqo d cs)) /\
     vget (k_write k) (cell_index nh c) = Some (at_cell c (k_pending A eqo d cs))) /\
  k_neighbors k = by_region (since_update A (rev cs)) /\
  k_prec_neighbors k = match before_update A (rev cs) with None => [] | Some e => by_region e end /\
  k_agents_to_send k = map (addressed A (since_update A (rev cs))) (seq 0 p).

Lemma shape_regions k l : shape k = shape k0 -> region_of A k l = region l.
Proof. unfold shape, region_of. intros E. injection E as _ _ _ _ _ _ _ _ _ _ _ -> _ _. reflexivity. Qed.

Lemma inserted_app r e1 e2 g : inserted_in A r (e1 ++ e2) g = inserted_in A (O := O) r e1 g ++ inserted_in A r e2 g.
Proof. apply flat_map_app. Qed.
Lemma addressed_app e1 e2 s : addressed A (e1 ++ e2) s = addressed A (O := O) e1 s ++ addressed A e2 s.
Proof. apply flat_map_app. Qed.
Lemma read_app e1 e2 : read_inserts A (e1 ++ e2) = read_inserts A (O := O) e1 ++ read_inserts A e2.
Proof. apply flat_map_app. Qed.

Lemma calls_snoc cs (c : kop) : flat_map (as_calls A) (cs ++ [c]) = flat_map (as_calls A) cs ++ as_calls A c.
Proof. rewrite flat_map_app. cbn. rewrite app_nil_r. reflexivity. Qed.

(** A call that is no [lazy_update] extends the current epoch. *)
Lemma since_snoc cs c : c <> KLazyUpdate -> since_update A (rev (cs ++ [c])) = since_update A (O := O) (rev cs) ++ [c].
Proof. intros H. rewrite rev_app_distr. cbn [rev app since_update]. destruct c; try reflexivity. contradiction. Qed.
Lemma before_snoc cs c : c <> KLazyUpdate -> before_update A (rev (cs ++ [c])) = before_update A (O := O) (rev cs).
Proof. intros H. rewrite rev_app_distr. cbn [rev app before_update]. destruct c; try reflexivity. contradiction. Qed.

Lemma bind_wf (k : kdtree) rd wr nb n : kwf k -> Z.of_nat (length rd) = nw * nh -> Z.of_nat (length wr) = nw * nh ->
  (k_checked k = false -> (N.of_nat (total wr) <= n)%N) -> kwf (with_bags A k rd wr nb n).
Proof. intros (W1 & W2 & W3 & W4 & W5 & _) L1 L2 L3. unfold kwf, with_bags. cbn. repeat (split; [assumption|]). assumption. Qed.

Lemma step_ok cs k c : kwf k -> shape k = shape k0 -> k_after cs k -> k_in A p w h d c ->
  exists k', k_step A eqo p k c = Some k' /\ kwf k' /\ shape k' = shape k0 /\ k_after (cs ++ [c]) k'.
Proof.
  intros W Sh (B & Nb & Pr & Ag) Hc. pose proof W as (W1 & W2 & W3 & W4 & W5 & W6 & W7 & W8).
  pose proof (fun c H => proj1 (B c H)) as BR. pose proof (fun c H => proj2 (B c H)) as BW.
  assert (IX : forall l, k_index A k l = cell_index nh (discretize A d l)) by (intros l; unfold k_index; rewrite W3, W4; reflexivity).
  destruct c as [o l|o l|o l| |s o]; cbn [k_step k_in] in *.
  - (* insert *)
    unfold k_insert. rewrite IX. destruct (push_bag (k_write k) _ _ o W7 Hc BW) as (wr & -> & L & TT & H).
    rewrite (shape_regions k l Sh).
    assert (G : exists nb, match region l with None => Some (with_bags A k (k_read k) wr (k_neighbors k) (bump A k))
                           | Some i => option_map (fun nb => with_bags A k (k_read k) wr nb (bump A k)) (push (k_neighbors k) i o) end
                         = Some (with_bags A k (k_read k) wr nb (bump A k)) /\
               nb = by_region (since_update A (rev (cs ++ [KInsert o l])))).
    { rewrite since_snoc by discriminate. unfold by_region. destruct (region l) as [g|] eqn:Eg.
      - pose proof (region_id l g Eg) as Hg. replace g with (Z.of_nat (Z.to_nat g)) by lia. rewrite Nb. unfold by_region.
        rewrite push_seq by lia. cbn [option_map]. eexists. split; [reflexivity|]. apply map_ext. intros i. rewrite inserted_app.
        cbn [inserted_in flat_map]. rewrite Eg. destruct (Nat.eqb_spec i (Z.to_nat g)) as [->|Ne].
        + rewrite Z2Nat.id by lia. rewrite Z.eqb_refl. reflexivity.
        + destruct (Z.eqb_spec g (Z.of_nat i)); [lia|]. cbn. rewrite app_nil_r. reflexivity.
      - eexists. split; [reflexivity|]. rewrite Nb. apply map_ext. intros i. rewrite inserted_app. cbn [inserted_in flat_map]. rewrite Eg. cbn.
        rewrite app_nil_r. reflexivity. }
    destruct G as (nb & -> & Enb). eexists. split; [reflexivity|]. split; [|split; [exact Sh|]].
    + apply bind_wf; try assumption. intros E. unfold bump. rewrite E. specialize (W8 E). lia.
    + split; [|split; [|split]]; cbn [k_read k_write k_neighbors k_prec_neighbors k_agents_to_send with_bags].
      * intros c Hr. rewrite H, BR by exact Hr. unfold k_readable, k_pending. rewrite calls_snoc, since_snoc by discriminate.
        cbn [as_calls]. unfold readable, pending. rewrite rev_app_distr. cbn [rev app previous_epoch current_epoch].
        rewrite read_app. cbn [read_inserts flat_map]. rewrite app_nil_r, at_cell_live_set. split; [reflexivity|].
        destruct (loc_eqb _ c); reflexivity.
      * exact Enb.
      * rewrite before_snoc by discriminate. exact Pr.
      * rewrite since_snoc by discriminate. rewrite Ag. apply map_ext. intros i. rewrite addressed_app. cbn. rewrite app_nil_r. reflexivity.
  - (* insert_read *)
    unfold k_insert_read. rewrite IX. destruct (push_bag (k_read k) _ _ o W6 Hc BR) as (rd & -> & L & TT & H). cbn [option_map].
    eexists. split; [reflexivity|]. split; [|split; [exact Sh|]].
    + apply bind_wf; try assumption. intros E. unfold bump. rewrite E. specialize (W8 E). lia.
    + split; [|split; [|split]]; cbn [k_read k_write k_neighbors k_prec_neighbors k_agents_to_send with_bags].
      * intros c Hr. rewrite H, BW by exact Hr. unfold k_readable, k_pending. rewrite calls_snoc, since_snoc by discriminate.
        cbn [as_calls]. rewrite app_nil_r. split; [|reflexivity]. rewrite read_app. cbn [read_inserts flat_map]. rewrite app_nil_r.
        rewrite app_assoc. set (ps := readable A eqo d _ ++ _).
        assert (E : at_cell c (ps ++ [(o, l)]) = at_cell c ps ++ at_cell c [(o, l)]) by apply at_cell_app. rewrite E.
        unfold FieldProofs.at_cell at 4. cbn [filter snd map].
        destruct (loc_eqb _ c); cbn [map fst]; [reflexivity|rewrite app_nil_r; reflexivity].
      * rewrite since_snoc by discriminate. rewrite Nb. apply map_ext. intros i. rewrite inserted_app. cbn. rewrite app_nil_r. reflexivity.
      * rewrite before_snoc by discriminate. exact Pr.
      * rewrite since_snoc by discriminate. rewrite Ag. apply map_ext. intros i. rewrite addressed_app. cbn. rewrite app_nil_r. reflexivity.
  - (* remove *)
    assert (K : forall k', (forall c, in_range nw nh c -> vget (k_read k') (cell_index nh c) = vget (k_read k) (cell_index nh c) /\
                  vget (k_write k') (cell_index nh c) = Some (if loc_eqb (discretize A d l) c then without eqo o (at_cell c (k_pending A eqo d cs)) else at_cell c (k_pending A eqo d cs))) ->
                k_neighbors k' = k_neighbors k -> k_prec_neighbors k' = k_prec_neighbors k -> k_agents_to_send k' = k_agents_to_send k ->
                k_after (cs ++ [KRemove o l]) k').
    { intros k' H E1 E2 E3. split; [|split; [|split]].
      - intros c Hr. destruct (H c Hr) as [-> ->]. rewrite BR by exact Hr. unfold k_readable, k_pending. rewrite calls_snoc, since_snoc by discriminate.
        cbn [as_calls]. unfold readable, pending. rewrite rev_app_distr. cbn [rev app previous_epoch current_epoch].
        rewrite read_app. cbn [read_inserts flat_map]. rewrite app_nil_r, at_cell_live_remove. split; [reflexivity|].
        destruct (loc_eqb _ c); reflexivity.
      - rewrite E1, since_snoc by discriminate. rewrite Nb. apply map_ext. intros i. rewrite inserted_app. cbn. rewrite app_nil_r. reflexivity.
      - rewrite E2, before_snoc by discriminate. exact Pr.
      - rewrite E3, since_snoc by discriminate. rewrite Ag. apply map_ext. intros i. rewrite addressed_app. cbn. rewrite app_nil_r. reflexivity. }
    unfold k_remove. rewrite IX, (BW _ Hc). pose proof (BW _ Hc) as Eb. destruct (at_cell (discretize A d l) (k_pending A eqo d cs)) as [|x b] eqn:Ec.
    { exists k. split; [reflexivity|]. split; [exact W|]. split; [exact Sh|]. apply K; try reflexivity.
      intros c Hr. split; [reflexivity|]. rewrite BW by exact Hr. destruct (loc_eqb _ c) eqn:EC; [|reflexivity].
      apply loc_eqb_eq in EC. subst c. rewrite Ec. reflexivity. }
    destruct (set_bag (k_write k) _ (x :: b) (without eqo o (x :: b)) W7 Hc Eb) as (wr & -> & L & TT & H).
    pose proof (without_length eqo o (x :: b)) as WL. pose proof (total_in _ _ _ Eb) as TI.
    destruct (negb (k_checked k) && (k_nagents k <? N.of_nat (length (x :: b) - length (without eqo o (x :: b))))%N) eqn:Eg.
    { exfalso. apply andb_prop in Eg. destruct Eg as [E1 E2]. apply negb_true_iff in E1. apply N.ltb_lt in E2. specialize (W8 E1). lia. }
    cbn [option_map]. eexists. split; [reflexivity|]. split; [|split; [exact Sh|]].
    + apply bind_wf; try assumption. intros E. rewrite E. specialize (W8 E). lia.
    + apply K; try reflexivity. cbn [k_read k_write with_bags]. intros c Hr. split; [reflexivity|]. rewrite H by exact Hr.
      destruct (loc_eqb _ c) eqn:EC; [apply loc_eqb_eq in EC; subst c; rewrite Ec; reflexivity|apply BW; exact Hr].
  - (* lazy_update *)
    destruct GS as (G1 & G2 & G3 & G4).
    assert (K : forall wr n, Z.of_nat (length wr) = nw * nh -> (forall c, in_range nw nh c -> vget wr (cell_index nh c) = Some []) ->
       let k' := Kd (k_x k) (k_y k) (k_w k) (k_h k) (k_ow k) (k_oh k) (k_write k) wr (k_nagents k) (k_dh k) (k_dw k) (k_disc k)
       (k_subtrees k) (k_neighbor_trees k) (k_neighbors k) (repeat [] 4) [] (k_regions k)
       (k_neighbor_regions k) (repeat [] p) (k_distance k) n true in
       kwf k' /\ shape k' = shape k0 /\ k_after (cs ++ [KLazyUpdate]) k').
    { intros wr n L H k'. split; [|split; [exact Sh|]].
      - unfold kwf, k'. cbn. repeat (split; [assumption|]). discriminate.
      - split; [|split; [|split]]; unfold k'; cbn [k_read k_write k_neighbors k_prec_neighbors k_agents_to_send].
        + intros c Hr. rewrite H, BW by exact Hr. unfold k_readable, k_pending. rewrite calls_snoc. cbn [as_calls].
          unfold readable, pending. rewrite !rev_app_distr. cbn [rev app previous_epoch current_epoch since_update read_inserts flat_map].
          rewrite app_nil_r. split; reflexivity.
        + rewrite rev_app_distr. cbn [rev app since_update]. unfold by_region. apply repeat_seq.
        + rewrite rev_app_distr. cbn [rev app before_update]. exact Nb.
        + rewrite rev_app_distr. cbn [rev app since_update]. apply repeat_seq. }
    unfold k_lazy_update. cbv zeta. destruct (k_checked k).
    + eexists. split; [reflexivity|]. apply K; [rewrite map_length; exact W6|].
      intros c Hr. pose proof (BR c Hr) as X. unfold vget in *. destruct (as_index _); [|discriminate]. rewrite nth_error_map, X. reflexivity.
    + assert (EW : wrap32 (k_dw k * k_dh k) = nw * nh) by (rewrite W4, W5; apply wrap32_id; unfold in_i32; nia). rewrite EW. unfold as_index. destruct (Z.ltb_spec (nw * nh) 0); [nia|].
      destruct (Z.to_nat (nw * nh)) as [|m] eqn:Em; [nia|]. eexists. split; [reflexivity|]. apply K.
      * rewrite repeat_length. lia.
      * intros c Hr. apply vget_repeat. pose proof (cell_idx c Hr). lia.
  - (* address *)
    unfold k_address. rewrite Ag, push_seq by exact Hc. cbn [option_map]. eexists. split; [reflexivity|].
    split; [exact W|]. split; [exact Sh|]. split; [|split; [|split]]; cbn [k_read k_write k_neighbors k_prec_neighbors k_agents_to_send].
    + intros c Hr. rewrite BR, BW by exact Hr. unfold k_readable, k_pending. rewrite calls_snoc, since_snoc by discriminate.
      cbn [as_calls]. rewrite app_nil_r, read_app. cbn [read_inserts flat_map]. rewrite app_nil_r. split; reflexivity.
    + rewrite since_snoc by discriminate. rewrite Nb. apply map_ext. intros i. rewrite inserted_app. cbn. rewrite app_nil_r. reflexivity.
    + rewrite before_snoc by discriminate. exact Pr.
    + rewrite since_snoc by discriminate. apply map_ext. intros i. rewrite addressed_app. cbn [addressed flat_map].
      rewrite (Nat.eqb_sym s i). destruct (i =? s)%nat; cbn; [reflexivity|rewrite app_nil_r; reflexivity].
Qed.

Lemma run_snoc (k : kdtree) cs c : k_run A eqo p k (cs ++ [c]) = match k_run A eqo p k cs with None => None | Some k' => k_step A eqo p k' c end.
Proof. revert k. induction cs as [|x cs IH]; intros k; cbn; [destruct (k_step A eqo p k c); reflexivity|]. destruct (k_step A eqo p k x); [apply IH|reflexivity]. Qed.

Lemma k_history cs : Forall (k_in A p w h d) cs ->
  exists k, k_run A eqo p k0 cs = Some k /\ kwf k /\ shape k = shape k0 /\ k_after cs k.
Proof.
  induction cs as [|c cs IH] using rev_ind; intros Hin.
  - exists k0. split; [reflexivity|]. split; [exact K0|]. split; [reflexivity|]. split; [|split; [|split]].
    + intros c Hc. rewrite fresh_read, fresh_write by exact Hc. split; reflexivity.
    + rewrite fresh_neighbors. unfold by_region. cbn [rev since_update inserted_in flat_map]. apply repeat_seq.
    + exact fresh_prec.
    + rewrite fresh_send. cbn [rev since_update addressed flat_map]. apply repeat_seq.
  - apply Forall_app in Hin. destruct Hin as [Hin Hc]. inversion_clear Hc as [|? ? Hc' _].
    destruct (IH Hin) as (k & E & W & Sh & H). destruct (step_ok cs k c W Sh H Hc') as (k' & E' & R).
    exists k'. split; [rewrite run_snoc, E; exact E'|exact R].
Qed.

(** ** Queries *)
Variable location : O -> num A * num A.
(** The Field2D with the same bags. *)
Definition as_field (k : kdtree) (n : N) : field2d A (O := O) :=
  Field2D (k_read k) (k_write k) n (k_ow k) (k_oh k) (k_disc k) true (k_dh k) (k_dw k) 0 true.
Lemma as_field_wf k : kwf k -> fwf A w h d true (as_field k 0).
Proof.
  intros (W1 & W2 & W3 & W4 & W5 & W6 & W7 & W8). unfold fwf, as_field. cbn. repeat (split; [assumption|]). split; [reflexivity|].
  repeat (split; [assumption|]). discriminate.
Qed.
Lemma window_same k n l dist : k_window A k l dist = window A (as_field k n) l dist.
Proof. reflexivity. Qed.

Lemma concat_filter {X} (f : X -> bool) l : filter f (concat l) = concat (map (filter f) l).
Proof. induction l as [|x l IH]; [reflexivity|]. cbn. rewrite filter_app, IH. reflexivity. Qed.
Lemma filter_filter {X} (f g : X -> bool) l : filter g (filter f l) = filter (fun x => f x && g x) l.
Proof. induction l as [|x l IH]; [reflexivity|]. cbn. destruct (f x); cbn; [destruct (g x); rewrite IH; reflexivity|exact IH]. Qed.
Lemma mapM_filter {X Y} (g : Y -> bool) (f f' : X -> option (list Y)) l : (forall x, f' x = option_map (filter g) (f x)) ->
  option_map (@concat Y) (mapM f' l) = option_map (filter g) (option_map (@concat Y) (mapM f l)).
Proof.
  intros H. replace (mapM f' l) with (option_map (map (filter g)) (mapM f l)).
  - destruct (mapM f l); cbn; [rewrite concat_filter|]; reflexivity.
  - induction l as [|x l IH]; [reflexivity|]. cbn [mapM]. rewrite <- IH, H. destruct (f x); [|reflexivity]. cbn. destruct (mapM f l); reflexivity.
Qed.

Lemma neighbors_same k n l dist :
  k_neighbors_within A location k l dist =
  option_map (filter (fun o => negb (eqpt A (location o) l))) (f_neighbors A location (as_field k n) l dist).
Proof.
  unfold k_neighbors_within, f_neighbors. destruct (le A dist (of_int A 0)); [reflexivity|]. rewrite (window_same k n).
  destruct (window A (as_field k n) l dist) as [ids|]; [|reflexivity]. apply mapM_filter. intros c. cbv zeta. cbn [f_read f_dh f_disc f_width f_height f_toroidal as_field].
  destruct (vget _ _); [|reflexivity]. cbn [option_map]. rewrite filter_filter. reflexivity.
Qed.
Definition clipped (k : kdtree) (dist : T) : T := if lt A (k_distance k) dist then k_distance k else dist.
Lemma relax_same k n l dist :
  k_relax A location k l dist = option_map (filter (fun o => negb (eqpt A (location o) l))) (f_relax A (as_field k n) l (clipped k dist)).
Proof.
  unfold k_relax, f_relax. fold (clipped k dist). destruct (le A (clipped k dist) (of_int A 0)); [reflexivity|]. rewrite (window_same k n).
  destruct (window A (as_field k n) l (clipped k dist)) as [ids|]; [|reflexivity]. apply mapM_filter. reflexivity.
Qed.
End Store.

(** ** What is handed to the network *)
Lemma fill_slots_ok {O} p : forall (jobs : list (Z * option (list O))) (f : nat -> list O),
  Forall (fun j => 0 <= fst j < Z.of_nat p /\ snd j <> None) jobs ->
  fill_slots (map f (seq 0 p)) jobs =
  Some (map (fun s => f s ++ flat_map (fun j => if fst j =? Z.of_nat s then match snd j with Some os => os | None => [] end else []) jobs) (seq 0 p)).
Proof.
  induction jobs as [|[i os] jobs IH]; intros f HF; cbn [fill_slots flat_map fst snd].
  - f_equal. apply map_ext. intros s. rewrite app_nil_r. reflexivity.
  - inversion HF as [|? ? [Hi Hn] HF']; subst. cbn [fst snd] in *. destruct os as [os|]; [|congruence].
    assert (E : extend_slot (map f (seq 0 p)) i os = Some (map (fun s => if (s =? Z.to_nat i)%nat then f s ++ os else f s) (seq 0 p))).
    { unfold extend_slot, vget, vset, as_index. destruct (Z.ltb_spec i 0); [lia|].
      rewrite nth_error_map, (nth_error_nth' (seq 0 p) 0%nat) by (rewrite seq_length; lia). rewrite seq_nth by lia.
      cbn [option_map Nat.add]. rewrite map_length, seq_length. destruct (Nat.ltb_spec (Z.to_nat i) p); [|lia].
      rewrite seq_lset by lia. cbn [Nat.add]. f_equal. apply map_ext. intros s. destruct (Nat.eqb_spec s (Z.to_nat i)); [subst|]; reflexivity. }
    rewrite E, IH by exact HF'. f_equal. apply map_ext. intros s.
    destruct (Nat.eqb_spec s (Z.to_nat i)) as [->|Ne].
    + rewrite Z2Nat.id by lia. rewrite Z.eqb_refl, <- app_assoc. reflexivity.
    + destruct (Z.eqb_spec i (Z.of_nat s)); [lia|]. reflexivity.
Qed.

Lemma nth_seq {X} (f : nat -> X) s n : (s < n)%nat -> nth_error (map f (seq 0 n)) s = Some (f s).
Proof. intros H. rewrite nth_error_map, (nth_error_nth' (seq 0 n) 0%nat) by (rewrite seq_length; exact H). rewrite seq_nth by exact H. reflexivity. Qed.
Lemma vget_seq {X} (f : nat -> X) s n : (s < n)%nat -> vget (map f (seq 0 n)) (Z.of_nat s) = Some (f s).
Proof. intros H. unfold vget, as_index. destruct (Z.ltb_spec (Z.of_nat s) 0); [lia|]. rewrite Nat2Z.id. apply nth_seq, H. Qed.

(** The neighbour pairs of a new tree are in range. *)
Lemma neighbor_regions_in A rank ow oh (rs bs : list (block A)) g i :
  In (g, i) (concat (neighbor_regions A rank ow oh rs bs)) ->
  exists r b, In r rs /\ In b bs /\ b_id r = g /\ b_id b = i /\ i <> rank /\ share_point A (block_points A ow oh r) (block_points A ow oh b) = true.
Proof.
  intros H. apply in_concat in H. destruct H as (x & Hx & Hi). unfold neighbor_regions in Hx. apply filter_In in Hx. destruct Hx as [Hx _].
  apply in_map_iff in Hx. destruct Hx as (r & <- & Hr). unfold filter_map in Hi. apply in_flat_map in Hi. destruct Hi as (b & Hb & Hi).
  destruct ((b_id b =? rank) || _) eqn:E; [destruct Hi|]. destruct Hi as [Hi|[]]. injection Hi as E1 E2.
  apply orb_false_elim in E. destruct E as [N S]. apply Z.eqb_neq in N. apply negb_false_iff in S. exists r, b. subst. repeat split; auto.
Qed.
Lemma neighbor_regions_count A rank ow oh (rs bs : list (block A)) :
  NoDup (map b_id rs) -> NoDup (map b_id bs) -> NoDup (concat (neighbor_regions A rank ow oh rs bs)).
Proof.
  intros Nr Nb. unfold neighbor_regions.
  set (f := fun r => filter_map _ bs).
  assert (E : forall l : list (list (Z * Z)), concat (filter some_in l) = concat l).
  { induction l as [|[|y x] l IH]; cbn; [reflexivity|exact IH|rewrite IH; reflexivity]. }
  rewrite E. clear E.
  assert (F : forall r g i, In (g, i) (f r) -> g = b_id r).
  { intros r g i H. apply in_flat_map in H. destruct H as (b & _ & H). destruct ((b_id b =? rank) || _); [destruct H|]. destruct H as [H|[]]. congruence. }
  assert (D : forall r, NoDup (f r)).
  { intros r. unfold f, filter_map. clear f F. induction bs as [|b bs' IH]; cbn [flat_map]; [constructor|]. cbn [map] in Nb. inversion Nb; subst.
    destruct ((b_id b =? rank) || _); cbn [app]; [apply IH; assumption|]. constructor; [|apply IH; assumption].
    intros H. apply in_flat_map in H. destruct H as (b' & Hb' & H). destruct ((b_id b' =? rank) || _); [destruct H|]. destruct H as [H|[]].
    injection H as H. apply H1. rewrite <- H. apply in_map. exact Hb'. }
  induction rs as [|r rs IH]; cbn [map concat]; [constructor|]. cbn [map] in Nr. inversion Nr; subst.
  assert (X : forall l, NoDup l -> (forall q, In q l -> In q (f r)) -> NoDup (l ++ concat (map f rs))).
  { induction l as [|q l IHl]; intros Dl Sub; [apply IH; assumption|]. inversion Dl; subst. cbn. constructor.
    - rewrite in_app_iff. intros [H|H]; [contradiction|]. apply in_concat in H. destruct H as (x & Hx & Hq). apply in_map_iff in Hx.
      destruct Hx as (r' & <- & Hr'). destruct q as [g i]. pose proof (F _ _ _ Hq). pose proof (F _ _ _ (Sub _ (or_introl eq_refl))).
      apply H1. replace (b_id r) with (b_id r') by congruence. apply in_map. exact Hr'.
    - apply IHl; [assumption|]. intros q' Hq'. apply Sub. right. exact Hq'. }
  apply X; [apply D|auto].
Qed.

Section Fresh.
Variable A : arith.
Context {O : Type}.
Variable eqo : O -> O -> bool.
Variable location : O -> num A * num A.
Notation kdtree := (kdtree A (O := O)).

(** A new tree satisfies the hypotheses of the section above. *)
Lemma fresh_tree p rank x y w h d dist : good_size A w h d -> (2 <= p)%nat -> (rank < p)%nat ->
  exists (k0 : kdtree), create_tree A p (Z.of_nat rank) 0 x y w h d dist = Some k0 /\ kwf A w h d k0 /\
    (forall l g, region_of A k0 l = Some g -> 0 <= g < 4) /\
    (forall c, in_range (cols A w d) (cols A h d) c -> vget (k_read k0) (cell_index (cols A h d) c) = Some []) /\
    (forall c, in_range (cols A w d) (cols A h d) c -> vget (k_write k0) (cell_index (cols A h d) c) = Some []) /\
    k_neighbors k0 = repeat [] 4 /\ k_prec_neighbors k0 = [] /\ k_agents_to_send k0 = repeat [] p /\ k_distance k0 = dist /\
    (forall g i, In (g, i) (concat (k_neighbor_regions k0)) -> 0 <= g < 4 /\ 0 <= i < Z.of_nat p) /\
    NoDup (concat (k_neighbor_regions k0)) /\
    NoDup (k_neighbor_trees k0) /\ Forall (fun i => 0 <= i < Z.of_nat p) (k_neighbor_trees k0).
Proof.
  intros GS Hp Hr.
  destruct (create_tree_eq A (O := O) p rank x y w h d dist Hp Hr) as (l & r & k & E1 & L & Nr & C & Sb & _ & _ & _ & _ & Ew & Eh & NT & RG & NR & DI & DD & CH & NA & DH & DW & RD & WR & NB & AS).
  exists k. split; [exact C|]. destruct (new_ok A (O := O) w h d true GS) as [W0 H0].
  pose proof GS as (G1 & G2 & G3 & G4). assert (B1 : cols A w d < 2 ^ 31) by nia. assert (B2 : cols A h d < 2 ^ 31) by nia.
  assert (LN : Z.of_nat (N.to_nat (bag_count A w h d)) = cols A w d * cols A h d) by lia.
  assert (TT : forall n, total (repeat (@nil O) n) = 0%nat) by (induction n; cbn; auto).
  split; [|split; [|split; [|split; [|split; [exact NB|split; [|split; [exact AS|split; [exact DI|split; [|split; [|split]]]]]]]]]].
  - unfold kwf. rewrite RD, WR, repeat_length, TT. repeat (split; [assumption|]). split; [rewrite DH; apply wrap32_id; unfold cols, in_i32 in *; lia|].
    split; [rewrite DW; apply wrap32_id; unfold cols, in_i32 in *; lia|]. split; [exact LN|]. split; [exact LN|]. intros _. rewrite NA. reflexivity.
  - intros q g. unfold region_of. rewrite RG. intros Hg. destruct (find _ _) as [b|] eqn:Ef; [|discriminate]. apply find_some in Ef. destruct Ef as [Hb _].
    injection Hg as <-. cbn in Hb. destruct Hb as [<-|[<-|[<-|[<-|[]]]]]; cbn; lia.
  - intros c Hc. rewrite RD. apply vget_repeat. rewrite LN. apply idx; assumption.
  - intros c Hc. rewrite WR. apply vget_repeat. rewrite LN. apply idx; assumption.
  - clear - C. unfold create_tree in C. destruct (blocks A p 0 x y w h); [|discriminate]. destruct (fold_left _ _ _) as [[? ?] [? ?]]. injection C as <-. reflexivity.
  - intros g i H. rewrite NR in H. apply neighbor_regions_in in H. destruct H as (rb & b & Hrb & Hb & <- & <- & _). split.
    + rewrite RG in Hrb. cbn in Hrb. destruct Hrb as [<-|[<-|[<-|[<-|[]]]]]; cbn; lia.
    + apply number_In in Hb. destruct Hb as (j & q & Hj & ->). cbn. assert (j < length l)%nat by (apply nth_error_Some; congruence). lia.
  - rewrite NR. apply neighbor_regions_count.
    + rewrite RG. cbn. repeat constructor; cbn; intuition discriminate.
    + rewrite number_ids. apply FinFun.Injective_map_NoDup; [intros a b; lia|apply seq_NoDup].
  - rewrite NT. match goal with |- NoDup (map b_id (filter ?f _)) => destruct (number_sorted A 0 l f) as [S1 _] end.
    revert S1. generalize (map b_id (filter (fun b : block A => negb (b_id b =? Z.of_nat rank) && share_point A (block_points A w h (to_block A (Z.of_nat rank) r)) (block_points A w h b)) (number A 0 l))).
    intros m0 S1. clear - S1. induction S1 as [|a m S1 IH F]; constructor; [|assumption].
    intros H. rewrite Forall_forall in F. specialize (F _ H). lia.
  - rewrite NT. match goal with |- Forall _ (map b_id (filter ?f _)) => destruct (number_sorted A 0 l f) as [_ S2] end. eapply Forall_impl; [|exact S2]. cbn. intros; lia.
Qed.

(** The slots handed to the network after any calls with at least one [lazy_update]:
    by regions, from [prec_neighbors]. *)
Lemma outgoing_regions p rank x y w h d dist cs e : good_size A w h d -> (2 <= p)%nat -> (rank < p)%nat ->
  Forall (k_in A p w h d) cs -> before_update A (rev cs) = Some e ->
  exists (k0 k : kdtree) out, create_tree A p (Z.of_nat rank) 0 x y w h d dist = Some k0 /\ k_run A eqo p k0 cs = Some k /\
    outgoing A p k (k_prec_neighbors k) true = Some out /\
    out = map (fun s => flat_map (fun n => if snd n =? Z.of_nat s then inserted_in A (region_of A k0) e (fst n) else []) (concat (k_neighbor_regions k0))) (seq 0 p).
Proof.
  intros GS Hp Hr Hin He.
  destruct (fresh_tree p rank x y w h d dist GS Hp Hr) as (k0 & C & K0 & F1 & F2 & F3 & F4 & F5 & F6 & F7 & F8 & F9 & _).
  destruct (k_history A eqo w h d GS p k0 K0 F1 F2 F3 F4 F5 F6 cs Hin) as (k & E & W & Sh & (_ & _ & Pr & _)).
  rewrite He in Pr. exists k0, k. eexists. split; [exact C|]. split; [exact E|].
  assert (NR : k_neighbor_regions k = k_neighbor_regions k0) by (unfold shape in Sh; congruence).
  split; [|reflexivity]. unfold outgoing. rewrite NR, Pr, repeat_seq. rewrite fill_slots_ok.
  - f_equal. apply map_ext. intros s. cbn [app].
    assert (Q : forall n, In n (concat (k_neighbor_regions k0)) -> vget (by_region A k0 e) (fst n) = Some (inserted_in A (region_of A k0) e (fst n))).
    { intros [g i] H. destruct (F8 _ _ H) as [Hg _]. cbn [fst]. unfold by_region. replace g with (Z.of_nat (Z.to_nat g)) by lia. rewrite vget_seq by lia. reflexivity. }
    clear - Q. induction (concat (k_neighbor_regions k0)) as [|n ns IH]; [reflexivity|]. cbn [map flat_map fst snd]. rewrite IH by (intros; apply Q; right; assumption).
    rewrite Q by (left; reflexivity). reflexivity.
  - apply Forall_forall. intros j Hj. apply in_map_iff in Hj. destruct Hj as ([g i] & <- & Hj). destruct (F8 _ _ Hj) as [Hg Hi]. cbn [fst snd]. split; [exact Hi|].
    unfold by_region. replace g with (Z.of_nat (Z.to_nat g)) by lia. rewrite vget_seq by lia. discriminate.
Qed.

(** By neighbours, from what the user's code addressed since the last update. *)
Lemma outgoing_addressed p rank x y w h d dist cs arg : good_size A w h d -> (2 <= p)%nat -> (rank < p)%nat ->
  Forall (k_in A p w h d) cs ->
  exists (k0 k : kdtree) out, create_tree A p (Z.of_nat rank) 0 x y w h d dist = Some k0 /\ k_run A eqo p k0 cs = Some k /\
    outgoing A p k arg false = Some out /\
    out = map (fun s => if existsb (Z.eqb (Z.of_nat s)) (k_neighbor_trees k0) then addressed A (since_update A (rev cs)) s else []) (seq 0 p).
Proof.
  intros GS Hp Hr Hin.
  destruct (fresh_tree p rank x y w h d dist GS Hp Hr) as (k0 & C & K0 & F1 & F2 & F3 & F4 & F5 & F6 & F7 & F8 & _ & F9 & F10).
  destruct (k_history A eqo w h d GS p k0 K0 F1 F2 F3 F4 F5 F6 cs Hin) as (k & E & W & Sh & (_ & _ & _ & Ag)).
  exists k0, k. eexists. split; [exact C|]. split; [exact E|].
  assert (NR : k_neighbor_trees k = k_neighbor_trees k0) by (unfold shape in Sh; congruence).
  split; [|reflexivity]. unfold outgoing. rewrite NR, Ag, repeat_seq. rewrite fill_slots_ok.
  - f_equal. apply map_ext_in. intros s Hs. apply in_seq in Hs. cbn [app]. clear - F9 F10 Hs.
    assert (Q : forall l, NoDup l -> flat_map (fun j : Z * option (list O) => if fst j =? Z.of_nat s then match snd j with Some os => os | None => [] end else [])
       (map (fun n => (n, vget (map (addressed A (since_update A (rev cs))) (seq 0 p)) n)) l) =
       if existsb (Z.eqb (Z.of_nat s)) l then addressed A (since_update A (rev cs)) s else []).
    { induction 1 as [|n l Hn N IH]; [reflexivity|]. cbn [map flat_map fst snd existsb]. rewrite IH, Z.eqb_sym. destruct (Z.eqb_spec (Z.of_nat s) n) as [<-|Ne]; [|reflexivity].
      rewrite vget_seq by lia. cbn [orb]. replace (existsb (Z.eqb (Z.of_nat s)) l) with false; [apply app_nil_r|].
      symmetry. apply not_true_is_false. intros X. apply existsb_exists in X. destruct X as (m & Hm & Em). apply Z.eqb_eq in Em. congruence. }
    apply Q. exact F9.
  - apply Forall_forall. intros j Hj. apply in_map_iff in Hj. destruct Hj as (i & <- & Hj). rewrite Forall_forall in F10. specialize (F10 _ Hj). cbn [fst snd]. split; [exact F10|].
    replace i with (Z.of_nat (Z.to_nat i)) by lia. rewrite vget_seq by lia. discriminate.
Qed.
End Fresh.
