(** * Proofs about the parallel scheduler *)
From Coq Require Import List Bool ZArith NArith Arith Lia Permutation.
From Verif Require Import F32 F32Facts SchedModel SchedSpec SchedProofs SchedStep Merge ParModel ParSpec.
Import ListNotations.

Section Par.
Context {A S : Type}.

(** ** The critical sections *)

(** What remains to be done for the item of the lock holder, as one block. *)
Definition resume (u : user A S) (p : pc A) (sc : sched A) (w : world A S)
  : sched A * world A S :=
  match p with
  | PBefore e => run_item u sc w e
  | PStep e =>
      let (a2, w2) := call_agent (a_step u) CAgentStep (fst e) w in
      let (a3, w3) := call_agent (a_after u) CAgentAfter a2 w2 in
      if ai_rep a3 then
        let '(stop, (a4, w4)) := call_stopped u a3 w3 in
        if stop then (sc, w4) else (schedule_once sc a4 (fadd (ev_time e) f1) (ev_ord e), w4)
      else (sc, w3)
  | PAfter e =>
      let (a3, w3) := call_agent (a_after u) CAgentAfter (fst e) w in
      if ai_rep a3 then
        let '(stop, (a4, w4)) := call_stopped u a3 w3 in
        if stop then (sc, w4) else (schedule_once sc a4 (fadd (ev_time e) f1) (ev_ord e), w4)
      else (sc, w3)
  | PCheck e =>
      if ai_rep (fst e) then
        let '(stop, (a4, w4)) := call_stopped u (fst e) w in
        if stop then (sc, w4) else (schedule_once sc a4 (fadd (ev_time e) f1) (ev_ord e), w4)
      else (sc, w)
  | PLockQ e | PPush e => (schedule_once sc (fst e) (fadd (ev_time e) f1) (ev_ord e), w)
  | PNext | PUnlockQ | PUnlockS => (sc, w)
  end.

Definition in_q (p : pc A) : bool := match p with PPush _ | PUnlockQ => true | _ => false end.

(** Mutual exclusion. *)
Definition excl (c : config A S) : Prop :=
  match c_lockS c with
  | None => c_lockQ c = None /\
            forall t th, nth_error (c_threads c) t = Some th -> t_pc th = PNext
  | Some h =>
      exists th, nth_error (c_threads c) h = Some th /\ t_pc th <> PNext /\
        c_lockQ c = (if in_q (t_pc th) then Some h else None) /\
        forall t th', t <> h -> nth_error (c_threads c) t = Some th' -> t_pc th' = PNext
  end.

(** The work already started, as a sequential execution [order]. *)
Definition sim (u : user A S) bs sc0 w0 (c : config A S) : Prop :=
  exists order,
    (forall o, merge (map t_rest (c_threads c)) o -> merge bs (order ++ o)) /\
    run_items u sc0 w0 order =
      match c_lockS c with
      | None => (c_sc c, c_w c)
      | Some h => match nth_error (c_threads c) h with
                  | Some th => resume u (t_pc th) (c_sc c) (c_w c)
                  | None => (c_sc c, c_w c)
                  end
      end.

Lemma run_items_app u l1 : forall l2 sc (w : world A S),
  run_items u sc w (l1 ++ l2) = let (sc', w') := run_items u sc w l1 in run_items u sc' w' l2.
Proof.
  induction l1 as [|e l1 IH]; intros l2 sc w; cbn [run_items app]; [reflexivity|].
  destruct (run_item u sc w e) as [sc' w']. apply IH.
Qed.

(** A thread other than the holder of the state lock sits before the lock. *)
Lemma micro_holder u t c c' : excl c -> micro u t c = Some c' ->
  (c_lockS c = None /\ exists e rest,
     nth_error (c_threads c) t = Some (Thread PNext (e :: rest)) /\
     c' = Config (Some t) (c_lockQ c) (c_sc c) (c_w c)
            (upd (c_threads c) t (Thread (PBefore e) rest))) \/
  (c_lockS c = Some t /\ exists th, nth_error (c_threads c) t = Some th /\ t_pc th <> PNext).
Proof.
  unfold excl, micro. intros Hx Hm.
  destruct (nth_error (c_threads c) t) as [th|] eqn:Ht; [|discriminate].
  destruct (c_lockS c) as [h|] eqn:Hl.
  - right. destruct Hx as (thh & Hh & Hpc & Hq & Hoth).
    destruct (Nat.eq_dec t h) as [->|Hne].
    + split; [reflexivity|]. exists th. split; [reflexivity|]. congruence.
    + rewrite (Hoth t th Hne Ht) in Hm. destruct (t_rest th); discriminate.
  - left. split; [reflexivity|]. destruct Hx as [_ Hall].
    pose proof (Hall t th Ht) as Hp. rewrite Hp in Hm.
    destruct th as [p rest]; cbn in *; subst p.
    destruct rest as [|e rest]; [discriminate|]. inversion Hm. exists e, rest. auto.
Qed.

Lemma map_upd {X Y} (f : X -> Y) l i x : map f (upd l i x) = upd (map f l) i (f x).
Proof. revert i; induction l as [|a l IH]; intros [|i]; cbn; [auto..|]. rewrite IH. auto. Qed.
Lemma upd_same {X} (l : list X) i x : nth_error l i = Some x -> upd l i x = l.
Proof. revert i; induction l as [|a l IH]; intros [|i]; cbn; intros H; try discriminate.
  - inversion H; reflexivity.
  - rewrite IH by exact H. reflexivity. Qed.

Lemma rest_same (c : config A S) t th p :
  nth_error (c_threads c) t = Some th ->
  map t_rest (upd (c_threads c) t (Thread p (t_rest th))) = map t_rest (c_threads c).
Proof.
  intros H. rewrite map_upd. apply upd_same. rewrite nth_error_map, H. reflexivity.
Qed.

(** Every micro step keeps both invariants. *)
Lemma micro_inv u bs sc0 w0 t c c' :
  excl c -> sim u bs sc0 w0 c -> micro u t c = Some c' -> excl c' /\ sim u bs sc0 w0 c'.
Proof.
  intros Hx Hs Hm. destruct (micro_holder u t c c' Hx Hm) as
    [(Hl & e & rest & Ht & ->)|(Hl & th & Ht & Hne)].
  - (* taking the state lock *)
    unfold excl in Hx. rewrite Hl in Hx. destruct Hx as [Hq Hall]. split.
    + unfold excl. cbn. exists (Thread (PBefore e) rest).
      split; [eapply upd_nth_same; exact Ht|]. split; [discriminate|]. split; [exact Hq|].
      intros t' th' Hne Ht'. rewrite upd_nth_other in Ht' by congruence. eauto.
    + destruct Hs as (order & Hmg & Hrun). rewrite Hl in Hrun.
      exists (order ++ [e]). split.
      * intros o Ho. cbn in Ho. rewrite <- app_assoc. apply Hmg. cbn [app].
        rewrite map_upd in Ho. cbn in Ho.
        assert (Ht2 : nth_error (map t_rest (c_threads c)) t = Some (e :: rest)).
        { rewrite nth_error_map, Ht. reflexivity. }
        destruct (upd_split _ _ rest _ Ht2) as (l1 & l2 & El & Eu & _).
        rewrite Eu in Ho. rewrite El. constructor. exact Ho.
      * cbn. rewrite (upd_nth_same _ _ _ _ Ht). cbn.
        rewrite run_items_app, Hrun. cbn. destruct (run_item u (c_sc c) (c_w c) e); reflexivity.
  - unfold excl in Hx. rewrite Hl in Hx. destruct Hx as (th0 & Ht0 & _ & Hq & Hoth).
    rewrite Ht in Ht0. inversion Ht0; subst th0; clear Ht0.
    destruct Hs as (order & Hmg & Hrun). rewrite Hl, Ht in Hrun.
    assert (Goal1 : forall lq sc w p,
      c' = Config (Some t) lq sc w (upd (c_threads c) t (Thread p (t_rest th))) ->
      p <> PNext -> lq = (if in_q p then Some t else None) ->
      resume u p sc w = resume u (t_pc th) (c_sc c) (c_w c) ->
      excl c' /\ sim u bs sc0 w0 c').
    { intros lq sc w p -> Hp Hlq Hres. split.
      - unfold excl. cbn. exists (Thread p (t_rest th)).
        split; [eapply upd_nth_same; exact Ht|]. split; [exact Hp|]. split; [exact Hlq|].
        intros t' th' Hne' Ht'. rewrite upd_nth_other in Ht' by congruence. eauto.
      - exists order. cbn. rewrite (upd_nth_same _ _ _ _ Ht). cbn.
        rewrite (rest_same c t th p Ht). split; [exact Hmg|]. congruence. }
    unfold micro in Hm. rewrite Ht in Hm.
    destruct (t_pc th) as [|e|e|e|e|e|e| |] eqn:Hpc; cbn [in_q] in Hq.
    + congruence.
    + destruct (call_agent (a_before u) CAgentBefore (fst e) (c_w c)) as [a w] eqn:E.
      inversion Hm; subst c'. rewrite Hl, Hq in *. eapply Goal1; [reflexivity|discriminate|reflexivity|].
      cbn. unfold run_item. rewrite E. reflexivity.
    + destruct (call_agent (a_step u) CAgentStep (fst e) (c_w c)) as [a w] eqn:E.
      inversion Hm; subst c'. rewrite Hl, Hq in *. eapply Goal1; [reflexivity|discriminate|reflexivity|].
      cbn. rewrite E. reflexivity.
    + destruct (call_agent (a_after u) CAgentAfter (fst e) (c_w c)) as [a w] eqn:E.
      inversion Hm; subst c'. rewrite Hl, Hq in *. eapply Goal1; [reflexivity|discriminate|reflexivity|].
      cbn. rewrite E. reflexivity.
    + destruct (ai_rep (fst e)) eqn:Er.
      * destruct (call_stopped u (fst e) (c_w c)) as [stop [a w]] eqn:E.
        inversion Hm; subst c'. rewrite Hl, Hq in *.
        eapply Goal1; [reflexivity|destruct stop; discriminate|destruct stop; reflexivity|].
        cbn. rewrite Er, E. destruct stop; reflexivity.
      * inversion Hm; subst c'. rewrite Hl, Hq in *. eapply Goal1; [reflexivity|discriminate|reflexivity|].
        cbn. rewrite Er. reflexivity.
    + rewrite Hq in Hm. inversion Hm; subst c'. rewrite Hl in *.
      eapply Goal1; [reflexivity|discriminate|reflexivity|reflexivity].
    + inversion Hm; subst c'. rewrite Hl, Hq in *.
      eapply Goal1; [reflexivity|discriminate|reflexivity|reflexivity].
    + inversion Hm; subst c'. rewrite Hl in *.
      eapply Goal1; [reflexivity|discriminate|reflexivity|reflexivity].
    + (* releasing the state lock *)
      inversion Hm; subst c'. split.
      * unfold excl. cbn. split; [exact Hq|]. intros t' th' Ht'.
        destruct (Nat.eq_dec t t') as [<-|Hn].
        -- rewrite (upd_nth_same _ _ _ _ Ht) in Ht'. inversion Ht'; reflexivity.
        -- rewrite upd_nth_other in Ht' by exact Hn. eauto.
      * exists order. cbn. rewrite (rest_same c t th PNext Ht). split; [exact Hmg|]. exact Hrun.
Qed.

Lemma start_inv u bs sc0 w0 : excl (start sc0 w0 bs) /\ sim u bs sc0 w0 (@start A S sc0 w0 bs).
Proof.
  unfold start. split.
  - unfold excl. cbn. split; [reflexivity|]. intros t th H. rewrite nth_error_map in H.
    destruct (nth_error bs t); inversion H; reflexivity.
  - exists []. cbn. rewrite map_map. cbn. rewrite map_id. auto.
Qed.

Lemma exec_inv u bs sc0 w0 inter : forall c,
  excl c -> sim u bs sc0 w0 c -> excl (exec u inter c) /\ sim u bs sc0 w0 (exec u inter c).
Proof.
  induction inter as [|t inter IH]; intros c Hx Hs; cbn [exec]; [auto|].
  destruct (micro u t c) as [c'|] eqn:E; [|auto].
  destruct (micro_inv _ _ _ _ _ _ _ Hx Hs E). auto.
Qed.

Lemma finished_spec (c : config A S) :
  finished c = true <-> forall th, In th (c_threads c) -> th = Thread PNext [].
Proof.
  unfold finished. rewrite forallb_forall. split; intros H th Hin; specialize (H th Hin).
  - destruct th as [[] []]; cbn in *; congruence.
  - rewrite H. reflexivity.
Qed.

(** Every interleaving that lets the workers finish is equivalent to running the items
    one after the other in some merge of the batches. *)
Lemma exec_serial (u : user A S) bs sc0 w0 inter :
  let c := exec u inter (start sc0 w0 bs) in
  finished c = true ->
  exists order, merge bs order /\ run_items u sc0 w0 order = (c_sc c, c_w c).
Proof.
  cbn zeta. intros Hf. destruct (start_inv u bs sc0 w0) as [Hx Hs].
  destruct (exec_inv u bs sc0 w0 inter _ Hx Hs) as [Hx' (order & Hmg & Hrun)].
  set (c := exec u inter (start sc0 w0 bs)) in *.
  rewrite finished_spec in Hf. exists order. split.
  - rewrite <- (app_nil_r order). apply Hmg. constructor. intros b Hb.
    apply in_map_iff in Hb. destruct Hb as (th & <- & Hth). rewrite (Hf th Hth). reflexivity.
  - unfold excl in Hx'. destruct (c_lockS c) as [h|]; [|exact Hrun].
    destruct Hx' as (th & Ht & Hp & _). exfalso. apply Hp. apply nth_error_In in Ht.
    rewrite (Hf th Ht). reflexivity.
Qed.

(** ** Progress *)

Definition pc_weight (p : pc A) : nat :=
  match p with
  | PNext => 0 | PUnlockS => 1 | PUnlockQ => 2 | PPush _ => 3 | PLockQ _ => 4
  | PCheck _ => 5 | PAfter _ => 6 | PStep _ => 7 | PBefore _ => 8
  end.
Definition th_weight (th : thread A) : nat := pc_weight (t_pc th) + 9 * length (t_rest th).
Definition weight (c : config A S) : nat := list_sum (map th_weight (c_threads c)).

Lemma weight_upd (l : list (thread A)) t th th' :
  nth_error l t = Some th ->
  list_sum (map th_weight (upd l t th')) + th_weight th = list_sum (map th_weight l) + th_weight th'.
Proof.
  intros H. destruct (upd_split l t th' th H) as (l1 & l2 & -> & -> & _).
  rewrite !map_app, !list_sum_app. cbn. lia.
Qed.

Lemma micro_weight u t c c' : micro u t c = Some c' -> weight c' < weight c.
Proof.
  unfold micro, weight. intros Hm.
  destruct (nth_error (c_threads c) t) as [th|] eqn:Ht; [|discriminate].
  assert (G : forall th', th_weight th' < th_weight th ->
     list_sum (map th_weight (upd (c_threads c) t th')) < list_sum (map th_weight (c_threads c))).
  { intros th' Hlt. pose proof (weight_upd _ _ _ th' Ht). lia. }
  unfold th_weight at 1 2 in G. destruct th as [p rest]. cbn [t_pc t_rest] in *.
  destruct p as [|e|e|e|e|e|e| |].
  - destruct rest as [|e rest]; [discriminate|]. destruct (c_lockS c); [discriminate|].
    inversion Hm; subst; cbn [c_threads]. apply G. cbn. lia.
  - destruct (call_agent _ _ _ _); inversion Hm; subst; cbn [c_threads]; apply G; cbn; lia.
  - destruct (call_agent _ _ _ _); inversion Hm; subst; cbn [c_threads]; apply G; cbn; lia.
  - destruct (call_agent _ _ _ _); inversion Hm; subst; cbn [c_threads]; apply G; cbn; lia.
  - destruct (ai_rep (fst e)).
    + destruct (call_stopped _ _ _) as [stop [a w]]; inversion Hm; subst; cbn [c_threads]; apply G.
      destruct stop; cbn; lia.
    + inversion Hm; subst; cbn [c_threads]; apply G; cbn; lia.
  - destruct (c_lockQ c); [discriminate|]. inversion Hm; subst; cbn [c_threads]; apply G; cbn; lia.
  - inversion Hm; subst; cbn [c_threads]; apply G; cbn; lia.
  - inversion Hm; subst; cbn [c_threads]; apply G; cbn; lia.
  - inversion Hm; subst; cbn [c_threads]; apply G; cbn; lia.
Qed.

(** No deadlock: unless all workers have finished, one can move. *)
Lemma micro_progress u c : excl c -> finished c = false -> exists t c', micro u t c = Some c'.
Proof.
  intros Hx Hf. unfold excl in Hx. destruct (c_lockS c) as [h|] eqn:Hl.
  - destruct Hx as (th & Ht & Hp & Hq & _). exists h. unfold micro. rewrite Ht.
    destruct (t_pc th) as [|e|e|e|e|e|e| |]; cbn [in_q] in Hq; try congruence.
    + destruct (call_agent _ _ _ _); eauto.
    + destruct (call_agent _ _ _ _); eauto.
    + destruct (call_agent _ _ _ _); eauto.
    + destruct (ai_rep (fst e)); [destruct (call_stopped _ _ _) as [? [? ?]]|]; eauto.
    + rewrite Hq. eauto.
    + eauto.
    + eauto.
    + eauto.
  - destruct Hx as [_ Hall].
    assert (E : exists th, In th (c_threads c) /\ t_rest th <> []).
    { unfold finished in Hf.
      assert (K : ~ forall th, In th (c_threads c) -> t_rest th = []).
      { intros K. rewrite (proj2 (forallb_forall _ _)) in Hf; [discriminate|].
        intros th Hin. rewrite (K th Hin).
        apply In_nth_error in Hin. destruct Hin as [t Ht]. rewrite (Hall t th Ht). reflexivity. }
      clear -K. induction (c_threads c) as [|th l IH]; [exfalso; apply K; intros ? []|].
      destruct (t_rest th) as [|e r] eqn:E.
      - destruct IH as (th' & Hin & Hne).
        + intros H. apply K. intros th' [<-|Hin]; auto.
        + exists th'. cbn. auto.
      - exists th. cbn. split; [auto|]. congruence. }
    destruct E as (th & Hin & Hne). apply In_nth_error in Hin. destruct Hin as [t Ht].
    exists t. unfold micro. rewrite Ht, (Hall t th Ht), Hl.
    destruct (t_rest th); [congruence|]. eauto.
Qed.

Lemma exec_app u l1 : forall l2 (c : config A S), exec u (l1 ++ l2) c = exec u l2 (exec u l1 c).
Proof. induction l1 as [|t l1 IH]; intros l2 c; cbn; auto. Qed.

Lemma can_finish u : forall n c, weight c <= n -> excl c -> exists more, finished (exec u more c) = true.
Proof.
  induction n as [|n IH]; intros c Hw Hx.
  - destruct (finished c) eqn:F; [exists []; exact F|].
    destruct (micro_progress u c Hx F) as (t & c' & Hm). pose proof (micro_weight _ _ _ _ Hm). lia.
  - destruct (finished c) eqn:F; [exists []; exact F|].
    destruct (micro_progress u c Hx F) as (t & c' & Hm). pose proof (micro_weight _ _ _ _ Hm) as W.
    assert (Hx' : excl c').
    { destruct (micro_holder u t c c' Hx Hm) as [(Hl & e & rest & Ht & ->)|(Hl & th & Ht & Hne)].
      - unfold excl in *. rewrite Hl in Hx. cbn. destruct Hx as [Hq Hall].
        exists (Thread (PBefore e) rest). split; [eapply upd_nth_same; exact Ht|].
        split; [discriminate|]. split; [exact Hq|].
        intros t' th' Hn Ht'. rewrite upd_nth_other in Ht' by congruence. eauto.
      - unfold excl in Hx. rewrite Hl in Hx. destruct Hx as (th0 & Ht0 & _ & Hq & Hoth).
        rewrite Ht in Ht0. inversion Ht0; subst th0.
        assert (Goal1 : forall lq sc w p,
          c' = Config (Some t) lq sc w (upd (c_threads c) t (Thread p (t_rest th))) ->
          p <> PNext -> lq = (if in_q p then Some t else None) -> excl c').
        { intros lq sc w p -> Hp Hlq. unfold excl. cbn. exists (Thread p (t_rest th)).
          split; [eapply upd_nth_same; exact Ht|]. split; [exact Hp|]. split; [exact Hlq|].
          intros t' th' Hne' Ht'. rewrite upd_nth_other in Ht' by congruence. eauto. }
        unfold micro in Hm. rewrite Ht in Hm.
        destruct (t_pc th) as [|e|e|e|e|e|e| |] eqn:Hpc; cbn [in_q] in Hq; rewrite ?Hl, ?Hq in Hm.
        + congruence.
        + destruct (call_agent _ _ _ _); inversion Hm; subst c'; eapply Goal1; [reflexivity|discriminate|reflexivity].
        + destruct (call_agent _ _ _ _); inversion Hm; subst c'; eapply Goal1; [reflexivity|discriminate|reflexivity].
        + destruct (call_agent _ _ _ _); inversion Hm; subst c'; eapply Goal1; [reflexivity|discriminate|reflexivity].
        + destruct (ai_rep (fst e)).
          * destruct (call_stopped _ _ _) as [stop [a w]]; inversion Hm; subst c';
              eapply Goal1; [reflexivity|destruct stop; discriminate|destruct stop; reflexivity].
          * inversion Hm; subst c'; eapply Goal1; [reflexivity|discriminate|reflexivity].
        + inversion Hm; subst c'; eapply Goal1; [reflexivity|discriminate|reflexivity].
        + inversion Hm; subst c'; eapply Goal1; [reflexivity|discriminate|reflexivity].
        + inversion Hm; subst c'; eapply Goal1; [reflexivity|discriminate|reflexivity].
        + inversion Hm; subst c'. unfold excl. cbn. split; [first [exact Hq|reflexivity]|].
          intros t' th' Ht'. destruct (Nat.eq_dec t t') as [<-|Hn].
          * rewrite (upd_nth_same _ _ _ _ Ht) in Ht'. inversion Ht'; reflexivity.
          * rewrite upd_nth_other in Ht' by exact Hn. eauto. }
    destruct (IH c') as [more Hmore]; [lia|exact Hx'|].
    exists (t :: more). cbn. rewrite Hm. exact Hmore.
Qed.

(** ** Dealing to threads *)

Lemma batch_other n t : forall l i, n <= t -> n <> 0 -> @batch A n t i l = [].
Proof.
  induction l as [|e l IH]; intros i Hle Hn; cbn; [reflexivity|].
  destruct (Nat.eqb_spec (i mod n) t) as [E|E]; [|auto].
  pose proof (Nat.mod_upper_bound i n Hn). lia.
Qed.

Lemma concat_insert {X} (f g : nat -> list X) x k : forall m s,
  s <= k < s + m -> (forall t, t <> k -> f t = g t) -> f k = x :: g k ->
  Permutation (concat (map f (seq s m))) (x :: concat (map g (seq s m))).
Proof.
  induction m as [|m IH]; intros s Hk Hoth Heq; [lia|]. cbn [seq map concat].
  destruct (Nat.eq_dec s k) as [->|Hne].
  - rewrite Heq. cbn. constructor. apply Permutation_app_head.
    assert (E : map f (seq (Datatypes.S k) m) = map g (seq (Datatypes.S k) m)).
    { apply map_ext_in. intros a Ha. apply in_seq in Ha. apply Hoth. lia. }
    rewrite E. apply Permutation_refl.
  - rewrite (Hoth s) by auto. rewrite (IH (Datatypes.S s)) by (auto; lia).
    rewrite Permutation_middle. apply Permutation_refl.
Qed.

Lemma batches_perm_from n : n <> 0 -> forall l i,
  Permutation (concat (map (fun t => @batch A n t i l) (seq 0 n))) l.
Proof.
  intros Hn. induction l as [|e l IH]; intros i.
  - cbn [batch]. rewrite concat_all_nil; [constructor|]. intros b Hb.
    apply in_map_iff in Hb. destruct Hb as (? & <- & _). reflexivity.
  - rewrite (concat_insert _ (fun t => batch n t (Datatypes.S i) l) e (i mod n)).
    + constructor. apply IH.
    + pose proof (Nat.mod_upper_bound i n Hn). lia.
    + intros t Ht. cbn. destruct (Nat.eqb_spec (i mod n) t); congruence.
    + cbn. rewrite Nat.eqb_refl. reflexivity.
Qed.

Lemma batch_In n t : forall l i j (y : event A),
  nth_error l j = Some y -> (i + j) mod n = t -> In y (batch n t i l).
Proof.
  induction l as [|e l IH]; intros i [|j] y Hj Hm; cbn in *; try discriminate.
  - inversion Hj; subst. rewrite Nat.add_0_r, Nat.eqb_refl. cbn. auto.
  - assert (In y (batch n t (Datatypes.S i) l)).
    { apply (IH (Datatypes.S i) j); [exact Hj|]. replace (Datatypes.S i + j) with (i + Datatypes.S j) by lia. exact Hm. }
    destruct (i mod n =? t); cbn; auto.
Qed.

Lemma batch_order n t : forall l i j k (x y : event A),
  j < k -> nth_error l j = Some x -> nth_error l k = Some y ->
  (i + j) mod n = t -> (i + k) mod n = t -> comes_before (batch n t i l) x y.
Proof.
  induction l as [|e l IH]; intros i [|j] [|k] x y Hlt Hj Hk Mj Mk; cbn in Hj, Hk; try discriminate; try lia.
  - inversion Hj; subst. cbn. rewrite Nat.add_0_r, Nat.eqb_refl.
    assert (Hy : In y (batch n (i mod n) (Datatypes.S i) l)).
    { apply (batch_In n _ l _ k); [exact Hk|].
      replace (Datatypes.S i + k) with (i + Datatypes.S k) by lia. rewrite Mk, Nat.add_0_r. reflexivity. }
    apply in_split in Hy. destruct Hy as (o1 & o2 & Ho). exists [], o1, o2. rewrite Nat.add_0_r in *. cbn. rewrite Ho. reflexivity.
  - assert (K : comes_before (batch n t (Datatypes.S i) l) x y).
    { apply (IH (Datatypes.S i) j k); auto; try lia.
      - replace (Datatypes.S i + j) with (i + Datatypes.S j) by lia. exact Mj.
      - replace (Datatypes.S i + k) with (i + Datatypes.S k) by lia. exact Mk. }
    cbn. destruct (i mod n =? t); [|exact K].
    destruct K as (o1 & o2 & o3 & ->). exists (e :: o1), o2, o3. reflexivity.
Qed.

Lemma batches_dealt n (l : list (event A)) order : n <> 0 -> merge (batches n l) order -> dealt_order n l order.
Proof.
  intros Hn Hm. split.
  - rewrite <- (merge_perm _ _ Hm). symmetry. apply batches_perm_from. exact Hn.
  - intros i j x y Hlt Hmod Hi Hj. eapply merge_order; [exact Hm| |].
    + unfold batches. apply in_map with (x := i mod n). apply in_seq.
      pose proof (Nat.mod_upper_bound i n Hn). lia.
    + apply (batch_order n (i mod n) l 0 i j); auto.
Qed.

(** ** Popping everything *)

Lemma pop_all_spec : forall fuel ch i (q : list (event A)),
  unique_ids q -> length q <= fuel ->
  Permutation q (pop_all fuel ch i q).
Proof.
  induction fuel as [|fuel IH]; intros ch i q Hu Hl; cbn [pop_all].
  - destruct q; [constructor|cbn in Hl; lia].
  - destruct (pq_peek (ch i) q) as [e|] eqn:P.
    + pose proof (pq_peek_In _ _ _ P) as Hin.
      pose proof (pq_remove_perm e q Hu Hin) as Pe.
      rewrite Pe at 1. constructor. apply IH.
      * apply pq_remove_unique. exact Hu.
      * apply Permutation_length in Pe. cbn in Pe. lia.
    + apply pq_peek_none in P. subst q. constructor.
Qed.

Lemma not_above_not_later (e e' : event A) :
  f32_is_nan (ev_time e) = false -> f32_is_nan (ev_time e') = false ->
  not_above (snd e') (snd e) -> not_later e e'.
Proof.
  intros N1 N2 H. unfold not_above in H. rewrite prio_cmp_Gt_iff in H by assumption.
  unfold not_later. rewrite fltb_iff, feqb_iff.
  destruct (klt_total (fkey (ev_time e)) (fkey (ev_time e'))) as [K|[K|K]].
  - left. auto.
  - right. split; [auto|]. unfold ev_ord, ev_time in *.
    destruct (Z.le_gt_cases (p_ord (snd e)) (p_ord (snd e'))); [assumption|].
    exfalso. apply H. right. split; [symmetry; exact K|lia].
  - exfalso. apply H. left. exact K.
Qed.

Lemma pop_all_sorted : forall fuel ch i (q : list (event A)),
  unique_ids q -> no_nan q -> length q <= fuel -> queue_sorted (pop_all fuel ch i q).
Proof.
  induction fuel as [|fuel IH]; intros ch i q Hu Hn Hl; cbn [pop_all]; [exact I|].
  destruct (pq_peek (ch i) q) as [e|] eqn:P; [|exact I].
  destruct (pq_peek_max _ _ _ Hn P) as [Hin Hmax].
  pose proof (pq_remove_perm e q Hu Hin) as Pe.
  assert (Hu' : unique_ids (fst (pq_remove (ev_id e) q))) by (apply pq_remove_unique; exact Hu).
  assert (Hl' : length (fst (pq_remove (ev_id e) q)) <= fuel).
  { apply Permutation_length in Pe. cbn in Pe. lia. }
  assert (Hn' : no_nan (fst (pq_remove (ev_id e) q))).
  { intros x Hx. apply Hn. eapply Permutation_in; [symmetry; exact Pe|]. right. exact Hx. }
  cbn. split; [|apply IH; assumption].
  intros e' He'. eapply Permutation_in in He'; [|symmetry; apply pop_all_spec; assumption].
  assert (Hq : In e' q) by (eapply Permutation_in; [symmetry; exact Pe|right; exact He']).
  apply not_above_not_later; [apply Hn; exact Hin|apply Hn; exact Hq|]. apply Hmax. exact Hq.
Qed.

(** ** Hooks *)

Lemma par_do_op_unique sc (o : sop A) :
  unique_ids (s_events sc) -> unique_ids (s_events (fst (par_do_op sc o))).
Proof.
  intros H. destruct o; cbn; try exact H.
  - apply pq_push_unique. exact H.
  - unfold schedule_repeating. destruct (pq_push _ _ _) as [q r] eqn:E. cbn.
    change q with (fst (q, r)). rewrite <- E. apply pq_push_unique. exact H.
Qed.

Lemma par_do_op_step sc (o : sop A) : s_step (fst (par_do_op sc o)) = s_step sc.
Proof.
  destruct o; cbn; try reflexivity.
  unfold schedule_repeating. destruct (pq_push _ _ _); reflexivity.
Qed.

Lemma par_run_hprog_unique {X} (p : hprog A X) : forall sc sc' x log,
  par_run_hprog p sc = (sc', x, log) ->
  (unique_ids (s_events sc) -> unique_ids (s_events sc')) /\ s_step sc' = s_step sc.
Proof.
  induction p as [x|o k IH]; intros sc sc' x' log E; cbn in E.
  - inversion E; subst. auto.
  - pose proof (par_do_op_unique sc o) as Hu. pose proof (par_do_op_step sc o) as Hs.
    destruct (par_do_op sc o) as [sc1 r]. cbn in Hu, Hs.
    destruct (par_run_hprog (k r) sc1) as [[sc2 x2] log2] eqn:E2. inversion E; subst.
    destruct (IH _ _ _ _ _ E2) as [IH1 IH2]. split; [auto|congruence].
Qed.

(** ** C09 *)

Lemma par_step_runs_all (u : user A S) n ch inter sc w sc' w' :
  unique_ids (s_events sc) ->
  par_step u n ch inter sc w = PDone sc' w' ->
  exists sc1 s1 log1 popped run backs s2 now sc3 s3 log3,
    par_run_hprog (u_before u (if N.eqb (s_step sc) 0 then u_update u 0 (w_st w) else w_st w)) sc
      = (sc1, s1, log1) /\
    n <> 0 /\
    Permutation (s_events sc1) popped /\
    (no_nan (s_events sc1) -> queue_sorted popped) /\
    (no_nan (s_events sc1) -> exists e, In e (s_events sc1) /\ ev_time e = now /\
       forall e', In e' (s_events sc1) -> fleb now (ev_time e') = true) /\
    dealt_order n popped run /\
    turns u run s1 backs s2 /\
    unique_ids backs /\
    par_run_hprog (u_after u s2) (Sched (s_step sc) now backs (s_ids sc1)) = (sc3, s3, log3) /\
    sc' = Sched (u64_succ (s_step sc)) (s_time sc3) (s_events sc3) (s_ids sc3) /\
    w_st w' = u_update u (u64_succ (s_step sc)) s3 /\
    turn_calls (w_trace w') =
      turn_calls (w_trace w) ++ (if N.eqb (s_step sc) 0 then [CUpdate 0] else []) ++
      CStateBefore :: flat_map calls_of run ++
      [CStateAfter; CUpdate (u64_succ (s_step sc))].
Proof.
  intros Hu H. unfold par_step in H.
  set (w0 := if N.eqb (s_step sc) 0 then call_update u (s_step sc) w else w) in H.
  assert (Hw0 : w_st w0 = if N.eqb (s_step sc) 0 then u_update u 0 (w_st w) else w_st w).
  { unfold w0. destruct (N.eqb_spec (s_step sc) 0) as [E|E]; [rewrite E|]; reflexivity. }
  assert (Ht0 : w_trace w0 = w_trace w ++ (if N.eqb (s_step sc) 0 then [CUpdate 0] else [])).
  { unfold w0. destruct (N.eqb_spec (s_step sc) 0) as [E|E]; [rewrite E; reflexivity|].
    rewrite app_nil_r. reflexivity. }
  rewrite Hw0 in H.
  destruct (par_run_hprog _ sc) as [[sc1 s1] log1] eqn:E1.
  destruct (par_run_hprog_unique _ _ _ _ _ E1) as [Hu1 Hst1]. specialize (Hu1 Hu).
  destruct (pq_peek (ch O) (s_events sc1)) as [e0|] eqn:P; [|discriminate].
  destruct n as [|n']; [discriminate|]. set (n := Datatypes.S n') in *.
  assert (Hn : n <> 0) by (unfold n; lia).
  set (popped := pop_all (length (s_events sc1)) ch O (s_events sc1)) in *.
  set (sc2 := Sched (s_step sc1) (ev_time e0) [] (s_ids sc1)) in *.
  set (w1 := World s1 (w_trace w0 ++ CStateBefore :: api log1)) in *.
  destruct (finished (exec u inter (start sc2 w1 (batches n popped)))) eqn:F; [|discriminate].
  destruct (exec_serial u (batches n popped) sc2 w1 inter F) as (run & Hmg & Hrun).
  set (c := exec u inter (start sc2 w1 (batches n popped))) in *.
  assert (Hpop : Permutation (s_events sc1) popped) by (apply pop_all_spec; auto).
  pose proof (batches_dealt n popped run Hn Hmg) as Hd.
  assert (Hur : unique_ids (run ++ s_events sc2)).
  { cbn. rewrite app_nil_r. eapply unique_ids_perm; [|exact Hu1].
    rewrite Hpop. apply (proj1 Hd). }
  destruct (run_items_turns u run sc2 w1 _ _ Hur Hrun)
    as (backs & tr & Hts & Hst & Htm & Hids & Hev & Hub & Hsc & Htr).
  cbn in Hts, Hst, Htm, Hids, Hev, Htr.
  destruct (par_run_hprog (u_after u (w_st (c_w c))) (c_sc c)) as [[sc3 s3] log3] eqn:E3.
  destruct (par_run_hprog_unique _ _ _ _ _ E3) as [_ Hst3].
  assert (K3 : s_step sc3 = s_step sc) by congruence.
  inversion H; subst sc' w'; clear H.
  exists sc1, s1, log1, popped, run, backs, (w_st (c_w c)), (ev_time e0), sc3, s3, log3.
  split; [reflexivity|]. split; [exact Hn|]. split; [exact Hpop|].
  split. { intros Hnn. apply pop_all_sorted; auto. }
  split. { intros Hnn. destruct (pq_peek_max _ _ _ Hnn P) as [Hin Hmax]. exists e0.
    split; [exact Hin|]. split; [reflexivity|]. intros e' He'.
    pose proof (not_above_not_later e0 e' (Hnn _ Hin) (Hnn _ He') (Hmax _ He')) as K.
    apply fleb_iff. destruct K as [K|[K _]].
    - apply fltb_iff in K. tauto.
    - apply feqb_iff in K. tauto. }
  split; [exact Hd|]. split; [exact Hts|]. split; [rewrite <- Hev; exact Hub|].
  split. { rewrite <- E3. f_equal. destruct (c_sc c) as [a b d f]. cbn in *. congruence. }
  rewrite K3. split; [reflexivity|]. split; [cbn; reflexivity|].
  cbn [w_trace call_update]. rewrite Htr, Ht0. unfold turn_calls.
  rewrite !filter_app. rewrite <- !app_assoc. f_equal.
  assert (Hif : filter (fun c0 : call A => negb (is_api c0) && negb (is_stopped_q c0))
     (if N.eqb (s_step sc) 0 then [CUpdate 0] else []) = if N.eqb (s_step sc) 0 then [CUpdate 0] else []).
  { destruct (N.eqb (s_step sc) 0); reflexivity. }
  rewrite Hif. f_equal.
  assert (Hapi : forall l, filter (fun c0 : call A => negb (is_api c0) && negb (is_stopped_q c0)) (api l) = []).
  { induction l as [|x l IHl]; cbn; auto. }
  cbn [filter is_api is_stopped_q negb andb]. rewrite !Hapi. cbn [app]. f_equal.
  f_equal. apply turn_calls_stopped in Hsc. exact Hsc.
Qed.

End Par.

(** ** Progress of a whole step *)
Lemma par_step_progress {A S} (u : user A S) n ch inter sc w c :
  par_step u n ch inter sc w = PRunning c ->
  exists more sc' w', par_step u n ch (inter ++ more) sc w = PDone sc' w'.
Proof.
  unfold par_step. intros H.
  set (w0 := if N.eqb (s_step sc) 0 then call_update u (s_step sc) w else w) in *.
  destruct (par_run_hprog (u_before u (w_st w0)) sc) as [[sc1 s1] log1].
  destruct (pq_peek (ch O) (s_events sc1)) as [e0|]; [|discriminate].
  destruct n as [|n]; [discriminate|].
  match type of H with context [exec u inter ?x] => set (c0 := x) in * end.
  destruct (start_inv u (batches (Datatypes.S n) (pop_all (length (s_events sc1)) ch 0 (s_events sc1)))
    (Sched (s_step sc1) (ev_time e0) [] (s_ids sc1))
    (World s1 (w_trace w0 ++ CStateBefore :: api log1))) as [Hx Hs].
  destruct (exec_inv u _ _ _ inter _ Hx Hs) as [Hx' _].
  destruct (can_finish u _ (exec u inter c0) (Nat.le_refl _) Hx') as [more Hmore].
  exists more. rewrite exec_app. rewrite Hmore. clear H.
  destruct (par_run_hprog (u_after u _) _) as [[sc3 s3] log3]. do 2 eexists. reflexivity.
Qed.

Lemma ord_sorted_perm_all {A} (run q : list (event A)) :
  NoDup run -> NoDup q -> (forall e, In e run <-> In e q) -> Permutation run q.
Proof. intros. apply NoDup_Permutation; assumption. Qed.

(** ** C10 *)
Lemma same_time_same_agents {A S} (u : user A S) n ch ch' inter sc w sc1 s1 log1 log1' sc' w' :
  unique_ids (s_events sc) ->
  run_hprog (u_before u (if N.eqb (s_step sc) 0 then u_update u 0 (w_st w) else w_st w)) sc
    = (sc1, s1, log1) ->
  par_run_hprog (u_before u (if N.eqb (s_step sc) 0 then u_update u 0 (w_st w) else w_st w)) sc
    = (sc1, s1, log1') ->
  no_nan (s_events sc1) ->
  (forall e e', In e (s_events sc1) -> In e' (s_events sc1) -> feqb (ev_time e) (ev_time e') = true) ->
  par_step u n ch inter sc w = PDone sc' w' ->
  exists run_seq run_par,
    Permutation run_seq run_par /\ Permutation run_seq (s_events sc1) /\
    turn_calls (w_trace (snd (step u ch' sc w))) =
      turn_calls (w_trace w) ++ (if N.eqb (s_step sc) 0 then [CUpdate 0] else []) ++
      CStateBefore :: flat_map calls_of run_seq ++ [CStateAfter; CUpdate (u64_succ (s_step sc))] /\
    turn_calls (w_trace w') =
      turn_calls (w_trace w) ++ (if N.eqb (s_step sc) 0 then [CUpdate 0] else []) ++
      CStateBefore :: flat_map calls_of run_par ++ [CStateAfter; CUpdate (u64_succ (s_step sc))].
Proof.
  intros Hu Hb Hpb Hnn Hsame Hpar.
  destruct (step_runs_earliest u ch' sc w sc1 s1 log1 Hu Hb Hnn) as (run & Hnd & Hin & _ & Htr).
  destruct (par_step_runs_all u n ch inter sc w sc' w' Hu Hpar)
    as (sc1' & s1' & l1' & popped & prun & backs & s2 & now & sc3 & s3 & l3 & Hb' & _ & Hp & _ & _ & Hd & _ & _ & _ & _ & _ & Htr').
  rewrite Hpb in Hb'. inversion Hb'; subst sc1' s1' l1'; clear Hb'.
  assert (Hu1 : unique_ids (s_events sc1)) by (apply (run_hprog_unique _ _ _ _ _ Hb); exact Hu).
  assert (Pr : Permutation run (s_events sc1)).
  { apply NoDup_Permutation; [exact Hnd|eapply NoDup_map_inv; exact Hu1|].
    intros e. rewrite Hin. split; [tauto|]. intros He. split; [exact He|].
    intros e' He'. apply fleb_iff. specialize (Hsame e e' He He'). apply feqb_iff in Hsame. tauto. }
  exists run, prun. split; [|split; [exact Pr|split; [exact Htr|exact Htr']]].
  rewrite Pr, Hp. apply (proj1 Hd).
Qed.
