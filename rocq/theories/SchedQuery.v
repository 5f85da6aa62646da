(** * Listing the scheduled agents (C63) *)
From Coq Require Import List Bool ZArith NArith Permutation Lia.
From Verif Require Import F32 SchedModel SchedSpec SchedProofs SchedHist SchedExamples.
Import ListNotations.
Local Open Scope N_scope.

Section Query.
Context {A S : Type}.

Lemma push_agents (a : agentimpl A) p (q : list (event A)) :
  match snd (pq_push a p q) with
  | None => Permutation (map (fun e => ai_agent (fst e)) (fst (pq_push a p q)))
                        (ai_agent a :: map (fun e => ai_agent (fst e)) q)
  | Some _ => map (fun e => ai_agent (fst e)) (fst (pq_push a p q)) = map (fun e => ai_agent (fst e)) q
  end.
Proof.
  destruct (in_dec N.eq_dec (ai_id a) (map ev_id q)) as [H|H].
  - destruct (pq_push_present a p q H) as (l & b & pb & r & -> & _ & _ & ->). cbn. rewrite !map_app. reflexivity.
  - rewrite pq_push_fresh by exact H. cbn. rewrite map_app. apply Permutation_sym, Permutation_cons_append.
Qed.

Lemma live_NoDup (tr : list (call A)) :
  NoDup (l_live (live_after tr)) /\ forall i, In i (l_live (live_after tr)) -> i < l_next (live_after tr).
Proof.
  induction tr as [|c tr IH] using rev_ind; [split; [constructor|intros i []]|].
  rewrite live_after_snoc. generalize dependent (live_after tr). intros st [H1 H2].
  assert (K : forall id, NoDup (filter (fun i => negb (i =? id)) (l_live st)) /\
     forall i, In i (filter (fun i => negb (i =? id)) (l_live st)) -> i < l_next st).
  { intros id. split; [apply NoDup_filter; exact H1|]. intros i Hi. apply filter_In in Hi. apply H2. tauto. }
  assert (P : NoDup (l_next st :: l_live st) /\ forall i, In i (l_next st :: l_live st) -> i < l_next st + 1).
  { split; [constructor; [intros X; specialize (H2 _ X); lia|exact H1]|]. intros i [<-|Hi]; [lia|]. specialize (H2 _ Hi). lia. }
  destruct c; cbn; auto; repeat match goal with |- context [match ?x with _ => _ end] => destruct x end; cbn; auto; apply K.
Qed.

End Query.

(** ** C63: [get_all_events] lists one agent per queued event: scheduling adds the agent,
    [dequeue] removes exactly one, nothing else changes the list. *)
Theorem C63_get_all_events :
  forall A (sc : sched A), unique_ids (s_events sc) ->
  do_op sc OpAllEvents = (sc, RAgents (get_all_events sc)) /\
  (forall ag t o, let (sc', b) := schedule_repeating sc ag t o in
     if b then Permutation (get_all_events sc') (ag :: get_all_events sc)
     else get_all_events sc' = get_all_events sc) /\
  (forall ag t o, let '(sc', (_, b)) := distributed_schedule_repeating sc ag t o in
     if b then Permutation (get_all_events sc') (ag :: get_all_events sc)
     else get_all_events sc' = get_all_events sc) /\
  (forall a t o, ~ In (ai_id a) (map ev_id (s_events sc)) ->
     Permutation (get_all_events (schedule_once sc a t o)) (ai_agent a :: get_all_events sc)) /\
  (forall id, let (sc', b) := dequeue sc id in
     if b then exists e, In e (s_events sc) /\ ev_id e = id /\
       Permutation (get_all_events sc) (ai_agent (fst e) :: get_all_events sc')
     else get_all_events sc' = get_all_events sc).
Proof.
  intros A sc U. split; [reflexivity|]. unfold schedule_repeating, distributed_schedule_repeating, schedule_once, get_all_events.
  split; [|split; [|split]].
  - intros ag t o. pose proof (push_agents (AI (s_ids sc) ag true) (Prio t o) (s_events sc)) as H.
    destruct (pq_push _ _ _) as [q [r|]]; cbn in *; exact H.
  - intros ag t o. pose proof (push_agents (AI (s_ids sc) ag true) (Prio t o) (s_events sc)) as H.
    destruct (pq_push _ _ _) as [q [r|]]; cbn in *; exact H.
  - intros a t o Hf. pose proof (push_agents a (Prio t o) (s_events sc)) as H. rewrite pq_push_fresh in * by exact Hf. exact H.
  - intros id. unfold dequeue. destruct (pq_remove_filter id (s_events sc) U) as [F1 F2].
    destruct (in_dec N.eq_dec id (map ev_id (s_events sc))) as [H|H].
    + apply in_map_iff in H. destruct H as (e & <- & He). pose proof (pq_remove_perm e _ U He) as P.
      destruct (pq_remove (ev_id e) (s_events sc)) as [q [r|]]; cbn in *.
      * exists e. split; [exact He|]. split; [reflexivity|]. exact (Permutation_map (fun e => ai_agent (fst e)) P).
      * exfalso. apply F2; [reflexivity|]. apply in_map. exact He.
    + pose proof (proj2 F2 H) as N. destruct (pq_remove id (s_events sc)) as [q r]. cbn in *. subst r q. f_equal.
      clear -H. induction (s_events sc) as [|e l IH]; [reflexivity|]. cbn in *.
      destruct (N.eqb_spec (ev_id e) id) as [E|E]; [tauto|]. cbn. f_equal. apply IH. tauto.
Qed.
Print Assumptions C63_get_all_events.

(** Over a whole program: as many agents as scheduling calls not yet dequeued or
    stopped. *)
Theorem C63_number_of_events :
  forall A S (u : user A S) xs s sc w,
  acts u xs (sched_new, World s []) = (sc, w) ->
  existsb is_once (w_trace w) = false ->
  N.of_nat (length (filter is_scheduling (w_trace w))) <= 4294967296 ->
  length (get_all_events sc) = length (l_live (live_after (w_trace w))).
Proof.
  intros A S u xs s sc w E H1 H2. destruct (bookkeeping u xs s sc w E H1 H2) as (_ & U & H & _).
  unfold get_all_events. rewrite map_length. transitivity (length (map ev_id (s_events sc))); [symmetry; apply map_length|]. apply Permutation_length.
  apply NoDup_Permutation; [exact U|apply live_NoDup|exact H].
Qed.
Print Assumptions C63_number_of_events.

Example C63_concrete :
  unique_ids (s_events demo_sc) /\ get_all_events demo_sc = [0; 2; 0] /\
  get_all_events (fst (dequeue demo_sc 1)) = [0; 0] /\
  get_all_events (fst (schedule_repeating demo_sc 9 f0 0)) = [0; 2; 0; 9].
Proof.
  split; [|vm_compute; auto]. unfold unique_ids; cbn. repeat constructor; cbn; intuition discriminate.
Qed.
