(** * Property theorems: sequential scheduler and simulation loop (C01-C08, C11) *)
From Coq Require Import List Bool ZArith NArith Permutation.
From Verif Require Import F32 F32Facts SchedModel SchedSpec SchedProofs SchedStep SchedHist
  SchedTime SchedCounter SchedExamples SimModel SimSpec SimProofs.
Import ListNotations.
Local Open Scope N_scope.

(** ** C01: a step runs exactly the earliest events, once each, in order.
    [sc1] is the schedule as the state's [before_step] left it. *)
Theorem C01_step_runs_earliest :
  forall A S (u : user A S) ch sc w sc1 s1 log1,
  unique_ids (s_events sc) ->
  run_hprog (u_before u (if s_step sc =? 0 then u_update u 0 (w_st w) else w_st w)) sc
    = (sc1, s1, log1) ->
  no_nan (s_events sc1) ->
  exists run,
    NoDup run /\
    (forall e, In e run <->
       In e (s_events sc1) /\
       forall e', In e' (s_events sc1) -> fleb (ev_time e) (ev_time e') = true) /\
    ord_sorted run /\
    turn_calls (w_trace (snd (step u ch sc w))) =
      turn_calls (w_trace w) ++ (if s_step sc =? 0 then [CUpdate 0] else []) ++
      CStateBefore :: flat_map calls_of run ++
      [CStateAfter; CUpdate ((s_step sc + 1) mod 18446744073709551616)].
Proof. exact @step_runs_earliest. Qed.
Print Assumptions C01_step_runs_earliest.

(** The queue of a schedule driven through its API always has unique ids, so the
    hypothesis of C01 and C02 holds for every reachable schedule. *)
Theorem C01_ids_always_unique :
  forall A S (u : user A S) (w : world A S) xs,
  unique_ids (s_events (fst (acts u xs (sched_new, w)))).
Proof. exact (fun A S u w xs => acts_unique u xs (sched_new, w) (NoDup_nil _)). Qed.
Print Assumptions C01_ids_always_unique.

Example C01_hypotheses_met :
  unique_ids (s_events demo_sc) /\
  run_hprog (u_before demo (if s_step demo_sc =? 0 then u_update demo 0 (w_st demo_w)
                            else w_st demo_w)) demo_sc = (demo_sc, 5, []) /\
  no_nan (s_events demo_sc) /\
  turn_calls (w_trace (snd (step demo ch0 demo_sc demo_w))) =
    [CStateBefore; CAgentBefore 1; CAgentStep 1; CAgentAfter 1;
     CAgentBefore 0; CAgentStep 0; CAgentAfter 0; CStateAfter; CUpdate 5].
Proof.
  split; [|split; [reflexivity|split; [|vm_compute; reflexivity]]].
  - unfold unique_ids; cbn. repeat constructor; cbn; intuition discriminate.
  - intros e [<-|[<-|[<-|[]]]]; reflexivity.
Qed.

(** ** C02: after a step, the queue handed to [after_step] consists of the events that
    did not run, unchanged, and the repeating non-stopped ones that ran, one time unit
    later with the same ordering (see [turn] and [turns] in SchedSpec). *)
Theorem C02_requeue :
  forall A S (u : user A S) ch sc w sc1 s1 log1,
  unique_ids (s_events sc) ->
  run_hprog (u_before u (if s_step sc =? 0 then u_update u 0 (w_st w) else w_st w)) sc
    = (sc1, s1, log1) ->
  no_nan (s_events sc1) ->
  exists run waiting backs s2 q2 now sc3 s3 log3,
    (forall e, In e run <->
       In e (s_events sc1) /\
       forall e', In e' (s_events sc1) -> fleb (ev_time e) (ev_time e') = true) /\
    Permutation (s_events sc1) (run ++ waiting) /\
    ord_sorted run /\
    turns u run s1 backs s2 /\
    unique_ids q2 /\ Permutation q2 (waiting ++ backs) /\
    run_hprog (u_after u s2) (Sched (s_step sc) now q2 (s_ids sc1)) = (sc3, s3, log3) /\
    (forall e, In e run -> ev_time e = now \/ feqb (ev_time e) now = true) /\
    fst (step u ch sc w) =
      Sched ((s_step sc + 1) mod 18446744073709551616)
            (s_time sc3) (s_events sc3) (s_ids sc3) /\
    w_st (snd (step u ch sc w)) =
      u_update u ((s_step sc + 1) mod 18446744073709551616) s3.
Proof. exact @step_requeues. Qed.
Print Assumptions C02_requeue.

(** In [demo_sc], agent 1 reaches 3 and is dropped, agent 0 comes back at 2.0. *)
Example C02_concrete :
  s_events (fst (step demo ch0 demo_sc demo_w)) =
    [(AI 2 0 true, Prio (f_of_Z 3) 0); (AI 0 1 true, Prio (f_of_Z 2) 5)].
Proof. vm_compute. reflexivity. Qed.

(** ** C03: hook protocol and step counter, for any program of API calls and steps on a
    fresh schedule. *)
Theorem C03_hook_protocol :
  forall A S (u : user A S) xs c,
  unique_ids (s_events (fst c)) ->
  s_step (fst c) + N.of_nat (count_steps xs) < 18446744073709551616 ->
  s_step (fst (acts u xs c)) = s_step (fst c) + N.of_nat (count_steps xs) /\
  exists runs, length runs = count_steps xs /\
    engine_calls (w_trace (snd (acts u xs c))) =
    engine_calls (w_trace (snd c)) ++
    (if (count_steps xs =? 0)%nat then []
     else (if s_step (fst c) =? 0 then [CUpdate 0] else []) ++
          step_blocks (s_step (fst c)) runs).
Proof. exact @acts_blocks. Qed.
Print Assumptions C03_hook_protocol.

Example C03_concrete :
  engine_calls (w_trace (snd (acts demo
     [ActApi (OpRepeating 0 f0 0); ActStep ch0; ActApi (OpDequeue 0); ActStep ch0]
     (sched_new, World 9 [])))) =
  [CUpdate 0; CStateBefore; CAgentBefore 0; CAgentStep 0; CAgentAfter 0;
   CAgentStopped 0 false; CStateAfter; CUpdate 1; CStateBefore; CStateAfter; CUpdate 2].
Proof. vm_compute. reflexivity. Qed.

(** ** C04: nothing lost, nothing duplicated, as long as at most 2^32 agents are
    scheduled (and [schedule_once], which takes a caller-chosen id, is not used). *)
Theorem C04_bookkeeping :
  forall A S (u : user A S) xs s sc w,
  acts u xs (sched_new, World s []) = (sc, w) ->
  existsb is_once (w_trace w) = false ->
  N.of_nat (length (filter is_scheduling (w_trace w))) <= 4294967296 ->
  answers_ok (w_trace w) /\
  unique_ids (s_events sc) /\
  (forall id, In id (map ev_id (s_events sc)) <-> In id (l_live (live_after (w_trace w)))) /\
  (forall e, In e (s_events sc) -> ai_rep (fst e) = true).
Proof. exact @bookkeeping. Qed.
Print Assumptions C04_bookkeeping.

Definition C04_demo_acts : list (action N) :=
  [ActApi (OpRepeating 0 f0 0); ActApi (OpDistRepeating 1 f1 0); ActStep ch0;
   ActApi (OpRepeating 2 f1 0); ActApi (OpDequeue 1); ActApi (OpDequeue 1); ActStep ch0].
Example C04_hypotheses_met :
  let w := snd (acts demo C04_demo_acts (sched_new, World 9 [])) in
  existsb is_once (w_trace w) = false /\
  N.of_nat (length (filter is_scheduling (w_trace w))) = 3 /\
  l_live (live_after (w_trace w)) = [0] /\
  In (CApi (OpDequeue 1) (RBool true)) (w_trace w) /\
  In (CApi (OpDequeue 1) (RBool false)) (w_trace w).
Proof. vm_compute. intuition. Qed.

(** Beyond 2^32 the id counter wraps (in a build without overflow checks): the next
    agent is refused and lost although the queue has room. *)
Theorem C04_wrap_refuted :
  exists (xs : list (action bool)) sc w sc',
    acts idle xs (sched_new, w0) = (sc, w) /\
    N.of_nat (length xs) = 4294967296 /\
    schedule_repeating sc false f0 0 = (sc', false) /\
    ~ (exists e, In e (s_events sc') /\ ai_agent (fst e) = false).
Proof. exact id_wrap_drops. Qed.
Print Assumptions C04_wrap_refuted.

(** ** C05: [schedule_once] queues the agent it is given -- only if its id is not
    already queued. *)
Theorem C05_schedule_once_fresh_partial :
  forall A (sc : sched A) a t o,
  ~ In (ai_id a) (map ev_id (s_events sc)) ->
  schedule_once sc a t o =
  Sched (s_step sc) (s_time sc) (s_events sc ++ [(a, Prio t o)]) (s_ids sc).
Proof.
  exact (fun A sc a t o H => f_equal (fun q => Sched (s_step sc) (s_time sc) (fst q) (s_ids sc))
           (pq_push_fresh a (Prio t o) (s_events sc) H)).
Qed.
Print Assumptions C05_schedule_once_fresh_partial.

Example C05_hypotheses_met : ~ In (ai_id (AI 8 0 false)) (map ev_id (s_events demo_sc)).
Proof. vm_compute. intuition discriminate. Qed.

(** A fresh agent wrapped with [AgentImpl::new(agent, 0)] is silently dropped when agent
    0 is queued; instead agent 0 is rescheduled. *)
Theorem C05_schedule_once_refuted :
  exists (sc : sched N) a t o,
    sc = fst (acts demo [ActApi (OpRepeating 5 f1 0)] (sched_new, demo_w)) /\
    ~ In (a, Prio t o) (s_events (schedule_once sc a t o)) /\
    (forall e, In e (s_events (schedule_once sc a t o)) -> ai_agent (fst e) <> ai_agent a).
Proof.
  exists (fst (acts demo [ActApi (OpRepeating 5 f1 0)] (sched_new, demo_w))), (AI 0 6 false), f2, 0%Z.
  split; [reflexivity|]. split.
  - vm_compute. intuition discriminate.
  - intros e [<-|[]]; vm_compute; discriminate.
Qed.
Print Assumptions C05_schedule_once_refuted.

(** ** C06: time never goes backwards if nothing is scheduled in the past. *)
Theorem C06_time_monotone :
  forall A S (u : user A S) s xs ys,
  user_future u -> acts_future u (xs ++ ys) (sched_new, World s []) ->
  fleb (s_time (fst (acts u xs (sched_new, World s []))))
       (s_time (fst (acts u (xs ++ ys) (sched_new, World s [])))) = true.
Proof. exact @time_monotone. Qed.
Print Assumptions C06_time_monotone.

Example C06_hypotheses_met :
  user_future demo /\
  acts_future demo ([ActApi (OpRepeating 0 f1 0); ActStep ch0] ++ [ActStep ch0])
    (sched_new, World 0 []).
Proof.
  split.
  - intros sc s H. cbn. destruct (s <? 2); cbn; auto.
    split; [|exact I]. split; [exact I|]. split; [|exact I].
    split; [apply H|]. apply fleb_refl. apply H.
  - cbn. repeat split.
Qed.

(** ** C06: repeating agents started together at an integral time run together at each
    following time unit, until time 2^24. *)
Theorem C06_advances_by_one :
  forall A S (u : user A S), silent u -> never_stops u ->
  forall chs sc (w : world A S) z,
  (- 2 ^ 24 <= z)%Z -> (z + Z.of_nat (length chs) <= 2 ^ 24)%Z ->
  s_events sc <> [] -> sync_at (f_of_Z z) (s_events sc) ->
  let c' := acts u (map ActStep chs) (sc, w) in
  (chs <> [] -> s_time (fst c') = f_of_Z (z + Z.of_nat (length chs) - 1)) /\
  sync_at (f_of_Z (z + Z.of_nat (length chs))) (s_events (fst c')) /\
  Permutation (map ev_id (s_events (fst c'))) (map ev_id (s_events sc)) /\
  exists ls, ran (w_trace (snd c')) = ran (w_trace w) ++ concat ls /\
    length ls = length chs /\
    Forall (fun l => Permutation l (map ev_id (s_events sc))) ls.
Proof. exact @sync_run. Qed.
Print Assumptions C06_advances_by_one.

Definition C06_demo_q : list (event unit) :=
  [(AI 0 tt true, Prio (f_of_Z 5) 1); (AI 1 tt true, Prio (f_of_Z 5) 0)].
Example C06_sync_hypotheses_met :
  silent (@idle unit) /\ never_stops (@idle unit) /\ sync_at (f_of_Z 5) C06_demo_q.
Proof.
  repeat split; try (intros s; exists s; reflexivity).
  - repeat constructor; cbn; intuition discriminate.
  - destruct H as [<-|[<-|[]]]; reflexivity.
  - destruct H as [<-|[<-|[]]]; reflexivity.
Qed.

(** At 2^24 adding 1.0 no longer changes an f32: time stands still for ever, and an
    agent waiting at 2^24 + 2 never runs, however many steps are made. *)
Theorem C06_saturation_refuted :
  forall chs,
  let c := acts idle (stuck_setup ++ map ActStep chs) (sched_new, w0) in
  (chs <> [] -> s_time (fst c) = f_of_Z 16777216) /\
  ~ In 1 (ran (w_trace (snd c))) /\
  (exists e, In e (s_events (fst c)) /\ ev_id e = 1).
Proof. exact stuck_forever. Qed.
Print Assumptions C06_saturation_refuted.

(** ** C07: [Priority] is a total order compatible with equality, NaN excepted. *)
Theorem C07_priority_order :
  forall p q r,
  f32_is_nan (p_time p) = false -> f32_is_nan (p_time q) = false ->
  f32_is_nan (p_time r) = false ->
  prio_cmp q p = CompOpp (prio_cmp p q) /\
  (prio_cmp p q = Eq <-> prio_eqb p q = true) /\
  (prio_cmp p q <> Gt -> prio_cmp q r <> Gt -> prio_cmp p r <> Gt) /\
  (prio_cmp p q = Gt -> prio_cmp q r = Gt -> prio_cmp p r = Gt) /\
  (prio_cmp p q = Eq -> prio_cmp p r = prio_cmp q r) /\
  (fltb (p_time p) (p_time q) = true -> prio_cmp p q = Gt) /\
  (feqb (p_time p) (p_time q) = true -> (p_ord p < p_ord q)%Z -> prio_cmp p q = Gt).
Proof. exact priority_order. Qed.
Print Assumptions C07_priority_order.

Example C07_hypotheses_met :
  f32_is_nan (p_time (Prio f1 3)) = false /\ prio_cmp (Prio f1 3) (Prio f1 4) = Gt /\
  prio_cmp (Prio f2 3) (Prio f1 4) = Lt.
Proof. vm_compute. auto. Qed.

(** With NaN times the order breaks: comparison says equal where [==] says different,
    and equality under comparison is not transitive. *)
Theorem C07_nan_refuted :
  exists p q n,
    (prio_cmp n n = Eq /\ prio_eqb n n = false) /\
    (prio_cmp p n = Eq /\ prio_cmp n q = Eq /\ prio_cmp p q <> Eq).
Proof.
  exists (Prio f1 0), (Prio f2 0), (Prio S754_nan 0). vm_compute. intuition discriminate.
Qed.
Print Assumptions C07_nan_refuted.

(** ** C08: dequeue removes exactly one agent. *)
Theorem C08_dequeue_exact :
  forall A (sc : sched A) id,
  unique_ids (s_events sc) ->
  let (sc', b) := dequeue sc id in
  (b = true <-> exists e, In e (s_events sc) /\ ev_id e = id) /\
  (forall e, In e (s_events sc') <-> In e (s_events sc) /\ ev_id e <> id) /\
  (length (s_events sc) = length (s_events sc') + if b then 1 else 0)%nat /\
  unique_ids (s_events sc') /\
  s_step sc' = s_step sc /\ s_time sc' = s_time sc /\ s_ids sc' = s_ids sc.
Proof. exact @dequeue_exact. Qed.
Print Assumptions C08_dequeue_exact.

Example C08_hypotheses_met :
  unique_ids (s_events demo_sc) /\ snd (dequeue demo_sc 1) = true /\
  snd (dequeue demo_sc 7) = false.
Proof.
  split; [|vm_compute; auto].
  unfold unique_ids; cbn. repeat constructor; cbn; intuition discriminate.
Qed.

(** ** C11: the simulation loop. *)
Theorem C11_simulate :
  forall A S (u : user A S) chs n reps s l w',
  N.of_nat n < 18446744073709551616 ->
  simulate u chs n reps s = (l, w') ->
  exists runs, length runs = reps /\ Forall (good_run n) runs /\
    l = map (fun steps => N.of_nat (length steps)) runs /\
    engine_calls (w_trace w') = flat_map rep_calls runs.
Proof. exact @simulate_calls. Qed.
Print Assumptions C11_simulate.

(** The state is carried over: a+b repetitions are a repetitions followed by b more from
    the state reached. *)
Theorem C11_state_carried :
  forall A S (u : user A S) chs n a b r (w : world A S),
  sim_reps u chs r (a + b) n w =
  let (l1, w1) := sim_reps u chs r a n w in
  let (l2, w2) := sim_reps u chs (r + a) b n w1 in (l1 ++ l2, w2).
Proof. exact @sim_reps_split. Qed.
Print Assumptions C11_state_carried.

(** Demo: the first repetition stops when the sum passes 10, the second at once. *)
Example C11_concrete :
  fst (simulate demo (fun _ _ _ => 0%nat) 6 2 0) = [4; 1] /\ N.of_nat 6 < 18446744073709551616.
Proof. vm_compute. auto. Qed.
