(** * Property theorems: parallel scheduler (C09, C10) *)
From Coq Require Import List Bool ZArith NArith Permutation.
From Verif Require Import F32 F32Facts SchedModel SchedSpec SchedStep SchedCounter SchedExamples
  ParModel ParSpec ParProofs.
Import ListNotations.

(** ** C09: whatever the interleaving [inter] of the workers, a completed parallel step
    ran every queued agent exactly once ([run] is a permutation of the queue), each
    thread's share in queue order, and handed to [after_step] exactly the repeating
    non-stopped ones, each at its own time + 1.0 ([turns], SchedSpec). *)
Theorem C09_parallel_step :
  forall A S (u : user A S) n ch inter sc w sc' w',
  unique_ids (s_events sc) ->
  par_step u n ch inter sc w = PDone sc' w' ->
  exists sc1 s1 log1 popped run backs s2 now sc3 s3 log3,
    par_run_hprog (u_before u (if N.eqb (s_step sc) 0 then u_update u 0 (w_st w) else w_st w)) sc
      = (sc1, s1, log1) /\
    n <> 0 /\
    Permutation (s_events sc1) popped /\
    (no_nan (s_events sc1) -> queue_sorted popped) /\
    (no_nan (s_events sc1) -> exists e, In e (s_events sc1) /\ ev_time e = now /\
       forall e', In e' (s_events sc1) -> fleb now (ev_time e') = true) /\
    dealt_order n popped run /\
    turns u run s1 backs s2 /\
    unique_ids backs /\
    par_run_hprog (u_after u s2) (Sched (s_step sc) now backs (s_ids sc1)) = (sc3, s3, log3) /\
    sc' = Sched (u64_succ (s_step sc)) (s_time sc3) (s_events sc3) (s_ids sc3) /\
    w_st w' = u_update u (u64_succ (s_step sc)) s3 /\
    turn_calls (w_trace w') =
      turn_calls (w_trace w) ++ (if N.eqb (s_step sc) 0 then [CUpdate 0] else []) ++
      CStateBefore :: flat_map calls_of run ++
      [CStateAfter; CUpdate (u64_succ (s_step sc))].
Proof. exact @par_step_runs_all. Qed.
Print Assumptions C09_parallel_step.

(** No deadlock: from any point of any interleaving the step can be completed. *)
Theorem C09_no_deadlock :
  forall A S (u : user A S) n ch inter sc w c,
  par_step u n ch inter sc w = PRunning c ->
  exists more sc' w', par_step u n ch (inter ++ more) sc w = PDone sc' w'.
Proof. exact @par_step_progress. Qed.
Print Assumptions C09_no_deadlock.

(** Every micro step of a worker uses up some of a finite amount of work, so no
    interleaving runs for ever. *)
Theorem C09_workers_terminate :
  forall A S (u : user A S) t (c c' : config A S),
  micro u t c = Some c' -> (weight c' < weight c)%nat.
Proof. exact @micro_weight. Qed.
Print Assumptions C09_workers_terminate.

(** Two threads, three agents, one interleaving in which the threads alternate. *)
Definition C09_inter : list nat := flat_map (fun _ => [1; 0; 1; 0]) (seq 0 20).
Example C09_concrete :
  unique_ids (s_events demo_sc) /\
  match par_step demo 2 ch0 C09_inter demo_sc demo_w with
  | PDone sc' w' =>
      ran (w_trace w') = [0; 1; 2]%N /\
      s_events sc' = [(AI 0 1%N true, Prio (f_of_Z 2) 5); (AI 2 1%N true, Prio (f_of_Z 4) 0)]
  | _ => False
  end.
Proof.
  split; [|vm_compute; auto].
  unfold unique_ids; cbn. repeat constructor; cbn; intuition discriminate.
Qed.

(** ** C10 is false of the code: the parallel step also runs agents whose time has not
    come.  With one agent at 0.0 and one at 5.0, every completed parallel step runs
    both; the sequential step runs only the first. *)
Definition C10_sc : sched unit :=
  fst (acts idle [ActApi (OpRepeating tt f0 0); ActApi (OpRepeating tt (f_of_Z 5) 0)]
         (sched_new, World tt [])).
Theorem C10_refuted :
  ran (w_trace (snd (step idle ch0 C10_sc (World tt [])))) = [0%N] /\
  (exists inter sc' w', par_step idle 1 ch0 inter C10_sc (World tt []) = PDone sc' w') /\
  forall n inter sc' w',
    par_step idle n ch0 inter C10_sc (World tt []) = PDone sc' w' ->
    Permutation (ran (w_trace w')) [0%N; 1%N].
Proof.
  split; [vm_compute; reflexivity|]. split.
  - destruct (par_step_progress idle 1 ch0 [] C10_sc (World tt []) _ eq_refl) as (more & sc' & w' & H).
    exists more, sc', w'. exact H.
  - intros n inter sc' w' H.
    assert (Hu : unique_ids (s_events C10_sc)).
    { unfold unique_ids; vm_compute. repeat constructor; cbn; intuition discriminate. }
    destruct (par_step_runs_all idle n ch0 inter C10_sc (World tt []) sc' w' Hu H)
      as (sc1 & s1 & l1 & popped & run & backs & s2 & now & sc3 & s3 & l3 & Hb & _ & Hp & _ & _ & Hd & _ & _ & _ & _ & _ & Htr).
    vm_compute in Hb. inversion Hb; subst sc1. 
    assert (Hr : ran (w_trace w') = ran (turn_calls (w_trace w'))).
    { clear. unfold ran, turn_calls. induction (w_trace w') as [|c l IH]; cbn; [reflexivity|].
      destruct c; cbn; rewrite IH; reflexivity. }
    rewrite Hr, Htr. change (turn_calls (w_trace (World tt []))) with (@nil (call unit)).
    assert (Hrun : forall l, ran (flat_map calls_of l) = map (@ev_id unit) l).
    { induction l as [|e l IH]; cbn; [reflexivity|]. unfold ran in IH. rewrite IH. reflexivity. }
    change (s_step C10_sc) with 0%N. cbn [N.eqb app]. unfold ran in *. cbn [flat_map app].
    rewrite flat_map_app. cbn [flat_map app]. rewrite app_nil_r, Hrun.
    rewrite <- (proj1 Hd), <- Hp. apply Permutation_refl.
Qed.
Print Assumptions C10_refuted.

(** What does hold: when all queued agents have the same time, both builds run the same
    agents.  Missing with respect to C10: queues with several distinct times. *)
Theorem C10_same_time_partial :
  forall A S (u : user A S) n ch ch' inter sc w sc1 s1 log1 log1' sc' w',
  unique_ids (s_events sc) ->
  run_hprog (u_before u (if N.eqb (s_step sc) 0 then u_update u 0 (w_st w) else w_st w)) sc
    = (sc1, s1, log1) ->
  par_run_hprog (u_before u (if N.eqb (s_step sc) 0 then u_update u 0 (w_st w) else w_st w)) sc
    = (sc1, s1, log1') ->
  no_nan (s_events sc1) ->
  (forall e e', In e (s_events sc1) -> In e' (s_events sc1) -> feqb (ev_time e) (ev_time e') = true) ->
  par_step u n ch inter sc w = PDone sc' w' ->
  exists run_seq run_par,
    Permutation run_seq run_par /\ Permutation run_seq (s_events sc1) /\
    turn_calls (w_trace (snd (step u ch' sc w))) =
      turn_calls (w_trace w) ++ (if N.eqb (s_step sc) 0 then [CUpdate 0] else []) ++
      CStateBefore :: flat_map calls_of run_seq ++ [CStateAfter; CUpdate (u64_succ (s_step sc))] /\
    turn_calls (w_trace w') =
      turn_calls (w_trace w) ++ (if N.eqb (s_step sc) 0 then [CUpdate 0] else []) ++
      CStateBefore :: flat_map calls_of run_par ++ [CStateAfter; CUpdate (u64_succ (s_step sc))].
Proof. exact @same_time_same_agents. Qed.
Print Assumptions C10_same_time_partial.

Example C10_hypotheses_met :
  let sc := Sched 4 f0 (firstn 2 demo_q) 3 in
  unique_ids (s_events sc) /\
  run_hprog (u_before demo 5%N) sc = (sc, 5%N, []) /\
  par_run_hprog (u_before demo 5%N) sc = (sc, 5%N, []) /\
  no_nan (s_events sc) /\
  (forall e e', In e (s_events sc) -> In e' (s_events sc) -> feqb (ev_time e) (ev_time e') = true) /\
  match par_step demo 2 ch0 C09_inter sc demo_w with PDone _ _ => True | _ => False end.
Proof.
  cbn zeta. split; [unfold unique_ids; cbn; repeat constructor; cbn; intuition discriminate|].
  split; [reflexivity|]. split; [reflexivity|].
  split; [intros e [<-|[<-|[]]]; reflexivity|].
  split; [intros e e' [<-|[<-|[]]] [<-|[<-|[]]]; reflexivity|]. vm_compute. exact I.
Qed.
