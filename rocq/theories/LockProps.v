(** * C125: nobody waits for a lock for ever *)
From Coq Require Import List Bool Arith Lia.
From Verif Require Import LockModel LockSpec LockProofs.
Import ListNotations.

(** A sequential build: the thread that runs the model may call the macros in each other's
    arguments, to any depth, as long as no macro is reached inside an argument of one that
    holds a lock it needs; any number of other threads take one lock after the other
    (the terminal, the csv thread, the monitor thread).  However they are interleaved,
    nobody waits for ever, and all of them come to their end. *)
Theorem C125_sequential_partial : forall (user : list work) (others : list (list mutex)),
  Forall user_work user ->
  always_finishes (program user :: map (flat_map chore) others).
Proof.
  intros user others U. apply one_nests_finish; [exact (program_norep user U)|].
  apply Forall_forall. intros p Hp. apply in_map_iff in Hp. destruct Hp as (ms & <- & _). apply flat_chores.
Qed.
Print Assumptions C125_sequential_partial.

(** A parallel build: any number of threads run agents and hooks under the lock of the
    state, schedule, plot, log and use parallel fields, when the arguments of the macros do no
    more than log and use fields, and closures that run under the lock of a shard do no more
    than log. *)
Theorem C125_parallel_partial : forall (threads : list (list work)),
  Forall (Forall tame_work) threads ->
  always_finishes (map program threads).
Proof.
  intros threads T. apply ordered_finish. apply Forall_forall. intros p Hp. apply in_map_iff in Hp.
  destruct Hp as (ws & <- & Hw). apply program_ordered. rewrite Forall_forall in T. auto.
Qed.
Print Assumptions C125_parallel_partial.

(** ** What is not true *)
(** A thread that takes a lock it holds never gets any further. *)
Lemma self_lock m h p (c : list thread) : nth_error c 0 = Some (h, Acq m :: p) -> In m h ->
  forall is c', lmoves is c = Some c' -> nth_error c' 0 = Some (h, Acq m :: p).
Proof.
  intros E Hm is. revert c E. induction is as [|i is IH]; intros c E c' M; cbn in M; [injection M as <-; exact E|].
  destruct (lmove i c) as [c1|] eqn:M1; [|discriminate]. refine (IH c1 _ c' M).
  unfold lmove in M1. destruct (nth_error c i) as [t|] eqn:Ei; [|discriminate]. destruct (advance c t) as [t'|] eqn:A; [|discriminate].
  injection M1 as <-. destruct i as [|i].
  - rewrite E in Ei. injection Ei as <-. unfold advance in A. cbn in A.
    assert (B : existsb (holds m) c = true) by (apply holds_all; exists (h, Acq m :: p); split; [eapply nth_error_In; exact E | exact Hm]).
    rewrite B in A. discriminate.
  - now rewrite set_nth_other by discriminate.
Qed.
Lemma self_lock2 m q : forall is others c', lmoves is (([], Acq m :: Acq m :: q) :: others) = Some c' ->
  exists h, nth_error c' 0 = Some (h, Acq m :: Acq m :: q) \/ nth_error c' 0 = Some (h, Acq m :: q).
Proof.
  assert (G : forall is (c c' : list thread), nth_error c 0 = Some ([], Acq m :: Acq m :: q) -> lmoves is c = Some c' ->
      exists h, nth_error c' 0 = Some (h, Acq m :: Acq m :: q) \/ nth_error c' 0 = Some (h, Acq m :: q)).
  { induction is as [|i is IH]; intros c c' E M; cbn in M; [injection M as <-; eauto|].
    destruct (lmove i c) as [c1|] eqn:M1; [|discriminate]. pose proof M1 as M1'.
    unfold lmove in M1. destruct (nth_error c i) as [t|] eqn:Ei; [|discriminate]. destruct (advance c t) as [t'|] eqn:A; [|discriminate].
    injection M1 as <-. destruct i as [|i].
    - rewrite E in Ei. injection Ei as <-. unfold advance in A. cbn in A. destruct (existsb (holds m) c); [discriminate|]. injection A as <-.
      exists [m]. right. refine (self_lock m [m] q _ _ _ is c' M); [|now left].
      apply set_nth_same. destruct c; [discriminate E | apply Nat.lt_0_succ].
    - apply (IH _ _ (eq_trans (set_nth_other _ _ _ _ _ (fun e => O_S i (eq_sym e))) E) M). }
  intros is others c' M. refine (G is _ c' _ M); reflexivity.
Qed.

(** [plot!] whose first computation is another [plot!], and [log!] with a message that
    logs: the thread hangs, whatever the others do. *)
Theorem C125_plot_in_plot_refuted : forall known csv known' csv' args args' rest others is c,
  lmoves is (starting (program (Call (CPlot known csv (CPlot known' csv' args :: args')) :: rest) :: others)) = Some c ->
  ~ all_done c.
Proof.
  intros known csv known' csv' args args' rest others is c M D. cbn in M. apply self_lock2 in M.
  destruct M as (h & [M|M]); apply nth_error_In in M; unfold all_done in D; rewrite Forall_forall in D; apply D in M; discriminate.
Qed.
Print Assumptions C125_plot_in_plot_refuted.
Theorem C125_log_in_log_refuted : forall args args' rest others is c,
  lmoves is (starting (program (Call (CLog (CLog args :: args')) :: rest) :: others)) = Some c ->
  ~ all_done c.
Proof.
  intros args args' rest others is c M D. cbn in M. apply self_lock2 in M.
  destruct M as (h & [M|M]); apply nth_error_In in M; unfold all_done in D; rewrite Forall_forall in D; apply D in M; discriminate.
Qed.
Print Assumptions C125_log_in_log_refuted.

(** A closure of [apply_to_all_values] with WRITE or READWRITE that looks at the value being
    written in its own shard, for example at its own location: the thread hangs.  (In the
    sequential build the same closure panics, C121_own_buffer_refuted.) *)
Theorem C125_closure_refuted : forall f s ls args rest others is c,
  lmoves is (starting (program (Call (CApply f s (CShards ((false, f, s) :: ls) :: args)) :: rest) :: others)) = Some c ->
  ~ all_done c.
Proof.
  intros f s ls args rest others is c M D. cbn in M. apply self_lock2 in M.
  destruct M as (h & [M|M]); apply nth_error_In in M; unfold all_done in D; rewrite Forall_forall in D; apply D in M; discriminate.
Qed.
Print Assumptions C125_closure_refuted.
(** Even when each closure looks into another shard, two threads can wait for each other. *)
Theorem C125_two_closures_refuted : forall f s t, s <> t ->
  exists is c, lmoves is (starting [program [Call (CApply f s [CShards [(false, f, t)]])]; program [Call (CApply f t [CShards [(false, f, s)]])]]) = Some c /\ deadlocked c.
Proof.
  intros f s t N. eexists [0; 1], _. cbn -[mutex_beq].
  assert (E1 : mutex_beq (MShard false f t) (MShard false f s) = false).
  { apply not_true_is_false. intros E. apply internal_mutex_dec_bl in E. injection E as E. congruence. }
  assert (E2 : mutex_beq (MShard false f s) (MShard false f t) = false).
  { apply not_true_is_false. intros E. apply internal_mutex_dec_bl in E. injection E as E. congruence. }
  assert (R1 : mutex_beq (MShard false f s) (MShard false f s) = true) by (apply internal_mutex_dec_lb; reflexivity).
  assert (R2 : mutex_beq (MShard false f t) (MShard false f t) = true) by (apply internal_mutex_dec_lb; reflexivity).
  unfold lmove, advance, holds. cbn -[mutex_beq]. rewrite E1. cbn -[mutex_beq]. split; [reflexivity|]. split.
  - intros D. inversion D; discriminate.
  - intros [|[|[|i]]]; cbn -[mutex_beq]; unfold advance, holds; cbn -[mutex_beq]; rewrite ?E1, ?E2, ?R1, ?R2; reflexivity.
Qed.
Print Assumptions C125_two_closures_refuted.

(** Two threads of the user, one that logs while it plots, one that plots while it logs:
    each is fine alone, together they can wait for each other for ever. *)
Theorem C125_two_threads_refuted :
  user_work (Call (CPlot true false [CLog []])) /\ user_work (Call (CLog [CPlot true false []])) /\
  exists is c, lmoves is (starting [program [Call (CPlot true false [CLog []])]; program [Call (CLog [CPlot true false []])]]) = Some c /\ deadlocked c.
Proof.
  split; [cbn; intuition discriminate|]. split; [cbn; intuition discriminate|].
  eexists [0; 1], _. split; [reflexivity|]. split.
  - intros D. inversion D; discriminate.
  - intros [|[|[|i]]]; reflexivity.
Qed.
Print Assumptions C125_two_threads_refuted.

(** ** A concrete case *)
(** A repetition of [simulate!]: the model logs in [init], plots to csv in every step, one
    argument of which logs; the terminal draws two frames; the csv thread opens its files. *)
Definition a_rep : list work :=
  [Chore MLogs; Chore MData; Chore MOp; Call (CAddPlot true true []); Call (CLog []);
   Chore MCsv; Chore MLogs; Call (CPlot true true [CLog []]); Chore MOp;
   Call (CLog [CDescr [CPlot true false []]]); Chore MCsv; Chore MData; Chore MReps; Chore MCsv].
Definition a_screen : list mutex := [MData; MLogs; MDescr; MOp; MReps; MMonitor; MData; MData; MDescr; MOp; MReps].
Definition workers : list (list work) :=
  [[Turn [CPlot true true [CLog []]] true; Turn [] false]; [Turn [CLog []; CDescr []] true]; [Hook [CRepeating; COnce]; Chore MEvents];
   [Call (CPlot true false [CUnbuffered 0 3 1 3; CLog []]); Call (CApply 4 2 [CLog []]); Call (CShards [(true, 0, 3); (true, 2, 3); (false, 1, 3)])]].
Example C125_concrete :
  Forall user_work a_rep /\ Forall (Forall tame_work) workers /\
  length (program a_rep) = 60 /\ length (concat (map program workers)) = 71 /\
  (* the terminal waits for the plot *)
  (exists c, lmoves (repeat 0 9 ++ repeat 0 16) (starting [program a_rep; flat_map chore a_screen]) = Some c) /\
  (exists c, lmoves (repeat 0 12) (starting [program a_rep; flat_map chore a_screen]) = Some c /\ lmove 1 c = None /\ ~ all_done c /\ lmove 0 c <> None).
Proof.
  split; [repeat constructor; cbn; intuition discriminate|].
  split; [repeat first [apply Forall_cons|apply Forall_nil]; cbn; unfold plain_log; repeat first [apply Forall_cons|apply Forall_nil]; cbn; auto|].
  split; [reflexivity|]. split; [reflexivity|]. split.
  - eexists. reflexivity.
  - eexists. split; [reflexivity|]. split; [reflexivity|]. split; [intros D; inversion D; discriminate | discriminate].
Qed.
