(** * Property theorems: [simulate!] with the terminal (C82, C86) *)
From Coq Require Import List Bool Arith ZArith NArith Lia.
From Verif Require Import F32 OptModel F64 SchedModel SchedSpec SchedExamples SimModel UiModel UiSpec UiProofs TermModel TermSpec TermProofs.
Import ListNotations.
Local Open Scope nat_scope.

(** ** C82: with the terminal the simulation is the same as without. *)

(** Partial: the user does not quit and [end_condition] ends no repetition but the last. *)
Theorem C82_same_partial : forall A S (u : user A S) chs n reps s ts,
  no_quit ts -> only_last_ends u chs n reps s ->
  let st := tmoves u chs n reps (tstart s) ts in
  t_pc st = PDone -> (t_counts st, t_world st) = simulate u chs n reps s.
Proof.
  intros A S u chs n reps s ts NQ O st D. destruct (good_moves u chs n reps s ts O (tstart s) NQ (good_start u chs n reps s)) as (_ & F & _).
  fold st in F. rewrite D in F. exact F.
Qed.
Print Assumptions C82_same_partial.

(** The simulation thread ends after boundedly many moves of its own, whatever the
    terminal does. *)
Theorem C82_completes : forall A S (u : user A S) chs n reps s ts,
  reps * (3 * n + 6) + 2 <= count is_sim ts -> t_pc (tmoves u chs n reps (tstart s) ts) = PDone.
Proof.
  intros A S u chs n reps s ts H. apply sim_ends; [right; cbn; lia|]. cbn [t_pc tstart left_over]. unfold reps_left. rewrite Nat.sub_0_r. exact H.
Qed.
Print Assumptions C82_completes.

(** Once the terminal is gone (the user quit), at most one more [init] and one more step
    are made. *)
Theorem C82_after_quit : forall A S (u : user A S) chs n reps s ts more,
  let st := tmoves u chs n reps (tstart s) ts in
  t_term st = TGone ->
  let st' := tmoves u chs n reps st more in
  exists t, w_trace (t_world st') = w_trace (t_world st) ++ t /\ count is_init t <= 1 /\ count is_before t <= 1.
Proof.
  intros A S u chs n reps s ts more st G st'. destruct (gone_moves u chs n reps more st) as (a & b & (t & E & X & Y) & H1 & H2); [rewrite G; reflexivity|].
  exists t. split; [exact E|]. destruct (t_pc st); cbn in H1, H2; lia.
Qed.
Print Assumptions C82_after_quit.

(** Every message given to the interface is one of the simulation (what C55 assumes). *)
Theorem C82_messages : forall A S (u : user A S) chs n reps s ts m,
  In m (t_seen (tmoves u chs n reps (tstart s) ts)) -> from_run n reps m.
Proof.
  intros A S u chs n reps s ts m H. destruct (both_moves u chs n reps ts (tstart s)) as [(_ & _ & _ & M) _].
  - right. cbn. lia.
  - repeat split; constructor.
  - repeat split; cbn; try (intros; contradiction).
  - rewrite Forall_forall in M. specialize (M m H). destruct m as [|i p| | |r]; cbn in *; try tauto.
    + intros _ _. destruct M as [[M ->] _]. split; [lia|]. unfold progress_of. repeat f_equal. lia.
    + intros _. lia.
Qed.
Print Assumptions C82_messages.

(** A step is shown at most once: never more steps are shown than were made. *)
Theorem C82_shown : forall A S (u : user A S) chs n reps s ts,
  let st := tmoves u chs n reps (tstart s) ts in
  count is_step (t_seen st) <= count is_before (w_trace (t_world st)).
Proof.
  intros A S u chs n reps s ts st. pose proof (shown_moves u chs n reps ts (tstart s) (Nat.le_refl 0)) as H. unfold shown_ok in H. fold st in H. lia.
Qed.
Print Assumptions C82_shown.

(** [end_condition] in the first of two repetitions: if the terminal looks at its mailbox
    before the next repetition starts, that repetition is never run, although the user
    did not quit. *)
Theorem C82_early_end_refuted : exists ts,
  let chs := fun _ _ _ => 0 in
  let st := tmoves demo chs 6 2 (tstart 0%N) ts in
  no_quit ts /\ t_pc st = PDone /\ t_counts st = [4%N] /\ fst (simulate demo chs 6 2 0%N) = [4; 1]%N.
Proof.
  exists (repeat Sim 15 ++ repeat (Term false) 4 ++ repeat Sim 3). split; [|vm_compute; auto].
  intros t H. apply in_app_iff in H. destruct H as [H|H]; [apply repeat_spec in H; subst; discriminate|].
  apply in_app_iff in H. destruct H as [H|H]; apply repeat_spec in H; subst; discriminate.
Qed.
Print Assumptions C82_early_end_refuted.

(** When [end_condition] ends the last repetition while the terminal is between two of
    its turns, the terminal closes by itself, so [simulate!] returns: whatever happens
    until the simulation thread has finished, and four moves of the terminal later. *)
Theorem C82_returns_partial : forall A S (u : user A S) chs n reps s ts r i sc more,
  let st := tmoves u chs n reps (tstart s) ts in
  t_pc st = PCond r i sc -> Datatypes.S r = reps -> fst (call_end u sc (t_world st)) = true -> t_term st = TIdle ->
  let st' := tmoves u chs n reps st (Sim :: more) in
  t_pc st' = PDone -> t_term (tmoves u chs n reps st' (repeat (Term false) 4)) = TGone.
Proof.
  intros A S u chs n reps s ts r i sc more st P R E T st' D. apply ending_closes; [|exact D]. apply (ending_moves u chs n reps more (sim_move u chs n reps st)).
  unfold sim_move. rewrite P. destruct (call_end u sc (t_world st)) as [b [sc1 w1]]. cbn in E. subst b. repeat split; cbn; [exact R|]. rewrite T. exact I.
Qed.
Print Assumptions C82_returns_partial.

(** ... but the message can be lost: the terminal then never closes by itself, so
    [simulate!] does not return. *)
Lemma stuck_moves {A S} (u : user A S) chs n reps ts : forall st, no_quit ts ->
  t_pc st = PDone -> t_op st <> MQuit -> match t_term st with TGone | TOp MQuit | TBoth MQuit _ => False | _ => True end ->
  t_term (tmoves u chs n reps st ts) <> TGone.
Proof.
  induction ts as [|t ts IH]; intros st NQ P O T.
  - cbn. intros E. rewrite E in T. exact T.
  - change (tmoves u chs n reps st (t :: ts)) with (tmoves u chs n reps (tmove u chs n reps st t) ts).
    assert (NQ' : no_quit ts) by (intros t' H; apply NQ; right; exact H). destruct t as [|q].
    + replace (tmove u chs n reps st Sim) with st by (cbn; unfold sim_move; rewrite P; reflexivity). apply IH; assumption.
    + assert (q = false) as -> by (destruct q; [elim (NQ (Term true)); [left|]; reflexivity|reflexivity]).
      cbn [tmove]. unfold term_move. destruct (t_term st) as [| |m|m r|r|] eqn:E.
      * destruct (t_pending st); [rewrite P; cbn [done]|]; apply IH; auto.
      * apply IH; auto. cbn. destruct (t_op st); try exact I. congruence.
      * apply IH; auto.
      * destruct m; try contradiction; (apply IH; [assumption|exact P| |exact I]); cbn; try assumption; discriminate.
      * destruct r; (apply IH; [assumption|exact P| |exact I]); cbn; assumption.
      * contradiction.
Qed.
Theorem C82_returns_refuted : exists ts, let chs := fun _ _ _ => 0 in
  let st := tmoves demo chs 6 1 (tstart 0%N) ts in
  no_quit ts /\ t_pc st = PDone /\ In (CEnd true) (w_trace (t_world st)) /\
  forall more, no_quit more -> t_term (tmoves demo chs 6 1 st more) <> TGone.
Proof.
  exists (repeat Sim 14 ++ repeat (Term false) 3 ++ [Sim; Term false] ++ repeat Sim 4). cbv zeta. split; [|split; [|split]].
  - intros t H. cbn in H. intros ->. repeat destruct H as [H|H]; discriminate || contradiction.
  - vm_compute. reflexivity.
  - vm_compute. tauto.
  - intros more NQ. apply stuck_moves; [exact NQ|vm_compute; reflexivity|vm_compute; discriminate|vm_compute; exact I].
Qed.
Print Assumptions C82_returns_refuted.

(** Two repetitions of three steps; the last ends early; the terminal runs in between. *)
Example C82_concrete : let chs := fun _ _ _ => 0 in
  let ts := flat_map (fun _ => [Sim; Term false; Term false; Sim]) (seq 0 20) in
  let st := tmoves demo chs 3 2 (tstart 0%N) ts in
  no_quit ts /\ only_last_ends demo chs 3 2 0%N /\ t_pc st = PDone /\ t_counts st = [3; 1]%N /\
  reps_of (t_seen st) = [0; 1] /\ count is_step (t_seen st) = 2 /\ count is_before (w_trace (t_world st)) = 4 /\ In (MStep 1 (progress_of 1 3)) (t_seen st).
Proof.
  cbv zeta. split; [|split].
  - intros t H. apply in_flat_map in H. destruct H as (x & _ & H). cbn in H. intuition congruence.
  - vm_compute. intuition discriminate.
  - vm_compute. tauto.
Qed.

(** ** C86: the chart of repetitions *)

(** Each repetition is reported to the interface at most once, in order, and only when
    it was run.  Partial: some may be missing. *)
Theorem C86_reps_partial : forall A S (u : user A S) chs n reps s ts,
  let st := tmoves u chs n reps (tstart s) ts in
  increasing (reps_of (t_seen st)) /\ forall r, In r (reps_of (t_seen st)) -> r < reps.
Proof.
  intros A S u chs n reps s ts st. destruct (both_moves u chs n reps ts (tstart s)) as [_ (I & _)].
  - right. cbn. lia.
  - repeat split; constructor.
  - repeat split; cbn; try (intros; contradiction).
  - split; [exact I|]. intros r H. apply in_flat_map in H. destruct H as (m & H & R). destruct m; try contradiction. destruct R as [<-|[]].
    apply C82_messages in H. specialize (H 0%N). cbn in H. lia.
Qed.
Print Assumptions C86_reps_partial.

(** The chart in the Home tab holds exactly the repetitions received, newest first, each
    labelled by its number counted from 1. *)
Theorem C86_chart : forall checks n reps ts ui ss, existsb quits ts = false ->
  session checks (ui_new n reps) ts = Some (ui, ss) ->
  u_reps ui = rev (map (fun p => (fst p + 1, snd p)%N) (reports ts)).
Proof.
  intros checks n reps ts ui ss Q E. apply session_reps in E; [|reflexivity|exact Q]. cbn [u_reps ui_new] in E. rewrite app_nil_r in E. exact E.
Qed.
Print Assumptions C86_chart.

(** A repetition that was run completely is missing when the next one ends before the
    terminal has read the mailbox. *)
Theorem C86_lost_refuted : exists ts, let chs := fun _ _ _ => 0 in
  let st := tmoves demo chs 1 2 (tstart 0%N) ts in
  no_quit ts /\ t_pc st = PDone /\ t_counts st = [1; 1]%N /\ t_term st = TIdle /\ t_pending st = 0 /\ reps_of (t_seen st) = [1].
Proof.
  exists (repeat Sim 19 ++ repeat (Term false) 30). cbv zeta. split; [|vm_compute; auto].
  intros t H. apply in_app_iff in H. destruct H as [H|H]; apply repeat_spec in H; subst; discriminate.
Qed.
Print Assumptions C86_lost_refuted.
Example C86_chart_concrete : exists ui ss,
  let ts := [Turn [] 0 (Some KDown) [AfterRep 0 7]; Turn [] 0 None [AfterStep 3 d1 d0 d0; AfterRep 1 9]] in
  existsb quits ts = false /\ session true (ui_new 5 2) ts = Some (ui, ss) /\ u_reps ui = [(2, 9); (1, 7)]%N.
Proof. eexists _, _. cbv zeta. split; [reflexivity|]. split; [vm_compute; reflexivity|reflexivity]. Qed.
(** The demo ends its only repetition at the fourth step, while the terminal is idle. *)
Example C82_returns_concrete : exists sc, let chs := fun _ _ _ => 0 in let st := tmoves demo chs 6 1 (tstart 0%N) (repeat Sim 14) in
  t_pc st = PCond 0 3 sc /\ fst (call_end demo sc (t_world st)) = true /\ t_term st = TIdle /\
  t_pc (tmoves demo chs 6 1 st (Sim :: [Term false; Sim; Sim; Term false; Sim; Sim; Sim])) = PDone.
Proof. eexists. cbv zeta. split; [vm_compute; reflexivity|]. vm_compute. auto. Qed.
Example C86_concrete : let chs := fun _ _ _ => 0 in
  reps_of (t_seen (tmoves demo chs 1 2 (tstart 0%N) (flat_map (fun _ => Sim :: repeat (Term false) 5) (seq 0 20)))) = [0; 1].
Proof. vm_compute. reflexivity. Qed.
