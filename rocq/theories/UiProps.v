(** * Property theorems: the terminal user interface (C55, C79, C80, C85) *)
From Coq Require Import List Bool Arith ZArith NArith String Ascii Lia Reals Lra.
From Verif Require Import F32 OptModel F64 F64Real F64Ops PlotModel PlotSpec PlotProofs PlotProps UiModel UiSpec UiProofs UiAxes.
Import ListNotations.
Local Open Scope nat_scope.

(** ** C55: navigation *)

(** Whatever is pressed and received, a tab is selected, Home is the first, and no title
    occurs twice. *)
Theorem C55_tabs : forall checks n reps ts u ss, session checks (ui_new n reps) ts = Some (u, ss) ->
  u_index u < List.length (u_titles u) /\ hd_error (u_titles u) = Some "Home"%string /\ NoDup (u_titles u).
Proof. intros checks n reps ts u ss E. exact (tabs_session _ _ _ _ _ (tabs_new n reps) E). Qed.
Print Assumptions C55_tabs.

(** Right goes round through all tabs and Left undoes it. *)
Fixpoint rights (checks : bool) (k : nat) (u : ui) : option ui :=
  match k with O => Some u | S k' => match on_key checks u KRight with None => None | Some u' => rights checks k' u' end end.
Theorem C55_cycle : forall checks n reps ts u ss, session checks (ui_new n reps) ts = Some (u, ss) ->
  (forall k, exists u', rights checks k u = Some u' /\ u_titles u' = u_titles u /\ u_index u' = (u_index u + k) mod List.length (u_titles u)) /\
  (exists u1 u2, on_key checks u KRight = Some u1 /\ on_key checks u1 KLeft = Some u2 /\ u_index u2 = u_index u) /\
  (exists u1 u2, on_key checks u KLeft = Some u1 /\ on_key checks u1 KRight = Some u2 /\ u_index u2 = u_index u).
Proof.
  intros checks n reps ts u ss E. destruct (C55_tabs _ _ _ _ _ _ E) as (I & _ & _). clear E ss ts reps n. split; [|split].
  - intros k. revert u I. induction k as [|k IH]; intros u I.
    + exists u. split; [reflexivity|]. split; [reflexivity|]. rewrite Nat.add_0_r, Nat.mod_small by exact I. reflexivity.
    + cbn [rights on_key]. destruct (IH (set_index u (next_tab u))) as (u' & R & T & X).
      { cbn. apply Nat.mod_upper_bound. lia. }
      exists u'. split; [exact R|]. split; [exact T|]. rewrite X. cbn. unfold next_tab. rewrite Nat.add_mod_idemp_l by lia. f_equal. lia.
  - eexists _, _. split; [reflexivity|]. split; [reflexivity|]. cbn. unfold prev_tab, next_tab. cbn. destruct (Nat.eq_dec (u_index u + 1) (List.length (u_titles u))) as [X|X].
    + rewrite X, Nat.mod_same by lia. change (0 <? 0) with false. cbv iota. lia.
    + rewrite Nat.mod_small by lia. rewrite Nat.add_comm. cbn. lia.
  - eexists _, _. split; [reflexivity|]. split; [reflexivity|]. cbn. unfold next_tab, prev_tab. cbn [u_index u_titles set_index]. destruct (0 <? u_index u) eqn:X.
    + apply Nat.ltb_lt in X. rewrite Nat.mod_small by lia. lia.
    + apply Nat.ltb_ge in X. replace (List.length (u_titles u) - 1 + 1) with (List.length (u_titles u)) by lia. rewrite Nat.mod_same by lia. lia.
Qed.
Print Assumptions C55_cycle.

(** The interface stops at the first [q] or [Q] and at nothing else. *)
Theorem C55_quit : forall checks n reps ts u ss, session checks (ui_new n reps) ts = Some (u, ss) ->
  List.length ss = turns_made ts /\ u_quit u = existsb quits ts.
Proof. intros checks n reps ts u ss E. exact (session_quit _ _ (ui_new n reps) _ _ eq_refl E). Qed.
Print Assumptions C55_quit.

(** [c] and [C] show and hide the chart, [s] and [S] the description; no other key or message
    does, the tab changes only by Left and Right, the selected log only by Up and Down. *)
Lemma char_flags u c :
  u_chart (on_char u c) = xorb (u_chart u) ((c =? "c")%char || (c =? "C")%char) /\
  u_descr (on_char u c) = xorb (u_descr u) ((c =? "s")%char || (c =? "S")%char) /\
  u_index (on_char u c) = u_index u /\ u_selected (on_char u c) = u_selected u.
Proof.
  unfold on_char.
  destruct (c =? "q")%char eqn:E1; [apply Ascii.eqb_eq in E1; subst c; cbn; rewrite !xorb_false_r; auto|].
  destruct (c =? "Q")%char eqn:E2; [apply Ascii.eqb_eq in E2; subst c; cbn; rewrite !xorb_false_r; auto|].
  destruct (c =? "c")%char eqn:E3; [apply Ascii.eqb_eq in E3; subst c; cbn; rewrite xorb_true_r, xorb_false_r; auto|].
  destruct (c =? "C")%char eqn:E4; [apply Ascii.eqb_eq in E4; subst c; cbn; rewrite xorb_true_r, xorb_false_r; auto|].
  destruct (c =? "s")%char eqn:E5; [apply Ascii.eqb_eq in E5; subst c; cbn; rewrite xorb_true_r, xorb_false_r; auto|].
  destruct (c =? "S")%char eqn:E6; cbn; rewrite ?xorb_true_r, ?xorb_false_r; auto.
Qed.
Lemma turn_flags checks u t u' s : do_turn checks u t = Some (u', s) ->
  u_chart u' = xorb (u_chart u) (Nat.odd (presses "c" "C" [t])) /\ u_descr u' = xorb (u_descr u) (Nat.odd (presses "s" "S" [t])) /\
  (moves KLeft KRight t \/ u_index u' = u_index u) /\ (moves KUp KDown t \/ u_selected u' = u_selected u).
Proof.
  intros E. apply do_turn_inv in E. destruct E as (u1 & u2 & D & K & ->).
  assert (F : u_chart u1 = u_chart u /\ u_descr u1 = u_descr u /\ u_index u1 = u_index u /\ u_selected u1 = u_selected u).
  { unfold draw in D. cbn [u_index set_titles] in D. destruct (u_index u) as [|i] eqn:I.
    - destruct (_ && _); [|discriminate]. injection D as <- _. cbn. rewrite I. auto.
    - destruct (nth_error _ _); [|discriminate]. injection D as <- _. cbn. auto. }
  assert (G : forall ms v, u_chart (fold_left on_message ms v) = u_chart v /\ u_descr (fold_left on_message ms v) = u_descr v).
  { induction ms as [|m ms IH]; intros v; cbn [fold_left]; [auto|]. destruct (IH (on_message v m)) as [-> ->]. destruct m; auto. }
  assert (H : forall v, u_chart (if u_quit v then v else fold_left on_message (t_msgs t) v) = u_chart v /\
    u_descr (if u_quit v then v else fold_left on_message (t_msgs t) v) = u_descr v /\
    u_index (if u_quit v then v else fold_left on_message (t_msgs t) v) = u_index v /\
    u_selected (if u_quit v then v else fold_left on_message (t_msgs t) v) = u_selected v).
  { intros v. destruct (u_quit v); [auto|]. destruct (G (t_msgs t) v) as [-> ->]. destruct (msgs_frame (t_msgs t) v) as (_ & -> & _ & -> & _). auto. }
  destruct (H u2) as (-> & -> & -> & ->). destruct F as (<- & <- & <- & <-). clear D G H.
  unfold presses, moves. cbn [filter]. destruct (t_key t) as [k|]; [|injection K as <-; cbn; rewrite !xorb_false_r; auto 9].
  destruct k as [| | | |c|]; cbn [on_key] in K; try (injection K as <-; cbn; rewrite ?xorb_false_r; auto 9; fail).
  - cbn. rewrite !xorb_false_r. unfold on_up in K. destruct (u_selected u1) as [i|]; [|injection K as <-; cbn; auto 9].
    destruct (i =? 0)%N; [|injection K as <-; cbn; auto 9]. destruct (usize_sub _ _ _); [|discriminate]. injection K as <-. cbn; auto 9.
  - cbn. rewrite !xorb_false_r. unfold on_down in K. destruct (u_selected u1) as [i|]; [|injection K as <-; cbn; auto 9].
    destruct (usize_sub _ _ _); [|discriminate]. injection K as <-. cbn; auto 9.
  - injection K as <-. destruct (char_flags u1 c) as (-> & -> & -> & ->).
    set (b1 := (c =? "c")%char || (c =? "C")%char). set (b2 := (c =? "s")%char || (c =? "S")%char).
    destruct b1, b2; cbn [filter List.length Nat.odd Nat.even negb]; auto 9.
Qed.
Theorem C55_keys : forall checks n reps ts u ss, session checks (ui_new n reps) ts = Some (u, ss) ->
  u_chart u = negb (Nat.odd (presses "c" "C" (played ts))) /\ u_descr u = Nat.odd (presses "s" "S" (played ts)) /\
  (Exists (moves KLeft KRight) (played ts) \/ u_index u = 0) /\ (Exists (moves KUp KDown) (played ts) \/ u_selected u = None).
Proof.
  intros checks n reps ts u ss E.
  assert (G : forall ts v u ss, u_quit v = false -> session checks v ts = Some (u, ss) ->
    u_chart u = xorb (u_chart v) (Nat.odd (presses "c" "C" (played ts))) /\ u_descr u = xorb (u_descr v) (Nat.odd (presses "s" "S" (played ts))) /\
    (Exists (moves KLeft KRight) (played ts) \/ u_index u = u_index v) /\ (Exists (moves KUp KDown) (played ts) \/ u_selected u = u_selected v)).
  { clear. induction ts as [|t ts IH]; intros v u ss Q E; cbn in E.
    - injection E as <- <-. unfold played, presses. cbn. rewrite !xorb_false_r. auto.
    - destruct (do_turn checks v t) as [[u1 s]|] eqn:T; [|discriminate]. pose proof (turn_quit _ _ _ _ _ Q T) as Q1.
      apply turn_flags in T. destruct T as (A & B & C & D).
      assert (P : forall c1 c2 l, presses c1 c2 (t :: l) = presses c1 c2 [t] + presses c1 c2 l).
      { intros c1 c2 l. unfold presses. cbn [filter]. destruct (match t_key t with Some _ => _ | None => _ end); reflexivity. }
      unfold played. cbn [turns_made]. rewrite <- Q1. destruct (u_quit u1) eqn:Q2.
      + injection E as <- <-. cbn [firstn]. split; [exact A|]. split; [exact B|].
        split; [destruct C as [C|C]; [left; constructor; exact C|auto]|destruct D as [D|D]; [left; constructor; exact D|auto]].
      + destruct (session checks u1 ts) as [[u2 ss2]|] eqn:S; [|discriminate]. injection E as <- <-.
        destruct (IH _ _ _ Q2 S) as (A' & B' & C' & D'). cbn [firstn]. fold (played ts).
        rewrite (P "c"%char "C"%char (played ts)), (P "s"%char "S"%char (played ts)), !Nat.odd_add, <- !xorb_assoc, <- A, <- B. split; [exact A'|]. split; [exact B'|]. split.
        * destruct C as [C|C]; [left; constructor; exact C|]. destruct C' as [C'|C']; [left; right; exact C'|right; congruence].
        * destruct D as [D|D]; [left; constructor; exact D|]. destruct D' as [D'|D']; [left; right; exact D'|right; congruence]. }
  destruct (G ts (ui_new n reps) u ss eq_refl E) as (A & B & C & D). split; [rewrite A; apply xorb_true_l|]. split; [rewrite B; apply xorb_false_l|].
  split; [exact C|exact D].
Qed.
Print Assumptions C55_keys.

(** No key and no message of a simulation with at least one repetition panics.  Partial,
    with overflow checks (debug build): there is at least one log when the interface is
    drawn. *)
Theorem C55_no_panic_partial : forall n reps ts, (n <= 2 ^ 64)%N -> (0 < reps <= 2 ^ 64)%N ->
  Forall (fed n reps) ts -> Forall (fun t => 1 <= t_logs t)%N ts -> exists u ss, session true (ui_new n reps) ts = Some (u, ss).
Proof.
  intros n reps ts N R F L. apply (session_some true n reps ts N); [apply tabs_new| |reflexivity|exact F|].
  - split; [cbn; lia|reflexivity].
  - right. split; [exact L|]. left. reflexivity.
Qed.
Print Assumptions C55_no_panic_partial.
(** Without overflow checks (release build) nothing is assumed of the logs. *)
Theorem C55_no_panic_release : forall n reps ts, (n <= 2 ^ 64)%N -> (0 < reps <= 2 ^ 64)%N ->
  Forall (fed n reps) ts -> exists u ss, session false (ui_new n reps) ts = Some (u, ss).
Proof.
  intros n reps ts N R F. apply (session_some false n reps ts N); [apply tabs_new| |reflexivity|exact F|left; reflexivity].
  split; [cbn; lia|reflexivity].
Qed.
Print Assumptions C55_no_panic_release.

(** Up and Down select a log that exists.  Partial: from the first drawing on there is a
    log (the number of logs never goes down). *)
Theorem C55_selected_partial : forall checks n reps ts u ss i, growing 1 (map t_logs ts) ->
  session checks (ui_new n reps) ts = Some (u, ss) -> u_selected u = Some i -> (i < u_tot_logs u)%N.
Proof.
  intros checks n reps ts u ss i G E S. pose proof (session_sel checks ts (ui_new n reps) u ss 1%N G (N.le_refl 1) ltac:(discriminate) (or_introl eq_refl) I E) as H.
  unfold sel_ok in H. rewrite S in H. exact H.
Qed.
Print Assumptions C55_selected_partial.

(** Up twice before the first log panics in a debug build, and selects log 2^64 - 1 in a
    release build. *)
Theorem C55_up_refuted : forall n reps, (0 < reps <= 2 ^ 64)%N ->
  let t := Turn [] 0 (Some KUp) [] in
  session true (ui_new n reps) [t; t] = None /\
  exists u ss, session false (ui_new n reps) [t; t] = Some (u, ss) /\ u_selected u = Some (2 ^ 64 - 1)%N.
Proof.
  intros n reps R t. destruct (draw_some (ui_new n reps) [] 0%N (tabs_new n reps)) as (u1 & s1 & D1); [split; [cbn; lia|reflexivity]|].
  assert (E1 : u1 = ui_new n reps). { unfold draw in D1. cbn in D1. destruct (_ && _); [|discriminate]. injection D1 as <- _. reflexivity. }
  subst u1. set (u2 := select (ui_new n reps) (Some 0%N)).
  destruct (draw_some u2 [] 0%N) as (u3 & s3 & D3); [exact (tabs_new n reps)|split; [cbn; lia|reflexivity]|].
  assert (E3 : u3 = u2). { unfold draw in D3. cbn in D3. destruct (_ && _); [|discriminate]. injection D3 as <- _. reflexivity. }
  subst u3. assert (T : forall checks, do_turn checks (ui_new n reps) t = Some (u2, s1)). { intros checks. unfold do_turn. cbn [t t_names t_logs t_key]. rewrite D1. reflexivity. }
  split.
  - cbn [session]. rewrite T. replace (u_quit u2) with false by reflexivity. unfold do_turn. cbn [t t_names t_logs t_key]. rewrite D3. reflexivity.
  - eexists _, _. split.
    + cbn [session]. rewrite T. replace (u_quit u2) with false by reflexivity. unfold do_turn. cbn [t t_names t_logs t_key]. rewrite D3.
      replace (on_key false u2 KUp) with (Some (select u2 (Some (2 ^ 64 - 1)%N))) by reflexivity. cbn. reflexivity.
    + reflexivity.
Qed.
Print Assumptions C55_up_refuted.

(** With no repetition the first drawing panics. *)
Theorem C55_reps_refuted : forall checks n t ts, session checks (ui_new n 0) (t :: ts) = None.
Proof. intros checks n t ts. reflexivity. Qed.
Print Assumptions C55_reps_refuted.

Definition demo_turns : list turn :=
  [Turn [] 1 (Some KUp) [AfterStep 0 (ddiv d1 (d_of_Z 2)) d0 d1];
   Turn ["a"; "b"]%string 3 (Some KRight) [];
   Turn ["b"; "a"]%string 4 (Some KLeft) [AfterStep 1 d1 d1 d1; AfterRep 0 77];
   Turn ["c"]%string 4 (Some KLeft) []; Turn ["c"]%string 5 (Some KDown) []; Turn [] 5 (Some (KChar "q")) []; Turn [] 5 (Some KUp) []].
Example C55_concrete : Forall (fed 2 1) demo_turns /\ Forall (fun t => 1 <= t_logs t)%N demo_turns /\ growing 1 (map t_logs demo_turns) /\
  exists u ss, session true (ui_new 2 1) demo_turns = Some (u, ss) /\ u_titles u = ["Home"; "a"; "b"; "c"]%string /\ u_index u = 3 /\
    List.length ss = 6 /\ nth_error ss 2 = Some (PlotTab "a") /\ nth_error ss 5 = Some Empty /\ u_selected u = Some 1%N.
Proof.
  split. { repeat constructor. }
  split. { repeat (constructor; [cbn; lia|]). constructor. }
  split. { cbn. lia. }
  eexists _, _. split; [vm_compute; reflexivity|]. repeat split.
Qed.

(** ** C79: a tab for every plot *)

(** After any drawing each plot of [DATA] has exactly one tab after Home, and that tab
    shows it.  Partial: for plots not named "Home". *)
Theorem C79_every_plot_partial : forall checks n reps ts u ss names logs u' s,
  session checks (ui_new n reps) ts = Some (u, ss) -> draw u names logs = Some (u', s) ->
  NoDup (u_titles u') /\
  (forall p, In p names -> p <> "Home"%string -> exists i, 0 < i /\ nth_error (u_titles u') i = Some p /\
     (forall j, nth_error (u_titles u') j = Some p -> j = i) /\ (u_index u' = i -> s = PlotTab p)) /\
  (forall p, s = PlotTab p -> In p names /\ nth_error (u_titles u') (u_index u') = Some p) /\
  (forall c, s = Home c -> u_index u' = 0).
Proof.
  intros checks n reps ts u ss names logs u' s E D. pose proof (tabs_session _ _ _ _ _ (tabs_new n reps) E) as T. pose proof (tabs_draw _ _ _ _ _ T D) as (I' & H' & D').
  pose proof (draw_titles _ _ _ _ _ D) as (TT & II & _). pose proof (draw_screen _ _ _ _ _ D) as S. split; [exact D'|]. split; [|split].
  - intros p P NH. destruct (add_titles_spec names (u_titles u) (proj2 (proj2 T))) as (_ & A & _). assert (X : In p (u_titles u')) by (rewrite TT; apply A; tauto).
    apply In_nth_error in X. destruct X as [i X]. exists i. split.
    { destruct i; [|lia]. exfalso. destruct (u_titles u'); [discriminate|]. cbn in H', X. congruence. }
    split; [exact X|]. split.
    + intros j Y. apply (proj1 (NoDup_nth_error (u_titles u')) D'); [apply nth_error_Some; congruence|congruence].
    + intros Y. rewrite <- II, Y in S. destruct i as [|i].
      * exfalso. destruct (u_titles u'); [discriminate|]. cbn in H', X. congruence.
      * destruct S as (q & Q & Q1 & _). rewrite X in Q. injection Q as <-. exact (Q1 P).
  - intros p ->. rewrite II. destruct (u_index u) as [|i]; [destruct S as [c S]; discriminate|]. destruct S as (q & Q & Q1 & Q2).
    destruct (in_dec string_dec q names) as [Y|Y]; [|specialize (Q2 Y); discriminate]. specialize (Q1 Y). injection Q1 as ->. split; assumption.
  - intros c ->. rewrite II. destruct (u_index u) as [|i]; [reflexivity|]. destruct S as (q & Q & Q1 & Q2).
    destruct (in_dec string_dec q names) as [Y|Y]; [specialize (Q1 Y)|specialize (Q2 Y)]; discriminate.
Qed.
Print Assumptions C79_every_plot_partial.

(** The titles are Home and the plots seen at some drawing, and a tab never moves. *)
Theorem C79_titles : forall checks n reps ts u ss, session checks (ui_new n reps) ts = Some (u, ss) ->
  (forall p, In p (u_titles u) <-> p = "Home"%string \/ exists t, In t (firstn (List.length ss) ts) /\ In p (t_names t)) /\
  (forall more u' ss', session checks (ui_new n reps) (ts ++ more) = Some (u', ss') ->
     forall i p, nth_error (u_titles u) i = Some p -> nth_error (u_titles u') i = Some p).
Proof.
  intros checks n reps ts u ss E. split.
  - intros p. destruct (session_titles _ _ _ _ _ (proj2 (proj2 (tabs_new n reps))) E) as [X _]. rewrite X. cbn. intuition congruence.
  - intros more u' ss' E2 i p X. rewrite session_app, E in E2. destruct (existsb _ ts && u_quit u).
    + injection E2 as <- <-. exact X.
    + destruct (session checks u more) as [[u2 ss2]|] eqn:S; [|discriminate]. injection E2 as <- <-.
      destruct (session_titles _ _ _ _ _ (proj2 (proj2 (tabs_session _ _ _ _ _ (tabs_new n reps) E))) S) as [_ [l ->]].
      rewrite nth_error_app1; [exact X|]. apply nth_error_Some. congruence.
Qed.
Print Assumptions C79_titles.

(** A plot named "Home" can never be shown. *)
Theorem C79_home_refuted : forall checks n reps ts u ss, session checks (ui_new n reps) ts = Some (u, ss) -> ~ In (PlotTab "Home") ss.
Proof.
  intros checks n reps ts. assert (G : forall u u' ss, tabs_ok u -> session checks u ts = Some (u', ss) -> ~ In (PlotTab "Home") ss).
  - induction ts as [|t ts IH]; intros u u' ss T E; cbn in E; [injection E as <- <-; intros []|].
    destruct (do_turn checks u t) as [[u1 s]|] eqn:DT; [|discriminate].
    assert (N : s <> PlotTab "Home").
    { apply do_turn_inv in DT. destruct DT as (v1 & v2 & D & _ & _). intros ->. pose proof (tabs_draw _ _ _ _ _ T D) as (_ & H' & D'). apply draw_screen in D.
      destruct (u_index u) as [|i]; [destruct D as [c D]; discriminate|]. destruct D as (q & Q & Q1 & Q2).
      destruct (in_dec string_dec q (t_names t)) as [Y|Y]; [|specialize (Q2 Y); discriminate]. specialize (Q1 Y). injection Q1 as <-.
      destruct (u_titles v1) as [|h l]; [discriminate|]. injection H' as ->. cbn [nth_error] in Q. apply nth_error_In in Q. inversion D'. contradiction. }
    assert (T1 : tabs_ok u1). { eapply (tabs_session checks u [t] u1 [s]); [exact T|]. cbn. rewrite DT. destruct (u_quit u1); reflexivity. }
    destruct (u_quit u1); [injection E as <- <-; intros [X|[]]; congruence|].
    destruct (session checks u1 ts) as [[u2 ss2]|] eqn:S; [|discriminate]. injection E as <- <-. intros [X|X]; [congruence|]. exact (IH _ _ _ T1 S X).
  - intros u ss E. exact (G _ _ _ (tabs_new n reps) E).
Qed.
Print Assumptions C79_home_refuted.

Example C79_concrete : exists u ss u' s, session true (ui_new 2 1) [Turn ["b"; "a"]%string 1 (Some KRight) []; Turn ["a"]%string 1 (Some KRight) []] = Some (u, ss) /\
  draw u ["c"; "a"; "b"]%string 1 = Some (u', s) /\ u_titles u' = ["Home"; "b"; "a"; "c"]%string /\ s = PlotTab "a" /\ ss <> [].
Proof. eexists _, _, _, _. split; [vm_compute; reflexivity|]. split; [vm_compute; reflexivity|]. split; [reflexivity|]. split; [reflexivity|]. discriminate. Qed.

(** ** C80: the chart of cpu and memory use *)

(** The chart holds the last 101 samples, numbered by the steps received (fewer than 2^53). *)
Theorem C80_samples : forall checks n reps ts u ss, existsb quits ts = false -> (Z.of_nat (List.length (ticks ts)) < 2 ^ 53)%Z ->
  session checks (ui_new n reps) ts = Some (u, ss) ->
  u_cpu u = last_n 101 (numbered (map fst (ticks ts))) /\ u_mem u = last_n 101 (numbered (map snd (ticks ts))).
Proof.
  intros checks n reps ts u ss Q B E. apply session_chart in E; [|reflexivity|exact Q]. unfold chart_state in E. cbn [ui_new u_cpu u_mem u_window] in E.
  rewrite fold_chart in E by exact B. injection E as -> -> _. split; reflexivity.
Qed.
Print Assumptions C80_samples.

Lemma axis_of u names logs u' lo hi cpu mem : draw u names logs = Some (u', Home (Some (lo, hi, cpu, mem))) ->
  lo = d_of_Z (Z.of_N (u_window u)) /\ hi = d_of_Z (Z.of_N (u_window u + 100)) /\ cpu = u_cpu u /\ mem = u_mem u.
Proof.
  unfold draw. cbn [u_index set_titles u_titles]. destruct (u_index u).
  - destruct (_ && _); [|discriminate]. cbn [u_chart u_window u_cpu u_mem set_titles]. destruct (u_chart u); [|discriminate]. intros E. injection E as _ <- <- <- <-. tauto.
  - destruct (nth_error _ _); [|discriminate]. destruct (existsb _ _); discriminate.
Qed.
Lemma d_int_le a b : (0 <= a <= b)%Z -> (b <= 2 ^ 53)%Z -> dleb (d_of_Z a) (d_of_Z b) = true.
Proof.
  intros A B. destruct (d_of_Z_exact a) as [E1 F1]; [lia|]. destruct (d_of_Z_exact b) as [E2 F2]; [lia|].
  apply dleb_R; try apply d_of_Z_valid; try assumption. rewrite E1, E2. apply IZR_le. lia.
Qed.
Lemma d_int_lt a b : (0 <= a < b)%Z -> (b <= 2 ^ 53)%Z -> dltb (d_of_Z a) (d_of_Z b) = true.
Proof.
  intros A B. destruct (d_of_Z_exact a) as [E1 F1]; [lia|]. destruct (d_of_Z_exact b) as [E2 F2]; [lia|].
  apply dltb_R; try apply d_of_Z_valid; try assumption. rewrite E1, E2. apply IZR_lt. lia.
Qed.

(** All samples drawn lie on the chart's x axis.  Partial: for the first 100 steps. *)
Theorem C80_axis_partial : forall checks n reps ts u ss names logs u' lo hi cpu mem, existsb quits ts = false -> List.length (ticks ts) <= 100 ->
  session checks (ui_new n reps) ts = Some (u, ss) -> draw u names logs = Some (u', Home (Some (lo, hi, cpu, mem))) ->
  cpu = numbered (map fst (ticks ts)) /\ mem = numbered (map snd (ticks ts)) /\ Forall (on_axis (lo, hi)) (map fst cpu) /\ Forall (on_axis (lo, hi)) (map fst mem).
Proof.
  intros checks n reps ts u ss names logs u' lo hi cpu mem Q L E D. destruct (axis_of _ _ _ _ _ _ _ _ D) as (-> & -> & -> & ->).
  pose proof (session_chart checks ts (ui_new n reps) u ss eq_refl Q E) as C. unfold chart_state in C. cbn [ui_new u_cpu u_mem u_window] in C. rewrite fold_chart in C by lia. injection C as -> -> ->.
  assert (G : forall l, List.length l <= 100 -> last_n 101 (numbered l) = numbered l). { intros l Hl. unfold last_n. rewrite numbered_length. replace (_ - 101) with 0 by lia. reflexivity. }
  rewrite !G by (rewrite map_length; exact L). split; [reflexivity|]. split; [reflexivity|].
  assert (A : forall l, List.length l <= 100 -> Forall (on_axis (d_of_Z (Z.of_N (N.of_nat (List.length (ticks ts) - 101))), d_of_Z (Z.of_N (N.of_nat (List.length (ticks ts) - 101) + 100)))) (map fst (numbered l))).
  { intros l Hl. replace (List.length (ticks ts) - 101) with 0 by lia. apply Forall_forall. intros x X. apply in_map_iff in X. destruct X as ([y v] & <- & X). cbn [fst].
    unfold numbered in X. apply in_combine_l in X. apply in_map_iff in X. destruct X as (k & <- & X). apply in_seq in X. split; cbn [fst snd]; apply d_int_le; cbn; lia. }
  split; apply A; rewrite map_length; exact L.
Qed.
Print Assumptions C80_axis_partial.

(** From the 101st step on the newest sample is always right of the axis, so it is not
    drawn. *)
Theorem C80_newest_refuted : forall checks n reps ts u ss names logs u' lo hi cpu mem, existsb quits ts = false ->
  101 <= List.length (ticks ts) -> (Z.of_nat (List.length (ticks ts)) < 2 ^ 53)%Z ->
  session checks (ui_new n reps) ts = Some (u, ss) -> draw u names logs = Some (u', Home (Some (lo, hi, cpu, mem))) ->
  exists x v w, List.last cpu (d0, d0) = (x, v) /\ List.last (ticks ts) (d0, d0) = (v, w) /\ dltb hi x = true.
Proof.
  intros checks n reps ts u ss names logs u' lo hi cpu mem Q L B E D. destruct (axis_of _ _ _ _ _ _ _ _ D) as (-> & -> & -> & ->).
  pose proof (session_chart checks ts (ui_new n reps) u ss eq_refl Q E) as C. unfold chart_state in C. cbn [ui_new u_cpu u_mem u_window] in C. rewrite fold_chart in C by lia. injection C as C1 C2 C3. rewrite C1, C3. clear C1 C2 C3 D E.
  assert (NE : ticks ts <> []) by (intros X; rewrite X in L; cbn in L; lia). destruct (exists_last NE) as (l & [v w] & X). rewrite X in *. rewrite app_length in *. cbn [List.length] in *.
  exists (d_of_Z (Z.of_nat (S (List.length l)))), v, w. split; [|split].
  - unfold last_n. rewrite map_app. cbn [map fst]. rewrite numbered_snoc, map_length. rewrite last_skipn by (rewrite app_length; cbn [List.length]; lia). apply last_last.
  - apply last_last.
  - apply d_int_lt; lia.
Qed.
Print Assumptions C80_newest_refuted.

Definition steps_turn (k : nat) : turn := Turn [] 1 None (map (fun i => AfterStep (N.of_nat i) d0 (d_of_Z (Z.of_nat i)) d1) (seq 0 k)).
Example C80_concrete : exists u ss u' lo hi cpu mem, existsb quits [steps_turn 60; steps_turn 60] = false /\ List.length (ticks [steps_turn 60; steps_turn 60]) = 120 /\
  session true (ui_new 100 2) [steps_turn 60; steps_turn 60] = Some (u, ss) /\ draw u [] 1 = Some (u', Home (Some (lo, hi, cpu, mem))) /\
  hd_error cpu = Some (d_of_Z 20, d_of_Z 19) /\ List.last cpu (d0, d0) = (d_of_Z 120, d_of_Z 59) /\ hi = d_of_Z 119.
Proof. eexists _, _, _, _, _, _, _. split; [reflexivity|]. split; [reflexivity|]. split; [vm_compute; reflexivity|]. split; [vm_compute; reflexivity|]. repeat split. Qed.

(** ** C85: the axes of a plot's tab *)

(** Every point of a plot lies on the axes of its tab.  Partial: finite values given as
    values, and the plot has a point with y >= 0. *)
Theorem C85_axes_partial : forall names c h name xl yl st rest g p,
  Forall pure h -> Forall finite h -> (exists q, c = Open q) \/ Forall no_csv h ->
  do_ops (Globals [] names c) h = Some g -> first_add name (since_clear h) = Some (xl, yl, st, rest) -> lookup name (data g) = Some p ->
  (exists x y, In (x, y) (points name rest) /\ dleb d0 y = true) ->
  forall x y, In (x, y) (points name rest) -> on_axis (x_axis (min_x p) (max_x p)) x /\ on_axis (y_axis (min_y p) (max_y p)) y.
Proof.
  intros names c h name xl yl st rest g p P F C E FA L (x0 & y0 & I0 & Y0) x y I.
  destruct (C54_plots_partial names c h P F C) as (g' & E' & D). rewrite E in E'. injection E' as <-. specialize (D name). rewrite FA in D. destruct D as (p' & L' & _ & _ & _ & _ & B).
  rewrite L in L'. injection L' as <-. destruct B as (LX & GX & LY & GY); [intros X; rewrite X in I; destruct I|].
  assert (FR : Forall finite rest). { apply first_add_sub in FA. rewrite Forall_forall in *. intros o O. apply F, since_clear_sub, FA, O. }
  destruct (points_ok name rest FR) as [OX OY]. rewrite Forall_forall in OX, OY.
  assert (KX : dok (max_x p)) by apply OX, GX. assert (KY : dok (max_y p)) by apply OY, GY.
  assert (Ix : In x (map fst (points name rest))) by (apply in_map_iff; exists (x, y); tauto). assert (Iy : In y (map snd (points name rest))) by (apply in_map_iff; exists (x, y); tauto).
  assert (Iy0 : In y0 (map snd (points name rest))) by (apply in_map_iff; exists (x0, y0); tauto).
  assert (Y : (0 <= d2R (max_y p))%R).
  { assert (Z : dleb d0 (max_y p) = true) by (eapply dleb_trans; [exact Y0|apply GY, Iy0]). apply dleb_R in Z; [|reflexivity|apply KY|reflexivity|apply KY]. rewrite d0_R in Z. exact Z. }
  split; (split; cbn [x_axis y_axis fst snd]).
  - apply LX, Ix.
  - eapply dleb_trans; [apply GX, Ix|]. apply dadd_ge; [exact KX|split; reflexivity|]. unfold scale_x. destruct (d_of_Z_exact 10) as [-> _]; [cbn; lia|]. lra.
  - apply LY, Iy.
  - eapply dleb_trans; [apply GY, Iy|]. apply dmul_add_ge; assumption.
Qed.
Print Assumptions C85_axes_partial.

(** When all points have negative y, the highest one is above the axis. *)
Theorem C85_negative_refuted : exists h g p, Forall pure h /\ Forall finite h /\ Forall no_csv h /\ do_ops (Globals [] [] Unset) h = Some g /\ lookup "p" (data g) = Some p /\
  In (d1, d_of_Z (-5)) (points "p" h) /\ ~ on_axis (y_axis (min_y p) (max_y p)) (d_of_Z (-5)).
Proof.
  set (h := [OAdd "p" "x" "y" false false; OPlot "p" "s" (fun _ => d1) (fun _ => d_of_Z (-5)) false; OPlot "p" "s" (fun _ => d1) (fun _ => d_of_Z (-10)) false]).
  exists h. eexists. eexists. split; [|split; [|split; [|split; [|split; [|split]]]]].
  - repeat (constructor; [first [exact I|split; intros; reflexivity]|]). constructor.
  - repeat (constructor; [first [exact I|split; split; reflexivity]|]). constructor.
  - repeat (constructor; [first [exact I|reflexivity]|]). constructor.
  - cbv. reflexivity.
  - cbv. reflexivity.
  - left. reflexivity.
  - intros [_ H]. vm_compute in H. discriminate.
Qed.
Print Assumptions C85_negative_refuted.

Example C85_concrete : exists g p, do_ops (Globals [] [] Unset) demo_history = Some g /\ lookup "a" (data g) = Some p /\
  first_add "a" (since_clear demo_history) <> None /\ In (d0, d_of_Z 5) (points "a" (since_clear demo_history)) /\ dleb d0 (d_of_Z 5) = true /\
  y_axis (min_y p) (max_y p) = (d_of_Z (-2), d_of_Z 6).
Proof. eexists. eexists. split; [cbv; reflexivity|]. split; [cbv; reflexivity|]. split; [discriminate|]. split; [cbn; tauto|]. split; reflexivity. Qed.
