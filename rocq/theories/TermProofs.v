(** * Proofs about [simulate!] with the terminal *)
From Coq Require Import List Bool Arith ZArith NArith Lia.
From Verif Require Import F32 OptModel F64 SchedModel SimModel UiModel UiSpec TermModel TermSpec.
Import ListNotations.
Local Open Scope nat_scope.

Lemma count_app {X} (f : X -> bool) a b : count f (a ++ b) = count f a + count f b.
Proof. unfold count. rewrite filter_app, app_length. reflexivity. Qed.

Section Proofs.
Context {A S : Type}.
Implicit Types (u : user A S) (w : world A S).

(** ** What each call adds to the trace *)
Definition grows w w' (a b : nat) : Prop := exists t, w_trace w' = w_trace w ++ t /\ count is_init t = a /\ count is_before t = b.
Lemma grows_refl w : grows w w 0 0.
Proof. exists []. rewrite app_nil_r. repeat split. Qed.
Lemma grows_trans w1 w2 w3 a b c d : grows w1 w2 a b -> grows w2 w3 c d -> grows w1 w3 (a + c) (b + d).
Proof.
  intros (t & E & H1 & H2) (t' & E' & H3 & H4). exists (t ++ t'). rewrite E', E, app_assoc. split; [reflexivity|]. rewrite !count_app. split; congruence.
Qed.
Lemma count_api f (log : list (sop A * sres A)) : (forall o r, f (CApi o r) = false) -> count f (api log) = 0.
Proof. intros H. induction log as [|[o r] log IH]; [reflexivity|]. unfold count in *. cbn. rewrite H. exact IH. Qed.
Lemma count_cons {X} (f : X -> bool) c l : count f (c :: l) = (if f c then 1 else 0) + count f l.
Proof. unfold count. cbn. destruct (f c); reflexivity. Qed.
Ltac hooked := eexists; split; [reflexivity|]; split; rewrite count_cons, count_api by reflexivity; reflexivity.
Lemma grows_init u sc w sc' w' : call_init u sc w = (sc', w') -> grows w w' 1 0.
Proof. unfold call_init. destruct (run_hprog _ _) as [[sc1 s1] log]. intros E. injection E as <- <-. hooked. Qed.
Lemma grows_before u sc w sc' w' : call_before u sc w = (sc', w') -> grows w w' 0 1.
Proof. unfold call_before. destruct (run_hprog _ _) as [[sc1 s1] log]. intros E. injection E as <- <-. hooked. Qed.
Lemma grows_after u sc w sc' w' : call_after u sc w = (sc', w') -> grows w w' 0 0.
Proof. unfold call_after. destruct (run_hprog _ _) as [[sc1 s1] log]. intros E. injection E as <- <-. hooked. Qed.
Lemma grows_end u sc w b sc' w' : call_end u sc w = (b, (sc', w')) -> grows w w' 0 0 /\ In (CEnd b) (w_trace w').
Proof.
  unfold call_end. destruct (run_hprog _ _) as [[sc1 [b1 s1]] log]. intros E. injection E as <- <- <-. split; [hooked|].
  cbn. apply in_or_app. right. left. reflexivity.
Qed.
Lemma grows_update u k w : grows w (call_update u k w) 0 0.
Proof. eexists. split; [reflexivity|]. split; reflexivity. Qed.
Lemma grows_finish u sc w sc' w' : finish_step u sc w = (sc', w') -> grows w w' 0 0.
Proof.
  unfold finish_step. destruct (call_after u sc w) as [sc1 w1] eqn:E. intros H. injection H as <- <-.
  exact (grows_trans _ _ _ _ _ _ _ (grows_after _ _ _ _ _ E) (grows_update u _ w1)).
Qed.
Lemma grows_agent f tag a w a' w' : (forall i, is_init (tag i) = false) -> (forall i, is_before (tag i) = false) ->
  call_agent f tag a w = (a', w') -> grows w w' 0 0.
Proof.
  intros H1 H2. unfold call_agent. destruct (f _ _) as [ag s]. intros E. injection E as <- <-. eexists. split; [reflexivity|].
  rewrite !count_cons, H1, H2. split; reflexivity.
Qed.
Lemma grows_item u sc w e sc' w' : run_item u sc w e = (sc', w') -> grows w w' 0 0.
Proof.
  unfold run_item. destruct (call_agent (a_before u) _ _ _) as [a1 w1] eqn:E1. destruct (call_agent (a_step u) _ _ _) as [a2 w2] eqn:E2. destruct (call_agent (a_after u) _ _ _) as [a3 w3] eqn:E3.
  apply grows_agent in E1, E2, E3; try reflexivity. pose proof (grows_trans _ _ _ _ _ _ _ (grows_trans _ _ _ _ _ _ _ E1 E2) E3) as G. cbn in G. destruct (ai_rep a3).
  - unfold call_stopped. destruct (a_stopped u _ _) as [b [ag s]].
    assert (G4 : grows w3 (World s (w_trace w3 ++ [CAgentStopped (ai_id a3) b])) 0 0) by (eexists; split; [reflexivity|split; reflexivity]).
    pose proof (grows_trans _ _ _ _ _ _ _ G G4) as G5. destruct b; intros E; injection E as <- <-; exact G5.
  - intros E. injection E as <- <-. exact G.
Qed.
Lemma grows_items u es : forall sc w sc' w', run_items u sc w es = (sc', w') -> grows w w' 0 0.
Proof.
  induction es as [|e es IH]; intros sc w sc' w' E; cbn in E; [injection E as <- <-; apply grows_refl|].
  destruct (run_item u sc w e) as [sc1 w1] eqn:E1. exact (grows_trans _ _ _ _ _ _ _ (grows_item _ _ _ _ _ _ E1) (IH _ _ _ _ E)).
Qed.
Lemma grows_step u ch sc w sc' w' : step u ch sc w = (sc', w') -> grows w w' 0 1.
Proof.
  unfold step. set (w0 := if (s_step sc =? 0)%N then call_update u (s_step sc) w else w).
  assert (G0 : grows w w0 0 0). { subst w0. destruct (_ =? _)%N; [apply grows_update|apply grows_refl]. }
  destruct (call_before u sc w0) as [sc1 w1] eqn:E1. pose proof (grows_trans _ _ _ _ _ _ _ G0 (grows_before _ _ _ _ _ E1)) as G1. cbn in G1.
  destruct (pq_peek _ _) as [e0|].
  - destruct (pop_due _ _ _ _ _) as [due rest]. destruct (run_items u _ w1 due) as [sc3 w3] eqn:E3. intros E.
    exact (grows_trans _ _ _ _ _ _ _ (grows_trans _ _ _ _ _ _ _ G1 (grows_items _ _ _ _ _ _ E3)) (grows_finish _ _ _ _ _ E)).
  - intros E. exact (grows_trans _ _ _ _ _ _ _ G1 (grows_finish _ _ _ _ _ E)).
Qed.
Lemma grows_in w w' a b c : grows w w' a b -> In c (w_trace w) -> In c (w_trace w').
Proof. intros (t & E & _) H. rewrite E. apply in_or_app. left. exact H. Qed.
Lemma loop_in u chs n c : forall i sc w sc' w', sim_loop u chs i n sc w = (sc', w') -> In c (w_trace w) -> In c (w_trace w').
Proof.
  induction n as [|n IH]; intros i sc w sc' w' E H; cbn in E; [injection E as <- <-; exact H|].
  destruct (step u (chs i) sc w) as [sc1 w1] eqn:E1. apply grows_step in E1. destruct (call_end u sc1 w1) as [b [sc2 w2]] eqn:E2. apply grows_end in E2. destruct E2 as [E2 _].
  pose proof (grows_in _ _ _ _ _ E2 (grows_in _ _ _ _ _ E1 H)) as H2. destruct b; [injection E as <- <-; exact H2|]. exact (IH _ _ _ _ _ E H2).
Qed.
Lemma reps_in u chs n c : forall reps r w l w', sim_reps u chs r reps n w = (l, w') -> In c (w_trace w) -> In c (w_trace w').
Proof.
  induction reps as [|reps IH]; intros r w l w' E H; cbn in E; [injection E as <- <-; exact H|].
  unfold sim_rep in E. destruct (call_init u sched_new w) as [sc w1] eqn:E1. destruct (sim_loop u (chs r) 0 n sc w1) as [sc2 w2] eqn:E2.
  destruct (sim_reps u chs (Datatypes.S r) reps n w2) as [l2 w3] eqn:E3. injection E as <- <-.
  exact (IH _ _ _ _ E3 (loop_in _ _ _ _ _ _ _ _ _ E2 (grows_in _ _ _ _ _ (grows_init _ _ _ _ _ E1) H))).
Qed.

(** ** The result if every send succeeds from here on *)
Variables (u : user A S) (chs : nat -> nat -> nat -> nat) (n : nat).
Definition finish_reps (R r : nat) w (l : list N) : list N * world A S :=
  let (l2, w2) := sim_reps u chs r (R - r) n w in (l ++ l2, w2).
Definition finish_loop (R r i : nat) sc w (l : list N) : list N * world A S :=
  let (sc', w') := sim_loop u (chs r) i (n - i) sc w in finish_reps R (Datatypes.S r) w' (l ++ [s_step sc']).
Definition finish (R : nat) (pc : sim_pc A) w (l : list N) : list N * world A S :=
  match pc with
  | PRep r | PSendClear r | PInit r => finish_reps R r w l
  | PStep r i sc => finish_loop R r i sc w l
  | PSendStep r i sc | PCond r i sc =>
      let '(b, (sc2, w2)) := call_end u sc w in
      if b then finish_reps R (Datatypes.S r) w2 (l ++ [s_step sc2]) else finish_loop R r (Datatypes.S i) sc2 w2 l
  | PSendQuit r sc | PAfter r sc => finish_reps R (Datatypes.S r) w (l ++ [s_step sc])
  | PSendRep r => finish_reps R (Datatypes.S r) w l
  | PDone => (l, w)
  end.
(** The thread is within the first [R] repetitions. *)
Definition within (R : nat) (pc : sim_pc A) : Prop :=
  match pc with
  | PRep r => r <= R
  | PSendClear r | PInit r | PSendQuit r _ | PAfter r _ | PSendRep r => r < R
  | PStep r i _ => r < R /\ i <= n
  | PSendStep r i _ | PCond r i _ => r < R /\ i < n
  | PDone => False
  end.
Definition is_send (pc : sim_pc A) : bool :=
  match pc with PSendClear _ | PSendStep _ _ _ | PSendQuit _ _ | PSendRep _ => true | _ => false end.
Notation fin R st := (finish R (t_pc st) (t_world st) (t_counts st)).

Lemma finish_reps_step R r w l : r < R -> finish_reps R r w l =
  let (sc, w1) := call_init u sched_new w in finish_loop R r 0 sc w1 l.
Proof.
  intros H. unfold finish_reps, finish_loop. replace (R - r) with (Datatypes.S (R - Datatypes.S r)) by lia. cbn [sim_reps]. unfold sim_rep.
  destruct (call_init u sched_new w) as [sc w1]. rewrite Nat.sub_0_r. destruct (sim_loop u (chs r) 0 n sc w1) as [sc2 w2]. unfold finish_reps.
  destruct (sim_reps u chs (Datatypes.S r) (R - Datatypes.S r) n w2) as [l2 w3]. rewrite <- app_assoc. reflexivity.
Qed.
Lemma finish_loop_step R r i sc w l : i < n -> finish_loop R r i sc w l =
  let (sc1, w1) := step u (chs r i) sc w in
  let '(b, (sc2, w2)) := call_end u sc1 w1 in
  if b then finish_reps R (Datatypes.S r) w2 (l ++ [s_step sc2]) else finish_loop R r (Datatypes.S i) sc2 w2 l.
Proof.
  intros H. unfold finish_loop. replace (n - i) with (Datatypes.S (n - Datatypes.S i)) by lia. cbn [sim_loop]. destruct (step u (chs r i) sc w) as [sc1 w1].
  destruct (call_end u sc1 w1) as [[|] [sc2 w2]]; reflexivity.
Qed.

(** A move of the simulation thread keeps the result, if its send succeeds. *)
Lemma sim_finish R reps st : R <= reps -> within R (t_pc st) -> (is_send (t_pc st) = true -> gone (t_term st) = false) ->
  (R < reps -> t_pc st <> PRep R) -> fin R (sim_move u chs n reps st) = fin R st.
Proof.
  intros RR W SD PR. unfold sim_move. destruct (t_pc st) as [r|r|r|r i sc|r i sc|r i sc|r sc|r sc|r|] eqn:P; cbn [within is_send] in *.
  - destruct (r <? reps) eqn:L; cbn.
    + reflexivity.
    + apply Nat.ltb_ge in L. unfold finish_reps. replace (R - r) with 0 by lia. cbn. rewrite app_nil_r. reflexivity.
  - unfold send. rewrite SD by reflexivity. cbn. reflexivity.
  - destruct (call_init u sched_new (t_world st)) as [sc w] eqn:E. cbn. rewrite finish_reps_step by lia. rewrite E. reflexivity.
  - destruct (i <? n) eqn:L.
    + apply Nat.ltb_lt in L. cbn [finish]. rewrite finish_loop_step by exact L. destruct (step u (chs r i) sc (t_world st)) as [sc1 w1]. cbn. reflexivity.
    + apply Nat.ltb_ge in L. cbn. unfold finish_loop. replace (n - i) with 0 by lia. cbn. reflexivity.
  - unfold send. rewrite SD by reflexivity. cbn. reflexivity.
  - cbn [finish]. destruct (call_end u sc (t_world st)) as [[|] [sc1 w1]]; reflexivity.
  - unfold send. rewrite SD by reflexivity. cbn. reflexivity.
  - cbn. reflexivity.
  - unfold send. rewrite SD by reflexivity. cbn. reflexivity.
  - contradiction.
Qed.
Lemma within_move R reps st : R <= reps -> within reps (t_pc st) -> within R (t_pc (sim_move u chs n reps st)) -> within R (t_pc st) /\ (R < reps -> t_pc st <> PRep R).
Proof.
  intros RR. unfold sim_move. destruct (t_pc st) as [r|r|r|r i sc|r i sc|r i sc|r sc|r sc|r|] eqn:P; cbn [within].
  - intros _. destruct (r <? reps) eqn:L; cbn; [|tauto]. intros H. split; [lia|]. intros _ X. injection X as ->. lia.
  - unfold send. destruct (gone _); cbn; [tauto|]. intros _ H. split; [exact H|discriminate].
  - intros _. destruct (call_init u sched_new (t_world st)) as [sc w]. cbn. intros [H _]. split; [exact H|discriminate].
  - intros W. destruct (i <? n) eqn:L.
    + apply Nat.ltb_lt in L. destruct (step u (chs r i) sc (t_world st)) as [sc1 w1]. cbn. intros [H _]. split; [split; [exact H|lia]|discriminate].
    + cbn. intros H. split; [split; [exact H|lia]|discriminate].
  - intros W. unfold send. destruct (gone _); cbn; intros H; (split; [split; lia|discriminate]).
  - intros W. destruct (call_end u sc (t_world st)) as [[|] [sc1 w1]]; cbn; intros H; (split; [split; lia|discriminate]).
  - intros W. unfold send. destruct (gone _); cbn; intros H; (split; [lia|discriminate]).
  - intros W. cbn. intros H. split; [exact H|discriminate].
  - intros W. unfold send. destruct (gone _); cbn; [tauto|]. intros H. split; [lia|discriminate].
  - tauto.
Qed.
Lemma within_forward reps st : within reps (t_pc st) -> t_pc (sim_move u chs n reps st) = PDone \/ within reps (t_pc (sim_move u chs n reps st)).
Proof.
  unfold sim_move. destruct (t_pc st) as [r|r|r|r i sc|r i sc|r i sc|r sc|r sc|r|] eqn:P; cbn [within]; intros W.
  - destruct (r <? reps) eqn:L; cbn; [apply Nat.ltb_lt in L|]; tauto.
  - unfold send. destruct (gone _); cbn; tauto.
  - destruct (call_init u sched_new (t_world st)) as [sc w]. cbn. right. lia.
  - destruct (i <? n) eqn:L; [apply Nat.ltb_lt in L; destruct (step u (chs r i) sc (t_world st)) as [sc1 w1]|]; cbn; right; lia.
  - unfold send. destruct (gone _); cbn; right; lia.
  - destruct (call_end u sc (t_world st)) as [[|] [sc1 w1]]; cbn; right; lia.
  - unfold send. destruct (gone _); cbn; right; lia.
  - cbn. right. lia.
  - unfold send. destruct (gone _); cbn; [tauto|right; lia].
  - contradiction.
Qed.

Definition late (reps : nat) (pc : sim_pc A) : Prop :=
  match pc with
  | PSendQuit r _ | PAfter r _ | PSendRep r => Datatypes.S r = reps
  | PRep r => r = reps
  | PDone => True
  | _ => False
  end.
Definition quitting (st : term_state A S) : Prop :=
  t_op st = MQuit \/ match t_term st with TGone | TOp MQuit | TBoth MQuit _ => True | _ => False end.
Lemma term_move_frame q (st : term_state A S) : let st' := term_move q st in
  t_pc st' = t_pc st /\ t_world st' = t_world st /\ t_counts st' = t_counts st.
Proof.
  unfold term_move. destruct (t_term st) as [| |m|m r|r|].
  - destruct q; [repeat split|]. destruct (t_pending st); [|repeat split]. destruct (done (t_pc st)); repeat split.
  - repeat split.
  - repeat split.
  - destruct m; repeat split.
  - destruct r; repeat split.
  - repeat split.
Qed.

Definition good (reps : nat) (s : S) (st : term_state A S) : Prop :=
  (t_pc st = PDone \/ within reps (t_pc st)) /\
  fin reps st = simulate u chs n reps s /\
  (quitting st -> late reps (t_pc st)) /\
  (within (reps - 1) (t_pc st) -> fin (reps - 1) st = simulate u chs n (reps - 1) s).
Lemma good_start reps s : good reps s (tstart s).
Proof.
  split; [right; cbn; lia|]. split; [|split].
  - cbn. unfold finish_reps, simulate. rewrite Nat.sub_0_r. destruct (sim_reps _ _ _ _ _ _). reflexivity.
  - intros [H|H]; [discriminate|destruct H].
  - intros _. cbn. unfold finish_reps, simulate. rewrite Nat.sub_0_r. destruct (sim_reps _ _ _ _ _ _). reflexivity.
Qed.
Lemma late_not_within reps pc : late reps pc -> within (reps - 1) pc -> 0 < reps -> False.
Proof. destruct pc; cbn; intros; lia. Qed.

Lemma good_term q reps s st : q = false -> good reps s st -> good reps s (term_move q st).
Proof.
  intros -> (W & F & Q & E). destruct (term_move_frame false st) as (P & D & C). unfold good. rewrite P, D, C. split; [exact W|]. split; [exact F|]. split; [|exact E].
  intros X. apply Q. clear - X. unfold term_move, quitting in *. destruct (t_term st) as [| |m|m r|r|] eqn:T.
  - destruct (t_pending st); [destruct (done (t_pc st))|]; cbn in X; try (destruct X as [X|[]]; tauto). rewrite T in X. destruct X as [X|[]]; tauto.
  - cbn in X. left. destruct X as [X|X]; [exact X|]. destruct (t_op st); try contradiction. reflexivity.
  - cbn in X. destruct X as [X|X]; [tauto|]. destruct m; try contradiction. tauto.
  - destruct m; cbn in X; try (destruct X as [X|[]]; try discriminate; tauto).
  - destruct r; cbn in X; try (destruct X as [X|[]]; tauto).
  - tauto.
Qed.
Lemma good_sim reps s st : only_last_ends u chs n reps s -> good reps s st -> good reps s (sim_move u chs n reps st).
Proof.
  intros O (W & F & Q & E). destruct W as [W|W].
  { unfold sim_move. rewrite W. split; [left; exact W|]. split; [exact F|]. split; [exact Q|exact E]. }
  pose proof (within_forward reps st W) as W'.
  assert (LG : gone (t_term st) = true -> late reps (t_pc st)). { intros G. apply Q. right. destruct (t_term st); try discriminate. exact I. }
  split; [exact W'|]. split; [|split].
  - destruct (is_send (t_pc st)) eqn:SD; [destruct (gone (t_term st)) eqn:G|].
    + specialize (LG eq_refl). rewrite <- F. unfold sim_move. destruct (t_pc st) as [r|r|r|r i sc|r i sc|r i sc|r sc|r sc|r|]; cbn in LG, SD; try discriminate; try contradiction.
      * unfold send. rewrite G. reflexivity.
      * unfold send. rewrite G. cbn. unfold finish_reps. replace (reps - Datatypes.S r) with 0 by lia. cbn. rewrite app_nil_r. reflexivity.
    + rewrite sim_finish; auto; lia.
    + rewrite sim_finish; auto; [|lia]. intros X. congruence.
  - intros X. unfold sim_move, quitting in *. destruct (t_pc st) as [r|r|r|r i sc|r i sc|r i sc|r sc|r sc|r|] eqn:P; cbn [within late] in *.
    + destruct (r <? reps) eqn:L; cbn in *; [|tauto]. apply Nat.ltb_lt in L. destruct X as [X|X]; [discriminate|]. assert (r = reps) by tauto. lia.
    + unfold send in *. destruct (gone (t_term st)); cbn in *; tauto.
    + destruct (call_init u sched_new (t_world st)) as [sc w]. cbn in *. tauto.
    + destruct (i <? n); [destruct (step u (chs r i) sc (t_world st)) as [sc1 w1]|]; cbn in *; [destruct X as [X|X]; [discriminate|]; tauto|]. tauto.
    + unfold send in *. destruct (gone (t_term st)) eqn:G; cbn in *; [|tauto]. specialize (LG eq_refl). contradiction.
    + cbn [finish] in E. destruct (call_end u sc (t_world st)) as [[|] [sc1 w1]] eqn:CE; cbn in *; [|tauto].
      destruct (Nat.eq_dec (Datatypes.S r) reps) as [Y|Y]; [exact Y|]. exfalso. apply O. rewrite <- E by lia. unfold finish_reps.
      destruct (sim_reps u chs (Datatypes.S r) (reps - 1 - Datatypes.S r) n w1) as [l2 w2] eqn:SR. cbn.
      apply grows_end in CE. exact (reps_in _ _ _ _ _ _ _ _ _ SR (proj2 CE)).
    + unfold send in *. destruct (gone (t_term st)); cbn in *; tauto.
    + cbn in *. tauto.
    + unfold send in *. destruct (gone (t_term st)); cbn in *; tauto.
    + contradiction.
  - intros X. destruct (within_move (reps - 1) reps st) as [Y Z]; [lia|exact W|exact X|]. rewrite <- (E Y). apply sim_finish; [lia|exact Y| |exact Z].
    intros _. destruct (gone (t_term st)) eqn:G; [|reflexivity]. specialize (LG eq_refl). exfalso.
    destruct reps as [|reps]; [|apply (late_not_within _ _ LG Y); lia].
    unfold sim_move in X. destruct (t_pc st); cbn in LG, W, X, Y; try lia; subst; cbn in X; contradiction.
Qed.
Lemma good_moves reps s ts : only_last_ends u chs n reps s -> forall st, no_quit ts -> good reps s st -> good reps s (tmoves u chs n reps st ts).
Proof.
  intros O. induction ts as [|t ts IH]; intros st NQ G; [exact G|]. cbn. apply IH; [intros t' H; apply NQ; right; exact H|].
  destruct t as [|q]; [apply good_sim; assumption|]. apply good_term; [|exact G]. destruct q; [|reflexivity]. elim (NQ (Term true)); [left; reflexivity|reflexivity].
Qed.

(** ** The simulation thread always gets to its end *)
Definition reps_left (reps r : nat) : nat := (reps - r) * (3 * n + 6) + 2.
Lemma reps_left_step reps r : r < reps -> reps_left reps r = reps_left reps (Datatypes.S r) + 3 * n + 6.
Proof. intros H. unfold reps_left. replace (reps - r) with (Datatypes.S (reps - Datatypes.S r)) by lia. cbn [Nat.mul]. lia. Qed.
Lemma reps_left_pos reps r : 0 < reps_left reps r.
Proof. unfold reps_left. rewrite Nat.add_comm. apply Nat.lt_0_succ. Qed.
Definition left_over (reps : nat) (pc : sim_pc A) : nat :=
  let rest := reps_left reps in
  match pc with
  | PRep r => rest r
  | PSendClear r => rest (Datatypes.S r) + 3 * n + 5
  | PInit r => rest (Datatypes.S r) + 3 * n + 4
  | PStep r i _ => rest (Datatypes.S r) + 3 * (n - i) + 3
  | PSendStep r i _ => rest (Datatypes.S r) + 3 * (n - i) + 2
  | PCond r i _ => rest (Datatypes.S r) + 3 * (n - i) + 1
  | PSendQuit r _ => rest (Datatypes.S r) + 3
  | PAfter r _ => rest (Datatypes.S r) + 2
  | PSendRep r => rest (Datatypes.S r) + 1
  | PDone => 0
  end.
Lemma left_over_move reps st : within reps (t_pc st) -> left_over reps (t_pc (sim_move u chs n reps st)) < left_over reps (t_pc st).
Proof.
  unfold sim_move. destruct (t_pc st) as [r|r|r|r i sc|r i sc|r i sc|r sc|r sc|r|] eqn:P; cbn [within]; intros W.
  - destruct (r <? reps) eqn:L; cbn -[Nat.mul Nat.add Nat.sub reps_left]; [|apply reps_left_pos]. apply Nat.ltb_lt in L. rewrite (reps_left_step reps r) by exact L. lia.
  - unfold send. destruct (gone _); cbn -[Nat.mul Nat.add Nat.sub reps_left]; lia.
  - destruct (call_init u sched_new (t_world st)) as [sc w]. cbn -[Nat.mul Nat.add Nat.sub reps_left]. lia.
  - destruct (i <? n) eqn:L; [apply Nat.ltb_lt in L; destruct (step u (chs r i) sc (t_world st)) as [sc1 w1]|]; cbn -[Nat.mul Nat.add Nat.sub reps_left]; lia.
  - unfold send. destruct (gone _); cbn -[Nat.mul Nat.add Nat.sub reps_left]; lia.
  - destruct (call_end u sc (t_world st)) as [[|] [sc1 w1]]; cbn -[Nat.mul Nat.add Nat.sub reps_left]; lia.
  - unfold send. destruct (gone _); cbn -[Nat.mul Nat.add Nat.sub reps_left]; lia.
  - cbn -[Nat.mul Nat.add Nat.sub reps_left]. lia.
  - unfold send. destruct (gone _); cbn -[Nat.mul Nat.add Nat.sub reps_left]; lia.
  - contradiction.
Qed.
Lemma sim_ends reps ts : forall st, t_pc st = PDone \/ within reps (t_pc st) -> left_over reps (t_pc st) <= count is_sim ts ->
  t_pc (tmoves u chs n reps st ts) = PDone.
Proof.
  induction ts as [|t ts IH]; intros st W L.
  - change (count is_sim []) with 0 in L. destruct W as [W|W]; [exact W|]. exfalso. unfold left_over in L.
    destruct (t_pc st); try (pose proof (reps_left_pos reps r)); try (pose proof (reps_left_pos reps (Datatypes.S r))); cbn [within] in W; try lia; contradiction.
  - cbn. destruct t as [|q].
    + unfold count in L. cbn [filter is_sim length] in L. fold (count is_sim ts) in L. destruct W as [W|W].
      * apply IH; cbn; unfold sim_move; rewrite W; [left; exact W|rewrite W; cbn; lia].
      * apply IH; [exact (within_forward reps st W)|]. pose proof (left_over_move reps st W). cbn. lia.
    + destruct (term_move_frame q st) as (P & _). apply IH; cbn; rewrite P; [exact W|exact L].
Qed.

(** ** After the terminal is gone *)
Definition may_init (pc : sim_pc A) : nat := match pc with PInit _ => 1 | _ => 0 end.
Definition may_step (pc : sim_pc A) : nat := match pc with PInit _ | PStep _ _ _ | PCond _ _ _ => 1 | _ => 0 end.
Lemma gone_sim reps st : gone (t_term st) = true -> let st' := sim_move u chs n reps st in
  gone (t_term st') = true /\ exists a b, grows (t_world st) (t_world st') a b /\ a + may_init (t_pc st') <= may_init (t_pc st) /\ b + may_step (t_pc st') <= may_step (t_pc st).
Proof.
  intros G. assert (K : forall pc : sim_pc A, gone (t_term (goto st pc)) = true /\ grows (t_world st) (t_world (goto st pc)) 0 0) by (intros; split; [exact G|apply grows_refl]).
  unfold sim_move. destruct (t_pc st) as [r|r|r|r i sc|r i sc|r i sc|r sc|r sc|r|] eqn:P.
  - destruct (r <? reps); cbn; (split; [exact G|]); exists 0, 0; (split; [apply grows_refl|cbn; lia]).
  - unfold send. rewrite G. cbn. split; [exact G|]. exists 0, 0. split; [apply grows_refl|cbn; lia].
  - destruct (call_init u sched_new (t_world st)) as [sc w] eqn:E. cbn. split; [exact G|]. exists 1, 0. split; [exact (grows_init _ _ _ _ _ E)|lia].
  - destruct (i <? n).
    + destruct (step u (chs r i) sc (t_world st)) as [sc1 w1] eqn:E. cbn. split; [exact G|]. exists 0, 1. split; [exact (grows_step _ _ _ _ _ _ E)|lia].
    + cbn. split; [exact G|]. exists 0, 0. split; [apply grows_refl|cbn; lia].
  - unfold send. rewrite G. cbn. split; [exact G|]. exists 0, 0. split; [apply grows_refl|cbn; lia].
  - destruct (call_end u sc (t_world st)) as [b [sc1 w1]] eqn:E. apply grows_end in E. destruct b; cbn; (split; [exact G|]); exists 0, 0; (split; [apply E|lia]).
  - unfold send. rewrite G. cbn. split; [exact G|]. exists 0, 0. split; [apply grows_refl|cbn; lia].
  - cbn. split; [exact G|]. exists 0, 0. split; [apply grows_refl|cbn; lia].
  - unfold send. rewrite G. cbn. split; [exact G|]. exists 0, 0. split; [apply grows_refl|cbn; lia].
  - cbn. split; [exact G|]. exists 0, 0. split; [apply grows_refl|]. rewrite P. cbn. lia.
Qed.
Lemma gone_moves reps ts : forall st, gone (t_term st) = true -> let st' := tmoves u chs n reps st ts in
  exists a b, grows (t_world st) (t_world st') a b /\ a + may_init (t_pc st') <= may_init (t_pc st) /\ b + may_step (t_pc st') <= may_step (t_pc st).
Proof.
  induction ts as [|t ts IH]; intros st G; cbn zeta.
  - exists 0, 0. split; [apply grows_refl|cbn; lia].
  - change (tmoves u chs n reps st (t :: ts)) with (tmoves u chs n reps (tmove u chs n reps st t) ts). destruct t as [|q].
    + destruct (gone_sim reps st G) as (G1 & a & b & H1 & H2 & H3). destruct (IH (sim_move u chs n reps st) G1) as (c & d & H4 & H5 & H6).
      exists (a + c), (b + d). split; [exact (grows_trans _ _ _ _ _ _ _ H1 H4)|]. cbn [tmove]. lia.
    + assert (X : tmove u chs n reps st (Term q) = st) by (cbn; unfold term_move; destruct (t_term st); try discriminate; reflexivity). rewrite X. apply IH. exact G.
Qed.

(** ** Messages to the interface *)
Definition held (t : term_pc) : list mail := match t with TOp m | TRep m => [m] | TBoth m r => [m; r] | _ => [] end.
Definition mail_ok (reps : nat) (m : mail) : Prop :=
  match m with MStep i p => i < n /\ p = progress_of (N.of_nat i) (N.of_nat n) | MRep r => r < reps | _ => True end.
Definition mails_ok (reps : nat) (st : term_state A S) : Prop :=
  mail_ok reps (t_op st) /\ mail_ok reps (t_rp st) /\ Forall (mail_ok reps) (held (t_term st)) /\ Forall (fun m => mail_ok reps m /\ match m with MStep _ _ | MRep _ => True | _ => False end) (t_seen st).
Lemma mails_sim reps st : (t_pc st = PDone \/ within reps (t_pc st)) -> mails_ok reps st -> mails_ok reps (sim_move u chs n reps st).
Proof.
  intros W (H1 & H2 & H3 & H4). destruct W as [W|W]; [unfold sim_move; rewrite W; repeat split; assumption|]. unfold sim_move.
  destruct (t_pc st) as [r|r|r|r i sc|r i sc|r i sc|r sc|r sc|r|] eqn:P; cbn [within] in W.
  - destruct (r <? reps); repeat split; cbn; assumption.
  - unfold send. destruct (gone _); repeat split; cbn; assumption.
  - destruct (call_init _ _ _). repeat split; cbn; assumption.
  - destruct (i <? n) eqn:L; [apply Nat.ltb_lt in L; destruct (step _ _ _ _)|]; repeat split; cbn; assumption.
  - unfold send. destruct (gone _); repeat split; cbn; assumption.
  - destruct (call_end _ _ _) as [[|] [sc1 w1]]; repeat split; cbn; assumption.
  - unfold send. destruct (gone _); repeat split; cbn; assumption.
  - repeat split; cbn; assumption.
  - unfold send. destruct (gone _); repeat split; cbn; assumption.
  - contradiction.
Qed.
Lemma mails_term reps q (st : term_state A S) : mails_ok reps st -> mails_ok reps (term_move q st).
Proof.
  intros (H1 & H2 & H3 & H4). unfold term_move. destruct (t_term st) as [| |m|m r|r|] eqn:T; cbn [held] in H3.
  - destruct q; [repeat split; cbn; auto|]. destruct (t_pending st); [destruct (done _)|]; repeat split; cbn; auto. rewrite T. auto.
  - repeat split; cbn; auto.
  - inversion H3; subst. repeat split; cbn; auto.
  - inversion H3; subst. inversion H6; subst. destruct m; repeat split; cbn; auto. apply Forall_app. split; [exact H4|]. constructor; [|constructor]. split; [assumption|exact I].
  - inversion H3; subst. destruct r; repeat split; cbn; auto. apply Forall_app. split; [exact H4|]. constructor; [|constructor]. split; [assumption|exact I].
  - repeat split; cbn; auto. rewrite T. constructor.
Qed.

(** The repetitions shown: each at most once, in order. *)
Definition next_rep (pc : sim_pc A) : option nat :=
  match pc with
  | PRep r | PSendClear r | PInit r | PStep r _ _ | PSendStep r _ _ | PCond r _ _ | PSendQuit r _ | PAfter r _ => Some r
  | PSendRep r => Some (Datatypes.S r)
  | PDone => None
  end.
Definition held_rep (t : term_pc) : list nat := match t with TBoth _ (MRep r) | TRep (MRep r) => [r] | _ => [] end.
Definition mail_rep (m : mail) : list nat := match m with MRep r => [r] | _ => [] end.
Definition ordered (st : term_state A S) : Prop :=
  increasing (reps_of (t_seen st)) /\
  (forall a h, In a (reps_of (t_seen st)) -> In h (held_rep (t_term st)) -> a < h) /\
  (forall a h, In a (reps_of (t_seen st)) -> In h (mail_rep (t_rp st)) -> a < h) /\
  (forall h m, In h (held_rep (t_term st)) -> In m (mail_rep (t_rp st)) -> h <= m) /\
  (forall a k, In a (reps_of (t_seen st) ++ held_rep (t_term st) ++ mail_rep (t_rp st)) -> next_rep (t_pc st) = Some k -> a < k).
Lemma increasing_snoc l a : increasing l -> (forall b, In b l -> b < a) -> increasing (l ++ [a]).
Proof.
  induction l as [|x l IH]; intros H K; cbn in *; [split; [intros b []|exact I]|]. destruct H as [H1 H2]. split.
  - intros b Hb. apply in_app_iff in Hb. destruct Hb as [Hb|[<-|[]]]; [apply H1, Hb|apply K; left; reflexivity].
  - apply IH; [exact H2|]. intros b Hb. apply K. right. exact Hb.
Qed.
Lemma ordered_pc (st : term_state A S) pc w o pe : ordered st -> (forall k, next_rep pc = Some k -> exists k0, next_rep (t_pc st) = Some k0 /\ k0 <= k) ->
  ordered (TS pc w (t_counts st) o (t_rp st) pe (t_term st) (t_seen st)).
Proof.
  intros (H1 & H2 & H3 & H4 & H5) N. repeat split; cbn; auto. intros a k Ha Hk. destruct (N k Hk) as (k0 & E & L). specialize (H5 a k0 Ha E). lia.
Qed.
Lemma ordered_sim reps st : ordered st -> ordered (sim_move u chs n reps st).
Proof.
  intros O. assert (X : forall pc, (forall k, next_rep pc = Some k -> exists k0, next_rep (t_pc st) = Some k0 /\ k0 <= k) -> ordered (goto st pc)).
  { intros pc H. exact (ordered_pc st pc (t_world st) (t_op st) (t_pending st) O H). }
  assert (Y : forall pc w o, (forall k, next_rep pc = Some k -> exists k0, next_rep (t_pc st) = Some k0 /\ k0 <= k) -> ordered (goto_op st pc w o)).
  { intros pc w o H. exact (ordered_pc st pc w o (t_pending st) O H). }
  assert (Z : forall p1 p2, (forall k, next_rep p1 = Some k -> exists k0, next_rep (t_pc st) = Some k0 /\ k0 <= k) -> (forall k, next_rep p2 = Some k -> exists k0, next_rep (t_pc st) = Some k0 /\ k0 <= k) -> ordered (send st p1 p2)).
  { intros p1 p2 HA HB. unfold send. destruct (gone _); [apply X, HB|]. exact (ordered_pc st p1 (t_world st) (t_op st) _ O HA). }
  unfold sim_move. destruct (t_pc st) as [r|r|r|r i sc|r i sc|r i sc|r sc|r sc|r|] eqn:P; cbn [next_rep] in *.
  - destruct (r <? reps); [apply Y|apply X]; cbn; intros k K; [injection K as <-; exists r; auto|discriminate].
  - apply Z; cbn; intros k K; [injection K as <-; exists r; auto|discriminate].
  - destruct (call_init _ _ _). apply Y. cbn. intros k K. injection K as <-. exists r. auto.
  - destruct (i <? n); [destruct (step _ _ _ _); apply Y|apply X]; cbn; intros k K; injection K as <-; exists r; auto.
  - apply Z; cbn; intros k K; injection K as <-; exists r; auto.
  - destruct (call_end _ _ _) as [[|] [sc1 w1]]; apply Y; cbn; intros k K; injection K as <-; exists r; auto.
  - apply Z; cbn; intros k K; injection K as <-; exists r; auto.
  - destruct O as (H1 & H2 & H3 & H4 & H5). rewrite P in H5. cbn [next_rep] in H5. repeat split; cbn [t_seen t_term t_rp t_pc mail_rep next_rep]; auto.
    + intros a h Ha [<-|[]]. apply (H5 a r); [|reflexivity]. apply in_app_iff. left. exact Ha.
    + intros h m Hh [<-|[]]. apply Nat.lt_le_incl, (H5 h r); [|reflexivity]. rewrite !in_app_iff. tauto.
    + intros a k Ha K. injection K as <-. rewrite !in_app_iff in Ha. destruct Ha as [Ha|[Ha|[<-|[]]]]; [| |lia].
      * apply Nat.lt_trans with r; [|lia]. apply (H5 a r); [|reflexivity]. rewrite !in_app_iff. tauto.
      * apply Nat.lt_trans with r; [|lia]. apply (H5 a r); [|reflexivity]. rewrite !in_app_iff. tauto.
  - apply Z; cbn; intros k K; [injection K as <-; exists (Datatypes.S r); auto|discriminate].
  - exact O.
Qed.
Lemma reps_of_app a b : reps_of (a ++ b) = reps_of a ++ reps_of b.
Proof. apply flat_map_app. Qed.
Lemma ordered_idle st t o pe : held_rep t = [] \/ held_rep t = held_rep (t_term st) -> ordered st -> forall pc w c, next_rep pc = next_rep (t_pc st) -> ordered (TS pc w c o (t_rp st) pe t (t_seen st)).
Proof.
  intros H (H1 & H2 & H3 & H4 & H5) pc w c NX. unfold ordered. cbn [t_seen t_term t_rp t_pc]. rewrite NX. destruct H as [-> | ->]; [|repeat split; assumption]. repeat split; auto.
  - intros a h _ [].
  - intros h m [].
  - intros a k Ha. apply H5. rewrite !in_app_iff in *. cbn in Ha. tauto.
Qed.
Lemma ordered_term q st : ordered st -> ordered (term_move q st).
Proof.
  intros O. pose proof O as (H1 & H2 & H3 & H4 & H5). unfold term_move. destruct (t_term st) as [| |m|m r|r|] eqn:T; cbn [held_rep] in *.
  - destruct q; [apply ordered_idle; [left; reflexivity|exact O|reflexivity]|].
    destruct (t_pending st); [destruct (done _); [|exact O]|]; (apply ordered_idle; [left; reflexivity|exact O|reflexivity]).
  - apply ordered_idle; [left; reflexivity|exact O|reflexivity].
  - unfold set_term, ordered. cbn [t_seen t_term t_rp t_pc]. assert (E : held_rep (TBoth m (t_rp st)) = mail_rep (t_rp st)) by reflexivity. rewrite E. repeat split; auto.
    + intros h m' Hh Hm. destruct (t_rp st); cbn in *; try contradiction. lia.
    + intros a k Ha. apply H5. rewrite !in_app_iff in *. cbn. tauto.
  - assert (E : held_rep (TBoth m r) = held_rep (TRep r)) by reflexivity. destruct m; try (apply ordered_idle; [right; rewrite T; exact E|exact O|reflexivity]).
    + unfold show, ordered. cbn [t_seen t_term t_rp t_pc]. rewrite reps_of_app. cbn [reps_of flat_map]. rewrite !app_nil_r. unfold ordered in O. rewrite T in O. exact O.
    + apply ordered_idle; [left; reflexivity|exact O|reflexivity].
  - destruct r as [| | | |r]; try (apply ordered_idle; [left; reflexivity|exact O|reflexivity]).
    unfold show, ordered. cbn [t_seen t_term t_rp t_pc held_rep mail_rep]. rewrite reps_of_app. cbn [reps_of flat_map app]. split.
    { apply increasing_snoc; [exact H1|]. intros b Hb. apply (H2 b r Hb). left. reflexivity. }
    split; [intros a h _ []|]. split; [intros a h _ []|]. split; [intros h m []|]. intros a k Ha. rewrite app_nil_r in Ha. apply H5. rewrite !in_app_iff in *. cbn in *. tauto.
  - exact O.
Qed.
Lemma both_moves reps ts : forall st, (t_pc st = PDone \/ within reps (t_pc st)) -> mails_ok reps st -> ordered st ->
  let st' := tmoves u chs n reps st ts in mails_ok reps st' /\ ordered st'.
Proof.
  induction ts as [|t ts IH]; intros st W M O; cbn zeta; [split; assumption|].
  change (tmoves u chs n reps st (t :: ts)) with (tmoves u chs n reps (tmove u chs n reps st t) ts). apply IH; destruct t as [|q]; cbn.
  - destruct W as [W|W]; [left; unfold sim_move; rewrite W; exact W|]. apply within_forward, W.
  - destruct (term_move_frame q st) as (-> & _). exact W.
  - apply mails_sim; assumption.
  - apply mails_term, M.
  - apply ordered_sim, O.
  - apply ordered_term, O.
Qed.

(** A step is shown at most once. *)
Definition step_held (t : term_pc) : bool := match t with TOp m | TBoth m _ => is_step m | _ => false end.
Definition shown_ok (st : term_state A S) : Prop :=
  count is_step (t_seen st) + (if is_step (t_op st) || step_held (t_term st) then 1 else 0) <= count is_before (w_trace (t_world st)).
Lemma grows_count w w' a b : grows w w' a b -> count is_before (w_trace w') = count is_before (w_trace w) + b.
Proof. intros (t & E & _ & H). rewrite E, count_app. congruence. Qed.
Ltac simp := cbn [t_seen t_op t_term t_world goto goto_op is_step orb].
Lemma shown_sim reps st : shown_ok st -> shown_ok (sim_move u chs n reps st).
Proof.
  unfold shown_ok. intros H. unfold sim_move. destruct (t_pc st) as [r|r|r|r i sc|r i sc|r i sc|r sc|r sc|r|] eqn:P; unfold send.
  - destruct (r <? reps); simp; [|exact H]. destruct (is_step (t_op st)), (step_held (t_term st)); cbn in *; lia.
  - destruct (gone _); exact H.
  - destruct (call_init u sched_new (t_world st)) as [sc w] eqn:E. apply grows_init, grows_count in E. simp. rewrite E, Nat.add_0_r. exact H.
  - destruct (i <? n); [|exact H]. destruct (step u (chs r i) sc (t_world st)) as [sc1 w1] eqn:E. apply grows_step, grows_count in E. simp. rewrite E.
    destruct (is_step (t_op st)), (step_held (t_term st)); cbn in *; lia.
  - destruct (gone _); exact H.
  - destruct (call_end u sc (t_world st)) as [b [sc1 w1]] eqn:E. apply grows_end in E. destruct E as [E _]. apply grows_count in E.
    rewrite Nat.add_0_r in E. destruct b; simp; rewrite E; [|exact H]. destruct (is_step (t_op st)), (step_held (t_term st)); cbn in *; lia.
  - destruct (gone _); exact H.
  - exact H.
  - destruct (gone _); exact H.
  - exact H.
Qed.
Lemma shown_term q (st : term_state A S) : shown_ok st -> shown_ok (term_move q st).
Proof.
  unfold shown_ok. intros H. unfold term_move. destruct (t_term st) as [| |m|m r|r|] eqn:T; cbn [step_held] in H.
  - destruct q; [exact H|]. destruct (t_pending st); [|exact H]. destruct (done _); [exact H|]. rewrite T. exact H.
  - cbn. rewrite orb_diag. rewrite orb_false_r in H. exact H.
  - exact H.
  - assert (X : count is_step (t_seen st) + (if is_step (t_op st) || false then 1 else 0) <= count is_before (w_trace (t_world st))).
    { destruct (is_step (t_op st)), (is_step m); cbn in *; lia. }
    destruct m; cbn [t_seen t_op t_term t_world show set_term step_held]; try exact X. rewrite count_app. cbn in *. rewrite orb_true_r in H. lia.
  - destruct r; cbn [t_seen t_op t_term t_world show set_term step_held]; try exact H. rewrite count_app. cbn in *. lia.
  - rewrite T. exact H.
Qed.
Lemma shown_moves reps ts : forall st, shown_ok st -> shown_ok (tmoves u chs n reps st ts).
Proof.
  induction ts as [|t ts IH]; intros st H; [exact H|]. change (tmoves u chs n reps st (t :: ts)) with (tmoves u chs n reps (tmove u chs n reps st t) ts).
  apply IH. destruct t; [apply shown_sim|apply shown_term]; exact H.
Qed.

(** The end of the last repetition reaches a terminal that is between two turns. *)
Definition ending (reps : nat) (st : term_state A S) : Prop :=
  t_op st = MQuit /\
  match t_pc st with PSendQuit r _ | PAfter r _ | PSendRep r => Datatypes.S r = reps | PRep r => r = reps | PDone => True | _ => False end /\
  match t_term st with TIdle | TGot | TGone | TOp MQuit | TBoth MQuit _ => True | _ => False end.
Lemma ending_move reps st t : ending reps st -> ending reps (tmove u chs n reps st t).
Proof.
  intros (O & P & T). destruct t as [|q]; cbn.
  - unfold sim_move. destruct (t_pc st) as [r|r|r|r i sc|r i sc|r i sc|r sc|r sc|r|] eqn:E; try contradiction; unfold send.
    + subst r. rewrite Nat.ltb_irrefl. repeat split; assumption.
    + destruct (gone _); repeat split; assumption.
    + repeat split; assumption.
    + destruct (gone _); repeat split; assumption.
    + unfold ending. rewrite E. repeat split; assumption.
  - unfold term_move. destruct (t_term st) as [| |m|m r|r|] eqn:E.
    + destruct q; [repeat split; assumption|]. destruct (t_pending st); [destruct (done _)|]; unfold ending; cbn; try rewrite E; repeat split; assumption.
    + unfold ending. cbn. rewrite O. repeat split; assumption.
    + destruct m; try contradiction. repeat split; assumption.
    + destruct m; try contradiction. repeat split; assumption.
    + contradiction.
    + unfold ending. rewrite E. repeat split; assumption.
Qed.
Lemma ending_moves reps ts : forall st, ending reps st -> ending reps (tmoves u chs n reps st ts).
Proof. induction ts as [|t ts IH]; intros st H; [exact H|]. apply (IH (tmove u chs n reps st t)), ending_move, H. Qed.
Lemma ending_closes reps st : ending reps st -> t_pc st = PDone -> t_term (tmoves u chs n reps st (repeat (Term false) 4)) = TGone.
Proof.
  intros (O & _ & T) P. destruct st as [pc w c op rp pe tm seen]. cbn in P, O, T. subst. unfold tmoves. destruct tm as [| |m|m r|r|]; cbn; try contradiction; try (destruct m; try contradiction); try reflexivity.
  destruct pe; reflexivity.
Qed.
End Proofs.
