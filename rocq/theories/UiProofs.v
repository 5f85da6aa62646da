(** * Proofs about the terminal user interface *)
From Coq Require Import List Bool Arith ZArith NArith String Ascii Lia.
From Verif Require Import F32 OptModel F64 F64Real F64Ops PlotModel PlotSpec PlotProofs UiModel UiSpec.
Import ListNotations.
Local Open Scope nat_scope.

(** An invariant of every part of a turn is one of every session. *)
Lemma session_inv (P : ui -> Prop) checks :
  (forall u names logs u' s, P u -> draw u names logs = Some (u', s) -> P u') ->
  (forall u k u', P u -> on_key checks u k = Some u' -> P u') ->
  (forall u m, P u -> P (on_message u m)) ->
  forall ts u u' ss, P u -> session checks u ts = Some (u', ss) -> P u'.
Proof.
  intros Hd Hk Hm. assert (M : forall ms u, P u -> P (fold_left on_message ms u)).
  { induction ms as [|m ms IH]; intros u H; cbn; [exact H|]. apply IH, Hm, H. }
  assert (T : forall u t u' s, P u -> do_turn checks u t = Some (u', s) -> P u').
  { intros u t u' s H E. unfold do_turn in E. destruct (draw u _ _) as [[u1 s1]|] eqn:D; [|discriminate]. specialize (Hd _ _ _ _ _ H D).
    destruct (match t_key t with None => Some u1 | Some k => on_key checks u1 k end) as [u2|] eqn:K; [|discriminate]. injection E as <- <-.
    assert (P u2). { destruct (t_key t) as [k|]; [exact (Hk _ _ _ Hd K)|]. injection K as <-. exact Hd. }
    destruct (u_quit u2); [assumption|]. apply M. assumption. }
  induction ts as [|t ts IH]; intros u u' ss H E; cbn in E.
  - injection E as <- <-. exact H.
  - destruct (do_turn checks u t) as [[u1 s]|] eqn:D; [|discriminate]. specialize (T _ _ _ _ H D).
    destruct (u_quit u1); [injection E as <- <-; exact T|].
    destruct (session checks u1 ts) as [[u2 ss2]|] eqn:S; [|discriminate]. injection E as <- <-. exact (IH _ _ _ T S).
Qed.

(** ** Tabs *)
Lemma existsb_eqb n l : existsb (String.eqb n) l = true <-> In n l.
Proof.
  rewrite existsb_exists. split.
  - intros (x & H & E). apply String.eqb_eq in E. subst. exact H.
  - intros H. exists n. split; [exact H|apply String.eqb_refl].
Qed.
Lemma existsb_eqb_false n l : existsb (String.eqb n) l = false <-> ~ In n l.
Proof. rewrite <- existsb_eqb. destruct (existsb _ _); split; intros; congruence. Qed.

Lemma add_titles_spec names : forall ts, NoDup ts ->
  NoDup (add_titles ts names) /\ (forall n, In n (add_titles ts names) <-> In n ts \/ In n names) /\ exists more, add_titles ts names = ts ++ more.
Proof.
  unfold add_titles. induction names as [|a names IH]; intros ts D; cbn [fold_left].
  - split; [exact D|]. split; [cbn; tauto|]. exists []. rewrite app_nil_r. reflexivity.
  - destruct (existsb (String.eqb a) ts) eqn:E.
    + destruct (IH ts D) as (I1 & I2 & I3). split; [exact I1|]. split; [|exact I3]. apply existsb_eqb in E. intros n. rewrite I2. cbn. split; [tauto|]. intros [H|[<-|H]]; tauto.
    + apply existsb_eqb_false in E. assert (D2 : NoDup (ts ++ [a])). { rewrite <- (rev_involutive (ts ++ [a])). apply NoDup_rev. rewrite rev_app_distr. constructor; [rewrite <- in_rev; exact E|apply NoDup_rev, D]. }
      destruct (IH _ D2) as (I1 & I2 & more & I3). split; [exact I1|]. split.
      * intros n. rewrite I2, in_app_iff. cbn. tauto.
      * exists (a :: more). rewrite I3, <- app_assoc. reflexivity.
Qed.

Definition tabs_ok (u : ui) : Prop :=
  u_index u < List.length (u_titles u) /\ hd_error (u_titles u) = Some "Home"%string /\ NoDup (u_titles u).
Lemma tabs_new n r : tabs_ok (ui_new n r).
Proof. split; [cbn; lia|]. split; [reflexivity|]. repeat constructor. intros []. Qed.

Lemma draw_titles u names logs u' s : draw u names logs = Some (u', s) ->
  u_titles u' = add_titles (u_titles u) names /\ u_index u' = u_index u /\ u_selected u' = u_selected u /\ u_quit u' = u_quit u /\ u_chart u' = u_chart u /\
  u_cpu u' = u_cpu u /\ u_mem u' = u_mem u /\ u_window u' = u_window u /\ u_rep u' = u_rep u /\ u_tot_reps u' = u_tot_reps u /\ u_progress u' = u_progress u /\
  u_tot_logs u' = match u_index u with O => logs | _ => u_tot_logs u end.
Proof.
  unfold draw. cbn [u_index set_titles u_titles]. destruct (u_index u) as [|i] eqn:I.
  - destruct (_ && _); [|discriminate]. intros E. injection E as <- _. cbn. rewrite I. repeat (split; [reflexivity|]). reflexivity.
  - destruct (nth_error _ _); [|discriminate]. intros E. injection E as <- _. cbn. rewrite I. repeat (split; [reflexivity|]). reflexivity.
Qed.
Lemma on_key_frame checks u k u' : on_key checks u k = Some u' ->
  u_titles u' = u_titles u /\ u_cpu u' = u_cpu u /\ u_mem u' = u_mem u /\ u_window u' = u_window u /\ u_rep u' = u_rep u /\
  u_tot_reps u' = u_tot_reps u /\ u_progress u' = u_progress u /\ u_tot_logs u' = u_tot_logs u /\
  u_index u' = match k with KLeft => prev_tab u | KRight => next_tab u | _ => u_index u end.
Proof.
  assert (G : forall s, let u' := select u s in u_titles u' = u_titles u /\ u_cpu u' = u_cpu u /\ u_mem u' = u_mem u /\ u_window u' = u_window u /\ u_rep u' = u_rep u /\
    u_tot_reps u' = u_tot_reps u /\ u_progress u' = u_progress u /\ u_tot_logs u' = u_tot_logs u /\ u_index u' = u_index u) by (intros s; repeat split).
  destruct k; cbn; intros E.
  - unfold on_up in E. destruct (u_selected u) as [i|]; [|injection E as <-; apply G]. destruct (i =? 0)%N; [|injection E as <-; apply G].
    destruct (usize_sub _ _ _); [|discriminate]. injection E as <-. apply G.
  - unfold on_down in E. destruct (u_selected u) as [i|]; [|injection E as <-; apply G]. destruct (usize_sub _ _ _); [|discriminate]. injection E as <-. apply G.
  - injection E as <-. repeat split.
  - injection E as <-. repeat split.
  - injection E as <-. unfold on_char. destruct (_ || _); [repeat split|]. destruct (_ || _); [repeat split|]. destruct (_ || _); repeat split.
  - injection E as <-. repeat split.
Qed.
Lemma next_lt u : u_titles u <> [] -> next_tab u < List.length (u_titles u).
Proof. intros H. apply Nat.mod_upper_bound. destruct (u_titles u); [congruence|discriminate]. Qed.
Lemma prev_lt u : u_index u < List.length (u_titles u) -> prev_tab u < List.length (u_titles u).
Proof. intros H. unfold prev_tab. destruct (0 <? u_index u); lia. Qed.

Lemma tabs_key checks u k u' : tabs_ok u -> on_key checks u k = Some u' -> tabs_ok u'.
Proof.
  intros (I & H & D) E. destruct (on_key_frame _ _ _ _ E) as (T & _ & _ & _ & _ & _ & _ & _ & X). unfold tabs_ok. rewrite T, X. split; [|split; assumption].
  destruct k; try exact I; [apply prev_lt, I|apply next_lt; intros Z; rewrite Z in H; discriminate].
Qed.
Lemma tabs_draw u names logs u' s : tabs_ok u -> draw u names logs = Some (u', s) -> tabs_ok u'.
Proof.
  intros (I & H & D) E. destruct (draw_titles _ _ _ _ _ E) as (T & X & _). unfold tabs_ok. rewrite T, X.
  destruct (add_titles_spec names _ D) as (D2 & _ & more & M). rewrite M in *. split; [rewrite app_length; lia|]. split; [|exact D2].
  destruct (u_titles u); [discriminate|exact H].
Qed.
Lemma tabs_msg u m : tabs_ok u -> tabs_ok (on_message u m).
Proof. intros H. destruct m; exact H. Qed.
Lemma tabs_msgs ms : forall u, tabs_ok u -> tabs_ok (fold_left on_message ms u).
Proof. induction ms as [|m ms IH]; intros u H; [exact H|]. apply IH, tabs_msg, H. Qed.
Lemma tabs_session checks u ts u' ss : tabs_ok u -> session checks u ts = Some (u', ss) -> tabs_ok u'.
Proof.
  apply (session_inv tabs_ok checks).
  - intros. eapply tabs_draw; eassumption.
  - intros. eapply tabs_key; eassumption.
  - intros. apply tabs_msg. assumption.
Qed.

(** A turn, part by part. *)
Lemma do_turn_inv checks u t u' s : do_turn checks u t = Some (u', s) -> exists u1 u2,
  draw u (t_names t) (t_logs t) = Some (u1, s) /\ (match t_key t with None => Some u1 | Some k => on_key checks u1 k end) = Some u2 /\
  u' = if u_quit u2 then u2 else fold_left on_message (t_msgs t) u2.
Proof.
  unfold do_turn. destruct (draw _ _ _) as [[u1 s1]|]; [|discriminate]. destruct (match t_key t with None => Some u1 | Some k => on_key checks u1 k end) as [u2|] eqn:K; [|discriminate].
  intros E. injection E as <- <-. exists u1, u2. repeat split. exact K.
Qed.
Lemma msgs_frame ms : forall u, let u' := fold_left on_message ms u in
  u_titles u' = u_titles u /\ u_index u' = u_index u /\ u_quit u' = u_quit u /\ u_selected u' = u_selected u /\ u_tot_logs u' = u_tot_logs u /\ u_tot_reps u' = u_tot_reps u.
Proof.
  induction ms as [|m ms IH]; intros u; cbn zeta; cbn [fold_left]; [repeat split|]. destruct (IH (on_message u m)) as (A & B & C & D & E & F).
  rewrite A, B, C, D, E, F. destruct m; repeat split.
Qed.
Lemma key_quit checks u t u2 : u_quit u = false -> (match t_key t with None => Some u | Some k => on_key checks u k end) = Some u2 -> u_quit u2 = quits t.
Proof.
  intros Q. unfold quits. destruct (t_key t) as [k|]; [|intros E; injection E as <-; exact Q]. destruct k; cbn; intros E.
  - unfold on_up in E. destruct (u_selected u) as [i|]; [|injection E as <-; exact Q]. destruct (i =? 0)%N; [|injection E as <-; exact Q].
    destruct (usize_sub _ _ _); [|discriminate]. injection E as <-. exact Q.
  - unfold on_down in E. destruct (u_selected u) as [i|]; [|injection E as <-; exact Q]. destruct (usize_sub _ _ _); [|discriminate]. injection E as <-. exact Q.
  - injection E as <-. exact Q.
  - injection E as <-. exact Q.
  - injection E as <-. unfold on_char. destruct (_ || _); [reflexivity|]. destruct (_ || _); [exact Q|]. destruct (_ || _); exact Q.
  - injection E as <-. exact Q.
Qed.
Lemma turn_quit checks u t u' s : u_quit u = false -> do_turn checks u t = Some (u', s) -> u_quit u' = quits t.
Proof.
  intros Q E. apply do_turn_inv in E. destruct E as (u1 & u2 & D & K & ->). apply draw_titles in D. destruct D as (_ & _ & _ & Q1 & _).
  pose proof (key_quit checks u1 t u2 ltac:(congruence) K) as Q2. destruct (u_quit u2) eqn:X; [congruence|]. destruct (msgs_frame (t_msgs t) u2) as (_ & _ & Q3 & _). congruence.
Qed.
Lemma session_quit checks ts : forall u u' ss, u_quit u = false -> session checks u ts = Some (u', ss) ->
  List.length ss = turns_made ts /\ u_quit u' = existsb quits ts.
Proof.
  induction ts as [|t ts IH]; intros u u' ss Q E; cbn in E.
  - injection E as <- <-. split; [reflexivity|exact Q].
  - destruct (do_turn checks u t) as [[u1 s]|] eqn:T; [|discriminate]. pose proof (turn_quit _ _ _ _ _ Q T) as Q1. cbn. destruct (u_quit u1) eqn:Q2.
    + injection E as <- <-. rewrite <- Q1. split; [reflexivity|exact Q2].
    + destruct (session checks u1 ts) as [[u2 ss2]|] eqn:S; [|discriminate]. injection E as <- <-. rewrite <- Q1. destruct (IH _ _ _ Q2 S) as [L X]. cbn. rewrite L. split; [reflexivity|exact X].
Qed.

Lemma session_app checks ts1 : forall u ts2, session checks u (ts1 ++ ts2) =
  match session checks u ts1 with
  | None => None
  | Some (u1, ss1) => if existsb (fun _ => true) ts1 && u_quit u1 then Some (u1, ss1) else match session checks u1 ts2 with None => None | Some (u2, ss2) => Some (u2, ss1 ++ ss2) end
  end.
Proof.
  induction ts1 as [|t ts1 IH]; intros u ts2; cbn -[do_turn].
  - destruct (session checks u ts2) as [[u2 ss2]|]; reflexivity.
  - destruct (do_turn checks u t) as [[u1 s]|]; [|reflexivity]. destruct (u_quit u1) eqn:Q; [rewrite Q; reflexivity|]. rewrite IH.
    destruct (session checks u1 ts1) as [[u2 ss2]|] eqn:S; [|reflexivity]. cbn [existsb orb andb].
    destruct ts1 as [|t1 ts1].
    + cbn in S. injection S as <- <-. rewrite Q. cbn. destruct (session checks u1 ts2) as [[u3 ss3]|]; reflexivity.
    + cbn [existsb orb andb]. destruct (u_quit u2); [reflexivity|]. destruct (session checks u2 ts2) as [[u3 ss3]|]; reflexivity.
Qed.

(** Titles after a session. *)
Lemma turn_titles checks u t u' s : do_turn checks u t = Some (u', s) -> u_titles u' = add_titles (u_titles u) (t_names t).
Proof.
  intros E. apply do_turn_inv in E. destruct E as (u1 & u2 & D & K & ->). apply draw_titles in D. destruct D as (T & _). rewrite <- T.
  assert (T2 : u_titles u2 = u_titles u1). { destruct (t_key t) as [k|]; [apply on_key_frame in K; apply K|injection K as <-; reflexivity]. }
  destruct (u_quit u2); [exact T2|]. destruct (msgs_frame (t_msgs t) u2) as (X & _). congruence.
Qed.
Lemma session_titles checks ts : forall u u' ss, NoDup (u_titles u) -> session checks u ts = Some (u', ss) ->
  (forall n, In n (u_titles u') <-> In n (u_titles u) \/ exists t, In t (firstn (List.length ss) ts) /\ In n (t_names t)) /\ exists more, u_titles u' = u_titles u ++ more.
Proof.
  induction ts as [|t ts IH]; intros u u' ss D E; cbn in E.
  - injection E as <- <-. split; [|exists []; rewrite app_nil_r; reflexivity]. intros n. cbn. split; [tauto|]. intros [H|(t & [] & _)]. exact H.
  - destruct (do_turn checks u t) as [[u1 s]|] eqn:T; [|discriminate]. apply turn_titles in T.
    destruct (add_titles_spec (t_names t) _ D) as (D1 & I1 & more1 & M1). rewrite <- T in *. destruct (u_quit u1).
    + injection E as <- <-. split; [|exists more1; exact M1]. intros n. rewrite I1. cbn. split; [intros [H|H]; [tauto|right; exists t; tauto]|].
      intros [H|(t' & [<-|[]] & H)]; tauto.
    + destruct (session checks u1 ts) as [[u2 ss2]|] eqn:S; [|discriminate]. injection E as <- <-. destruct (IH _ _ _ D1 S) as (I2 & more2 & M2). split.
      * intros n. rewrite I2, I1. cbn [List.length firstn]. split.
        { intros [[H|H]|(t' & H1 & H2)]; [tauto|right; exists t; cbn; tauto|right; exists t'; cbn; tauto]. }
        { intros [H|(t' & [<-|H1] & H2)]; [tauto|tauto|right; exists t'; tauto]. }
      * exists (more1 ++ more2). rewrite M2, M1, app_assoc. reflexivity.
Qed.

(** What a screen shows. *)
Lemma draw_screen u names logs u' s : draw u names logs = Some (u', s) ->
  match u_index u with
  | O => exists c, s = Home c
  | i => exists n, nth_error (u_titles u') i = Some n /\ (In n names -> s = PlotTab n) /\ (~ In n names -> s = Empty)
  end.
Proof.
  intros E. pose proof (draw_titles _ _ _ _ _ E) as (T & _). rewrite T. unfold draw in E. cbn [u_index set_titles u_titles] in E. destruct (u_index u) as [|i].
  - destruct (_ && _); [|discriminate]. injection E as <- <-. eexists. reflexivity.
  - destruct (nth_error _ (S i)) as [n|]; [|discriminate]. injection E as <- <-. exists n. split; [reflexivity|]. destruct (existsb (String.eqb n) names) eqn:X.
    + apply existsb_eqb in X. tauto.
    + apply existsb_eqb_false in X. tauto.
Qed.

(** ** No panic *)
Definition ratios_ok (u : ui) : Prop := (u_rep u < u_tot_reps u <= 2 ^ 64)%N /\ ratio_ok (u_progress u) = true.
Lemma ratio_of a b : (0 < a <= b)%N -> (b <= 2 ^ 64)%N -> ratio_ok (ddiv (d_of_Z (Z.of_N a)) (d_of_Z (Z.of_N b))) = true.
Proof.
  intros A B. destruct (ratio_range (Z.of_N a) (Z.of_N b)) as (_ & L & R); [lia|lia|]. unfold ratio_ok. rewrite L, R. reflexivity.
Qed.
Lemma draw_some u names logs : tabs_ok u -> ratios_ok u -> exists u' s, draw u names logs = Some (u', s).
Proof.
  intros (I & H & D) [R P]. unfold draw. cbn [u_index set_titles u_titles]. destruct (u_index u) as [|i].
  - cbn [u_rep u_tot_reps u_progress set_titles]. rewrite ratio_of, P by lia. eexists _, _. reflexivity.
  - destruct (add_titles_spec names _ D) as (_ & _ & more & M). rewrite M. destruct (nth_error (u_titles u ++ more) (S i)) eqn:X; [eexists _, _; reflexivity|].
    apply nth_error_None in X. rewrite app_length in X. lia.
Qed.
Lemma ratios_msg n r u m : (n <= 2 ^ 64)%N -> u_tot_reps u = r -> ratios_ok u -> from_sim n r m -> ratios_ok (on_message u m) /\ u_tot_reps (on_message u m) = r.
Proof.
  intros N1 R [H P] F. destruct m as [i p c m|rp v]; cbn in *.
  - split; [|exact R]. split; [exact H|]. destruct F as [F ->]. unfold ratios_ok. cbn [u_progress]. replace (Z.of_N i + 1)%Z with (Z.of_N (i + 1)) by lia. apply ratio_of; lia.
  - split; [|exact R]. split; [cbn; lia|exact P].
Qed.
Lemma ratios_msgs n r ms : (n <= 2 ^ 64)%N -> forall u, u_tot_reps u = r -> ratios_ok u -> Forall (from_sim n r) ms ->
  ratios_ok (fold_left on_message ms u) /\ u_tot_reps (fold_left on_message ms u) = r.
Proof.
  intros N1. induction ms as [|m ms IH]; intros u R H F; [split; assumption|]. inversion F; subst. cbn [fold_left].
  destruct (ratios_msg n (u_tot_reps u) u m N1 eq_refl H H2) as [H4 H5]. apply IH; assumption.
Qed.
Lemma ratios_draw u names logs u' s : ratios_ok u -> draw u names logs = Some (u', s) -> ratios_ok u' /\ u_tot_reps u' = u_tot_reps u.
Proof. intros H E. destruct (draw_titles _ _ _ _ _ E) as (_ & _ & _ & _ & _ & _ & _ & _ & A & B & C & _). unfold ratios_ok. rewrite A, B, C. split; [exact H|reflexivity]. Qed.
Lemma ratios_key checks u k u' : ratios_ok u -> on_key checks u k = Some u' -> ratios_ok u' /\ u_tot_reps u' = u_tot_reps u.
Proof. intros H E. destruct (on_key_frame _ _ _ _ E) as (_ & _ & _ & _ & A & B & C & _). unfold ratios_ok. rewrite A, B, C. split; [exact H|reflexivity]. Qed.
Lemma key_some checks u k : checks = false \/ (1 <= u_tot_logs u)%N -> exists u', on_key checks u k = Some u'.
Proof.
  intros H. assert (S : exists j, usize_sub checks (u_tot_logs u) 1 = Some j).
  { unfold usize_sub. destruct (1 <=? u_tot_logs u)%N eqn:E; [eexists; reflexivity|]. destruct H as [->|H]; [eexists; reflexivity|]. apply N.leb_gt in E. lia. }
  destruct S as [j S]. destruct k; cbn; try (eexists; reflexivity).
  - unfold on_up. destruct (u_selected u) as [i|]; [|eexists; reflexivity]. destruct (i =? 0)%N; [|eexists; reflexivity]. rewrite S. eexists. reflexivity.
  - unfold on_down. destruct (u_selected u) as [i|]; [|eexists; reflexivity]. rewrite S. eexists. reflexivity.
Qed.

Lemma turn_some checks n r u t : (n <= 2 ^ 64)%N -> tabs_ok u -> ratios_ok u -> u_tot_reps u = r -> fed n r t ->
  checks = false \/ (1 <= match u_index u with O => t_logs t | _ => u_tot_logs u end)%N ->
  exists u' s, do_turn checks u t = Some (u', s) /\ tabs_ok u' /\ ratios_ok u' /\ u_tot_reps u' = r /\
    u_tot_logs u' = match u_index u with O => t_logs t | _ => u_tot_logs u end.
Proof.
  intros N1 T R RR F H. destruct (draw_some u (t_names t) (t_logs t) T R) as (u1 & s & D). pose proof (tabs_draw _ _ _ _ _ T D) as T1. destruct (ratios_draw _ _ _ _ _ R D) as [R1 RR1].
  pose proof (draw_titles _ _ _ _ _ D) as (_ & _ & _ & _ & _ & _ & _ & _ & _ & _ & _ & L1). unfold do_turn. rewrite D.
  assert (K : exists u2, (match t_key t with None => Some u1 | Some k => on_key checks u1 k end) = Some u2 /\ tabs_ok u2 /\ ratios_ok u2 /\ u_tot_reps u2 = r /\ u_tot_logs u2 = u_tot_logs u1).
  { destruct (t_key t) as [k|]; [|exists u1; repeat split; try congruence; try apply T1; apply R1].
    destruct (key_some checks u1 k) as [u2 K]; [destruct H as [H|H]; [tauto|right; rewrite L1; exact H]|]. exists u2. split; [exact K|].
    split; [eapply tabs_key; eassumption|]. destruct (ratios_key _ _ _ _ R1 K) as [R2 RR2]. split; [exact R2|]. split; [congruence|]. apply on_key_frame in K. apply K. }
  destruct K as (u2 & K & T2 & R2 & RR2 & L2). rewrite K. eexists _, _. split; [reflexivity|]. destruct (u_quit u2).
  - repeat split; try congruence; try apply T2; apply R2.
  - split; [apply tabs_msgs, T2|]. destruct (ratios_msgs n r (t_msgs t) N1 u2 RR2 R2 F) as [X Y]. split; [exact X|]. split; [exact Y|].
    destruct (msgs_frame (t_msgs t) u2) as (_ & _ & _ & _ & Z & _). congruence.
Qed.
Lemma session_some checks n r ts : (n <= 2 ^ 64)%N -> forall u, tabs_ok u -> ratios_ok u -> u_tot_reps u = r -> Forall (fed n r) ts ->
  checks = false \/ (Forall (fun t => 1 <= t_logs t)%N ts /\ (u_index u = 0 \/ (1 <= u_tot_logs u)%N)) ->
  exists u' ss, session checks u ts = Some (u', ss).
Proof.
  intros N1. induction ts as [|t ts IH]; intros u T R RR F H; [eexists _, _; reflexivity|]. inversion F; subst. cbn [session].
  destruct (turn_some checks n (u_tot_reps u) u t N1 T R eq_refl H2) as (u1 & s & E & T1 & R1 & RR1 & L1).
  { destruct H as [H|[H G]]; [tauto|]. right. inversion H; subst. destruct (u_index u); [assumption|]. destruct G; [discriminate|assumption]. }
  rewrite E. destruct (u_quit u1); [eexists _, _; reflexivity|]. destruct (IH u1 T1 R1 RR1 H3) as (u' & ss & S).
  { destruct H as [H|[H G]]; [tauto|]. right. inversion H; subst. split; [assumption|]. right. rewrite L1. destruct (u_index u); [assumption|]. destruct G; [discriminate|assumption]. }
  rewrite S. eexists _, _. reflexivity.
Qed.

(** ** The selected log *)
Definition sel_ok (u : ui) : Prop := match u_selected u with None => True | Some i => (i < u_tot_logs u)%N end.
Lemma key_sel checks u k u' : (1 <= u_tot_logs u)%N -> sel_ok u -> on_key checks u k = Some u' -> sel_ok u'.
Proof.
  intros H S. assert (X : usize_sub checks (u_tot_logs u) 1 = Some (u_tot_logs u - 1)%N). { unfold usize_sub. apply N.leb_le in H. rewrite H. reflexivity. }
  unfold sel_ok in *. destruct k; cbn; intros E.
  - unfold on_up in E. destruct (u_selected u) as [i|] eqn:Y; [|injection E as <-; cbn; lia]. destruct (i =? 0)%N.
    + rewrite X in E. injection E as <-. cbn. lia.
    + injection E as <-. cbn. lia.
  - unfold on_down in E. destruct (u_selected u) as [i|] eqn:Y; [|injection E as <-; cbn; lia]. rewrite X in E. injection E as <-. cbn. destruct (_ <=? i)%N eqn:Z; [lia|apply N.leb_gt in Z; lia].
  - injection E as <-. exact S.
  - injection E as <-. exact S.
  - injection E as <-. unfold on_char. destruct (_ || _); [exact S|]. destruct (_ || _); [exact S|]. destruct (_ || _); exact S.
  - injection E as <-. exact S.
Qed.
Lemma session_sel checks ts : forall u u' ss low, growing low (map t_logs ts) -> (1 <= low)%N ->
  (u_tot_logs u <= low)%N -> (u_index u = 0 \/ (1 <= u_tot_logs u)%N) -> sel_ok u ->
  session checks u ts = Some (u', ss) -> sel_ok u'.
Proof.
  induction ts as [|t ts IH]; intros u u' ss low G L0 L1 L2 S E; cbn in E.
  - injection E as <- <-. exact S.
  - destruct (do_turn checks u t) as [[u1 s]|] eqn:T; [|discriminate]. apply do_turn_inv in T. destruct T as (v1 & v2 & D & K & X). apply draw_titles in D.
    destruct D as (_ & I1 & S1 & _ & _ & _ & _ & _ & _ & _ & _ & LL). cbn in G. destruct G as [G1 G2].
    assert (A : (1 <= u_tot_logs v1 /\ u_tot_logs v1 <= t_logs t)%N). { rewrite LL. destruct (u_index u); [lia|]. destruct L2; [discriminate|lia]. }
    assert (B : sel_ok v1). { unfold sel_ok in *. rewrite S1. destruct (u_selected u); [|exact I]. rewrite LL. destruct (u_index u); lia. }
    assert (C : sel_ok v2 /\ u_tot_logs v2 = u_tot_logs v1).
    { destruct (t_key t) as [k|]; [|injection K as <-; split; [exact B|reflexivity]]. split; [eapply key_sel; [apply A|exact B|exact K]|]. apply on_key_frame in K. apply K. }
    destruct C as [C1 C2]. assert (C3 : sel_ok u1 /\ u_tot_logs u1 = u_tot_logs v1).
    { subst u1. destruct (u_quit v2); [split; assumption|]. destruct (msgs_frame (t_msgs t) v2) as (_ & _ & _ & Y & Z & _). unfold sel_ok. rewrite Y, Z. split; [exact C1|exact C2]. }
    destruct C3 as [C3 C4]. destruct (u_quit u1); [injection E as <- <-; exact C3|].
    destruct (session checks u1 ts) as [[u2 ss2]|] eqn:Q; [|discriminate]. injection E as <- <-.
    eapply (IH u1 _ _ (t_logs t)); [exact G2|lia|lia|right; lia|exact C3|exact Q].
Qed.

(** ** The chart of cpu and memory *)
Definition chart_state (u : ui) := (u_cpu u, u_mem u, u_window u).
Definition tick_chart (c : list (f64 * f64) * list (f64 * f64) * N) (v : f64 * f64) :=
  let '(cpu, mem, w) := c in
  let position := fst (List.last (if 100 <? List.length cpu then tl cpu else cpu) (d0, d0)) in
  (push_sample cpu position (fst v), push_sample mem position (snd v), if 100 <? List.length cpu then (w + 1)%N else w).
Definition ticks_of (ms : list message) : list (f64 * f64) := flat_map (fun m => match m with AfterStep _ _ c m => [(c, m)] | _ => [] end) ms.
Lemma msgs_chart ms : forall u, chart_state (fold_left on_message ms u) = fold_left tick_chart (ticks_of ms) (chart_state u).
Proof.
  induction ms as [|m ms IH]; intros u; [reflexivity|]. cbn [fold_left]. rewrite IH. unfold ticks_of. cbn [flat_map]. rewrite fold_left_app. f_equal. destruct m; reflexivity.
Qed.
Lemma session_chart checks ts : forall u u' ss, u_quit u = false -> existsb quits ts = false -> session checks u ts = Some (u', ss) ->
  chart_state u' = fold_left tick_chart (ticks ts) (chart_state u).
Proof.
  induction ts as [|t ts IH]; intros u u' ss Q N E; cbn in E.
  - injection E as <- <-. reflexivity.
  - destruct (do_turn checks u t) as [[u1 s]|] eqn:T; [|discriminate]. pose proof (turn_quit _ _ _ _ _ Q T) as Q1. cbn in N. apply orb_false_iff in N. destruct N as [N1 N2].
    rewrite Q1, N1 in E. destruct (session checks u1 ts) as [[u2 ss2]|] eqn:S; [|discriminate]. injection E as <- <-.
    rewrite (IH u1 _ _ ltac:(congruence) N2 S). change (ticks (t :: ts)) with (ticks_of (t_msgs t) ++ ticks ts). rewrite fold_left_app. f_equal.
    apply do_turn_inv in T. destruct T as (v1 & v2 & D & K & ->). apply draw_titles in D. destruct D as (_ & _ & _ & Q2 & _ & C1 & C2 & C3 & _).
    pose proof (key_quit checks v1 t v2 ltac:(congruence) K) as Q3. rewrite Q3, N1. rewrite msgs_chart. f_equal. unfold chart_state.
    assert (X : u_cpu v2 = u_cpu v1 /\ u_mem v2 = u_mem v1 /\ u_window v2 = u_window v1).
    { destruct (t_key t) as [k|]; [|injection K as <-; tauto]. apply on_key_frame in K. tauto. }
    destruct X as (-> & -> & ->). congruence.
Qed.

Lemma numbered_length l : List.length (numbered l) = List.length l.
Proof. unfold numbered. rewrite combine_length, map_length, seq_length. lia. Qed.
Lemma combine_snoc {A B} (l : list A) : forall (k : list B) a b, List.length l = List.length k -> combine (l ++ [a]) (k ++ [b]) = combine l k ++ [(a, b)].
Proof. induction l as [|x l IH]; intros [|y k] a b H; cbn in *; try lia; [reflexivity|]. rewrite IH by lia. reflexivity. Qed.
Lemma numbered_snoc l v : numbered (l ++ [v]) = numbered l ++ [(d_of_Z (Z.of_nat (S (List.length l))), v)].
Proof.
  unfold numbered. rewrite app_length. cbn [List.length]. rewrite seq_app, map_app. cbn [seq map]. replace (1 + List.length l) with (S (List.length l)) by lia.
  apply combine_snoc. rewrite map_length, seq_length. reflexivity.
Qed.
Lemma last_n_snoc {A} n (l : list A) v : last_n (S n) (l ++ [v]) = (if n <? List.length (last_n (S n) l) then tl (last_n (S n) l) else last_n (S n) l) ++ [v].
Proof.
  unfold last_n. rewrite app_length, skipn_length. cbn [List.length]. destruct (n <? _) eqn:E.
  - apply Nat.ltb_lt in E. rewrite skipn_app. replace (List.length l + 1 - S n - List.length l) with 0 by lia. cbn [skipn]. f_equal.
    replace (List.length l + 1 - S n) with (S (List.length l - S n)) by lia. generalize (List.length l - S n). clear. intros k. revert k. induction l as [|a l IH]; intros [|k]; try reflexivity. cbn [skipn]. rewrite <- IH. reflexivity.
  - apply Nat.ltb_ge in E. rewrite skipn_app. replace (List.length l + 1 - S n - List.length l) with 0 by lia. cbn [skipn]. f_equal.
    replace (List.length l + 1 - S n) with 0 by lia. replace (List.length l - S n) with 0 by lia. reflexivity.
Qed.
Lemma last_skipn {A} (l : list A) d : forall k, k < List.length l -> List.last (skipn k l) d = List.last l d.
Proof.
  induction l as [|a l IH]; intros [|k] H; try reflexivity. cbn in H. cbn [skipn]. rewrite IH by lia. destruct l; [cbn in H; lia|reflexivity].
Qed.
Lemma last_numbered l d : l <> [] -> fst (List.last (numbered l) d) = d_of_Z (Z.of_nat (List.length l)).
Proof. intros H. destruct (exists_last H) as (l' & v & ->). rewrite numbered_snoc, last_last. cbn [fst]. rewrite app_length. cbn [List.length]. do 2 f_equal. lia. Qed.
Lemma tl_skipn {A} (l : list A) : tl l = skipn 1 l.
Proof. destruct l; reflexivity. Qed.
Lemma skipn_skipn' {A} (l : list A) : forall a b, skipn a (skipn b l) = skipn (b + a) l.
Proof. induction l as [|x l IH]; intros a [|b]; try reflexivity; [cbn; destruct a; reflexivity|]. cbn [skipn Nat.add]. apply IH. Qed.

Lemma fold_chart l : (Z.of_nat (List.length l) < 2 ^ 53)%Z ->
  fold_left tick_chart l ([], [], 0%N) = (last_n 101 (numbered (map fst l)), last_n 101 (numbered (map snd l)), N.of_nat (List.length l - 101)).
Proof.
  induction l as [|v l IH] using rev_ind; intros B; [reflexivity|]. rewrite app_length in B. cbn in B. rewrite fold_left_app. cbn [fold_left]. rewrite IH by lia. clear IH.
  set (cpu := map fst l). set (mem := map snd l). assert (Lc : List.length cpu = List.length l) by apply map_length. assert (Lm : List.length mem = List.length l) by apply map_length.
  rewrite !map_app. cbn [map]. fold cpu mem. rewrite !numbered_snoc, Lc, Lm. rewrite (last_n_snoc 100 (numbered cpu)), (last_n_snoc 100 (numbered mem)).
  unfold tick_chart, push_sample.
  assert (P : dadd (fst (List.last (if 100 <? List.length (last_n 101 (numbered cpu)) then tl (last_n 101 (numbered cpu)) else last_n 101 (numbered cpu)) (d0, d0))) d1
              = d_of_Z (Z.of_nat (S (List.length l)))).
  { assert (Q : fst (List.last (if 100 <? List.length (last_n 101 (numbered cpu)) then tl (last_n 101 (numbered cpu)) else last_n 101 (numbered cpu)) (d0, d0)) = d_of_Z (Z.of_nat (List.length l))).
    { destruct l as [|x l'] eqn:El; [reflexivity|]. rewrite <- Lc, <- (last_numbered cpu (d0, d0)) by (subst cpu; discriminate). f_equal.
      unfold last_n. rewrite tl_skipn, skipn_skipn', skipn_length, numbered_length.
      destruct (100 <? _) eqn:E; [apply Nat.ltb_lt in E|]; apply last_skipn; rewrite numbered_length; [lia|]. rewrite Lc. cbn [List.length]. lia. }
    rewrite Q, dadd_one_int by lia. f_equal. lia. }
  rewrite P. assert (W : (if 100 <? List.length (last_n 101 (numbered cpu)) then (N.of_nat (List.length l - 101) + 1)%N else N.of_nat (List.length l - 101)) = N.of_nat (List.length (l ++ [v]) - 101)).
  { unfold last_n. rewrite skipn_length, numbered_length, Lc, app_length. cbn [List.length]. clear P; destruct (100 <? List.length l - (List.length l - 101)) eqn:E; [apply Nat.ltb_lt in E|apply Nat.ltb_ge in E]; lia. }
  rewrite W. reflexivity.
Qed.

(** The chart of repetitions. *)
Lemma msgs_reps ms : forall u, u_reps (fold_left on_message ms u)
  = rev (map (fun p => (fst p + 1, snd p)%N) (flat_map (fun m => match m with AfterRep r v => [(r, v)] | _ => [] end) ms)) ++ u_reps u.
Proof.
  induction ms as [|m ms IH]; intros u; [reflexivity|]. cbn [fold_left]. rewrite IH. destruct m; [reflexivity|].
  cbn. rewrite <- app_assoc. reflexivity.
Qed.
Lemma key_reps checks u k u' : on_key checks u k = Some u' -> u_reps u' = u_reps u.
Proof.
  destruct k; cbn; intros E.
  - unfold on_up in E. destruct (u_selected u) as [i|]; [|injection E as <-; reflexivity]. destruct (i =? 0)%N; [|injection E as <-; reflexivity].
    destruct (usize_sub _ _ _); [|discriminate]. injection E as <-. reflexivity.
  - unfold on_down in E. destruct (u_selected u) as [i|]; [|injection E as <-; reflexivity]. destruct (usize_sub _ _ _); [|discriminate]. injection E as <-. reflexivity.
  - injection E as <-. reflexivity.
  - injection E as <-. reflexivity.
  - injection E as <-. unfold on_char. destruct (_ || _); [reflexivity|]. destruct (_ || _); [reflexivity|]. destruct (_ || _); reflexivity.
  - injection E as <-. reflexivity.
Qed.
Lemma draw_reps u names logs u' s : draw u names logs = Some (u', s) -> u_reps u' = u_reps u.
Proof.
  unfold draw. cbn [u_index set_titles u_titles]. destruct (u_index u) as [|i].
  - destruct (_ && _); [|discriminate]. intros E. injection E as <- _. reflexivity.
  - destruct (nth_error _ _); [|discriminate]. intros E. injection E as <- _. reflexivity.
Qed.
Lemma session_reps checks ts : forall u u' ss, u_quit u = false -> existsb quits ts = false -> session checks u ts = Some (u', ss) ->
  u_reps u' = rev (map (fun p => (fst p + 1, snd p)%N) (reports ts)) ++ u_reps u.
Proof.
  induction ts as [|t ts IH]; intros u u' ss Q N E; cbn in E.
  - injection E as <- <-. reflexivity.
  - destruct (do_turn checks u t) as [[u1 s]|] eqn:T; [|discriminate]. pose proof (turn_quit _ _ _ _ _ Q T) as Q1. cbn in N. apply orb_false_iff in N. destruct N as [N1 N2].
    rewrite Q1, N1 in E. destruct (session checks u1 ts) as [[u2 ss2]|] eqn:S; [|discriminate]. injection E as <- <-.
    rewrite (IH u1 _ _ ltac:(congruence) N2 S). unfold reports. cbn [flat_map]. fold (reports ts). rewrite map_app, rev_app_distr, <- app_assoc. f_equal.
    apply do_turn_inv in T. destruct T as (v1 & v2 & D & K & ->). pose proof (draw_reps _ _ _ _ _ D) as R. apply draw_titles in D. destruct D as (_ & _ & _ & Q2 & _).
    pose proof (key_quit checks v1 t v2 ltac:(congruence) K) as Q3. rewrite Q3, N1. rewrite msgs_reps. f_equal.
    rewrite <- R. destruct (t_key t) as [k|]; [exact (key_reps _ _ _ _ K)|]. injection K as <-. reflexivity.
Qed.
