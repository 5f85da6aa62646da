(** * The schedule follows the diary (C04) *)
From Coq Require Import List Bool ZArith NArith Arith Lia Permutation.
From Verif Require Import F32 SchedModel SchedSpec SchedProofs SchedStep SchedHist BookSpec.
Import ListNotations.
Local Open Scope N_scope.

Section Book.
Context {A S : Type}.
Implicit Types (q : list (event A)) (e : event A) (u : user A S).

Definition look (id : N) q : option (bool * priority) :=
  match find (fun e => ev_id e =? id) q with Some e => Some (ai_rep (fst e), snd e) | None => None end.

Lemma look_cons id e q : look id (e :: q) = if ev_id e =? id then Some (ai_rep (fst e), snd e) else look id q.
Proof. unfold look. cbn. destruct (ev_id e =? id); reflexivity. Qed.
Lemma look_app id q q' : look id (q ++ q') = match look id q with Some x => Some x | None => look id q' end.
Proof. induction q as [|e q IH]; [reflexivity|]. cbn [app]. rewrite !look_cons, IH. destruct (ev_id e =? id); reflexivity. Qed.
Lemma look_none id q : look id q = None <-> ~ In id (map ev_id q).
Proof.
  induction q as [|e q IH]; [cbn; tauto|]. rewrite look_cons. cbn [map In].
  destruct (N.eqb_spec (ev_id e) id) as [E|E]; [split; [discriminate|tauto]|]. rewrite IH. tauto.
Qed.
Lemma look_in id r p q : unique_ids q -> look id q = Some (r, p) <-> exists ag, In (AI id ag r, p) q.
Proof.
  unfold unique_ids. induction q as [|[[i ag rep] pr] q IH]; intros U; [cbn; split; [discriminate|intros [? []]]|].
  cbn [map] in U. inversion U as [|? ? Hn Hd]; subst. rewrite look_cons. cbn [ev_id fst snd ai_id ai_rep].
  change (ev_id (AI i ag rep, pr)) with i in *. destruct (N.eqb_spec i id) as [->|E].
  - split.
    + intros K. injection K as <- <-. exists ag. left. reflexivity.
    + intros (ag' & [K|K]); [congruence|]. exfalso. apply Hn. apply (in_map ev_id) in K. exact K.
  - rewrite (IH Hd). split; intros (ag' & K); exists ag'; [right; exact K|]. destruct K as [K|K]; [congruence|exact K].
Qed.
Lemma look_perm id q q' : unique_ids q -> Permutation q q' -> look id q = look id q'.
Proof.
  intros U P. assert (U' : unique_ids q') by (eapply unique_ids_perm; eauto).
  destruct (look id q) as [[r p]|] eqn:E.
  - symmetry. apply look_in; [exact U'|]. apply look_in in E; [|exact U]. destruct E as (ag & K). exists ag. eapply Permutation_in; eauto.
  - symmetry. apply look_none. apply look_none in E. intros K. apply E. eapply Permutation_in; [|exact K]. apply Permutation_map. symmetry. exact P.
Qed.

Lemma look_push id a p q : look id (fst (pq_push a p q)) =
  if id =? ai_id a then Some (match look (ai_id a) q with Some (r, _) => r | None => ai_rep a end, p) else look id q.
Proof.
  induction q as [|[b pb] q IH]; cbn [pq_push].
  - cbn [fst]. rewrite look_cons. cbn [ev_id fst snd]. rewrite (N.eqb_sym (ev_id (a, p)) id). change (ev_id (a, p)) with (ai_id a). destruct (id =? ai_id a); reflexivity.
  - rewrite (look_cons (ai_id a)). change (ev_id (b, pb)) with (ai_id b). cbn [fst snd]. destruct (N.eqb_spec (ai_id b) (ai_id a)) as [E|E].
    + cbn [fst]. rewrite !look_cons. change (ev_id (b, p)) with (ai_id b). change (ev_id (b, pb)) with (ai_id b). cbn [fst snd]. rewrite E, (N.eqb_sym (ai_id a) id). destruct (id =? ai_id a); reflexivity.
    + destruct (pq_push a p q) as [q2 r]. cbn [fst] in *. rewrite !look_cons, IH. change (ev_id (b, pb)) with (ai_id b). cbn [fst snd].
      destruct (N.eqb_spec (ai_id b) id) as [F|F]; [|reflexivity]. destruct (N.eqb_spec id (ai_id a)); [congruence|reflexivity].
Qed.
Lemma push_answer a p q : match snd (pq_push a p q) with None => true | Some _ => false end =
  match look (ai_id a) q with Some _ => false | None => true end.
Proof.
  induction q as [|[b pb] q IH]; [reflexivity|]. cbn [pq_push]. rewrite look_cons. change (ev_id (b, pb)) with (ai_id b).
  destruct (ai_id b =? ai_id a); [reflexivity|]. destruct (pq_push a p q) as [q2 r]. exact IH.
Qed.
Lemma look_remove id i q : unique_ids q -> look id (fst (pq_remove i q)) = if id =? i then None else look id q.
Proof.
  intros U. destruct (pq_remove_filter i q U) as [-> _]. clear U. induction q as [|e q IH]; [cbn; destruct (id =? i); reflexivity|].
  cbn [filter]. destruct (N.eqb_spec (ev_id e) i) as [E|E]; cbn [negb]; rewrite ?look_cons, IH, ?look_cons.
  - destruct (N.eqb_spec id i) as [F|F]; [reflexivity|]. destruct (N.eqb_spec (ev_id e) id); [congruence|reflexivity].
  - destruct (N.eqb_spec (ev_id e) id) as [F|F]; [|reflexivity]. destruct (N.eqb_spec id i); [congruence|reflexivity].
Qed.
Lemma remove_answer i q : unique_ids q -> match snd (pq_remove i q) with None => false | Some _ => true end =
  negb match look i q with Some _ => false | None => true end.
Proof.
  intros U. destruct (pq_remove_filter i q U) as [_ F]. pose proof (look_none i q) as L.
  destruct (snd (pq_remove i q)) as [x|], (look i q) as [y|]; try reflexivity; exfalso.
  - assert (K : Some x = None) by (apply F, L; reflexivity). discriminate.
  - assert (K : Some y = None) by (apply L, F; reflexivity). discriminate.
Qed.

Lemma book_app (a b : list (call A)) : book_after (a ++ b) = fold_left book_call b (book_after a).
Proof. apply fold_left_app. Qed.
Section Told.
Variable P : book -> call A -> Prop.
Hypothesis P_engine : forall b c, is_api c = false -> P b c.
Lemma always_snoc (tr : list (call A)) c : always P tr -> P (book_after tr) c -> always P (tr ++ [c]).
Proof.
  intros H Hc pre c' post E. destruct post as [|x post] using rev_ind.
  - apply app_inj_tail in E. destruct E as [<- <-]. exact Hc.
  - clear IHpost. rewrite app_comm_cons, app_assoc in E. apply app_inj_tail in E. destruct E as [-> _]. eapply H. reflexivity.
Qed.

Record follows (tr : list (call A)) (q : list (event A)) (ids : N) : Prop := {
  fo_unique : unique_ids q;
  fo_next : b_next (book_after tr) = ids;
  fo_at : forall id, b_at (book_after tr) id = look id q;
  fo_told : always P tr
}.

Lemma follows_perm tr q q' ids : Permutation q q' -> follows tr q ids -> follows tr q' ids.
Proof.
  intros Pm [U N At T]. constructor; [eapply unique_ids_perm; eauto|exact N| |exact T]. intros id. rewrite At. apply look_perm; assumption.
Qed.
Lemma follows_other tr q ids c : (forall b, book_call b c = b) -> (forall b, P b c) -> follows tr q ids -> follows (tr ++ [c]) q ids.
Proof.
  intros H H' [U N At T]. constructor; [exact U| | |apply always_snoc; auto]; rewrite book_app; cbn [fold_left]; rewrite H; assumption.
Qed.

Lemma enter_look (tr : list (call A)) q ids a p : follows tr q ids ->
  forall id, enter (b_at (book_after tr)) (ai_id a) (ai_rep a) p id = look id (fst (pq_push a p q)).
Proof. intros [U N At T] id. rewrite look_push. unfold enter, write. rewrite !At. destruct (id =? ai_id a); reflexivity. Qed.

Lemma follows_once tr sc a t o r : (forall b, P b (CApi (OpOnce a t o) r)) -> follows tr (s_events sc) (s_ids sc) ->
  follows (tr ++ [CApi (OpOnce a t o) r]) (s_events (schedule_once sc a t o)) (s_ids (schedule_once sc a t o)).
Proof.
  intros HP F. pose proof (enter_look _ _ _ a (Prio t o) F) as L. destruct F as [U N At T].
  constructor; [apply pq_push_unique; exact U| | |apply always_snoc; [exact T|apply HP]]; rewrite book_app; cbn [fold_left book_call b_next b_at schedule_once s_events s_ids]; [exact N|exact L].
Qed.
Lemma follows_push tr sc ag t o c :
  (forall b, book_call b c = Book ((b_next b + 1) mod 4294967296) (enter (b_at b) (b_next b) true (Prio t o))) -> P (book_after tr) c ->
  follows tr (s_events sc) (s_ids sc) ->
  follows (tr ++ [c]) (fst (pq_push (AI (s_ids sc) ag true) (Prio t o) (s_events sc))) (u32_succ (s_ids sc)).
Proof.
  intros H H' F. pose proof (enter_look _ _ _ (AI (s_ids sc) ag true) (Prio t o) F) as L. destruct F as [U N At T].
  constructor; [apply pq_push_unique; exact U| | |apply always_snoc; assumption]; rewrite book_app; cbn [fold_left]; rewrite H; cbn [b_next b_at].
  - rewrite N. reflexivity.
  - rewrite N. exact L.
Qed.
Lemma free_push tr sc ag t o : follows tr (s_events sc) (s_ids sc) ->
  free (book_after tr) (b_next (book_after tr)) =
  match snd (pq_push (AI (s_ids sc) ag true) (Prio t o) (s_events sc)) with None => true | Some _ => false end.
Proof. intros [U N At T]. rewrite push_answer. unfold free. rewrite At, N. cbn. destruct (look (s_ids sc) (s_events sc)); reflexivity. Qed.

(** Turns: the agents still to run and the queue together. *)
Lemma follows_item u sc (w : world A S) e es sc' w' : follows (w_trace w) (e :: es ++ s_events sc) (s_ids sc) ->
  run_item u sc w e = (sc', w') -> follows (w_trace w') (es ++ s_events sc') (s_ids sc').
Proof.
  intros F E. apply run_item_turn in E. destruct E as (b & Ht & _ & _ & Hids & Hev & Hb & Htr). rewrite Hids.
  assert (G : follows (w_trace w ++ [CAgentBefore (ev_id e)] ++ [CAgentStep (ev_id e)]) (e :: es ++ s_events sc) (s_ids sc)).
  { rewrite app_assoc. do 2 (apply follows_other; [reflexivity|intros; apply P_engine; reflexivity|]). exact F. }
  destruct G as [U N At T]. assert (Fresh : ~ In (ev_id e) (map ev_id (es ++ s_events sc))) by (inversion U; assumption).
  assert (U' : unique_ids (es ++ s_events sc)) by (inversion U; assumption).
  set (tr0 := w_trace w ++ [CAgentBefore (ev_id e)] ++ [CAgentStep (ev_id e)]) in *.
  assert (Htr' : w_trace w' = tr0 ++ [CAgentAfter (ev_id e)] ++ (if ai_rep (fst e) then [CAgentStopped (ev_id e) (match b with None => true | Some _ => false end)] else [])).
  { rewrite Htr. unfold tr0, calls_of. cbn. rewrite <- !app_assoc. reflexivity. }
  rewrite Htr'. clear Htr' Htr. assert (T1 : always P (tr0 ++ [CAgentAfter (ev_id e)])) by (apply always_snoc; [exact T|apply P_engine; reflexivity]).
  assert (At0 : b_at (book_after tr0) (ev_id e) = Some (ai_rep (fst e), snd e)) by (rewrite At, look_cons, N.eqb_refl; reflexivity).
  assert (AtO : forall id, id <> ev_id e -> b_at (book_after tr0) id = look id (es ++ s_events sc)).
  { intros id K. rewrite At, look_cons. destruct (N.eqb_spec (ev_id e) id); [congruence|reflexivity]. }
  assert (LN : look (ev_id e) (es ++ s_events sc) = None) by (apply look_none; exact Fresh).
  destruct (ai_rep (fst e)) eqn:R.
  - rewrite app_assoc. destruct b as [b|].
    + inversion Ht; subst b e; clear Ht. cbn [fst snd] in Hev. change (ev_id (AI id ag true, Prio t o)) with id in *.
      rewrite pq_push_fresh in Hev by (intros K; apply Fresh; rewrite map_app; apply in_or_app; right; exact K). cbn [fst] in Hev. rewrite Hev.
      rewrite app_assoc. constructor; [| | |apply always_snoc; [exact T1|apply P_engine; reflexivity]]; rewrite ?book_app; cbn [fold_left book_call].
      * unfold unique_ids. rewrite map_app. apply NoDup_app_one; [exact U'|exact Fresh].
      * rewrite At0. cbn [fst ai_rep]. rewrite At0. exact N.
      * intros i. rewrite At0. rewrite At0. cbn [snd b_at]. unfold write. rewrite look_app. destruct (N.eqb_spec i id) as [->|K].
        -- rewrite LN, look_cons. change (ev_id (AI id ag4 true, Prio (fadd t f1) o)) with id. rewrite N.eqb_refl. reflexivity.
        -- rewrite (AtO _ K). destruct (look i (es ++ s_events sc)) as [x|]; [reflexivity|]. rewrite look_cons.
           change (ev_id (AI id ag4 true, Prio (fadd t f1) o)) with id. destruct (N.eqb_spec id i); [congruence|reflexivity].
    + rewrite Hev. constructor; [exact U'| | |apply always_snoc; [exact T1|apply P_engine; reflexivity]]; rewrite ?book_app; cbn [fold_left book_call]; rewrite ?At0; cbn [b_next b_at].
      * exact N.
      * intros i. unfold write. destruct (N.eqb_spec i (ev_id e)) as [->|K]; [symmetry; exact LN|apply AtO; exact K].
  - assert (b = None) as -> by (inversion Ht; subst; try reflexivity; discriminate). rewrite app_nil_r, Hev.
    constructor; [exact U'| | |exact T1]; rewrite ?book_app; cbn [fold_left book_call]; rewrite ?At0; cbn [b_next b_at].
    + exact N.
    + intros i. unfold write. destruct (N.eqb_spec i (ev_id e)) as [->|K]; [symmetry; exact LN|apply AtO; exact K].
Qed.

Lemma follows_items u es : forall sc (w : world A S) sc' w', follows (w_trace w) (es ++ s_events sc) (s_ids sc) ->
  run_items u sc w es = (sc', w') -> follows (w_trace w') (s_events sc') (s_ids sc').
Proof.
  induction es as [|e es IH]; intros sc w sc' w' F E; cbn [run_items] in E.
  - injection E as <- <-. exact F.
  - destruct (run_item u sc w e) as [sc1 w1] eqn:E1. eapply IH; [|exact E]. eapply follows_item; [exact F|exact E1].
Qed.
Lemma items_ids u es : forall sc (w : world A S) sc' w', run_items u sc w es = (sc', w') -> s_ids sc' = s_ids sc.
Proof.
  induction es as [|e es IH]; intros sc w sc' w' E; cbn [run_items] in E; [congruence|].
  destruct (run_item u sc w e) as [sc1 w1] eqn:E1. apply IH in E. apply run_item_turn in E1. destruct E1 as (b & _ & _ & _ & K & _). congruence.
Qed.

End Told.
Notation keeps := (follows told).

(** One call of the API. *)
Lemma follows_op tr sc o sc' r : s_ids sc < u32_mod -> keeps tr (s_events sc) (s_ids sc) -> do_op sc o = (sc', r) ->
  s_ids sc' < u32_mod /\ keeps (tr ++ [CApi o r]) (s_events sc') (s_ids sc').
Proof.
  intros B F E. assert (B' : u32_succ (s_ids sc) < u32_mod) by (apply N.mod_upper_bound; discriminate).
  destruct o as [a t o|ag t o|ag t o|id| | |]; cbn in E.
  - injection E as <- <-. split; [exact B|]. apply follows_once; [exact (fun _ => I)|exact F].
  - unfold schedule_repeating in E. pose proof (free_push told _ _ ag t o F) as Fr. pose proof (follows_push told tr sc ag t o (CApi (OpRepeating ag t o) r)) as K.
    destruct (pq_push _ _ _) as [q2 ro] eqn:P. injection E as <- <-. cbn [s_ids s_events fst snd] in *. split; [exact B'|]. apply K; [reflexivity| |exact F]. cbn. rewrite Fr. destruct ro; reflexivity.
  - unfold distributed_schedule_repeating in E. pose proof (free_push told _ _ ag t o F) as Fr. pose proof (follows_push told tr sc ag t o (CApi (OpDistRepeating ag t o) r)) as K.
    destruct (pq_push _ _ _) as [q2 ro] eqn:P. injection E as <- <-. cbn [s_ids s_events fst snd] in *. split; [exact B'|]. apply K; [reflexivity| |exact F]. cbn. rewrite Fr, (fo_next _ _ _ _ F).
    f_equal. apply u32_pred_succ. exact B.
  - unfold dequeue in E. destruct F as [U N At T]. pose proof (look_remove) as LR. pose proof (remove_answer id _ U) as RA. pose proof (pq_remove_unique id _ U) as U'. specialize (LR).
    assert (LR' : forall i, look i (fst (pq_remove id (s_events sc))) = if i =? id then None else look i (s_events sc)) by (intros i; apply LR; exact U).
    destruct (pq_remove id (s_events sc)) as [q2 ro]. injection E as <- <-. cbn [s_ids s_events fst snd] in *. split; [exact B|].
    constructor; [exact U'| | |apply always_snoc; [exact T|]]; rewrite ?book_app; cbn [fold_left book_call b_next b_at].
    + exact N.
    + intros i. unfold write. rewrite LR', At. reflexivity.
    + cbn. unfold free. rewrite At. f_equal. destruct ro; exact RA.
  - injection E as <- <-. split; [exact B|]. apply follows_other; [reflexivity|exact (fun _ => I)|exact F].
  - injection E as <- <-. split; [exact B|]. apply follows_other; [reflexivity|exact (fun _ => I)|exact F].
  - injection E as <- <-. split; [exact B|]. apply follows_other; [reflexivity|exact (fun _ => I)|exact F].
Qed.

Lemma follows_prog {X} (p : hprog A X) : forall tr sc sc' x log, s_ids sc < u32_mod -> keeps tr (s_events sc) (s_ids sc) ->
  run_hprog p sc = (sc', x, log) -> s_ids sc' < u32_mod /\ keeps (tr ++ api log) (s_events sc') (s_ids sc').
Proof.
  induction p as [x|o k IH]; intros tr sc sc' y log B F E; cbn in E.
  - injection E as <- <- <-. cbn. rewrite app_nil_r. auto.
  - destruct (do_op sc o) as [sc1 r] eqn:Eo. destruct (run_hprog (k r) sc1) as [[sc2 z] l] eqn:Ek. injection E as <- <- <-.
    destruct (follows_op _ _ _ _ _ B F Eo) as [B1 F1]. destruct (IH r _ _ _ _ _ B1 F1 Ek) as [B2 F2]. split; [exact B2|].
    rewrite <- app_assoc in F2. exact F2.
Qed.

Lemma follows_finish u sc (w : world A S) sc' w' : s_ids sc < u32_mod -> keeps (w_trace w) (s_events sc) (s_ids sc) ->
  finish_step u sc w = (sc', w') -> s_ids sc' < u32_mod /\ keeps (w_trace w') (s_events sc') (s_ids sc').
Proof.
  intros B F E. unfold finish_step, call_after in E. destruct (run_hprog (u_after u (w_st w)) sc) as [[sc1 s1] log] eqn:H.
  injection E as <- <-. cbn [s_ids s_events call_update w_trace].
  assert (F0 : keeps (w_trace w ++ [CStateAfter]) (s_events sc) (s_ids sc)) by (apply follows_other; [reflexivity|exact (fun _ => I)|exact F]).
  destruct (follows_prog _ _ _ _ _ _ B F0 H) as [B1 F1]. split; [exact B1|]. rewrite <- app_assoc in F1. apply follows_other; [reflexivity|exact (fun _ => I)|exact F1].
Qed.

Lemma follows_step u ch sc (w : world A S) sc' w' : s_ids sc < u32_mod -> keeps (w_trace w) (s_events sc) (s_ids sc) ->
  step u ch sc w = (sc', w') -> s_ids sc' < u32_mod /\ keeps (w_trace w') (s_events sc') (s_ids sc').
Proof.
  intros B F E. unfold step in E. set (w0 := if s_step sc =? 0 then call_update u (s_step sc) w else w) in E.
  assert (F0 : keeps (w_trace w0 ++ [CStateBefore]) (s_events sc) (s_ids sc)).
  { apply follows_other; [reflexivity|exact (fun _ => I)|]. unfold w0. destruct (s_step sc =? 0); [|exact F]. apply follows_other; [reflexivity|exact (fun _ => I)|exact F]. }
  unfold call_before in E. destruct (run_hprog (u_before u (w_st w0)) sc) as [[sc1 s1] log1] eqn:H.
  destruct (follows_prog _ _ _ _ _ _ B F0 H) as [B1 F1]. rewrite <- app_assoc in F1. cbn [app] in F1.
  destruct (pq_peek (ch O) (s_events sc1)) as [e0|] eqn:P; [|eapply follows_finish; [exact B1| |exact E]; exact F1].
  destruct (pop_due (length (s_events sc1)) ch O (ev_time e0) (s_events sc1)) as [due rest] eqn:Pd.
  pose proof (pop_due_perm _ _ _ _ _ _ _ (fo_unique _ _ _ _ F1) Pd) as Perm.
  destruct (run_items u _ _ due) as [sc3 w2] eqn:R.
  eapply follows_finish; [| |exact E]; [rewrite (items_ids _ _ _ _ _ _ R); exact B1|].
  eapply follows_items; [intros ? []; cbn; (tauto || discriminate)| |exact R]. cbn [s_events s_ids w_trace]. eapply follows_perm; [exact Perm|exact F1].
Qed.

Lemma follows_acts u xs : forall c, s_ids (fst c) < u32_mod -> keeps (w_trace (snd c)) (s_events (fst c)) (s_ids (fst c)) ->
  s_ids (fst (acts u xs c)) < u32_mod /\ keeps (w_trace (snd (acts u xs c))) (s_events (fst (acts u xs c))) (s_ids (fst (acts u xs c))).
Proof.
  induction xs as [|x xs IH]; intros [sc w] B F; [split; assumption|]. cbn [acts fold_left]. fold (acts u xs (act u x (sc, w))).
  assert (K : s_ids (fst (act u x (sc, w))) < u32_mod /\ keeps (w_trace (snd (act u x (sc, w)))) (s_events (fst (act u x (sc, w)))) (s_ids (fst (act u x (sc, w))))).
  { destruct x as [o|ch]; cbn [act fst snd] in *.
    - destruct (do_op sc o) as [sc1 r] eqn:E. eapply follows_op; eauto.
    - destruct (step u ch sc w) as [sc1 w1] eqn:E. eapply follows_step; eauto. }
  apply IH; apply K.
Qed.
End Book.
