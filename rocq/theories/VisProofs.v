(** * Proofs about the visualisation *)
From Coq Require Import List Bool Arith NArith ZArith String Permutation Lia.
From Verif Require Import F32 SchedModel SchedSpec SchedProofs SimModel DashModel VisModel VisSpec.
Import ListNotations.
Local Open Scope N_scope.

(** ** Steps do not depend on the calls recorded so far *)
Section Trace.
Context {A S : Type}.
Variable u : user A S.
Definition after (t : list (call A)) (w : world A S) : world A S := World (w_st w) (t ++ w_trace w).
Definition after2 (t : list (call A)) (c : sched A * world A S) : sched A * world A S := (fst c, after t (snd c)).
Lemma after_update t n w : call_update u n (after t w) = after t (call_update u n w).
Proof. unfold call_update, after. cbn. rewrite app_assoc. reflexivity. Qed.
Lemma after_init t sc w : call_init u sc (after t w) = after2 t (call_init u sc w).
Proof. unfold call_init, after2, after. cbn. destruct (run_hprog _ sc) as [[sc' s'] log]. cbn. rewrite app_assoc. reflexivity. Qed.
Lemma after_before t sc w : call_before u sc (after t w) = after2 t (call_before u sc w).
Proof. unfold call_before, after2, after. cbn. destruct (run_hprog _ sc) as [[sc' s'] log]. cbn. rewrite app_assoc. reflexivity. Qed.
Lemma after_after t sc w : call_after u sc (after t w) = after2 t (call_after u sc w).
Proof. unfold call_after, after2, after. cbn. destruct (run_hprog _ sc) as [[sc' s'] log]. cbn. rewrite app_assoc. reflexivity. Qed.
Lemma after_agent t f tag a w : call_agent f tag a (after t w) = (fst (call_agent f tag a w), after t (snd (call_agent f tag a w))).
Proof. unfold call_agent, after. cbn. destruct (f (ai_agent a) (w_st w)) as [ag s]. cbn. rewrite app_assoc. reflexivity. Qed.
Lemma after_stopped t a w : call_stopped u a (after t w) =
  (fst (call_stopped u a w), (fst (snd (call_stopped u a w)), after t (snd (snd (call_stopped u a w))))).
Proof. unfold call_stopped, after. cbn. destruct (a_stopped u (ai_agent a) (w_st w)) as [b [ag s]]. cbn. rewrite app_assoc. reflexivity. Qed.
Lemma after_item t sc w e : run_item u sc (after t w) e = after2 t (run_item u sc w e).
Proof.
  unfold run_item. rewrite after_agent. destruct (call_agent (a_before u) _ _ _) as [a1 w1]. cbn [fst snd].
  rewrite after_agent. destruct (call_agent (a_step u) _ _ _) as [a2 w2]. cbn [fst snd].
  rewrite after_agent. destruct (call_agent (a_after u) _ _ _) as [a3 w3]. cbn [fst snd].
  destruct (ai_rep a3); [|reflexivity]. rewrite after_stopped. destruct (call_stopped u a3 w3) as [b [a4 w4]]. cbn [fst snd]. destruct b; reflexivity.
Qed.
Lemma after_items t : forall es sc w, run_items u sc (after t w) es = after2 t (run_items u sc w es).
Proof.
  induction es as [|e es IH]; intros sc w; [reflexivity|]. cbn [run_items]. rewrite after_item. unfold after2 at 1.
  destruct (run_item u sc w e) as [sc' w']. cbn [fst snd]. apply IH.
Qed.
Lemma after_finish t sc w : finish_step u sc (after t w) = after2 t (finish_step u sc w).
Proof.
  unfold finish_step. rewrite after_after. unfold after2 at 1. destruct (call_after u sc w) as [sc' w']. cbn [fst snd]. rewrite after_update. reflexivity.
Qed.
Lemma after_step t ch sc w : step u ch sc (after t w) = after2 t (step u ch sc w).
Proof.
  unfold step. assert (E : (if s_step sc =? 0 then call_update u (s_step sc) (after t w) else after t w) = after t (if s_step sc =? 0 then call_update u (s_step sc) w else w)).
  { destruct (s_step sc =? 0); [apply after_update|reflexivity]. }
  rewrite E, after_before. unfold after2 at 1. destruct (call_before u sc _) as [sc1 w1]. cbn [fst snd].
  destruct (pq_peek (ch O) (s_events sc1)) as [e0|]; [|apply after_finish].
  destruct (pop_due _ ch O _ (s_events sc1)) as [due rest]. rewrite after_items. unfold after2 at 1.
  destruct (run_items u _ w1 due) as [sc3 w2]. cbn [fst snd]. apply after_finish.
Qed.
Lemma step_trace ch sc s t : step u ch sc (World s t) = after2 t (step u ch sc (World s [])).
Proof. rewrite <- after_step. unfold after. cbn. rewrite app_nil_r. reflexivity. Qed.

(** [end_condition] is never among the calls of a step. *)
Definition is_end (c : call A) : bool := match c with CEnd _ => true | _ => false end.
Definition without_end (l : list (call A)) : list (call A) := filter (fun c => negb (is_end c)) l.
Definition free (l : list (call A)) : Prop := without_end l = l.
Lemma without_app l l' : without_end (l ++ l') = without_end l ++ without_end l'.
Proof. apply filter_app. Qed.
Lemma free_app l l' : free l -> free l' -> free (l ++ l').
Proof. unfold free. intros H1 H2. rewrite without_app, H1, H2. reflexivity. Qed.
Lemma free_api log : free (api log).
Proof. unfold free, api. induction log as [|x log IH]; [reflexivity|]. cbn. f_equal. exact IH. Qed.
Lemma free_cons c l : is_end c = false -> free l -> free (c :: l).
Proof. unfold free. intros E H. cbn. rewrite E. cbn. f_equal. exact H. Qed.
Lemma free_update n (w : world A S) : free (w_trace w) -> free (w_trace (call_update u n w)).
Proof. intros H. apply free_app; [exact H|reflexivity]. Qed.
Lemma free_init sc (w : world A S) : free (w_trace w) -> free (w_trace (snd (call_init u sc w))).
Proof. intros H. unfold call_init. destruct (run_hprog _ sc) as [[sc' s'] log]. apply free_app; [exact H|]. apply free_cons; [reflexivity|apply free_api]. Qed.
Lemma free_before sc (w : world A S) : free (w_trace w) -> free (w_trace (snd (call_before u sc w))).
Proof. intros H. unfold call_before. destruct (run_hprog _ sc) as [[sc' s'] log]. apply free_app; [exact H|]. apply free_cons; [reflexivity|apply free_api]. Qed.
Lemma free_after sc (w : world A S) : free (w_trace w) -> free (w_trace (snd (call_after u sc w))).
Proof. intros H. unfold call_after. destruct (run_hprog _ sc) as [[sc' s'] log]. apply free_app; [exact H|]. apply free_cons; [reflexivity|apply free_api]. Qed.
Lemma free_agent f tag a (w : world A S) : (forall n, is_end (tag n) = false) -> free (w_trace w) -> free (w_trace (snd (call_agent f tag a w))).
Proof. intros T H. unfold call_agent. destruct (f (ai_agent a) (w_st w)) as [ag s]. apply free_app; [exact H|]. apply free_cons; [apply T|reflexivity]. Qed.
Lemma free_item sc (w : world A S) e : free (w_trace w) -> free (w_trace (snd (run_item u sc w e))).
Proof.
  intros H. unfold run_item. pose proof (free_agent (a_before u) (fun n => CAgentBefore n) (fst e) w (fun _ => eq_refl) H) as H1.
  destruct (call_agent (a_before u) _ _ _) as [a1 w1]. cbn [fst snd] in *.
  pose proof (free_agent (a_step u) (fun n => CAgentStep n) a1 w1 (fun _ => eq_refl) H1) as H2. destruct (call_agent (a_step u) _ _ _) as [a2 w2]. cbn [fst snd] in *.
  pose proof (free_agent (a_after u) (fun n => CAgentAfter n) a2 w2 (fun _ => eq_refl) H2) as H3. destruct (call_agent (a_after u) _ _ _) as [a3 w3]. cbn [fst snd] in *.
  destruct (ai_rep a3); [|exact H3]. unfold call_stopped. destruct (a_stopped u (ai_agent a3) (w_st w3)) as [b [ag s]]. destruct b; cbn [snd w_trace]; apply free_app; try exact H3; reflexivity.
Qed.
Lemma free_items : forall es sc (w : world A S), free (w_trace w) -> free (w_trace (snd (run_items u sc w es))).
Proof.
  induction es as [|e es IH]; intros sc w H; [exact H|]. cbn [run_items]. pose proof (free_item sc w e H) as H1.
  destruct (run_item u sc w e) as [sc' w']. apply IH. exact H1.
Qed.
Lemma free_finish sc (w : world A S) : free (w_trace w) -> free (w_trace (snd (finish_step u sc w))).
Proof.
  intros H. unfold finish_step. pose proof (free_after sc w H) as H1. destruct (call_after u sc w) as [sc' w']. cbn [fst snd] in *. apply free_update. exact H1.
Qed.
Lemma free_step ch sc (w : world A S) : free (w_trace w) -> free (w_trace (snd (step u ch sc w))).
Proof.
  intros H. unfold step. assert (H0 : free (w_trace (if s_step sc =? 0 then call_update u (s_step sc) w else w))) by (destruct (s_step sc =? 0); [apply free_update|]; exact H).
  pose proof (free_before sc _ H0) as H1. destruct (call_before u sc _) as [sc1 w1]. cbn [fst snd] in *.
  destruct (pq_peek (ch O) (s_events sc1)) as [e0|]; [|apply free_finish; exact H1].
  destruct (pop_due _ ch O _ (s_events sc1)) as [due rest]. pose proof (free_items due (Sched (s_step sc1) (ev_time e0) rest (s_ids sc1)) w1 H1) as H2.
  destruct (run_items u _ w1 due) as [sc3 w2]. apply free_finish. exact H2.
Qed.

(** With an [end_condition] that always says no, the loop of [simulate!] makes the same
    steps; only the calls of [end_condition] come in between. *)
Lemma loop_steps chs : (forall s, u_end u s = HRet (false, s)) -> forall n i sc w t,
  without_end (w_trace w) = t ->
  let r := sim_loop u chs i n sc w in
  let q := steps u (map chs (seq i n)) (sc, World (w_st w) t) in
  fst r = fst q /\ w_st (snd r) = w_st (snd q) /\ without_end (w_trace (snd r)) = w_trace (snd q).
Proof.
  intros E. induction n as [|n IH]; intros i sc w t T; [cbn; auto|]. cbn [sim_loop seq map]. unfold steps. cbn [fold_left fst snd].
  destruct w as [s tr]. cbn [w_trace w_st] in *. rewrite step_trace, (step_trace (chs i) sc s t).
  pose proof (free_step (chs i) sc (World s []) eq_refl) as FR. destruct (step u (chs i) sc (World s [])) as [sc1 w1]. cbn [snd] in FR. unfold after2, after. cbn [fst snd].
  unfold call_end. cbn [w_st w_trace]. rewrite E. cbn [run_hprog].
  match goal with |- context[sim_loop u chs (Datatypes.S i) n sc1 ?w] => specialize (IH (Datatypes.S i) sc1 w (t ++ w_trace w1)) end.
  cbn [w_trace w_st] in IH. apply IH. rewrite !without_app, T. unfold free in FR. rewrite FR. cbn. rewrite app_nil_r. reflexivity.
Qed.
End Trace.

(** ** The simulation part of the visualisation *)
Section Vis.
Context {A S I R H Q : Type}.
Variable u : user A S.
Variable u_reset : S -> S.
Variable quat : f32 -> Q.
Variable img : string -> H.
Variable v : vcode A S I R H Q.
Local Notation app := (app A S I R H Q).
Local Notation tick := (tick u img v).
Local Notation frames := (frames u u_reset quat img v).
Local Notation do_frame := (do_frame u u_reset quat img v).
Local Notation boot := (boot u quat img v).
Local Notation stop := (stop u u_reset quat img v).
Definition sim (a : app) : sched A * world A S := (a_sched a, a_world a).

Lemma tick_paused ch a : a_paused (tick ch a) = a_paused a.
Proof.
  unfold VisModel.tick. destruct (a_paused a) eqn:P; [exact P|]. destruct (step u ch _ _) as [sc w]. destruct (v_before v _ _ _) as [[i s] c]. reflexivity.
Qed.
Lemma ticks_paused chs : forall a, a_paused (fold_left (fun a ch => tick ch a) chs a) = a_paused a.
Proof. induction chs as [|ch chs IH]; intros a; [reflexivity|]. cbn [fold_left]. rewrite IH. apply tick_paused. Qed.
Lemma ticks_stay chs : forall a, a_paused a = true -> fold_left (fun a ch => tick ch a) chs a = a.
Proof. induction chs as [|ch chs IH]; intros a P; [reflexivity|]. cbn [fold_left]. unfold VisModel.tick at 2. rewrite P. apply IH. exact P. Qed.

Section Quiet.
Variable p0 : bool.
Hypothesis QU : quiet p0 v.
Lemma tick_sim ch a : a_paused a = false -> sim (tick ch a) = step u ch (a_sched a) (a_world a).
Proof.
  intros P. unfold VisModel.tick, sim. rewrite P. destruct (step u ch _ _) as [sc w]. pose proof (proj2 QU (a_vis a) sc (w_st w)) as E.
  destruct (v_before v _ _ _) as [[i s] c]. cbn [fst snd] in E. subst s. cbn [a_sched a_world]. destruct w; reflexivity.
Qed.
Lemma ticks_sim chs : forall a, a_paused a = false -> sim (fold_left (fun a ch => tick ch a) chs a) = steps u chs (sim a).
Proof.
  induction chs as [|ch chs IH]; intros a P; [reflexivity|]. cbn [fold_left]. rewrite IH by (rewrite tick_paused; exact P).
  unfold steps. cbn [fold_left]. rewrite (tick_sim ch a P). reflexivity.
Qed.
Lemma start_sim order i sc w : sim (start_graphics quat img v order true i sc w) = (sc, w) /\ a_paused (start_graphics quat img v order true i sc w) = p0.
Proof.
  unfold start_graphics. destruct (proj1 QU i (w_st w)) as [es E]. rewrite E. cbn [run_hprog]. cbn. rewrite app_nil_r. split; [destruct w; reflexivity|reflexivity].
Qed.
Lemma boot_sim order i s : sim (boot order i s) = call_init u sched_new (World s []) /\ a_paused (boot order i s) = p0.
Proof. unfold VisModel.boot. destruct (call_init u sched_new (World s [])) as [sc w]. apply start_sim. Qed.
Lemma frame_sim f a : c_stop (f_clicks f) = false ->
  sim (do_frame a f) = steps u (if a_paused a then [] else f_ticks f) (sim a) /\ a_paused (do_frame a f) = click (a_paused a) (f_clicks f).
Proof.
  intros N. unfold VisModel.do_frame, ui. rewrite N.
  set (b := fold_left (fun a ch => tick ch a) (f_ticks f) a).
  assert (E : sim b = steps u (if a_paused a then [] else f_ticks f) (sim a)).
  { unfold b. destruct (a_paused a) eqn:P; [rewrite ticks_stay by exact P; reflexivity|apply ticks_sim; exact P]. }
  assert (P : a_paused b = a_paused a) by apply ticks_paused. clearbody b. unfold click.
  destruct (c_pause (f_clicks f)), (c_start (f_clicks f)); cbn; unfold sim in *; cbn; auto.
Qed.
Lemma steps_app chs chs' c : steps u (chs ++ chs') c = steps u chs' (steps u chs c).
Proof. apply fold_left_app. Qed.
Lemma frames_sim fs : forall a, no_stop fs ->
  sim (frames a fs) = steps u (ticks_run (a_paused a) fs) (sim a) /\ a_paused (frames a fs) = paused_after (a_paused a) fs.
Proof.
  induction fs as [|f fs IH]; intros a N; [auto|]. unfold VisModel.frames. cbn [fold_left ticks_run paused_after].
  destruct (frame_sim f a (N f (or_introl eq_refl))) as [E1 E2]. destruct (IH (do_frame a f) (fun g G => N g (or_intror G))) as [E3 E4].
  unfold VisModel.frames in E3, E4. rewrite E3, E4, E1, E2, steps_app. auto.
Qed.
End Quiet.

(** No [end_condition], whatever the graphics do. *)
Lemma tick_free ch a : free (w_trace (a_world a)) -> free (w_trace (a_world (tick ch a))).
Proof.
  intros F. unfold VisModel.tick. destruct (a_paused a); [exact F|]. pose proof (free_step u ch (a_sched a) (a_world a) F) as F1.
  destruct (step u ch _ _) as [sc w]. destruct (v_before v _ _ _) as [[i s] c]. exact F1.
Qed.
Lemma start_free order p i sc w : free (w_trace w) -> free (w_trace (a_world (start_graphics quat img v order p i sc w))).
Proof. intros F. unfold start_graphics. destruct (run_hprog _ sc) as [[sc' [[s' p'] es]] log]. cbn. apply free_app; [exact F|apply free_api]. Qed.
Lemma boot_free order i s : free (w_trace (a_world (boot order i s))).
Proof. unfold VisModel.boot. pose proof (free_init u sched_new (World s []) eq_refl) as F. destruct (call_init u sched_new (World s [])) as [sc w]. apply start_free. exact F. Qed.
Lemma frames_free fs : forall a, free (w_trace (a_world a)) -> free (w_trace (a_world (frames a fs))).
Proof.
  induction fs as [|f fs IH]; intros a F; [exact F|]. unfold VisModel.frames. cbn [fold_left]. apply IH. unfold VisModel.do_frame, ui.
  assert (F1 : free (w_trace (a_world (fold_left (fun a ch => tick ch a) (f_ticks f) a)))).
  { generalize (f_ticks f) as chs. intros chs. revert a F. clear. induction chs as [|ch chs IH]; intros a F; [exact F|]. cbn [fold_left]. apply IH, tick_free, F. }
  set (b := fold_left _ _ _) in *. clearbody b.
  assert (F2 : free (w_trace (a_world (if c_start (f_clicks f) then with_paused false b else b)))) by (destruct (c_start (f_clicks f)); exact F1).
  set (b2 := if c_start (f_clicks f) then _ else _) in *. clearbody b2.
  assert (F3 : free (w_trace (a_world (if c_stop (f_clicks f) then stop (f_order f) b2 else b2)))).
  { destruct (c_stop (f_clicks f)); [|exact F2]. unfold VisModel.stop. pose proof (free_init u sched_new (World (u_reset (w_st (a_world b2))) (w_trace (a_world b2))) F2) as F3.
    destruct (call_init u sched_new _) as [sc w]. apply start_free. exact F3. }
  destruct (c_pause (f_clicks f)); exact F3.
Qed.

(** ** Sprites *)
Lemma setup_shows r a s : shows quat img v s a r (setup_agent quat img v r a s).
Proof.
  unfold setup_agent, shows. destruct (r_location v r a s) as [[x y] z]. destruct (r_scale v r a s) as [sx sy]. cbn. repeat split.
Qed.
Lemma render_redrawn i sc s e : s_step sc <> 0 -> redrawn img v i s e (render_entity img v i sc s e).
Proof.
  intros N. unfold render_entity, redrawn. destruct (e_render e) as [r|] eqn:E; [|reflexivity]. destruct (v_agent v i r s) as [a|].
  - destruct (r_update v r a s (e_tr e) (e_vis e)) as [[r' t] vis] eqn:U. exists r', t, vis. cbn. repeat split.
  - destruct (s_step sc =? 0) eqn:Z; [apply N.eqb_eq in Z; contradiction|]. cbn. repeat split.
Qed.
End Vis.

(** ** The step counter *)
Section Counter.
Context {A S : Type}.
Variable u : user A S.
Lemma do_op_step (sc : sched A) o : s_step (fst (do_op sc o)) = s_step sc.
Proof.
  destruct o; cbn [do_op]; unfold schedule_repeating, distributed_schedule_repeating, dequeue, schedule_once; try reflexivity;
    repeat match goal with |- context[pq_push ?a ?b ?c] => destruct (pq_push a b c) as [? []]
                         | |- context[pq_remove ?a ?b] => destruct (pq_remove a b) as [? []] end; reflexivity.
Qed.
Lemma run_hprog_step {X} (p : hprog A X) : forall sc : sched A, s_step (fst (fst (run_hprog p sc))) = s_step sc.
Proof.
  induction p as [x|o k IH]; intros sc; [reflexivity|]. cbn [run_hprog]. pose proof (do_op_step sc o) as E. destruct (do_op sc o) as [sc' r]. cbn [fst] in E.
  specialize (IH r sc'). destruct (run_hprog (k r) sc') as [[sc'' x] log]. cbn [fst] in *. congruence.
Qed.
Lemma item_step (sc : sched A) (w : world A S) e : s_step (fst (run_item u sc w e)) = s_step sc.
Proof.
  unfold run_item. destruct (call_agent (a_before u) _ _ _) as [a1 w1]. destruct (call_agent (a_step u) _ _ _) as [a2 w2]. destruct (call_agent (a_after u) _ _ _) as [a3 w3].
  destruct (ai_rep a3); [|reflexivity]. destruct (call_stopped u a3 w3) as [b [a4 w4]]. destruct b; reflexivity.
Qed.
Lemma items_step : forall es (sc : sched A) (w : world A S), s_step (fst (run_items u sc w es)) = s_step sc.
Proof.
  induction es as [|e es IH]; intros sc w; [reflexivity|]. cbn [run_items]. pose proof (item_step sc w e) as E. destruct (run_item u sc w e) as [sc' w']. cbn [fst] in E. rewrite IH. exact E.
Qed.
Lemma finish_count (sc : sched A) (w : world A S) : s_step (fst (finish_step u sc w)) = u64_succ (s_step sc).
Proof.
  unfold finish_step, call_after. pose proof (run_hprog_step (u_after u (w_st w)) sc) as E. destruct (run_hprog _ sc) as [[sc' s'] log]. cbn in *. rewrite E. reflexivity.
Qed.
Lemma step_count ch (sc : sched A) (w : world A S) : s_step (fst (step u ch sc w)) = u64_succ (s_step sc).
Proof.
  unfold step. set (w0 := if s_step sc =? 0 then _ else _). unfold call_before. pose proof (run_hprog_step (u_before u (w_st w0)) sc) as E. destruct (run_hprog _ sc) as [[sc1 s1] log]. cbn [fst] in E.
  destruct (pq_peek (ch O) (s_events sc1)) as [e0|]; [|rewrite finish_count, E; reflexivity].
  destruct (pop_due _ ch O _ (s_events sc1)) as [due rest].
  pose proof (items_step due (Sched (s_step sc1) (ev_time e0) rest (s_ids sc1)) (World s1 (w_trace w0 ++ CStateBefore :: api log))) as E2.
  destruct (run_items u _ _ due) as [sc3 w2]. rewrite finish_count. cbn [fst s_step] in E2. rewrite E2, E. reflexivity.
Qed.
Lemma step_count_nz ch (sc : sched A) (w : world A S) : s_step sc + 1 < 18446744073709551616 -> s_step (fst (step u ch sc w)) <> 0.
Proof. intros L. rewrite step_count. unfold u64_succ, u64_mod. rewrite N.mod_small by exact L. lia. Qed.
End Counter.

(** ** Images *)
Section EmojiProofs.
Context {H : Type}.
Variable load : nat -> string -> H.
Definition path_of (c : string) : string := ("emojis/" ++ c ++ ".png")%string.
(** The codes requested so far, without repetitions, and their handles. *)
Definition fac_ok (f : factory H) (cs : list string) : Prop :=
  NoDup cs /\ loaded f = map path_of cs /\
  (forall c, hm_find String.eqb c (emoji_loaders f) <> None <-> In c cs) /\
  (forall n c, nth_error cs n = Some c -> option_map snd (hm_find String.eqb c (emoji_loaders f)) = Some (load n (path_of c))).
Lemma find_insert_same (c : string) (h : H) m : hm_find String.eqb c m = None -> hm_find String.eqb c (fst (hm_insert String.eqb c h m)) = Some (c, h).
Proof.
  induction m as [|[k x] m IH]; intros E; cbn; [rewrite String.eqb_refl; reflexivity|]. cbn in E. destruct (String.eqb c k) eqn:K; [discriminate|].
  destruct (hm_insert String.eqb c h m) as [m' o]. cbn in *. rewrite K. apply IH. exact E.
Qed.
Lemma find_insert_other (c c' : string) (h : H) m : c <> c' -> hm_find String.eqb c (emoji_loaders m) = None ->
  hm_find String.eqb c' (fst (hm_insert String.eqb c h (emoji_loaders m))) = hm_find String.eqb c' (emoji_loaders m).
Proof.
  intros N. generalize (emoji_loaders m). induction l as [|[k x] l IH]; intros E; cbn.
  - destruct (String.eqb c' c) eqn:K; [apply String.eqb_eq in K; congruence|reflexivity].
  - cbn in E. destruct (String.eqb c k) eqn:K; [discriminate|]. specialize (IH E). destruct (hm_insert String.eqb c h l) as [l' o]. cbn in *. destruct (String.eqb c' k); [reflexivity|exact IH].
Qed.
Lemma get_ok c f cs : fac_ok f cs ->
  let (f', h) := get_material_handle load c f in
  exists cs', fac_ok f' cs' /\ (forall x, In x cs' <-> In x cs \/ x = c) /\ (exists more, cs' = cs ++ more) /\ exists n, nth_error cs' n = Some c /\ h = load n (path_of c).
Proof.
  intros (ND & L & D & V). unfold get_material_handle. destruct (hm_find String.eqb c (emoji_loaders f)) as [[k h]|] eqn:E.
  - exists cs. assert (IC : In c cs) by (apply D; rewrite E; discriminate). split; [split; auto|]. split; [intros x; split; [auto|intros [?| ->]; assumption]|].
    split; [exists []; rewrite app_nil_r; reflexivity|]. destruct (In_nth_error _ _ IC) as [n Hn]. exists n. split; [exact Hn|]. specialize (V n c Hn). rewrite E in V. injection V as ->. reflexivity.
  - assert (NI : ~ In c cs) by (intros IC; apply D in IC; contradiction). exists (cs ++ [c]). split; [|split; [|split]].
    + split; [|split; [|split]]; cbn [loaded emoji_loaders].
      * apply NoDup_Add with (a := c) (l := cs); [rewrite <- (app_nil_r cs) at 1; apply Add_app|split; assumption].
      * rewrite L, map_app. reflexivity.
      * intros x. destruct (string_dec c x) as [<-|NE].
        -- rewrite find_insert_same by exact E. split; [intros _; apply in_or_app; right; left; reflexivity|discriminate].
        -- rewrite find_insert_other by assumption. rewrite D, in_app_iff. cbn. split; [auto|]. intros [?|[?|[]]]; [assumption|congruence].
      * intros n x Hn. destruct (Nat.lt_ge_cases n (List.length cs)) as [B|B].
        -- rewrite nth_error_app1 in Hn by exact B. assert (NE : c <> x) by (intros ->; apply NI; apply nth_error_In with n; exact Hn).
           rewrite find_insert_other by assumption. apply V. exact Hn.
        -- rewrite nth_error_app2 in Hn by exact B. destruct (n - List.length cs)%nat as [|m] eqn:M; [|destruct m; discriminate]. cbn in Hn. injection Hn as <-.
           rewrite find_insert_same by exact E. cbn. rewrite L, map_length. do 2 f_equal. lia.
    + intros x. rewrite in_app_iff. cbn. intuition.
    + exists [c]. reflexivity.
    + exists (List.length cs). split; [rewrite nth_error_app2, Nat.sub_diag by lia; reflexivity|]. rewrite L, map_length. reflexivity.
Qed.
Lemma get_all_ok : forall codes f cs, fac_ok f cs ->
  let (f', hs) := get_all load codes f in
  exists cs', fac_ok f' cs' /\ (forall x, In x cs' <-> In x cs \/ In x codes) /\ (exists more, cs' = cs ++ more) /\
    Forall2 (fun c h => exists n, nth_error cs' n = Some c /\ h = load n (path_of c)) codes hs.
Proof.
  induction codes as [|c codes IH]; intros f cs OK; cbn [get_all].
  - exists cs. split; [exact OK|]. split; [intros x; cbn; tauto|]. split; [exists []; rewrite app_nil_r; reflexivity|constructor].
  - pose proof (get_ok c f cs OK) as G. destruct (get_material_handle load c f) as [f1 h]. destruct G as (cs1 & OK1 & D1 & (m1 & E1) & n & N1 & N2).
    specialize (IH f1 cs1 OK1). destruct (get_all load codes f1) as [f2 hs]. destruct IH as (cs2 & OK2 & D2 & (m2 & E2) & F).
    exists cs2. split; [exact OK2|]. split; [intros x; rewrite D2, D1; cbn; intuition congruence|]. split; [exists (m1 ++ m2); rewrite app_assoc, <- E1; exact E2|].
    constructor; [|exact F]. exists n. split; [|exact N2]. rewrite E2. rewrite nth_error_app1; [exact N1|]. apply nth_error_Some. congruence.
Qed.
End EmojiProofs.

(** ** Textures *)
Section TextureProofs.
Context {P : Type}.
Lemma from_fn_length w h (f : nat -> nat -> P) : List.length (image_from_fn w h f) = (h * w)%nat.
Proof.
  unfold image_from_fn. rewrite flat_map_concat_map. assert (G : forall b, List.length (List.concat (map (fun y => map (fun x => f x y) (seq 0 w)) (seq b h))) = (h * w)%nat); [|apply G].
  induction h as [|h IH]; intros b; [reflexivity|]. cbn [seq map List.concat]. rewrite app_length, map_length, seq_length, IH. lia.
Qed.
Lemma from_fn_pixel w h (f : nat -> nat -> P) x y : (x < w)%nat -> (y < h)%nat -> pixel w (image_from_fn w h f) x y = Some (f x y).
Proof.
  intros X Y. unfold pixel, image_from_fn. rewrite flat_map_concat_map.
  assert (G : forall b, nth_error (List.concat (map (fun y => map (fun x => f x y) (seq 0 w)) (seq b h))) (y * w + x) = Some (f x (b + y)%nat)); [|apply G]. revert y Y.
  induction h as [|h IH]; intros y Y b; [lia|]. cbn [seq map List.concat]. destruct y as [|y].
  - rewrite nth_error_app1 by (rewrite map_length, seq_length; lia). cbn [Nat.mul Nat.add]. rewrite nth_error_map.
    assert (E : nth_error (seq 0 w) x = Some x) by (rewrite (nth_error_nth' _ 0%nat) by (rewrite seq_length; exact X); rewrite seq_nth by exact X; reflexivity).
    rewrite E. cbn. f_equal. f_equal. lia.
  - rewrite nth_error_app2 by (rewrite map_length, seq_length; nia). rewrite map_length, seq_length.
    replace (Datatypes.S y * w + x - w)%nat with (y * w + x)%nat by nia. rewrite IH by lia. f_equal. f_equal. lia.
Qed.
Lemma image_map_pixel w h im (d : P) g x y : (x < w)%nat -> (y < h)%nat ->
  pixel w (image_map w h im d g) x y = Some (match pixel w im (fst (g x y)) (snd (g x y)) with Some p => p | None => d end).
Proof. intros X Y. unfold image_map. apply from_fn_pixel; assumption. Qed.
End TextureProofs.
Lemma bytes_nth (l : list rgba) : forall k c, (c < 4)%nat -> nth_error (flat_map bytes l) (4 * k + c) = match nth_error l k with Some p => nth_error (bytes p) c | None => None end.
Proof.
  induction l as [|[[[r g] b] a] l IH]; intros k c C.
  - cbn [flat_map]. destruct (4 * k + c)%nat, k; reflexivity.
  - cbn [flat_map]. destruct k as [|k].
    + rewrite nth_error_app1 by (cbn; lia). reflexivity.
    + rewrite nth_error_app2 by (cbn [bytes List.length]; lia). cbn [bytes List.length]. replace (4 * Datatypes.S k + c - 4)%nat with (4 * k + c)%nat by lia. rewrite IH by exact C. reflexivity.
Qed.
Lemma as_i32_small n : (Z.of_nat n < 2 ^ 31)%Z -> as_i32 n = Z.of_nat n.
Proof. intros L. unfold as_i32. rewrite Z.mod_small; lia. Qed.

(** ** Lines *)
Section LineProofs.
Context {S P : Type}.
Variable eqp : P -> P -> bool.
Variable get_loc : S -> N -> P.
Lemma render_edge ss : forall l : line P, l_edge (fold_left (fun l s => line_render eqp get_loc s l) ss l) = l_edge l.
Proof.
  induction ss as [|s ss IH]; intros l; [reflexivity|]. cbn [fold_left]. rewrite IH. unfold line_render. destruct (l_edge l) as [[[i j] [p q]]|] eqn:E; [|exact E].
  destruct (negb _ || negb _); [reflexivity|exact E].
Qed.
Lemma lines_fold ss : forall ls : list (line P), fold_left (fun ls s => lines_render eqp get_loc s ls) ss ls = map (fun l => fold_left (fun l s => line_render eqp get_loc s l) ss l) ls.
Proof.
  induction ss as [|s ss IH]; intros ls; cbn [fold_left]; [symmetry; apply map_id|]. rewrite IH. unfold lines_render. rewrite map_map. reflexivity.
Qed.
End LineProofs.
