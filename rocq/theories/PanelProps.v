(** * C135: the labels of the panel and the picture of a number grid *)
From Coq Require Import List Bool Arith NArith ZArith String Lia.
From Verif Require Import F32 SchedModel VisModel VisSpec VisProofs VisProps SchedExamples PanelModel PanelSpec.
Import ListNotations.
Local Open Scope N_scope.

Section Labels.
Context {A S I R H Q : Type}.
Variable u : user A S.
Variable u_reset : S -> S.
Variable quat : f32 -> Q.
Variable img : string -> H.
Variable v : vcode A S I R H Q.
Local Notation M := 18446744073709551616.
Lemma tick_stp ch (a : app A S I R H Q) : a_paused a = false -> s_step (a_sched (tick u img v ch a)) = u64_succ (s_step (a_sched a)).
Proof.
  intros P. unfold tick. rewrite P. pose proof (step_count u ch (a_sched a) (a_world a)) as E. destruct (step u ch _ _) as [sc w].
  destruct (v_before v _ _ _) as [[i s] c]. exact E.
Qed.
Lemma ticks_stp chs : forall (a : app A S I R H Q) n, a_paused a = false -> s_step (a_sched a) = n mod M ->
  s_step (a_sched (fold_left (fun a ch => tick u img v ch a) chs a)) = (n + N.of_nat (List.length chs)) mod M.
Proof.
  induction chs as [|ch chs IH]; intros a n P E; [cbn [fold_left List.length]; rewrite N.add_0_r; exact E|].
  cbn [fold_left]. rewrite (IH _ (n + 1)); [f_equal; cbn [List.length]; lia|rewrite tick_paused; exact P|].
  rewrite tick_stp, E by exact P. unfold u64_succ, u64_mod. rewrite N.add_mod_idemp_l by lia. reflexivity.
Qed.
Lemma init_stp w : s_step (fst (call_init u sched_new w)) = 0.
Proof.
  unfold call_init. pose proof (run_hprog_step (u_init u (w_st w)) (sched_new (A := A))) as E. destruct (run_hprog _ _) as [[sc s] log]. exact E.
Qed.
Lemma start_stp p0 order i sc w : leaves p0 v ->
  s_step (a_sched (start_graphics quat img v order true i sc w)) = s_step sc /\ a_paused (start_graphics quat img v order true i sc w) = p0.
Proof.
  intros L. unfold start_graphics. specialize (L i (w_st w) sc). pose proof (run_hprog_step (v_on_init v i true (w_st w)) sc) as E.
  destruct (run_hprog _ sc) as [[sc' [[s' p'] es]] log]. cbn in *. auto.
Qed.
Lemma panels_go p0 fs : leaves p0 v -> forall (a : app A S I R H Q) n, s_step (a_sched a) = n mod M ->
  map fst (panels u u_reset quat img v a fs) = map (fun k => "Step: " ++ show (k mod M))%string (counts p0 (a_paused a) n fs).
Proof.
  intros L. induction fs as [|f fs IH]; intros a n E; [reflexivity|]. cbn [panels counts map fst labels].
  set (b := fold_left _ _ _). set (now := if a_paused a then _ else _).
  assert (Eb : s_step (a_sched b) = now mod M).
  { unfold b, now. destruct (a_paused a) eqn:P; [rewrite ticks_stay by exact P; exact E|apply ticks_stp; assumption]. }
  assert (Pb : a_paused b = a_paused a) by apply ticks_paused.
  rewrite Eb. apply (f_equal (cons _)).
  assert (X : s_step (a_sched (do_frame u u_reset quat img v a f)) = (if c_stop (f_clicks f) then 0 else now) mod M /\
              a_paused (do_frame u u_reset quat img v a f) =
                (if c_pause (f_clicks f) then true else if c_stop (f_clicks f) then p0 else if c_start (f_clicks f) then false else a_paused a)).
  { unfold do_frame, ui. fold b. clearbody b.
    set (b2 := if c_start (f_clicks f) then _ else _).
    assert (Y : s_step (a_sched b2) = now mod M /\ a_paused b2 = (if c_start (f_clicks f) then false else a_paused a))
      by (unfold b2; destruct (c_start (f_clicks f)); auto).
    clearbody b2. set (b3 := if c_stop (f_clicks f) then _ else _).
    assert (Z : s_step (a_sched b3) = (if c_stop (f_clicks f) then 0 else now) mod M /\
                a_paused b3 = (if c_stop (f_clicks f) then p0 else if c_start (f_clicks f) then false else a_paused a)).
    { unfold b3. destruct (c_stop (f_clicks f)); [|exact Y]. unfold stop.
      pose proof (init_stp (World (u_reset (w_st (a_world b2))) (w_trace (a_world b2)))) as E0. destruct (call_init u sched_new _) as [sc w].
      destruct (start_stp p0 (f_order f) (a_vis b2) sc w L) as [E1 E2]. rewrite E1, E2. cbn [fst] in E0. rewrite E0. split; reflexivity. }
    clearbody b3. destruct (c_pause (f_clicks f)); [split; [exact (proj1 Z)|reflexivity]|exact Z]. }
  destruct X as [X1 X2]. rewrite <- X2. apply IH. exact X1.
Qed.
Lemma ticks_ents chs : no_commands v -> forall a : app A S I R H Q,
  List.length (a_ents (fold_left (fun a ch => tick u img v ch a) chs a)) = List.length (a_ents a).
Proof.
  intros NC. induction chs as [|ch chs IH]; intros a; [reflexivity|]. cbn [fold_left]. rewrite IH. unfold tick. destruct (a_paused a); [reflexivity|].
  destruct (step u ch _ _) as [sc w]. pose proof (NC (a_vis a) sc (w_st w)) as N. destruct (v_before v _ _ _) as [[i s] c]. cbn [snd] in N. cbn [a_ents].
  rewrite N. apply map_length.
Qed.
End Labels.

(** In every history of frames - any ticks, any clicks, any agents and hooks, and any
    graphics code as long as its [on_init] always leaves [paused] in the same way - the label
    of each frame shows the number of steps made since the start or the last click on Stop
    (modulo 2^64). *)
Theorem C135_step_label :
  forall {A S I R H Q} (u : user A S) u_reset quat img (v : vcode A S I R H Q) order i s p0 (fs : list (frame A)),
    leaves p0 v ->
    map fst (panels u u_reset quat img v (boot u quat img v order i s) fs) =
    map (fun k => "Step: " ++ show (k mod 2 ^ 64))%string (counts p0 p0 0 fs).
Proof.
  intros A S I R H Q u u_reset quat img v order i s p0 fs L.
  assert (X : s_step (a_sched (boot u quat img v order i s)) = 0 /\ a_paused (boot u quat img v order i s) = p0).
  { unfold boot. pose proof (init_stp u (World s [])) as E0. destruct (call_init u sched_new _) as [sc w].
    destruct (start_stp quat img v p0 order i sc w L) as [E1 E2]. rewrite E1. auto. }
  destruct X as [X1 X2]. rewrite <- X2 at 2. apply (panels_go u u_reset quat img v p0 fs L (boot u quat img v order i s) 0 X1).
Qed.
Print Assumptions C135_step_label.

(** Graphics code without commands: until Stop is clicked, the other label stays what it was
    after the start: the entities of [on_init] and the sprites of the agents scheduled then. *)
Theorem C135_entities_label :
  forall {A S I R H Q} (u : user A S) u_reset quat img (v : vcode A S I R H Q) (fs : list (frame A)) (a : app A S I R H Q) l,
    no_commands v -> no_stop fs -> In l (map snd (panels u u_reset quat img v a fs)) -> l = snd (labels a).
Proof.
  intros A S I R H Q u u_reset quat img v fs. induction fs as [|f fs IH]; intros a l NC NS IN; [destruct IN|].
  cbn [panels map In] in IN.
  assert (E : List.length (a_ents (do_frame u u_reset quat img v a f)) = List.length (a_ents a)).
  { unfold do_frame, ui. rewrite (NS f (or_introl eq_refl)). destruct (c_pause (f_clicks f)), (c_start (f_clicks f)); cbn [with_paused a_ents]; apply ticks_ents; exact NC. }
  destruct IN as [<-|IN].
  - unfold labels, snd. rewrite ticks_ents by exact NC. reflexivity.
  - rewrite (IH _ l NC (fun g G => NS g (or_intror G)) IN). unfold labels, snd. rewrite E. reflexivity.
Qed.
Print Assumptions C135_entities_label.

(** It is not the number of agents: the agent of [demo] is removed in the third step and
    its entity is still counted. *)
Theorem C135_agents_refuted :
  ~ (forall (fs : list (frame N)),
       let a := demo_frames fs in
       snd (labels a) = ("Number of entities: " ++ show (N.of_nat (List.length (s_events (a_sched a)))))%string).
Proof. intros H. specialize (H [fr 0 "start"; fr 3 ""]%string). vm_compute in H. discriminate. Qed.
Print Assumptions C135_agents_refuted.

Example C135_labels_concrete :
  leaves true demo_v /\ no_commands demo_v /\
  counts true true 0 [fr 3 "start"; fr 2 ""; fr 1 "pause"; fr 5 "start"; fr 4 "stop"; fr 2 "start"; fr 1 ""]%string = [0; 2; 3; 3; 7; 0; 1] /\
  map fst (panels demo (fun _ => 0) (fun x => x) (fun x => x) demo_v (demo_frames []) [fr 3 "start"; fr 12 ""; fr 1 "stop"; fr 2 ""]%string)
  = ["Step: 0"; "Step: 12"; "Step: 13"; "Step: 0"]%string /\
  snd (labels (demo_frames [])) <> "Number of entities: 0"%string.
Proof. split; [intros i s sc; reflexivity|]. split; [intros i sc s es; reflexivity|]. repeat split; vm_compute; try reflexivity. discriminate. Qed.

(** ** Pictures *)
Section Pictures.
Context {S P : Type}.
Variable texture_of : S -> P.
Local Notation shown := (@g_shown P).
Lemma visible_snoc es (e : gevent S P) : visible texture_of (es ++ [e]) = match e with GStart ps' => ps' | GDraw s => [texture_of s] | GMore p => visible texture_of es ++ [p] end.
Proof. unfold visible. rewrite fold_left_app. reflexivity. Qed.
Lemma renders_snoc es (e : gevent S P) : renders (es ++ [e]) = match e with GStart ps => List.length ps | GDraw _ => renders es | GMore _ => Datatypes.S (renders es) end.
Proof. unfold renders. rewrite fold_left_app. reflexivity. Qed.
Lemma g_run_app es : forall g (es' : list (gevent S P)), g_run texture_of g (es ++ es') = match g_run texture_of g es with None => None | Some g' => g_run texture_of g' es' end.
Proof. induction es as [|e es IH]; intros g es'; [reflexivity|]. cbn [List.app g_run]. destruct (g_event texture_of g e); [apply IH|reflexivity]. Qed.
Definition sound (g : gallery P) : Prop := Forall (fun h => (h < List.length (g_assets g))%nat) (g_pics g).
Lemma render_ok p g : sound g -> sound (g_render p g) /\ shown (g_render p g) = shown g ++ [Some p] /\ List.length (g_pics (g_render p g)) = Datatypes.S (List.length (g_pics g)).
Proof.
  intros SO. unfold sound, g_shown, g_render in *. cbn [g_assets g_pics]. rewrite map_app, !app_length. cbn [map List.length]. split; [|split].
  - apply Forall_app. split; [|constructor; [lia|constructor]]. eapply Forall_impl; [|exact SO]. cbn. intros h L. lia.
  - f_equal; [|rewrite nth_error_app2, Nat.sub_diag by lia; reflexivity].
    apply map_ext_in. intros h IN. rewrite Forall_forall in SO. apply nth_error_app1, SO, IN.
  - lia.
Qed.
Lemma start_ok ps : forall g, sound g -> let g' := fold_left (fun g p => g_render p g) ps g in
  sound g' /\ shown g' = shown g ++ map Some ps /\ List.length (g_pics g') = (List.length (g_pics g) + List.length ps)%nat.
Proof.
  induction ps as [|p ps IH]; intros g SO; cbn [fold_left map List.length]; [rewrite app_nil_r; repeat split; [exact SO|lia]|].
  destruct (render_ok p g SO) as [A1 [A2 A3]]. destruct (IH _ A1) as [B1 [B2 B3]]. cbn. rewrite B2, A2, B3, A3, <- app_assoc. repeat split; [exact B1|lia].
Qed.
Lemma run_ok es : forall g, g_run texture_of g_new es = Some g ->
  sound g /\ shown g = map Some (visible texture_of es) /\ List.length (g_pics g) = renders es.
Proof.
  induction es as [|e es IH] using rev_ind; intros g R; [injection R as <-; repeat split; constructor|].
  rewrite g_run_app in R. destruct (g_run texture_of g_new es) as [g1|]; [|discriminate]. destruct (IH g1 eq_refl) as [I1 [I2 I3]].
  rewrite visible_snoc, renders_snoc. cbn [g_run] in R. destruct e as [ps|s|p]; cbn [g_event] in R.
  - injection R as <-. destruct (start_ok ps (Gallery (g_assets g1) []) (Forall_nil _)) as [B1 [B2 B3]]. cbn in *. auto.
  - unfold g_draw in R. destruct (g_pics g1) as [|h [|h' hs]] eqn:E; try discriminate. injection R as <-.
    unfold sound, g_shown. cbn [g_assets g_pics map]. rewrite app_length. split; [constructor; [cbn; lia|constructor]|].
    rewrite nth_error_app2, Nat.sub_diag by lia. split; [reflexivity|]. rewrite <- I3. reflexivity.
  - injection R as <-. destruct (render_ok p g1 I1) as [B1 [B2 B3]]. rewrite B2, B3, I2, I3, map_app. auto.
Qed.
End Pictures.

(** As long as nothing panics, the screen shows the pictures rendered since the last start,
    or the last state drawn since. *)
Theorem C135_picture :
  forall {S P} (texture_of : S -> P) es g, g_run texture_of g_new es = Some g -> g_shown g = map Some (visible texture_of es).
Proof. intros S P t es g R. apply (run_ok t es g R). Qed.
Print Assumptions C135_picture.

(** Some history panics exactly if some draw comes when the number of pictures rendered
    since the last start is not one. *)
Theorem C135_panics :
  forall {S P} (texture_of : S -> P) es,
    g_run texture_of g_new es = None <-> exists es1 s es2, es = es1 ++ GDraw s :: es2 /\ renders es1 <> 1%nat.
Proof.
  intros S P t es. split.
  - induction es as [|e es IH] using rev_ind; intros R; [discriminate|]. rewrite g_run_app in R.
    destruct (g_run t g_new es) as [g1|] eqn:E.
    + destruct (run_ok t es g1 E) as [_ [_ L]]. cbn [g_run] in R. destruct e as [ps|s|p]; try discriminate. cbn [g_event] in R. unfold g_draw in R.
      exists es, s, []. split; [reflexivity|]. rewrite <- L. destruct (g_pics g1) as [|h [|h' hs]]; cbn; [discriminate|discriminate R|discriminate].
    + destruct (IH eq_refl) as [es1 [s [es2 [-> N]]]]. exists es1, s, (es2 ++ [e]). rewrite <- app_assoc. auto.
  - intros [es1 [s [es2 [-> N]]]]. rewrite g_run_app. destruct (g_run t g_new es1) as [g1|] eqn:E; [|reflexivity].
    destruct (run_ok t es1 g1 E) as [_ [_ L]]. cbn [g_run g_event]. unfold g_draw. destruct (g_pics g1) as [|h [|h' hs]]; try reflexivity.
    cbn in L. congruence.
Qed.
Print Assumptions C135_panics.

(** If the window starts with a picture, every start renders one and nothing else does, then
    nothing panics, and there is always exactly one picture; after a draw it is that state's. *)
Theorem C135_one_picture :
  forall {S P} (texture_of : S -> P) p es, once es ->
    exists g q, g_run texture_of g_new (GStart [p] :: es) = Some g /\ g_shown g = [Some q] /\
                (forall es' s, es = es' ++ [GDraw s] -> q = texture_of s).
Proof.
  intros S P t p es. induction es as [|e es IH] using rev_ind; intros O.
  - exists (Gallery [p] [0%nat]), p. split; [reflexivity|]. split; [reflexivity|]. intros es' s E. destruct es'; discriminate.
  - destruct IH as [g [q [R [SH _]]]]; [intros e' IN; apply O, in_or_app; auto|].
    pose proof (O e (in_or_app es [e] e (or_intror (or_introl eq_refl)))) as Oe.
    assert (G : exists g', g_event t g e = Some g').
    { destruct e as [ps|s|p']; [eexists; reflexivity| |destruct Oe]. cbn [g_event]. unfold g_draw. unfold g_shown in SH.
      destruct (g_pics g) as [|h [|h' hs]]; try discriminate. eexists; reflexivity. }
    destruct G as [g' G].
    assert (R' : g_run t g_new (GStart [p] :: es ++ [e]) = Some g').
    { change (GStart [p] :: es ++ [e]) with ((GStart [p] :: es) ++ [e]). rewrite g_run_app, R. cbn [g_run]. rewrite G. reflexivity. }
    pose proof (C135_picture t _ g' R') as SH'. change (GStart [p] :: es ++ [e]) with ((GStart [p] :: es) ++ [e]) in SH'. rewrite visible_snoc in SH'.
    destruct e as [ps|s|p']; [|exists g', (t s); split; [exact R'|split; [exact SH'|]]|destruct Oe].
    + destruct ps as [|q' [|? ?]]; try discriminate Oe. exists g', q'. split; [exact R'|split; [exact SH'|]].
      intros es' s E. apply app_inj_tail in E. destruct E as [_ E]. discriminate.
    + intros es' s' E. apply app_inj_tail in E. destruct E as [_ E]. injection E as ->. reflexivity.
Qed.
Print Assumptions C135_one_picture.

(** A grid rendered once before the window starts its work, but not in [on_init]: a click on
    Stop removes its picture, and the next draw panics. *)
Theorem C135_stop_refuted :
  ~ (forall (es : list (gevent N N)), renders es = 1%nat -> g_run (fun s => s) g_new (es ++ [GStart []; GDraw 7]) <> None).
Proof. intros H. apply (H [GMore 1; GDraw 3]); reflexivity. Qed.
Print Assumptions C135_stop_refuted.

Example C135_pictures_concrete :
  once [GDraw 4; GStart [9]; GDraw 5] /\
  option_map g_shown (g_run (fun s => s + 100) g_new [GStart [1]; GDraw 4; GStart [9]; GDraw 5]) = Some [Some 105] /\
  g_run (fun s => s + 100) g_new [GStart [1]; GDraw 4; GStart [9; 8]; GDraw 5] = None.
Proof. split; [|split; reflexivity]. intros e [<-|[<-|[<-|[]]]]; exact Logic.I || reflexivity. Qed.
