(** * Property theorems: the visualisation (C104-C110) *)
From Coq Require Import List Bool Arith NArith ZArith String Permutation Lia.
From Verif Require Import F32 SchedModel SchedSpec SchedExamples SimModel DashModel DashSpec DashProofs DashView VisModel VisSpec VisProofs.
Import ListNotations.
Local Open Scope N_scope.

(** ** C104: the window runs the simulation *)
(** Whatever the frames, and whatever is clicked except Stop: the schedule and the state
    are those after one step for each tick made while not paused. *)
Theorem C104_steps :
  forall A S I R H Q (u : user A S) u_reset (quat : f32 -> Q) (img : string -> H) (v : vcode A S I R H Q) p0 order i s fs,
    quiet p0 v -> no_stop fs ->
    let a := frames u u_reset quat img v (boot u quat img v order i s) fs in
    (a_sched a, a_world a) = steps u (ticks_run p0 fs) (call_init u sched_new (World s [])) /\ a_paused a = paused_after p0 fs.
Proof.
  intros A S I R H Q u u_reset quat img v p0 order i s fs QU N a. destruct (boot_sim u quat img v p0 QU order i s) as [B1 B2].
  destruct (frames_sim u u_reset quat img v p0 QU fs (boot u quat img v order i s) N) as [F1 F2]. rewrite B2 in F1, F2. unfold sim in F1, B1. fold a in F1, F2.
  split; [|exact F2]. rewrite F1, B1. reflexivity.
Qed.
Print Assumptions C104_steps.
(** If [end_condition] always says no, this is what [simulate!] does with that many steps. *)
Theorem C104_simulate_partial :
  forall A S I R H Q (u : user A S) u_reset (quat : f32 -> Q) (img : string -> H) (v : vcode A S I R H Q) p0 order i s fs,
    quiet p0 v -> no_stop fs -> (forall s, u_end u s = HRet (false, s)) ->
    let a := frames u u_reset quat img v (boot u quat img v order i s) fs in
    let chs := ticks_run p0 fs in
    let r := sim_rep u (fun k => nth k chs (fun _ => 0%nat)) (List.length chs) (World s []) in
    a_sched a = fst r /\ w_st (a_world a) = w_st (snd r) /\
    w_trace (a_world a) = filter (fun c => match c with CEnd _ => false | _ => true end) (w_trace (snd r)).
Proof.
  intros A S I R H Q u u_reset quat img v p0 order i s fs QU N E a chs r.
  destruct (C104_steps A S I R H Q u u_reset quat img v p0 order i s fs QU N) as [F _]. fold a in F. fold chs in F.
  unfold r, sim_rep. pose proof (free_init u sched_new (World s []) eq_refl) as FI. destruct (call_init u sched_new (World s [])) as [sc w]. cbn [snd] in FI.
  assert (M : map (fun k => nth k chs (fun _ => 0%nat)) (seq 0 (List.length chs)) = chs).
  { clear. induction chs as [|c chs IH]; [reflexivity|]. cbn [List.length seq map nth]. f_equal. rewrite <- seq_shift, map_map. exact IH. }
  destruct (loop_steps u (fun k => nth k chs (fun _ => 0%nat)) E (List.length chs) 0 sc w (w_trace w) FI) as (L1 & L2 & L3). rewrite M in L1, L2, L3.
  assert (W : World (w_st w) (w_trace w) = w) by (destruct w; reflexivity). rewrite W, <- F in L1, L2, L3. cbn [fst snd] in L1, L2, L3. split; [symmetry; exact L1|]. split; [symmetry; exact L2|]. rewrite <- L3. unfold without_end. apply filter_ext. intros c. destruct c; reflexivity.
Qed.
Print Assumptions C104_simulate_partial.
(** But [end_condition] is never asked, so a simulation that should end goes on. *)
Theorem C104_end_refuted :
  forall A S I R H Q (u : user A S) u_reset (quat : f32 -> Q) (img : string -> H) (v : vcode A S I R H Q) order i s fs b,
    ~ In (CEnd b) (w_trace (a_world (frames u u_reset quat img v (boot u quat img v order i s) fs))).
Proof.
  intros A S I R H Q u u_reset quat img v order i s fs b IN.
  pose proof (frames_free u u_reset quat img v fs _ (boot_free u quat img v order i s)) as F. unfold free, without_end in F. rewrite <- F in IN.
  apply filter_In in IN. destruct IN as [_ E]. discriminate.
Qed.
Print Assumptions C104_end_refuted.
(** Graphics for [demo] (SchedExamples): a sprite for the agents below 7, at 10 times the
    number of steps made. *)
Definition demo_v : vcode N N unit N string f32 :=
  VCode (fun _ p s => HRet (s, p, []))
        (fun _ a _ => if a <? 7 then Some a else None)
        (fun _ r s => if s <? 6 then Some r else None)
        (fun i _ s => (i, s, fun es => es))
        (fun _ _ s => if s <? 3 then "crab"%string else "fish"%string)
        (fun _ _ s => (f_of_Z (10 * Z.of_N s), f2, f0)) (fun _ _ _ => (f1, f1)) (fun _ _ _ => f0)
        (fun r _ s t vis => (r, Transform (f_of_Z (10 * Z.of_N s)) f2 (t_z t) (t_sx t) (t_sy t) (t_rot t), vis)).
Definition click_of (b : string) : clicks := Clicks (String.eqb b "start") (String.eqb b "stop") (String.eqb b "pause").
Definition fr (n : nat) (b : string) : frame N := Frame (repeat ch0 n) (click_of b) (fun l => l).
Definition demo_frames (fs : list (frame N)) := frames demo (fun _ => 0) (fun x => x) (fun x => x) demo_v (boot demo (fun x => x) (fun x => x) demo_v (fun l => l) tt 0) fs.
(** The same, playing at once. *)
Definition auto_v : vcode N N unit N string f32 :=
  VCode (fun _ _ s => HRet (s, false, [])) (v_render demo_v) (v_agent demo_v) (v_before demo_v) (r_sprite demo_v) (r_location demo_v) (r_scale demo_v) (r_rotation demo_v) (r_update demo_v).
Example C104_auto : quiet false auto_v /\ s_step (a_sched (frames demo (fun _ => 0) (fun x => x) (fun x => x) auto_v (boot demo (fun x => x) (fun x => x) auto_v (fun l => l) tt 0) [fr 2 ""])) = 2.
Proof. split; [split; [intros; exists []; reflexivity|reflexivity]|vm_compute; reflexivity]. Qed.
Example C104_concrete :
  quiet true demo_v /\ no_stop [fr 2 "start"; fr 2 ""; fr 0 "pause"; fr 9 "start"; fr 1 ""] /\
  List.length (ticks_run true [fr 2 "start"; fr 2 ""; fr 0 "pause"; fr 9 "start"; fr 1 ""]) = 3%nat /\
  (let a := demo_frames [fr 2 "start"; fr 2 ""; fr 0 "pause"; fr 9 "start"; fr 1 ""] in s_step (a_sched a) = 3 /\ w_st (a_world a) = 10 /\ a_paused a = false) /\
  (* simulate! makes 4 of 6 steps, the window all of them *)
  fst (simulate demo (fun _ _ => ch0) 6 1 0) = [4] /\ s_step (a_sched (demo_frames [fr 0 "start"; fr 6 ""])) = 6.
Proof.
  split; [split; [intros; exists []; reflexivity|reflexivity]|]. split; [intros f [<-|[<-|[<-|[<-|[<-|[]]]]]]; reflexivity|].
  split; [reflexivity|]. split; [vm_compute; auto|]. split; vm_compute; reflexivity.
Qed.

(** ** C105: Stop restarts the simulation *)
(** Stop, after any history: the state is reset and initialised with an empty schedule,
    the simulation is paused, unless [on_init] decides otherwise, and from then on runs as
    from the beginning. *)
Theorem C105_restart :
  forall A S I R H Q (u : user A S) u_reset (quat : f32 -> Q) (img : string -> H) (v : vcode A S I R H Q) p0 order i s fs f fs',
    quiet p0 v -> c_stop (f_clicks f) = true -> no_stop fs' ->
    let run := frames u u_reset quat img v (boot u quat img v order i s) in
    (* the frame's own ticks come first *)
    let at_stop := a_world (run (fs ++ [Frame (f_ticks f) (Clicks false false false) (f_order f)])) in
    let a := run (fs ++ f :: fs') in
    let p1 := if c_pause (f_clicks f) then true else p0 in
    (a_sched a, a_world a) = steps u (ticks_run p1 fs') (call_init u sched_new (World (u_reset (w_st at_stop)) (w_trace at_stop))) /\
    a_paused a = paused_after p1 fs'.
Proof.
  intros A S I R H Q u u_reset quat img v p0 order i s fs f fs' QU ST N run at_stop a p1.
  unfold a, at_stop, run, frames. rewrite !fold_left_app. cbn [fold_left]. set (b := fold_left _ fs _). unfold do_frame, ui. cbn [f_clicks f_ticks f_order c_start c_stop c_pause]. rewrite ST.
  set (c := fold_left (fun a ch => tick u img v ch a) (f_ticks f) b).
  set (d := stop u u_reset quat img v (f_order f) (if c_start (f_clicks f) then with_paused false c else c)).
  assert (D : (a_sched d, a_world d) = call_init u sched_new (World (u_reset (w_st (a_world c))) (w_trace (a_world c))) /\ a_paused d = p0).
  { unfold d, stop. replace (a_world (if c_start (f_clicks f) then with_paused false c else c)) with (a_world c) by (destruct (c_start (f_clicks f)); reflexivity).
    destruct (call_init u sched_new _) as [sc w]. apply (start_sim quat img v p0 QU). }
  destruct D as [D1 D2]. set (d' := if c_pause (f_clicks f) then with_paused true d else d).
  assert (D' : (a_sched d', a_world d') = (a_sched d, a_world d) /\ a_paused d' = p1) by (unfold d', p1; destruct (c_pause (f_clicks f)); cbn; auto).
  destruct D' as [D3 D4]. destruct (frames_sim u u_reset quat img v p0 QU fs' d' N) as [F1 F2]. unfold frames, do_frame, ui in F1, F2. rewrite D4 in F1, F2. unfold sim in F1. rewrite D3, D1 in F1. split; [exact F1|exact F2].
Qed.
Print Assumptions C105_restart.
(** If [reset] brings the initial state back, the second run is the first one again. *)
Theorem C105_again :
  forall A S I R H Q (u : user A S) u_reset (quat : f32 -> Q) (img : string -> H) (v : vcode A S I R H Q) p0 order i s fs f fs',
    quiet p0 v -> c_stop (f_clicks f) = true -> no_stop fs' -> (forall x, u_reset x = s) -> (c_pause (f_clicks f) = true -> p0 = true) ->
    let run := frames u u_reset quat img v (boot u quat img v order i s) in
    let a := run (fs ++ f :: fs') in let fresh := run fs' in
    a_sched a = a_sched fresh /\ w_st (a_world a) = w_st (a_world fresh) /\ a_paused a = a_paused fresh /\
    exists t, w_trace (a_world a) = t ++ w_trace (a_world fresh).
Proof.
  intros A S I R H Q u u_reset quat img v p0 order i s fs f fs' QU ST N RS NP run a fresh.
  destruct (C105_restart A S I R H Q u u_reset quat img v p0 order i s fs f fs' QU ST N) as [E1 E2].
  destruct (C104_steps A S I R H Q u u_reset quat img v p0 order i s fs' QU N) as [F1 F2]. fold run in E1, E2, F1, F2. fold a in E1, E2. fold fresh in F1, F2. cbv zeta in E1, E2.
  replace (if c_pause (f_clicks f) then true else p0) with p0 in E1, E2 by (destruct (c_pause (f_clicks f)) eqn:CP; [rewrite (NP eq_refl)|]; reflexivity).
  rewrite RS in E1. set (t := w_trace _) in E1.
  assert (AF : World s t = after t (World s [])) by (unfold after; cbn; rewrite app_nil_r; reflexivity). rewrite AF, after_init in E1.
  assert (G : forall chs c, steps u chs (after2 t c) = after2 t (steps u chs c)).
  { induction chs as [|ch chs IH]; intros c; [reflexivity|]. unfold steps in *. cbn [fold_left]. rewrite <- IH. f_equal. unfold after2 at 1. cbn [fst snd]. apply after_step. }
  rewrite G, <- F1 in E1. unfold after2, after in E1. cbn [fst snd] in E1. injection E1 as S1 W1. rewrite S1, W1. cbn. split; [reflexivity|]. split; [reflexivity|]. split; [congruence|]. exists t. reflexivity.
Qed.
Print Assumptions C105_again.
(** The graphics code itself is not restarted: what [before_render] has stored stays.  This
    one gives sprites only as long as it has not rendered. *)
Definition once_v : vcode N N N N string f32 :=
  VCode (fun _ p s => HRet (s, p, [])) (fun i a _ => if i =? 0 then Some a else None) (fun _ r _ => Some r)
        (fun i _ s => (i + 1, s, fun es => es)) (fun _ _ _ => "crab"%string) (fun _ _ _ => (f0, f0, f0)) (fun _ _ _ => (f1, f1)) (fun _ _ _ => f0) (fun r _ _ t vis => (r, t, vis)).
Theorem C105_graphics_refuted :
  let run := frames demo (fun _ => 0) (fun x => x) (fun x => x) once_v (boot demo (fun x => x) (fun x => x) once_v (fun l => l) 0 0) in
  quiet true once_v /\ List.length (a_ents (run [])) = 1%nat /\ a_ents (run [fr 0 "start"; fr 1 "stop"]) = [].
Proof. split; [split; [intros; exists []; reflexivity|reflexivity]|]. split; vm_compute; reflexivity. Qed.
Print Assumptions C105_graphics_refuted.
Example C105_concrete :
  c_stop (f_clicks (fr 3 "stop")) = true /\
  (let a := demo_frames ([fr 0 "start"] ++ fr 3 "stop" :: [fr 5 "start"; fr 2 ""]) in s_step (a_sched a) = 2 /\ w_st (a_world a) = w_st (a_world (demo_frames [fr 5 "start"; fr 2 ""])) /\ List.length (w_trace (a_world a)) = 51%nat).
Proof. split; [reflexivity|]. vm_compute. auto. Qed.

(** ** C106: sprites follow the agents *)
(** At the start and after Stop there is one sprite for every scheduled agent that has a
    render, and it shows that agent. *)
Theorem C106_start :
  forall A S I R H Q (quat : f32 -> Q) (img : string -> H) (v : vcode A S I R H Q) order p i sc w,
    reorders order ->
    let a := start_graphics quat img v order p i sc w in
    let s := w_st (a_world a) in
    exists spawned es shown, a_ents a = spawned ++ es /\
      Permutation (map fst shown) (filter (fun x => match v_render v i x s with Some _ => true | None => false end) (get_all_events (a_sched a))) /\
      Forall2 (fun xr e => v_render v i (fst xr) s = Some (snd xr) /\ shows quat img v s (fst xr) (snd xr) e) shown es.
Proof.
  intros A S I R H Q quat img v order p i sc w RE a s. subst s a. unfold start_graphics. destruct (run_hprog _ sc) as [[sc' [[s' p'] sp]] log]. cbn [a_ents a_world a_sched w_st].
  exists sp, (setup_graphics quat img v order i sc' s').
  assert (G : forall q : list (event A), exists shown, map fst shown = filter (fun x => match v_render v i x s' with Some _ => true | None => false end) (map (fun e => ai_agent (fst e)) q) /\
    Forall2 (fun xr e => v_render v i (fst xr) s' = Some (snd xr) /\ shows quat img v s' (fst xr) (snd xr) e) shown
      (flat_map (fun e => match v_render v i (ai_agent (fst e)) s' with Some r => [setup_agent quat img v r (ai_agent (fst e)) s'] | None => [] end) q)).
  { induction q as [|e q (sh & E & F)]; [exists []; split; [reflexivity|constructor]|]. cbn [map filter flat_map]. destruct (v_render v i (ai_agent (fst e)) s') as [r|] eqn:V.
    - exists ((ai_agent (fst e), r) :: sh). cbn [map fst]. rewrite E. split; [reflexivity|]. constructor; [|exact F]. split; [exact V|apply setup_shows].
    - exists sh. split; [exact E|exact F]. }
  destruct (G (order (s_events sc'))) as (shown & E & F). exists shown. split; [reflexivity|]. split; [|exact F].
  rewrite E. unfold get_all_events. clear - RE. generalize (Permutation_map (fun e => ai_agent (fst e)) (RE (s_events sc'))). intros P.
  induction P as [|x l l' P IH|x y l|l1 l2 l3 P1 IH1 P2 IH2]; cbn [filter]; [constructor| | |exact (Permutation_trans IH1 IH2)].
  - destruct (v_render v i x s'); [constructor|]; exact IH.
  - destruct (v_render v i x s'), (v_render v i y s'); try apply Permutation_refl. apply perm_swap.
Qed.
Print Assumptions C106_start.
(** Every tick redraws every sprite from the new state: where [update] puts it, half a unit
    higher, and hides those whose agent is gone. *)
Theorem C106_tick :
  forall A S I R H Q (u : user A S) (img : string -> H) (v : vcode A S I R H Q) ch a,
    no_commands v -> a_paused a = false -> s_step (a_sched a) + 1 < 18446744073709551616 ->
    let a' := tick u img v ch a in
    Forall2 (redrawn img v (a_vis a') (w_st (a_world a'))) (a_ents a) (a_ents a').
Proof.
  intros A S I R H Q u img v ch a NC P L a'. unfold a', tick. rewrite P. pose proof (step_count_nz u ch (a_sched a) (a_world a) L) as NZ.
  destruct (step u ch (a_sched a) (a_world a)) as [sc w]. cbn [fst] in NZ. pose proof (NC (a_vis a) sc (w_st w)) as C. destruct (v_before v _ _ _) as [[i s] c]. cbn [snd] in C. cbn [a_vis a_world a_ents w_st].
  rewrite C. generalize (a_ents a). intros es. induction es as [|e es IH]; [constructor|]. cbn [map]. constructor; [apply render_redrawn; exact NZ|exact IH].
Qed.
Print Assumptions C106_tick.
(** While paused nothing changes on the screen. *)
Theorem C106_paused :
  forall A S I R H Q (u : user A S) (img : string -> H) (v : vcode A S I R H Q) chs a,
    a_paused a = true -> fold_left (fun a ch => tick u img v ch a) chs a = a.
Proof. intros. apply ticks_stay. assumption. Qed.
Print Assumptions C106_paused.
(** Agents scheduled later get no sprite: as long as nobody clicks Stop, the number of
    entities stays the same. *)
Theorem C106_new_agents_refuted :
  (forall A S I R H Q (u : user A S) u_reset (quat : f32 -> Q) (img : string -> H) (v : vcode A S I R H Q) fs a,
     no_commands v -> no_stop fs -> List.length (a_ents (frames u u_reset quat img v a fs)) = List.length (a_ents a)) /\
  (exists u : user N N, let a := frames u (fun x => x) (fun x => x) (fun x => x) once_v (boot u (fun x => x) (fun x => x) once_v (fun l => l) 0 0) [fr 0 "start"; fr 1 ""] in
     List.length (get_all_events (a_sched a)) = 2%nat /\ List.length (a_ents a) = 1%nat).
Proof.
  split.
  - intros A S I R H Q u u_reset quat img v fs a NC N. revert a. induction fs as [|f fs IH]; intros a; [reflexivity|]. unfold frames. cbn [fold_left]. unfold frames in IH.
    rewrite IH by (intros g G; apply N; right; exact G). unfold do_frame, ui. rewrite (N f (or_introl eq_refl)).
    assert (T : forall chs a, List.length (a_ents (fold_left (fun a ch => tick u img v ch a) chs a)) = List.length (a_ents a)).
    { induction chs as [|ch chs IH']; intros b; [reflexivity|]. cbn [fold_left]. rewrite IH'. unfold tick. destruct (a_paused b); [reflexivity|].
      destruct (step u ch _ _) as [sc w]. pose proof (NC (a_vis b) sc (w_st w)) as C. destruct (v_before v _ _ _) as [[i s] c]. cbn in *. rewrite C. apply map_length. }
    destruct (c_pause (f_clicks f)), (c_start (f_clicks f)); cbn; apply T.
  - exists (User (fun s => HCall (OpRepeating 0 f0 0) (fun _ => HRet s)) (fun _ s => s)
      (fun s => if s =? 0 then HCall (OpRepeating 1 f1 0) (fun _ => HRet 1) else HRet s)
      (fun s => HRet s) (fun s => HRet (false, s)) (fun a s => (a, s)) (fun a s => (a, s)) (fun a s => (a, s)) (fun a s => (false, (a, s)))).
    split; vm_compute; reflexivity.
Qed.
Print Assumptions C106_new_agents_refuted.
(** [update] cannot hide a sprite: it is made visible afterwards. *)
Theorem C106_hide_refuted :
  let v := VCode (fun (_ : unit) p (s : N) => HRet (s, p, [])) (fun _ (a : N) _ => Some a) (fun _ (r : N) _ => Some r) (fun i _ s => (i, s, fun es => es))
      (fun _ _ _ => "crab"%string) (fun _ _ _ => (f0, f0, f0)) (fun _ _ _ => (f1, f1)) (fun _ _ _ => f0) (fun r _ _ t vis => (r, t, false)) : vcode N N unit N string f32 in
  map (fun e => e_vis e) (a_ents (frames demo (fun x => x) (fun x => x) (fun x => x) v (boot demo (fun x => x) (fun x => x) v (fun l => l) tt 0) [fr 0 "start"; fr 1 ""])) = [true].
Proof. vm_compute. reflexivity. Qed.
Print Assumptions C106_hide_refuted.
(** An [update] that leaves the position alone: the sprite of an agent that does not move
    climbs by one half in every tick. *)
Theorem C106_drift_refuted :
  let v := VCode (fun (_ : unit) p (s : N) => HRet (s, p, [])) (fun _ (a : N) _ => Some a) (fun _ (r : N) _ => Some r) (fun i _ s => (i, s, fun es => es))
      (fun _ _ _ => "crab"%string) (fun _ _ _ => (f1, f1, f0)) (fun _ _ _ => (f1, f1)) (fun _ _ _ => f0) (fun r _ _ t vis => (r, t, vis)) : vcode N N unit N string f32 in
  map (fun e => t_y (e_tr e)) (a_ents (frames demo (fun x => x) (fun x => x) (fun x => x) v (boot demo (fun x => x) (fun x => x) v (fun l => l) tt 0) [fr 0 "start"; fr 5 ""])) = [f_of_Z 4].
Proof. vm_compute. reflexivity. Qed.
Print Assumptions C106_drift_refuted.
Example C106_concrete :
  no_commands demo_v /\ reorders (fun l : list (event N) => l) /\
  (let a0 := demo_frames [] in let a1 := demo_frames [fr 0 "start"; fr 1 ""] in let a2 := demo_frames [fr 0 "start"; fr 2 ""] in
   map (fun e => (t_x (e_tr e), e_vis e, e_img e)) (a_ents a0) = [(f0, true, "crab"%string)] /\
   map (fun e => (t_x (e_tr e), e_vis e, e_img e)) (a_ents a1) = [(f_of_Z 30, true, "fish"%string)] /\
   map (fun e => (t_x (e_tr e), e_vis e, e_img e)) (a_ents a2) = [(f_of_Z 30, false, "fish"%string)]).
Proof. split; [intros i sc s es; reflexivity|]. split; [intros l; apply Permutation_refl|]. vm_compute. auto. Qed.

(** ** C107: sprites of object grids *)
(** At the start: one sprite for every object of the grid (of the sparse grid, if both are
    given), half a unit below its location. *)
Theorem C107_start :
  forall S O H Q (quat : f32 -> Q) (img : string -> H) eqo hash (fs fd : S -> option (dmap O (Z * Z))) emoji loc rot scale it s d n gs,
    lawful eqo hash -> wf eqo hash n d -> iteration it ->
    (fs s = Some d \/ (fs s = None /\ fd s = Some d)) ->
    grid_init quat img fs fd emoji loc rot scale it s = Some gs ->
    (exists l, lists eqo l (rv eqo hash d) /\ map g_obj gs = map fst l) /\
    (forall g, In g gs -> exists x y, loc s (g_obj g) = Some (x, y) /\
       g_img g = img (emoji s (g_obj g)) /\
       g_tr g = Transform (f_of_Z x) (fsub (f_of_Z y) f_half) f0 (fst (scale (g_obj g))) (snd (scale (g_obj g))) (quat (rot s (g_obj g)))).
Proof.
  intros S O H Q quat img eqo hash fs fd emoji loc rot scale it s d n gs L W IT D G.
  assert (G' : grid_sprites quat img emoji loc rot scale s (keys it d) = Some gs).
  { unfold grid_init in G. destruct D as [E1|[E1 E2]]; [rewrite E1 in G; exact G|]. rewrite E1, E2 in G. exact G. }
  clear G D. destruct (v_keys eqo hash L n d it W IT) as (l & LI & K).
  assert (X : forall os gs, grid_sprites quat img emoji loc rot scale s os = Some gs -> map g_obj gs = os /\ forall g, In g gs -> grid_sprite quat img emoji loc rot scale s (g_obj g) = Some g).
  { clear. induction os as [|o os IH]; intros gs E; cbn [grid_sprites] in E; [injection E as <-; split; [reflexivity|intros g []]|].
    destruct (grid_sprite _ _ _ _ _ _ s o) as [g0|] eqn:E0; [|discriminate]. destruct (grid_sprites _ _ _ _ _ _ s os) as [gs0|]; [|discriminate]. injection E as <-.
    destruct (IH gs0 eq_refl) as [I1 I2]. assert (OO : g_obj g0 = o) by (unfold grid_sprite in E0; destruct (loc s o) as [[x y]|]; [injection E0 as <-; reflexivity|discriminate]).
    cbn [map]. rewrite OO, I1. split; [reflexivity|]. intros g [<-|I]; [rewrite OO; exact E0|apply I2; exact I]. }
  destruct (X _ _ G') as [X1 X2]. split; [exists l; split; [exact LI|congruence]|]. intros g IN. specialize (X2 g IN). unfold grid_sprite in X2.
  destruct (loc s (g_obj g)) as [[x y]|]; [|discriminate]. exists x, y. split; [reflexivity|]. injection X2 as X2. rewrite <- X2 at 1 3. cbn. split; reflexivity.
Qed.
Print Assumptions C107_start.
(** Each frame: sprites of objects with a location go there, half a unit above it; the
    others, of objects that have left, stay as they are. *)
Theorem C107_frame :
  forall (S O H Q : Type) (quat : f32 -> Q) (img : string -> H) (emoji : S -> O -> string) loc (rot : S -> O -> f32) s (gs : list (gsprite O H Q)),
    Forall2 (fun g g' => g_obj g' = g_obj g /\
      match loc s (g_obj g) with
      | Some (x, y) => g_img g' = img (emoji s (g_obj g)) /\
          (t_x (g_tr g'), t_y (g_tr g')) = (f_of_Z x, fadd (f_of_Z y) f_half) /\ t_rot (g_tr g') = quat (rot s (g_obj g)) /\
          (t_z (g_tr g'), t_sx (g_tr g'), t_sy (g_tr g')) = (t_z (g_tr g), t_sx (g_tr g), t_sy (g_tr g))
      | None => g' = g
      end) gs (grid_render quat img emoji loc rot s gs).
Proof.
  intros S O H Q quat img emoji loc rot s gs. unfold grid_render. induction gs as [|g gs IH]; [constructor|]. cbn [map]. constructor; [|exact IH].
  unfold grid_render1. destruct (loc s (g_obj g)) as [[x y]|]; cbn; repeat split.
Qed.
Print Assumptions C107_frame.
(** So a sprite of an object that never moves is drawn at two places: at (3, 1.5) and, from
    the first frame on, at (3, 2.5); an object that has left is still drawn, and one that
    is new is not. *)
Definition demo_d : dmap N (Z * Z) :=
  match insert N.eqb (fun k => k) 1 (3, 2)%Z (dash_new 1) with
  | Some (d, _) => match insert N.eqb (fun k => k) 2 (7, 7)%Z d with
                   | Some (d', _) => match lazy_update (N.to_nat (shard_amount 1)) d' with Some d'' => d'' | None => d' end
                   | None => d end
  | None => dash_new 1 end.
Definition demo_loc (s : N) (o : N) : option (Z * Z) :=
  if s =? 0 then (if o =? 1 then Some (3, 2)%Z else if o =? 2 then Some (7, 7)%Z else None)
  else (if o =? 1 then Some (3, 2)%Z else if o =? 3 then Some (5, 5)%Z else None).
Theorem C107_place_refuted :
  exists gs, grid_init (fun x : f32 => x) (fun c => c) (fun _ => Some demo_d) (fun _ => None) (fun _ _ => "crab"%string) demo_loc (fun _ _ => f0) (fun _ => (f1, f1)) (fun l => l) 0 = Some gs /\
    map (fun g => (g_obj g, t_x (g_tr g), t_y (g_tr g))) gs = [(1, f_of_Z 3, fsub f2 f_half); (2, f_of_Z 7, fsub (f_of_Z 7) f_half)] /\
    map (fun g => (g_obj g, t_x (g_tr g), t_y (g_tr g))) (grid_render (fun x : f32 => x) (fun c => c) (fun _ _ => "crab"%string) demo_loc (fun _ _ => f0) 1 gs) =
      [(1, f_of_Z 3, fadd f2 f_half); (2, f_of_Z 7, fsub (f_of_Z 7) f_half)].
Proof. eexists. split; [vm_compute; reflexivity|]. split; vm_compute; reflexivity. Qed.
Print Assumptions C107_place_refuted.
Example C107_concrete : wf N.eqb (fun k => k) (N.to_nat (shard_amount 1)) demo_d /\ iteration (fun l : list (N * (Z * Z)) => l).
Proof.
  split; [|intros l; apply Permutation_refl].
  assert (L : lawful N.eqb (fun k : N => k)) by (split; [apply N.eqb_refl|intros a b; rewrite N.eqb_sym; auto|intros a b c; rewrite !N.eqb_eq; congruence|intros a b; rewrite N.eqb_eq; auto]).
  destruct (v_new (K := N) (V := Z * Z) N.eqb (fun k => k) 1 ltac:(lia) ltac:(vm_compute; discriminate)) as [W _].
  destruct (v_insert N.eqb (fun k => k) L _ _ 1 (3, 2)%Z W) as (d1 & E1 & W1 & _). destruct (v_insert N.eqb (fun k => k) L _ _ 2 (7, 7)%Z W1) as (d2 & E2 & W2 & _).
  destruct (v_lazy N.eqb (fun k => k) _ _ W2) as (d3 & E3 & W3 & _). unfold demo_d. rewrite E1, E2, E3. exact W3.
Qed.

(** ** C108: lines of networks *)
(** An edge that is not static, after any sequence of frames: its line joins the locations
    of the last frame in which these were not the first ones; it stays where it was drawn
    first if there is no such frame. *)
Fixpoint last_moved {S P} (eqp : P -> P -> bool) (get_loc : S -> N -> P) (i j : N) (src dst : P) (ss : list S) (now : P * P) : P * P :=
  match ss with
  | [] => now
  | s :: ss' => last_moved eqp get_loc i j src dst ss' (if eqp (get_loc s i) src && eqp (get_loc s j) dst then now else (get_loc s i, get_loc s j))
  end.
Theorem C108_lines :
  forall S E P eqp (ends : E -> N * N) edge_lists (edge_info : S -> E -> (P * P) * bool) (get_loc : S -> N -> P) s0 ss,
    Forall2 (fun e l => let '((src, dst), is_static) := edge_info s0 e in let '(i, j) := ends e in
       l_path l = if is_static then (src, dst) else last_moved eqp get_loc i j src dst ss (src, dst))
      (List.concat (edge_lists s0)) (fold_left (fun ls s => lines_render eqp get_loc s ls) ss (lines_init ends edge_lists edge_info s0)).
Proof.
  intros S E P eqp ends edge_lists edge_info get_loc s0 ss. rewrite lines_fold. unfold lines_init. rewrite flat_map_concat_map, <- (map_map (fun x => x) (fun es => map _ es)), map_id, <- concat_map, map_map.
  generalize (List.concat (edge_lists s0)) as es. induction es as [|e es IH]; [constructor|]. cbn [map]. constructor; [|exact IH].
  destruct (edge_info s0 e) as [[src dst] st]. destruct (ends e) as [i j]. destruct st.
  - clear. assert (G : forall l : line P, l_edge l = None -> l_path (fold_left (fun l s => line_render eqp get_loc s l) ss l) = l_path l); [|apply G; reflexivity].
    induction ss as [|s ss IH]; intros l E0; [reflexivity|]. cbn [fold_left]. unfold line_render at 2. rewrite E0. apply IH. exact E0.
  - clear. assert (G : forall l : line P, l_edge l = Some ((i, j), (src, dst)) -> l_path (fold_left (fun l s => line_render eqp get_loc s l) ss l) = last_moved eqp get_loc i j src dst ss (l_path l)); [|apply G; reflexivity].
    induction ss as [|s ss IH]; intros l E0; [reflexivity|]. cbn [fold_left last_moved]. rewrite IH.
    + f_equal. unfold line_render. rewrite E0. destruct (eqp (get_loc s i) src), (eqp (get_loc s j) dst); reflexivity.
    + unfold line_render. rewrite E0. destruct (negb _ || negb _); [reflexivity|exact E0].
Qed.
Print Assumptions C108_lines.
(** In particular a line is right after a frame in which one end is not where it started. *)
Theorem C108_moved_partial :
  forall S P eqp (get_loc : S -> N -> P) i j src dst ss s now,
    eqp (get_loc s i) src && eqp (get_loc s j) dst = false -> last_moved eqp get_loc i j src dst (ss ++ [s]) now = (get_loc s i, get_loc s j).
Proof. intros S P eqp get_loc i j src dst ss s. induction ss as [|s' ss IH]; intros now E; cbn [last_moved List.app]; [rewrite E; reflexivity|]. apply IH. exact E. Qed.
Print Assumptions C108_moved_partial.
(** But not when both ends come back: the line stays where they were before. *)
Theorem C108_back_refuted :
  let loc (s : N) (i : N) : N := if i =? 1 then s else 9 in
  map (fun l => l_path l) (fold_left (fun ls s => lines_render N.eqb loc s ls) [5; 0] (lines_init (fun e : N * N => e) (fun _ => [[(1, 2)]]) (fun s e => ((loc s (fst e), loc s (snd e)), false)) 0)) = [(5, 9)] /\
  (loc 0 1, loc 0 2) = (0, 9).
Proof. split; reflexivity. Qed.
Print Assumptions C108_back_refuted.
(** Edges that are added or removed after the start change nothing. *)
Theorem C108_edges_refuted :
  forall S E P eqp (ends : E -> N * N) edge_lists (edge_info : S -> E -> (P * P) * bool) (get_loc : S -> N -> P) s0 ss,
    List.length (fold_left (fun ls s => lines_render eqp get_loc s ls) ss (lines_init ends edge_lists edge_info s0)) = List.length (List.concat (edge_lists s0)).
Proof.
  intros. pose proof (C108_lines S E P eqp ends edge_lists edge_info get_loc s0 ss) as F. revert F. generalize (List.concat (edge_lists s0)). intros l F. clear - F.
  induction F; [reflexivity|]. cbn. congruence.
Qed.
Print Assumptions C108_edges_refuted.
Example C108_concrete :
  let loc (s : N) (i : N) : N := if i =? 1 then s else 9 in
  map (fun l => l_path l) (fold_left (fun ls s => lines_render N.eqb loc s ls) [5; 0; 4] (lines_init (fun e : N * N => e) (fun _ => [[(1, 2)]; []; [(2, 1)]]) (fun s e => ((loc s (fst e), loc s (snd e)), fst e =? 2)) 0)) = [(4, 9); (9, 0)].
Proof. reflexivity. Qed.

(** ** C109: textures of number grids *)
(** The texture has one pixel for each cell; row [y], counted from the top, holds the cells
    of row [h - 1 - y], so that [y] grows upwards as for sprites. *)
Theorem C109_texture :
  forall w h (get_pixel : Z * Z -> rgba), (Z.of_nat w <= 2 ^ 31)%Z -> (Z.of_nat h <= 2 ^ 31)%Z ->
    List.length (texture w h get_pixel) = (4 * (h * w))%nat /\
    forall x y c, (x < w)%nat -> (y < h)%nat -> (c < 4)%nat ->
      nth_error (texture w h get_pixel) (4 * (y * w + x) + c) = nth_error (bytes (get_pixel (Z.of_nat x, Z.of_nat (h - 1 - y)))) c.
Proof.
  intros w h gp W HH. unfold texture. cbv zeta. split.
  - assert (B : forall l, List.length (flat_map bytes l) = (4 * List.length l)%nat) by (induction l as [|[[[r g] b] a] l IH]; [reflexivity|]; cbn [flat_map]; rewrite app_length, IH; cbn; lia).
    rewrite B. unfold rotate180, image_map. rewrite from_fn_length. reflexivity.
  - intros x y c X Y C. rewrite bytes_nth by exact C.
    match goal with |- context [nth_error ?im (y * w + x)] => assert (P : pixel w im x y = Some (gp (Z.of_nat x, Z.of_nat (h - 1 - y)))); [|unfold pixel in P; rewrite P; reflexivity] end.
    unfold rotate180. rewrite image_map_pixel by assumption. cbn [fst snd].
    unfold flip_horizontal. rewrite image_map_pixel by lia. cbn [fst snd]. rewrite from_fn_pixel by lia. rewrite !as_i32_small by lia.
    do 3 f_equal. lia.
Qed.
Print Assumptions C109_texture.
Example C109_concrete :
  texture 2 2 (fun p => (Z.to_N (fst p), Z.to_N (snd p), 7, 255)) = [0; 1; 7; 255; 1; 1; 7; 255; 0; 0; 7; 255; 1; 0; 7; 255].
Proof. reflexivity. Qed.

(** ** C110: images are loaded once *)
(** Any sequence of requests: each file is loaded once, at the first request for it, and
    every request for it gets the handle of that load. *)
Theorem C110_images :
  forall H (load : nat -> string -> H) codes,
    let (f, hs) := get_all load codes factory_new in
    exists cs, NoDup cs /\ (forall c, In c cs <-> In c codes) /\
      loaded f = map (fun c => ("emojis/" ++ c ++ ".png")%string) cs /\
      Forall2 (fun c h => exists n, nth_error cs n = Some c /\ h = load n ("emojis/" ++ c ++ ".png")%string) codes hs.
Proof.
  intros H load codes. pose proof (get_all_ok load codes factory_new []) as G. destruct (get_all load codes factory_new) as [f hs].
  destruct G as (cs & (ND & L & _ & _) & D & _ & F).
  - split; [constructor|]. split; [reflexivity|]. split; [intros c; cbn; split; [congruence|intros []]|]. intros n c E. destruct n; discriminate.
  - exists cs. split; [exact ND|]. split; [intros c; rewrite D; cbn; tauto|]. split; [exact L|exact F].
Qed.
Print Assumptions C110_images.
Example C110_concrete :
  get_all (fun n p => (n, p)) ["crab"; "fish"; "crab"]%string factory_new =
  (Factory [("crab", (0%nat, "emojis/crab.png")); ("fish", (1%nat, "emojis/fish.png"))] ["emojis/crab.png"; "emojis/fish.png"],
   [(0%nat, "emojis/crab.png"); (1%nat, "emojis/fish.png"); (0%nat, "emojis/crab.png")])%string.
Proof. reflexivity. Qed.
