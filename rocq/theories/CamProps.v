(** * Property theorems: the window's picture (C131) *)
From Coq Require Import List Bool ZArith NArith Arith Lia Reals Lra.
From Verif Require Import F32 FieldModel FieldReal VisModel VisProps CamModel CamSpec.
Import ListNotations.
Open Scope R_scope.

Lemma last_fold {X} (l : list X) : forall d, last l d = fold_left (fun _ x => x) l d.
Proof.
  induction l as [|x l IH]; intros d; [reflexivity|]. cbn [fold_left]. rewrite <- IH. cbn [last].
  destruct l as [|y l]; [reflexivity|]. rewrite !IH. reflexivity.
Qed.
Lemma run_camera_last (v : visualization RA) frames :
  run_camera RA v frames = init_camera RA (fst (setup RA v)) (final_size frames).
Proof.
  unfold run_camera, final_size. rewrite last_fold. cbn [setup fst]. set (sim := Descriptor _ _ _ _ _ _).
  assert (G : forall es w, fold_left (on_resize RA sim) es (init_camera RA sim w) = init_camera RA sim (fold_left (fun _ x => x) es w)).
  { induction es as [|e es IH]; intros w; [reflexivity|]. cbn [fold_left].
    change (on_resize RA sim (init_camera RA sim w) e) with (init_camera RA sim e). apply IH. }
  change (Window (of_int RA 1280) (of_int RA 720)) with (Window (A := RA) 1280 720).
  generalize (Window (A := RA) 1280 720). induction frames as [|es frames IH]; intros w; [reflexivity|].
  cbn [fold_left concat]. unfold camera_system at 2. rewrite G, IH, fold_left_app. reflexivity.
Qed.

(** After any history of resizes the point shown at a place of the window is the one at the
    same proportion of the simulation, the panel's 300 pixels being left out. *)
Theorem C131_shows : forall v frames (px py : R),
  w_width RA (final_size frames) <> 300 -> w_height RA (final_size frames) <> 0 ->
  shows RA (run_camera RA v frames) px py =
    (v_sim_width RA v * ((px - 300) / (w_width RA (final_size frames) - 300)),
     v_sim_height RA v * (py / w_height RA (final_size frames))).
Proof.
  intros v frames px py W H. rewrite run_camera_last. unfold shows, init_camera. cbn.
  f_equal; field; [lra|assumption].
Qed.
Print Assumptions C131_shows.

(** So exactly the simulation is seen beside the panel, every point of it once. *)
Theorem C131_fills_partial : forall v frames,
  300 < w_width RA (final_size frames) -> 0 < w_height RA (final_size frames) ->
  0 < v_sim_width RA v -> 0 < v_sim_height RA v ->
  (forall px py : R, beside_panel (final_size frames) px py <-> in_simulation v (shows RA (run_camera RA v frames) px py)) /\
  (forall p : R * R, exists px py : R, shows RA (run_camera RA v frames) px py = p /\
     forall px' py' : R, shows RA (run_camera RA v frames) px' py' = p -> px' = px /\ py' = py).
Proof.
  intros v frames W H SW SH. set (win := final_size frames) in *.
  assert (E : forall px py, shows RA (run_camera RA v frames) px py =
    (v_sim_width RA v * ((px - 300) / (w_width RA win - 300)), v_sim_height RA v * (py / w_height RA win))).
  { intros px py. apply C131_shows; fold win; lra. }
  assert (LE : forall a b c, 0 < b -> 0 < c -> (0 <= a <= b <-> 0 <= c * (a / b) <= c)).
  { intros a b c B C. replace (c * (a / b)) with (a * (c / b)) by (field; lra). assert (P : 0 < c / b) by (apply Rdiv_lt_0_compat; assumption).
    assert (Q : b * (c / b) = c) by (field; lra). split; intros [X Y].
    - split; [apply Rmult_le_pos; lra|]. rewrite <- Q at 2. apply Rmult_le_compat_r; lra.
    - split; [apply (Rmult_le_reg_r (c / b)); lra|]. apply (Rmult_le_reg_r (c / b)); lra. }
  split.
  - intros px py. rewrite E. unfold beside_panel, in_simulation. cbn [fst snd].
    rewrite <- (LE (px - 300) (w_width RA win - 300) (v_sim_width RA v)) by lra.
    rewrite <- (LE py (w_height RA win) (v_sim_height RA v)) by lra. split; intros [X Y]; (split; [lra|exact Y]).
  - intros [x y]. exists (300 + x * (w_width RA win - 300) / v_sim_width RA v), (y * w_height RA win / v_sim_height RA v).
    assert (EQ : forall a b c d : R, a = c -> b = d -> (a, b) = (c, d)) by congruence. split; [rewrite E; apply EQ; field; lra|]. intros px' py' K. rewrite E in K. injection K as K1 K2. split; [change (@eq R px' (300 + x * (w_width RA win - 300) / v_sim_width RA v)); rewrite <- K1|change (@eq R py' (y * w_height RA win / v_sim_height RA v)); rewrite <- K2]; field; lra.
Qed.
Print Assumptions C131_fills_partial.

(** The texture of a number grid that has a cell for each unit of the simulation: the middle
    of the pixel with the colour of cell [(x, y)] is where the sprite of an object in this
    cell is drawn, whatever dimensions were asked for the window. *)
Theorem C131_cells : forall v w h get_pixel x y c, (Z.of_nat w <= 2 ^ 31)%Z -> (Z.of_nat h <= 2 ^ 31)%Z ->
  v_sim_width RA v = INR w -> v_sim_height RA v = INR h -> (x < w)%nat -> (y < h)%nat -> (c < 4)%nat ->
  exists i j, (i < w)%nat /\ (j < h)%nat /\
    nth_error (texture w h get_pixel) (4 * (j * w + i) + c) = nth_error (bytes (get_pixel (Z.of_nat x, Z.of_nat y))) c /\
    pixel_place RA (texture_place RA (fst (setup RA v))) (Z.of_nat w) (Z.of_nat h) (Z.of_nat i) (Z.of_nat j) =
      sprite_place RA (Z.of_nat x) (Z.of_nat y).
Proof.
  intros v w h gp x y c W H SW SH X Y C. exists x, (h - 1 - y)%nat. split; [exact X|]. split; [lia|]. split.
  - destruct (C109_texture w h gp W H) as [_ K]. rewrite (K x (h - 1 - y)%nat c X ltac:(lia) C). do 4 f_equal. lia.
  - unfold pixel_place, texture_place, sprite_place, one_half. cbn. rewrite SW, SH, !INR_IZR_INZ.
    replace (Z.of_nat (h - 1 - y)) with (Z.of_nat h - 1 - Z.of_nat y)%Z by lia. rewrite !minus_IZR. f_equal; lra.
Qed.
Print Assumptions C131_cells.

(** The simulation has the dimensions asked for, whatever else the builder is told. *)
Theorem C131_dimensions : forall calls,
  (v_sim_width RA (build_vis RA calls), v_sim_height RA (build_vis RA calls)) = asked_simulation calls.
Proof.
  intros calls. unfold build_vis, asked_simulation. rewrite last_fold.
  change (300, 300) with (v_sim_width RA (vis_default RA), v_sim_height RA (vis_default RA)).
  generalize (vis_default RA). induction calls as [|[w h|w h] calls IH]; intros v; [reflexivity| |]; cbn [fold_left flat_map List.app]; rewrite IH; reflexivity.
Qed.
Print Assumptions C131_dimensions.

(** The window's own size is never the one asked for, but the default of Bevy, and no least
    width is set: the constraints are made but not used. *)
Theorem C131_window_refuted : forall calls (w h : R),
  snd (setup RA (build_vis RA (calls ++ [CallWindow (A := RA) w h]))) = Window (A := RA) 1280 720.
Proof. reflexivity. Qed.
Print Assumptions C131_window_refuted.

(** In a window as wide as the panel the camera of the program is at no place at all, in a
    narrower one the picture is mirrored: further right is shown what is further left. *)
Theorem C131_narrow_refuted :
  (let c := run_camera f32_arith (vis_default f32_arith) [[Window (A := f32_arith) (f_of_Z 300) (f_of_Z 300)]] in
   shows f32_arith c f0 f0 = (S754_nan, f0)) /\
  forall v frames, 0 < v_sim_width RA v -> 0 < w_height RA (final_size frames) -> w_width RA (final_size frames) < 300 ->
    forall px px' py, px < px' -> fst (shows RA (run_camera RA v frames) px' py) < fst (shows RA (run_camera RA v frames) px py).
Proof.
  split; [vm_compute; reflexivity|].
  intros v frames S H W px px' py L. rewrite !C131_shows by lra. cbn [fst].
  apply Rmult_lt_compat_l; [exact S|]. unfold Rdiv. 
  assert (N : / (w_width RA (final_size frames) - 300) < 0) by (apply Rinv_lt_0_compat; lra). nra.
Qed.
Print Assumptions C131_narrow_refuted.

(** The first drawing of an object's sprite is one unit below its cell. *)
Theorem C131_first_refuted : forall x y,
  sprite_start RA x y = (fst (sprite_place RA x y), snd (sprite_place RA x y) - 1).
Proof. intros x y. unfold sprite_start, sprite_place, one_half. cbn. f_equal. lra. Qed.
Print Assumptions C131_first_refuted.

(** A simulation of 40 by 20 whose window is made 700 by 500 after two other sizes: the
    middle of the part beside the panel shows the middle of the simulation; its cells. *)
Example C131_concrete :
  let v := build_vis RA [CallSimulation (A := RA) 7 8; CallSimulation (A := RA) 40 20; CallWindow (A := RA) 800 600] in
  let frames := [[Window (A := RA) 900 10]; []; [Window (A := RA) 301 1; Window (A := RA) 700 500]] in
  300 < w_width RA (final_size frames) /\ 0 < w_height RA (final_size frames) /\ 0 < v_sim_width RA v /\ 0 < v_sim_height RA v /\
  shows RA (run_camera RA v frames) 500 250 = (20, 10) /\ v_sim_width RA v = INR 40 /\ v_sim_height RA v = INR 20.
Proof.
  cbv zeta. cbn [final_size concat List.app last w_width w_height v_sim_width v_sim_height build_vis fold_left with_window_dimensions with_simulation_dimensions].
  unfold final_size. cbn [concat List.app last w_width w_height].
  split; [lra|]. split; [lra|]. split; [lra|]. split; [lra|]. split.
  - rewrite C131_shows; unfold final_size; cbn [concat List.app last w_width w_height v_sim_width v_sim_height build_vis fold_left with_window_dimensions with_simulation_dimensions]; try lra. f_equal; lra.
  - rewrite !INR_IZR_INZ. split; reflexivity.
Qed.
