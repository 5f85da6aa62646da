(** * Model of the window's picture

    src/visualization/visualization.rs (the builder [Visualization] and [setup]),
    src/visualization/systems/init_system.rs and camera_system.rs (the camera), the places of
    textures and sprites (fields/number_grid_2d.rs L69, fields/object_grid_2d.rs L66 and
    L117-118).  The code computes in [f32]; as in FieldModel.v it is written for any
    arithmetic.  Bevy (external, version 0.13) is modelled by its documentation: the window
    of [DefaultPlugins], what an orthographic camera shows, where an image is drawn. *)
From Coq Require Import List Bool ZArith NArith Arith.
From Verif Require Import F32 FieldModel VisModel.
Import ListNotations.
Open Scope Z_scope.

Section Cam.
Variable A : arith.
Notation T := (num A).
Notation int := (of_int A).
Definition one_half : T := div A (int 1) (int 2).                   (* 0.5 *)

(** [struct Visualization], visualization.rs L28-35 (the name and the colour are left out)
    and its default, L136-147. *)
Record visualization := Visualization { v_width : T; v_height : T; v_sim_width : T; v_sim_height : T }.
Definition vis_default : visualization := Visualization (int 600) (int 300) (int 300) (int 300).
(** [with_window_dimensions], L39-43, and [with_simulation_dimensions], L47-51. *)
Definition with_window_dimensions (v : visualization) (w h : T) : visualization :=
  Visualization w h (v_sim_width v) (v_sim_height v).
Definition with_simulation_dimensions (v : visualization) (w h : T) : visualization :=
  Visualization (v_width v) (v_height v) w h.

(** A program makes its [Visualization] by calls of the two, one after the other. *)
Inductive builder_call := CallWindow (w h : T) | CallSimulation (w h : T).
Definition build_vis (calls : list builder_call) : visualization :=
  fold_left (fun v k => match k with
                        | CallWindow w h => with_window_dimensions v w h
                        | CallSimulation w h => with_simulation_dimensions v w h
                        end) calls vis_default.

(** [SimulationDescriptor], simulation_descriptor.rs L6-14, without title and [paused]. *)
Record descriptor := Descriptor { d_width : T; d_height : T; d_center_x : T; d_center_y : T; d_ui_width : T }.

(** Size of a window, in logical pixels. *)
Record window := Window { w_width : T; w_height : T }.

(** [setup], visualization.rs L79-134: the descriptor (L107-118) and the window.  The window
    is made by [DefaultPlugins] with Bevy's own settings, 1280 by 720 (L91-98: only the
    [RenderPlugin] is set; [window_constraints], L85-87, is not used). *)
Definition setup (v : visualization) : descriptor * window :=
  (Descriptor (v_sim_width v) (v_sim_height v)
     (sub A (mul A (v_width v) one_half) (div A (sub A (v_width v) (v_sim_width v)) (int 2)))
     (sub A (mul A (v_height v) one_half) (div A (sub A (v_height v) (v_sim_height v)) (int 2)))
     (int 300),
   Window (int 1280) (int 720)).

(** The camera's [Transform]: translation and scale. *)
Record camera := Camera { c_x : T; c_y : T; c_sx : T; c_sy : T }.

(** [init_system], init_system.rs L29-40. *)
Definition init_camera (sim : descriptor) (win : window) : camera :=
  let ui_offset := neg A (d_ui_width sim) in
  let scale_x := div A (d_width sim) (add A (w_width win) ui_offset) in
  Camera (mul A ui_offset scale_x) (int 0) scale_x (div A (d_height sim) (w_height win)).

(** [camera_system], camera_system.rs L11-29: once for each [WindowResized] event. *)
Definition on_resize (sim : descriptor) (c : camera) (e : window) : camera :=
  let ui_offset := neg A (d_ui_width sim) in
  let scale_x := div A (d_width sim) (add A (w_width e) ui_offset) in
  Camera (mul A ui_offset scale_x) (c_y c) scale_x (div A (d_height sim) (w_height e)).
Definition camera_system (sim : descriptor) (es : list window) (c : camera) : camera :=
  fold_left (on_resize sim) es c.

(** A run of the program: [setup], [init_system], and the resizes of each frame. *)
Definition run_camera (v : visualization) (frames : list (list window)) : camera :=
  let (sim, win) := setup v in
  fold_left (fun c es => camera_system sim es c) frames (init_camera sim win).

(** Bevy, [OrthographicProjection] with [ScalingMode::WindowSize(1.)] and [viewport_origin]
    (0, 0) (init_system.rs L43-48): the point of the scene shown [px] logical pixels right
    of and [py] above the lower left corner of the window. *)
Definition shows (c : camera) (px py : T) : T * T :=
  (add A (c_x c) (mul A (c_sx c) px), add A (c_y c) (mul A (c_sy c) py)).

(** [BatchRender::render], number_grid_2d.rs L69: where the texture is placed. *)
Definition texture_place (sim : descriptor) : T * T := (sub A (d_center_x sim) one_half, d_center_y sim).
(** Bevy draws an image of [w] times [h] pixels around its place, one unit for each pixel:
    the middle of the pixel in column [i] and row [j] from the top. *)
Definition pixel_place (at_ : T * T) (w h i j : Z) : T * T :=
  (add A (sub A (fst at_) (div A (int w) (int 2))) (add A (int i) one_half),
   sub A (add A (snd at_) (div A (int h) (int 2))) (add A (int j) one_half)).

(** Where the sprite of an object in cell [(x, y)] is drawn: when it is made
    (object_grid_2d.rs L66) and in every later frame (L117-118). *)
Definition sprite_start (x y : Z) : T * T := (int x, sub A (int y) one_half).
Definition sprite_place (x y : Z) : T * T := (int x, add A (int y) one_half).
End Cam.
Arguments Window {A}. Arguments Visualization {A}. Arguments CallWindow {A}. Arguments CallSimulation {A}.
