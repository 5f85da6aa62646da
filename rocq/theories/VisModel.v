(** * Model of the visualisation

    src/visualization: the window's event loop as far as it acts on the simulation and on
    what is shown.  A frame of Bevy (external) first makes some fixed ticks, each of which
    runs [simulation_system] and then [renderer_system] (visualization.rs L124, L126), and
    then runs [ui_system] (L125); how many ticks, and what the user clicks, are parameters.
    Entities with a [Camera] or a [Window] are left out, and so are labels, the camera and
    the slider (which only changes how many ticks are made).  Commands (spawning and
    despawning) take effect after the system that issues them, as in Bevy.

    With the [visualization] features the schedule is the sequential one (SchedModel;
    schedule.rs L10, L20, L48 test only [parallel]) and object grids and networks are the
    parallel ones. *)
From Coq Require Import List Bool Arith NArith ZArith String.
From Verif Require Import F32 SchedModel DashModel.
Import ListNotations.
Local Open Scope N_scope.

Definition f_half : f32 := S754_finite false 8388608 (-24).

Section Vis.
Context {A S I R H Q : Type}.
(** The simulation; [State::reset], state.rs L52. *)
Variable u : user A S.
Variable u_reset : S -> S.
(** [Quat::from_rotation_z] and the image of an emoji (see [get_material_handle] below). *)
Variable quat : f32 -> Q.
Variable img : string -> H.

(** [Transform] (the scale in [z] is always 1) and an entity: the [Box<dyn AgentRender>] it
    may carry, whether it is visible, and its [Handle<Image>]. *)
Record transform := Transform { t_x : f32; t_y : f32; t_z : f32; t_sx : f32; t_sy : f32; t_rot : Q }.
Record entity := Entity { e_render : option R; e_tr : transform; e_vis : bool; e_img : H }.

(** The user's code: [VisualizationState] (visualization_state.rs L14-95) and
    [AgentRender] (agent_render.rs L7-43).  [on_init] may change the schedule, the state
    and [paused] and spawn entities; [before_render] may change itself and the state and
    issue any commands.  Their use of the image cache is left out. *)
Record vcode := VCode {
  v_on_init : I -> bool -> S -> hprog A (S * bool * list entity);
  v_render : I -> A -> S -> option R;                       (* get_agent_render *)
  v_agent : I -> R -> S -> option A;                        (* get_agent *)
  v_before : I -> sched A -> S -> I * S * (list entity -> list entity);
  r_sprite : R -> A -> S -> string;
  r_location : R -> A -> S -> f32 * f32 * f32;
  r_scale : R -> A -> S -> f32 * f32;
  r_rotation : R -> A -> S -> f32;
  r_update : R -> A -> S -> transform -> bool -> R * transform * bool
}.
Variable v : vcode.

(** [setup_agent_graphics], visualization_state.rs L52-75, with L36-38. *)
Definition setup_agent (r : R) (a : A) (s : S) : entity :=
  let '(x, y, z) := r_location v r a s in
  let '(sx, sy) := r_scale v r a s in
  Entity (Some r) (Transform x (fadd y f_half) z sx sy (quat (r_rotation v r a s))) true (img (r_sprite v r a s)).
(** [setup_graphics], L24-50.  [order]: the order in which the queue is iterated. *)
Definition setup_graphics (order : list (event A) -> list (event A)) (i : I) (sc : sched A) (s : S) : list entity :=
  flat_map (fun e => match v_render v i (ai_agent (fst e)) s with
                     | Some r => [setup_agent r (ai_agent (fst e)) s]
                     | None => []
                     end) (order (s_events sc)).

Record app := App { a_paused : bool; a_vis : I; a_sched : sched A; a_world : world A S; a_ents : list entity }.

(** [on_init] and [setup_graphics], init_system.rs L53-65 and ui_system.rs L91-103. *)
Definition start_graphics (order : list (event A) -> list (event A)) (p : bool) (i : I) (sc : sched A) (w : world A S) : app :=
  let '(sc', (s', p', spawned), log) := run_hprog (v_on_init v i p (w_st w)) sc in
  App p' i sc' (World s' (w_trace w ++ api log)) (spawned ++ setup_graphics order i sc' s').

(** [Visualization::setup], visualization.rs L78-133, and [init_system], init_system.rs
    L20-67 (there is a window). *)
Definition boot (order : list (event A) -> list (event A)) (i : I) (s : S) : app :=
  let (sc, w) := call_init u sched_new (World s []) in start_graphics order true i sc w.

(** One entity in [renderer_system], renderer_system.rs L39-64. *)
Definition render_entity (i : I) (sc : sched A) (s : S) (e : entity) : entity :=
  match e_render e with
  | None => e
  | Some r =>
      match v_agent v i r s with
      | Some a =>
          let '(r', t, _) := r_update v r a s (e_tr e) (e_vis e) in
          Entity (Some r') (Transform (t_x t) (fadd (t_y t) f_half) (t_z t) (t_sx t) (t_sy t) (t_rot t)) true (img (r_sprite v r' a s))
      | None => if s_step sc =? 0 then e else Entity (Some r) (e_tr e) false (e_img e)
      end
  end.

(** A fixed tick: [simulation_system] (simulation_system.rs L11-23), then
    [renderer_system] (renderer_system.rs L14-66).  [ch]: the tie-breaks of the step. *)
Definition tick (ch : nat -> nat) (a : app) : app :=
  if a_paused a then a
  else
    let (sc, w) := step u ch (a_sched a) (a_world a) in
    let '(i, s, commands) := v_before v (a_vis a) sc (w_st w) in
    App false i sc (World s (w_trace w)) (commands (map (render_entity i sc s) (a_ents a))).

(** [ui_system], ui_system.rs L64-110; the three buttons are tested in this order. *)
Record clicks := Clicks { c_start : bool; c_stop : bool; c_pause : bool }.
Definition with_paused (p : bool) (a : app) : app := App p (a_vis a) (a_sched a) (a_world a) (a_ents a).
(** L72-106: all entities are despawned; what [on_init] and [setup_graphics] spawn remains. *)
Definition stop (order : list (event A) -> list (event A)) (a : app) : app :=
  let (sc, w) := call_init u sched_new (World (u_reset (w_st (a_world a))) (w_trace (a_world a))) in
  start_graphics order true (a_vis a) sc w.
Definition ui (order : list (event A) -> list (event A)) (c : clicks) (a : app) : app :=
  let a := if c_start c then with_paused false a else a in
  let a := if c_stop c then stop order a else a in
  if c_pause c then with_paused true a else a.

(** A frame: its ticks, what is clicked, and the order used after a stop. *)
Record frame := Frame { f_ticks : list (nat -> nat); f_clicks : clicks; f_order : list (event A) -> list (event A) }.
Definition do_frame (a : app) (f : frame) : app :=
  ui (f_order f) (f_clicks f) (fold_left (fun a ch => tick ch a) (f_ticks f) a).
Definition frames (a : app) (fs : list frame) : app := fold_left do_frame fs a.
End Vis.
Arguments transform : clear implicits. Arguments entity : clear implicits. Arguments vcode : clear implicits.
Arguments app : clear implicits. Arguments frame : clear implicits.

(** ** Images of emojis *)
(** [AssetHandleFactory], asset_handle_factory.rs L14-64.  [load n path]: the handle that
    the [n]-th call of [AssetServer::load] returns. *)
Section Emoji.
Context {H : Type}.
Variable load : nat -> string -> H.
Record factory := Factory { emoji_loaders : list (string * H); loaded : list string }.
Definition factory_new : factory := Factory [] [].
(** [get_material_handle], L48-63; [Path::join] (L43) with the separator [/]. *)
Definition get_material_handle (code : string) (f : factory) : factory * H :=
  match hm_find String.eqb code (emoji_loaders f) with
  | Some (_, h) => (f, h)
  | None =>
      let path := ("emojis/" ++ code ++ ".png")%string in
      let h := load (List.length (loaded f)) path in
      (Factory (fst (hm_insert String.eqb code h (emoji_loaders f))) (loaded f ++ [path]), h)
  end.
Fixpoint get_all (codes : list string) (f : factory) : factory * list H :=
  match codes with
  | [] => (f, [])
  | c :: codes' => let (f1, h) := get_material_handle c f in let (f2, hs) := get_all codes' f1 in (f2, h :: hs)
  end.
End Emoji.
Arguments factory : clear implicits.

(** ** Object grids *)
(** [RenderObjectGrid2D], fields/object_grid_2d.rs L19-123.  [fetch_sparse_grid] and
    [fetch_dense_grid] are given by their [obj2loc]. *)
Section ObjectGrid.
Context {S O H Q : Type}.
Variable quat : f32 -> Q.
Variable img : string -> H.
Variable fetch_sparse fetch_dense : S -> option (dmap O (Z * Z)).
Variable fetch_emoji : S -> O -> string.
Variable fetch_loc : S -> O -> option (Z * Z).
Variable fetch_rotation : S -> O -> f32.
Variable scale : O -> f32 * f32.
Record gsprite := GSprite { g_obj : O; g_tr : transform Q; g_img : H }.
(** L39-54 (and L62-78); [None]: the panic of [expect]. *)
Definition grid_sprite (s : S) (o : O) : option gsprite :=
  match fetch_loc s o with
  | None => None
  | Some (x, y) =>
      Some (GSprite o (Transform (f_of_Z x) (fsub (f_of_Z y) f_half) f0 (fst (scale o)) (snd (scale o)) (quat (fetch_rotation s o))) (img (fetch_emoji s o)))
  end.
Fixpoint grid_sprites (s : S) (os : list O) : option (list gsprite) :=
  match os with
  | [] => Some []
  | o :: os' =>
      match grid_sprite s o, grid_sprites s os' with
      | Some g, Some gs => Some (g :: gs)
      | _, _ => None
      end
  end.
(** [init_graphics_grid], L21-81.  [it]: the order in which a hash map is iterated. *)
Definition grid_init (it : list (O * (Z * Z)) -> list (O * (Z * Z))) (s : S) : option (list gsprite) :=
  match fetch_sparse s with
  | Some d => grid_sprites s (keys it d)
  | None => match fetch_dense s with Some d => grid_sprites s (keys it d) | None => Some [] end
  end.
(** [render], L92-122. *)
Definition grid_render1 (s : S) (g : gsprite) : gsprite :=
  match fetch_loc s (g_obj g) with
  | None => g
  | Some (x, y) =>
      let t := g_tr g in
      GSprite (g_obj g) (Transform (f_of_Z x) (fadd (f_of_Z y) f_half) (t_z t) (t_sx t) (t_sy t) (quat (fetch_rotation s (g_obj g))))
              (img (fetch_emoji s (g_obj g)))
  end.
Definition grid_render (s : S) (gs : list gsprite) : list gsprite := map (grid_render1 s) gs.
End ObjectGrid.
Arguments gsprite : clear implicits.

(** ** Networks *)
(** [NetworkRender], fields/network.rs L61-115.  [E]: edges with their ends; [P]: points,
    compared by [eqp].  Colours and widths are left out. *)
Section NetworkLines.
Context {S E P : Type}.
Variable eqp : P -> P -> bool.
Variable ends : E -> N * N.                               (* edge.u, edge.v *)
Variable edge_lists : S -> list (list E).                 (* get_network(state).edges.values() *)
Variable edge_info : S -> E -> (P * P) * bool.            (* get_edge_info: the two locations, is_static *)
Variable get_loc : S -> N -> P.
(** The path drawn and, unless the edge is static, its [EdgeRender] (L58). *)
Record line := Line { l_path : P * P; l_edge : option ((N * N) * (P * P)) }.
(** [init_network_graphics], L70-98. *)
Definition lines_init (s : S) : list line :=
  flat_map (fun es => map (fun e => let '(locs, is_static) := edge_info s e in
                                    Line locs (if is_static then None else Some (ends e, locs))) es) (edge_lists s).
(** [render], L101-114. *)
Definition line_render (s : S) (l : line) : line :=
  match l_edge l with
  | None => l
  | Some ((i, j), (src, dst)) =>
      let p := get_loc s i in
      let q := get_loc s j in
      if negb (eqp p src) || negb (eqp q dst) then Line (p, q) (l_edge l) else l
  end.
Definition lines_render (s : S) (ls : list line) : list line := map (line_render s) ls.
End NetworkLines.
Arguments line : clear implicits.

(** ** Number grids *)
(** [BatchRender::texture], fields/number_grid_2d.rs L32-58.  An image of the crate [image]
    (external): its pixels, row by row. *)
Section Texture.
Context {P : Type}.
Definition as_i32 (n : nat) : Z := ((Z.of_nat n + 2 ^ 31) mod 2 ^ 32 - 2 ^ 31)%Z.
(** [ImageBuffer::from_fn]. *)
Definition image_from_fn (w h : nat) (f : nat -> nat -> P) : list P :=
  flat_map (fun y => map (fun x => f x y) (seq 0 w)) (seq 0 h).
(** [get_pixel], for [x < w]. *)
Definition pixel (w : nat) (im : list P) (x y : nat) : option P := nth_error im (y * w + x).
Definition image_map (w h : nat) (im : list P) (dflt : P) (g : nat -> nat -> nat * nat) : list P :=
  image_from_fn w h (fun x y => match pixel w im (fst (g x y)) (snd (g x y)) with Some p => p | None => dflt end).
(** [flip_horizontal] and [rotate180] of the crate. *)
Definition flip_horizontal (w h : nat) (dflt : P) (im : list P) : list P := image_map w h im dflt (fun x y => (w - 1 - x, y)%nat).
Definition rotate180 (w h : nat) (dflt : P) (im : list P) : list P := image_map w h im dflt (fun x y => (w - 1 - x, h - 1 - y)%nat).
End Texture.
Definition rgba : Type := N * N * N * N.
Definition bytes (p : rgba) : list N := let '(r, g, b, a) := p in [r; g; b; a].
Definition texture (w h : nat) (get_pixel : Z * Z -> rgba) : list N :=
  let black : rgba := (0, 0, 0, 0) in
  flat_map bytes (rotate180 w h black (flip_horizontal w h black (image_from_fn w h (fun x y => get_pixel (as_i32 x, as_i32 y))))).
