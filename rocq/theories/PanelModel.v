(** * Model of the labels of the panel and of the pictures of number grids

    - the labels at the head of the panel, src/visualization/systems/ui_system.rs L34-43;
    - [BatchRender::render] and [batch_render], src/visualization/fields/number_grid_2d.rs
      L61-81 and L87-101.

    The heading, the FPS label and the separator are left out, and so are entities that
    Bevy and its plugins create by themselves. *)
From Coq Require Import List Bool Arith NArith ZArith String DecimalString.
From Verif Require Import F32 SchedModel VisModel.
Import ListNotations.
Local Open Scope N_scope.

(** [{}] of a [u64] and of a [usize]. *)
Definition show (n : N) : string := NilEmpty.string_of_uint (N.to_uint n).

Section Panel.
Context {A S I R H Q : Type}.
Variable u : user A S.
Variable u_reset : S -> S.
Variable quat : f32 -> Q.
Variable img : string -> H.
Variable v : vcode A S I R H Q.

(** ui_system.rs L35-42 and L43: the step of the schedule and [query.iter().count()], where
    the query leaves out cameras and windows. *)
Definition labels (a : app A S I R H Q) : string * string :=
  (("Step: " ++ show (s_step (a_sched a)))%string,
   ("Number of entities: " ++ show (N.of_nat (List.length (a_ents a))))%string).
(** The labels are made after the ticks of the frame, before its clicks take effect (the
    buttons are added below them, L64-106). *)
Fixpoint panels (a : app A S I R H Q) (fs : list (frame A)) : list (string * string) :=
  match fs with
  | [] => []
  | f :: fs' =>
      labels (fold_left (fun a ch => tick u img v ch a) (f_ticks f) a) ::
      panels (do_frame u u_reset quat img v a f) fs'
  end.
End Panel.

(** ** Pictures of number grids *)
Section Gallery.
Context {S P : Type}.
(** [Self::get_texture_from_state] (L85). *)
Variable texture_of : S -> P.
(** [Assets<Image>]: the images added so far, the handle of each its position (images
    nobody holds a handle of any more are kept, which nobody can see); the entities with a
    [Marker<Self>], each with its [Handle<Image>]. *)
Record gallery := Gallery { g_assets : list P; g_pics : list nat }.
(** [render], L61-81: a new entity. *)
Definition g_render (p : P) (g : gallery) : gallery :=
  Gallery (g_assets g ++ [p]) (g_pics g ++ [List.length (g_assets g)]).
(** [batch_render], L87-101; [query.single_mut()] (Bevy, external) panics unless there is
    exactly one entity. *)
Definition g_draw (s : S) (g : gallery) : option gallery :=
  match g_pics g with
  | [_] => Some (Gallery (g_assets g ++ [texture_of s]) [List.length (g_assets g)])
  | _ => None
  end.
(** The start of the window ([init_system]), a click on Stop (ui_system.rs L77-79: all
    entities are despawned; L91-97: [on_init] is called; both take effect together) with
    the pictures that [on_init] renders; [batch_render] in some state; a [render] by other
    code of the user. *)
Inductive gevent := GStart (ps : list P) | GDraw (s : S) | GMore (p : P).
Definition g_event (g : gallery) (e : gevent) : option gallery :=
  match e with
  | GStart ps => Some (fold_left (fun g p => g_render p g) ps (Gallery (g_assets g) []))
  | GDraw s => g_draw s g
  | GMore p => Some (g_render p g)
  end.
Fixpoint g_run (g : gallery) (es : list gevent) : option gallery :=
  match es with
  | [] => Some g
  | e :: es' => match g_event g e with None => None | Some g' => g_run g' es' end
  end.
Definition g_new : gallery := Gallery [] [].
(** What is on the screen: the image of each entity. *)
Definition g_shown (g : gallery) : list (option P) := map (nth_error (g_assets g)) (g_pics g).
End Gallery.
Arguments gallery : clear implicits. Arguments gevent : clear implicits.
