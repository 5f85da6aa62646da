(** * Specification for the labels of the panel and the pictures of number grids *)
From Coq Require Import List Bool NArith.
From Verif Require Import SchedModel VisModel VisSpec PanelModel.
Import ListNotations.
Local Open Scope N_scope.

(** [on_init], called with [paused] set, leaves it at [p0], whatever else it does. *)
Definition leaves {A S I R H Q} (p0 : bool) (v : vcode A S I R H Q) : Prop :=
  forall i s sc, let '(_, (_, p, _), _) := run_hprog (v_on_init v i true s) sc in p = p0.

(** The steps made since the start or the last click on Stop, as a user counts them: [n]
    so far; the ticks of a frame count unless the simulation is paused. *)
Fixpoint counts {A} (p0 p : bool) (n : N) (fs : list (frame A)) : list N :=
  match fs with
  | [] => []
  | f :: fs' =>
      let now := if p then n else n + N.of_nat (length (f_ticks f)) in
      let c := f_clicks f in
      now :: counts p0 (if c_pause c then true else if c_stop c then p0 else if c_start c then false else p)
                    (if c_stop c then 0 else now) fs'
  end.

(** The pictures on the screen: those rendered since the last start; when a state is
    drawn, its picture alone. *)
Definition visible {S P} (texture_of : S -> P) (es : list (gevent S P)) : list P :=
  fold_left (fun ps e => match e with GStart ps' => ps' | GDraw s => [texture_of s] | GMore p => ps ++ [p] end) es [].
(** How many were rendered since the last start. *)
Definition renders {S P} (es : list (gevent S P)) : nat :=
  fold_left (fun n e => match e with GStart ps => length ps | GDraw _ => n | GMore _ => Datatypes.S n end) es O.
(** Every start renders one picture, and nothing else does. *)
Definition once {S P} (es : list (gevent S P)) : Prop :=
  forall e, In e es -> match e with GStart ps => length ps = 1%nat | GDraw _ => True | GMore _ => False end.
