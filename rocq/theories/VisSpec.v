(** * Specification for the visualisation *)
From Coq Require Import List Bool Arith NArith ZArith String Permutation.
From Verif Require Import F32 SchedModel VisModel.
Import ListNotations.
Local Open Scope N_scope.

Section Spec.
Context {A S I R H Q : Type}.
Local Notation vcode := (vcode A S I R H Q).
Local Notation entity := (entity R H Q).

(** Graphics code that leaves the simulation alone; its [on_init], called with [paused] set,
    leaves it set or clears it. *)
Definition quiet (p0 : bool) (v : vcode) : Prop :=
  (forall i s, exists es, v_on_init v i true s = HRet (s, p0, es)) /\
  (forall i sc s, snd (fst (v_before v i sc s)) = s).
(** ... and, while it runs, the entities. *)
Definition no_commands (v : vcode) : Prop := forall i sc s es, snd (v_before v i sc s) es = es.
Definition reorders {X} (it : list X -> list X) : Prop := forall l, Permutation (it l) l.

(** Histories without a click on Stop: the ticks made while not paused, and whether the
    simulation is paused in the end. *)
Definition no_stop (fs : list (frame A)) : Prop := forall f, In f fs -> c_stop (f_clicks f) = false.
Definition click (p : bool) (c : clicks) : bool := if c_pause c then true else if c_start c then false else p.
Fixpoint paused_after (p : bool) (fs : list (frame A)) : bool :=
  match fs with [] => p | f :: fs' => paused_after (click p (f_clicks f)) fs' end.
Fixpoint ticks_run (p : bool) (fs : list (frame A)) : list (nat -> nat) :=
  match fs with
  | [] => []
  | f :: fs' => (if p then [] else f_ticks f) ++ ticks_run (click p (f_clicks f)) fs'
  end.
(** So many steps of the schedule. *)
Definition steps (u : user A S) (chs : list (nat -> nat)) (c : sched A * world A S) : sched A * world A S :=
  fold_left (fun c ch => step u ch (fst c) (snd c)) chs c.

Variable quat : f32 -> Q.
Variable img : string -> H.
Variable v : vcode.
(** A new sprite shows [a] where its render says, half a unit higher. *)
Definition shows (s : S) (a : A) (r : R) (e : entity) : Prop :=
  e_render e = Some r /\ e_vis e = true /\ e_img e = img (r_sprite v r a s) /\
  (t_x (e_tr e), t_z (e_tr e)) = (fst (fst (r_location v r a s)), snd (r_location v r a s)) /\
  t_y (e_tr e) = fadd (snd (fst (r_location v r a s))) f_half /\
  (t_sx (e_tr e), t_sy (e_tr e)) = r_scale v r a s /\ t_rot (e_tr e) = quat (r_rotation v r a s).
(** What a tick makes of an entity. *)
Definition redrawn (i : I) (s : S) (e e' : entity) : Prop :=
  match e_render e with
  | None => e' = e
  | Some r =>
      match v_agent v i r s with
      | Some a =>
          exists r' t vis, r_update v r a s (e_tr e) (e_vis e) = (r', t, vis) /\
            e_render e' = Some r' /\ e_vis e' = true /\ e_img e' = img (r_sprite v r' a s) /\
            t_y (e_tr e') = fadd (t_y t) f_half /\
            (t_x (e_tr e'), t_z (e_tr e'), t_sx (e_tr e'), t_sy (e_tr e'), t_rot (e_tr e')) = (t_x t, t_z t, t_sx t, t_sy t, t_rot t)
      | None => e_vis e' = false /\ e_tr e' = e_tr e /\ e_img e' = e_img e /\ e_render e' = e_render e
      end
  end.
End Spec.
