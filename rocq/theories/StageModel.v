(** * Simulations whose agents live in a double-buffered space, from [init] on

    The shape of tests/model/flockers (state.rs L43-76, bird.rs L36-149) over any space:
    [init] places every agent and schedules it at time 0, [update] publishes the space with
    [lazy_update], and an agent's step looks at published data, computes its new data and
    places itself.  What agents look at, how they compute, when they stop and when the
    simulation ends is arbitrary.  The state is the space and whether a call has panicked
    (the program would then have ended; here it goes on, and the flag stays set). *)
From Coq Require Import List Bool ZArith NArith.
From Verif Require Import F32 SchedModel Grid ObjModel.
Import ListNotations.

Section Stage.
Context {O G V : Type}.
Variable place : G -> O -> option G.     (* [set_object_location]; [None]: panic *)
Variable publish : G -> G.               (* [lazy_update] *)
Variable see : G -> O -> option V.       (* the queries of an agent; [None]: panic *)
Variable rule : O -> V -> O.
Variable stops : O -> bool.
Variable ends : G -> bool.               (* [end_condition] *)
Variable agents : list O.

Definition stage_place (o : O) (s : G * bool) : G * bool :=
  match place (fst s) o with
  | None => (fst s, true)
  | Some g' => (g', snd s)
  end.

(** The loop of [init], state.rs L50-64. *)
Fixpoint stage_init (l : list O) (s : G * bool) : hprog O (G * bool) :=
  match l with
  | [] => HRet s
  | o :: rest =>
      let s' := stage_place o s in
      HCall (OpRepeating o f0 0) (fun _ => stage_init rest s')
  end.

(** An agent's step, bird.rs L37-147. *)
Definition stage_step (o : O) (s : G * bool) : O * (G * bool) :=
  match see (fst s) o with
  | None => (o, (fst s, true))
  | Some v => let o' := rule o v in (o', stage_place o' s)
  end.

Definition stage_user : user O (G * bool) :=
  User (stage_init agents)
       (fun _ s => (publish (fst s), snd s))
       (fun s => HRet s) (fun s => HRet s)
       (fun s => HRet (ends (fst s), s))
       (fun o s => (o, s)) stage_step (fun o s => (o, s))
       (fun o s => (stops o, (o, s))).
End Stage.

(** ** The object grids as spaces: an agent looks at the bags of some cells. *)
Section Grids.
Context {O : Type}.
Variable eqo : O -> O -> bool.
Variable location : O -> loc.
Variable look : O -> list loc.

Definition dense_user rule stops ends agents : user O (odense O * bool) :=
  stage_user (fun g o => od_set eqo g o (location o)) od_lazy_update
    (fun g o => mapM (od_get g) (look o)) rule stops ends agents.
Definition sparse_user rule stops ends agents : user O (osparse O * bool) :=
  stage_user (fun g o => Some (os_set g o (location o))) os_lazy_update
    (fun g o => Some (map (os_get g) (look o))) rule stops ends agents.
End Grids.
