(** * Simulations whose agents are born and die, in a double-buffered space

    As StageModel.v, with births: [after_step] (src/engine/state.rs L58) looks at the
    published space, makes new agents, numbers them, places each in the space and calls
    [schedule_repeating] (src/engine/schedule.rs L295-303) for the next step, that is for
    [schedule.time + 1.0].  Agents die by [is_stopped] (src/engine/agent.rs L18-20).  What the hook
    looks at, which agents it makes and where they start is arbitrary.  The state is the
    space, whether a call has panicked, and the number of agents made so far. *)
From Coq Require Import List Bool ZArith NArith.
From Verif Require Import F32 SchedModel Grid ObjModel FieldModel StageModel PStageModel.
Import ListNotations.

Section Birth.
Context {O G V B : Type}.
Variable place : G -> O -> option G.     (* [set_object_location]; [None]: panic *)
Variable publish : G -> option G.        (* [lazy_update]; [None]: panic *)
Variable see : G -> O -> option V.       (* the queries of an agent; [None]: panic *)
Variable rule : O -> V -> O.
Variable stops : O -> bool.
Variable ends : G -> bool.               (* [end_condition] *)
Variable births : G -> option (list B).  (* the queries of [after_step]; [None]: panic *)
Variable newborn : N -> B -> O.
Variable agents : list O.
Notation town := ((G * bool) * N)%type.

(** [init], state.rs L47: as in StageModel.v; every agent is counted. *)
Fixpoint birth_init (l : list O) (s : town) : hprog O town :=
  match l with
  | [] => HRet s
  | o :: rest => HCall (OpRepeating o f0 0) (fun _ => birth_init rest (stage_place place o (fst s), (snd s + 1)%N))
  end.

(** [after_step], state.rs L58. *)
Fixpoint deliver (bs : list B) (s : town) : hprog O town :=
  match bs with
  | [] => HRet s
  | b :: bs' =>
      let o := newborn (snd s) b in
      HCall OpReadTime (fun r =>
        HCall (OpRepeating o (fadd (match r with RTime t => t | _ => f0 end) f1) 0) (fun _ =>
          deliver bs' (stage_place place o (fst s), (snd s + 1)%N)))
  end.
Definition birth_after (s : town) : hprog O town :=
  match births (fst (fst s)) with
  | None => HRet ((fst (fst s), true), snd s)
  | Some bs => deliver bs s
  end.

Definition birth_user : user O town :=
  User (birth_init agents)
       (fun _ s => (pstage_update publish (fst s), snd s))
       (fun s => HRet s) birth_after
       (fun s => HRet (ends (fst (fst s)), s))
       (fun o s => (o, s)) (fun o s => let (o', s') := stage_step place see rule o (fst s) in (o', (s', snd s)))
       (fun o s => (o, s))
       (fun o s => (stops o, (o, s))).
End Birth.

(** ** On the object grids: agents and [after_step] look at the bags of some cells. *)
Section Grids.
Context {O B : Type}.
Variable eqo : O -> O -> bool.
Variable location : O -> loc.
Variable look : O -> list loc.
Variable nursery : list loc.
Variable born : list (option (list O)) -> list B.

Definition dense_births rule stops ends newborn agents : user O ((odense O * bool) * N) :=
  birth_user (fun g o => od_set eqo g o (location o)) (fun g => Some (od_lazy_update g))
    (fun g o => mapM (od_get g) (look o)) rule stops ends
    (fun g => option_map born (mapM (od_get g) nursery)) newborn agents.
Definition sparse_births rule stops ends newborn agents : user O ((osparse O * bool) * N) :=
  birth_user (fun g o => Some (os_set g o (location o))) (fun g => Some (os_lazy_update g))
    (fun g o => Some (map (os_get g) (look o))) rule stops ends
    (fun g => Some (born (map (os_get g) nursery))) newborn agents.
End Grids.

(** ** In the field: agents look for neighbours (src/engine/fields/field_2d.rs L386-440), [after_step] at some cells. *)
Definition field_births (A : arith) {O B : Type} (location : O -> num A * num A) (radius : O -> num A)
    (nursery : list (num A * num A)) (born : list (list O) -> list B) rule stops ends newborn agents
    : user O ((@field2d A O * bool) * N) :=
  birth_user (fun f o => f_set A f o (location o)) (f_lazy_update A)
    (fun f o => f_neighbors A location f (location o) (radius o)) rule stops ends
    (fun f => option_map born (mapM (f_get A f) nursery)) newborn agents.
