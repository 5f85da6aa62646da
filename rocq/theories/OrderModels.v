(** * Two families of simulations written against the engine

    User programs of the shape of tests/model/flockers (state.rs L43-76, bird.rs L36-149):
    [init] schedules the agents at time 0 (state.rs L50-64), [update] publishes the field
    with [lazy_update] (L66-68), the other hooks do nothing, and an agent's [step] looks at
    published data, computes its new data and writes it.  What agents look at and how they
    compute is arbitrary.  C118 applies C116 to them. *)
From Coq Require Import List Bool ZArith NArith Permutation.
From Verif Require Import F32 SchedModel Grid NumModel ObjModel FieldModel.
Import ListNotations.

(** [for a in agents { schedule.schedule_repeating(Box::new(a), 0., 0); }] *)
Fixpoint schedule_all {A X} (agents : list A) (x : X) : hprog A X :=
  match agents with
  | [] => HRet x
  | a :: rest => HCall (OpRepeating a f0 0) (fun _ => schedule_all rest x)
  end.

(** ** Agents owning a cell of a SparseNumberGrid2D

    An agent is its cell and some data.  In its step it reads the published values of the
    cells [look a], and [rule] gives its new data and what to write in its cell, if
    anything. *)
Section NumberGrid.
Context {T X : Type}.
Variable look : loc * X -> list loc.
Variable rule : loc * X -> list (option T) -> X * option T.
Variable stops : loc * X -> bool.
Variable ends : list (option T) -> bool.     (* [end_condition], from some cells *)
Variable watch : list loc.
Variable agents : list (loc * X).

Definition cell_step (a : loc * X) (g : sgrid T) : (loc * X) * sgrid T :=
  let (x', w) := rule a (map (sg_get g) (look a)) in
  ((fst a, x'), match w with Some v => sg_set g v (fst a) | None => g end).

Definition cell_user : user (loc * X) (sgrid T) :=
  User (fun g => schedule_all agents g)
       (fun _ g => sg_lazy_update g)
       (fun g => HRet g) (fun g => HRet g)
       (fun g => HRet (ends (map (sg_get g) watch), g))
       (fun a g => (a, g)) cell_step (fun a g => (a, g))
       (fun a g => (stops a, (a, g))).
(** Grids no query by location can tell apart. *)
Definition grid_same (g g' : sgrid T) : Prop :=
  (forall l, sg_get g l = sg_get g' l) /\ (forall l, sg_get_unbuffered g l = sg_get_unbuffered g' l) /\
  sg_w g = sg_w g' /\ sg_h g = sg_h g'.
End NumberGrid.

(** ** Agents moving in a Field2D

    An agent is an object of the field.  In its step it asks for the neighbours within
    [radius o] of its location, [rule] gives its new data, and it places itself at its new
    location.  The state is the field and whether a call has panicked (the program would
    then have ended; here it goes on, and the flag stays set). *)
Section Field.
Variable A : arith.
Context {O : Type}.
Variable location : O -> num A * num A.
Variable radius : O -> num A.
Variable rule : O -> list O -> O.
Variable stops : O -> bool.
Variable agents : list O.

Definition mover_step (o : O) (s : field2d A * bool) : O * (field2d A * bool) :=
  match f_neighbors A location (fst s) (location o) (radius o) with
  | None => (o, (fst s, true))
  | Some ns =>
      let o' := rule o ns in
      (o', match f_set A (fst s) o' (location o') with
           | None => (fst s, true)
           | Some f' => (f', snd s)
           end)
  end.

Definition mover_update (s : field2d A (O := O) * bool) : field2d A * bool :=
  match f_lazy_update A (fst s) with
  | None => (fst s, true)
  | Some f' => (f', snd s)
  end.

Definition mover_user : user O (field2d A * bool) :=
  User (fun s => schedule_all agents s)
       (fun _ s => mover_update s)
       (fun s => HRet s) (fun s => HRet s)
       (fun s => HRet (false, s))
       (fun o s => (o, s)) mover_step (fun o s => (o, s))
       (fun o s => (stops o, (o, s))).

(** Fields whose bags have the same objects, in any order. *)
Definition params_same (f f' : @field2d A O) : Prop :=
  f_nagents f = f_nagents f' /\ f_width f = f_width f' /\ f_height f = f_height f' /\ f_disc f = f_disc f' /\
  f_toroidal f = f_toroidal f' /\ f_dh f = f_dh f' /\ f_dw f = f_dw f' /\ f_density f = f_density f' /\
  f_checked f = f_checked f'.
Definition field_same (f f' : @field2d A O) : Prop :=
  Forall2 (@Permutation O) (f_read f) (f_read f') /\ Forall2 (@Permutation O) (f_write f) (f_write f') /\ params_same f f'.
Definition mover_same (s s' : @field2d A O * bool) : Prop := field_same (fst s) (fst s') /\ snd s = snd s'.
End Field.
Arguments params_same {A O}. Arguments field_same {A O}. Arguments mover_same {A O}.
