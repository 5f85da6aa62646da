(** * A small simulation used as example for C122 *)
From Coq Require Import List Bool ZArith NArith Arith.
From Verif Require Import F32 SchedModel Grid ObjModel FieldModel FlockModel FlockSpec.
Import ListNotations.
Local Open Scope nat_scope.

(** Three agents in a 4 by 4 field with bags of side 2, in f32.  An agent that sees at
    least two agents (itself included) goes to (3, 3), the others to (1, 1), and agent 2
    stops in (3, 3): it is still seen in the next step, and then no more. *)
Definition walker := (nat * (f32 * f32))%type.
Definition walk (o : walker) (l : list walker) : walker :=
  (fst o, if Nat.leb 2 (length l) then (f_of_Z 3, f_of_Z 3) else (f1, f1)).
Definition walkers : list walker := [(1, (f1, f1)); (2, (f1, f1)); (3, (f_of_Z 3, f_of_Z 3))].
Definition walk_user : user walker (@field2d f32_arith walker * bool) :=
  flock_user f32_arith snd (fun _ => f2) walk (fun o => Nat.eqb (fst o) 2 && feqb (fst (snd o)) (f_of_Z 3)) (fun _ => false) walkers.
Definition ids_at (s : @field2d f32_arith walker * bool) (l : f32 * f32) : option (list nat) :=
  option_map (map fst) (f_get f32_arith (fst s) l).
Definition walk_after (chs : list (nat -> nat)) := w_st (snd (simulated walk_user (f_of_Z 4) (f_of_Z 4) f2 false chs)).
Definition walk_view (chs : list (nat -> nat)) : option (list nat) * option (list nat) * bool :=
  (ids_at (walk_after chs) (f1, f1), ids_at (walk_after chs) (f_of_Z 3, f_of_Z 3), snd (walk_after chs)).
