(** * Simulations of the parallel build whose agents are born and die

    As BirthModel.v, with the steps of the parallel scheduler (ParModel.v) and the spaces of
    the parallel build.  [after_step]
    (src/engine/state.rs L58) is called by the main thread when all threads have ended
    (src/engine/schedule.rs L216-217). *)
From Coq Require Import List Bool ZArith NArith.
From Verif Require Import F32 SchedModel ParModel Grid DashModel ObjModel FieldModel PFieldModel StageModel PStageModel BirthModel.
Import ListNotations.

(** ** On the grids and in the field of the parallel build: [after_step] looks at the agents
    in some cells. *)
Section Spaces.
Context {O B : Type}.
Variable eqo : O -> O -> bool.
Variable hash_o : O -> N.
Variable hash_l : loc -> N.
Variable n : nat.

Definition pgrid_births (location : O -> loc) (look : O -> list loc) (nursery : list loc)
    (born : list (option (list O)) -> list B) rule stops ends newborn agents : user O ((opar O * bool) * N) :=
  birth_user (fun g o => op_set eqo hash_o hash_l g o (location o)) (op_lazy_update n)
    (fun g o => mapM (op_get hash_l g) (look o)) rule stops ends
    (fun g => option_map born (mapM (op_get hash_l g) nursery)) newborn agents.

Definition pfield_births (A : arith) (location : O -> num A * num A) (radius : O -> num A) (osize : N)
    (nursery : list (num A * num A)) (born : list (list O) -> list B) rule stops ends newborn agents
    : user O ((@pfield A O * bool) * N) :=
  birth_user (fun f o => pf_set A eqo hash_o hash_l f o (location o)) (pf_lazy_update A n)
    (fun f o => pf_neighbors A hash_l location osize f (location o) (radius o)) rule stops ends
    (fun f => option_map born (mapM (pf_objects A hash_l f) nursery)) newborn agents.
End Spaces.
