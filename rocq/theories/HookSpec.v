(** * What may be expected when hooks of the state panic

    Vocabulary of C134. *)
From Coq Require Import List Bool ZArith NArith Arith.
From Verif Require Import F32 SchedModel FaultModel HookModel.
Import ListNotations.

Section Spec.
Context {A S : Type}.

(** The same hook, returning where it would panic. *)
Fixpoint returning (p : hprog A (S * bool)) : hprog A S :=
  match p with HRet x => HRet (fst x) | HCall o k => HCall o (fun r => returning (k r)) end.
(** The same program with hooks that return where they would panic: the same calls of the
    schedule, the same changes of the state. *)
Definition calm (hu : huser A S) : fuser A S :=
  let b := f_base (h_agents hu) in
  FUser (User (u_init b) (fun n s => fst (h_update hu n s)) (fun s => returning (h_before hu s)) (fun s => returning (h_after hu s))
           (u_end b) (a_before b) (a_step b) (a_after b) (a_stopped b))
    (f_before (h_agents hu)) (f_step (h_agents hu)) (f_after (h_agents hu)) (f_stopped (h_agents hu)) (f_clone (h_agents hu)).

(** Agent [id] is scheduled, repeatedly. *)
Definition repeats (id : N) (sc : sched A) : Prop :=
  exists e, In e (s_events sc) /\ ev_id e = id /\ ai_rep (fst e) = true.
(** Nobody asked for the removal of agent [id]: it did not say that it is stopped, and was not dequeued. *)
Definition not_ended (id : N) (tr : list (call A)) : Prop :=
  ~ In (CAgentStopped id true) tr /\ forall r, ~ In (CApi (OpDequeue id) r) tr.
(** Only hooks panicked. *)
Definition only_hooks (fs : list hsite) : Prop := forall f, ~ In (AtAgent f) fs.
(** The calls of agents' methods in a record. *)
Definition agent_call (c : call A) : bool :=
  match c with CAgentBefore _ | CAgentStep _ | CAgentAfter _ | CAgentStopped _ _ => true | _ => false end.
End Spec.
