(** * A concrete schedule used to show that the theorems' hypotheses are met *)
From Coq Require Import List Bool ZArith NArith.
From Verif Require Import F32 SchedModel SchedSpec.
Import ListNotations.
Local Open Scope N_scope.

(** Agents count their steps and stop at 3; the state sums the steps and its
    [before_step] schedules a one-shot agent in the first two steps. *)
Definition demo : user N N :=
  User (fun s => HCall (OpRepeating 0 f0 0) (fun _ => HRet s))
       (fun n s => s + n)
       (fun s => if s <? 2
                 then HCall OpReadTime (fun r =>
                      match r with
                      | RTime t => HCall (OpOnce (AI (100 + s) 7 false) t 9) (fun _ => HRet s)
                      | _ => HRet s
                      end)
                 else HRet s)
       (fun s => HRet s)
       (fun s => HRet (10 <? s, s))
       (fun a s => (a, s)) (fun a s => (a + 1, s + 1)) (fun a s => (a, s))
       (fun a s => (3 <=? a, (a, s))).

(** Three queued agents: two at time 1.0 (orderings 5 and 2), one at 3.0. *)
Definition demo_q : list (event N) :=
  [(AI 0 0 true, Prio f1 5); (AI 1 2 true, Prio f1 2); (AI 2 0 true, Prio (f_of_Z 3) 0)].
Definition demo_sc : sched N := Sched 4 f0 demo_q 3.
Definition demo_w : world N N := World 5 [].
Definition ch0 : nat -> nat := fun _ => 0%nat.
