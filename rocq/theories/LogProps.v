(** * Property theorems: the logs (C83) *)
From Coq Require Import List Bool String Arith Lia.
From Verif Require Import LogModel LogSpec.
Import ListNotations.

Lemma log_list_run ops : forall logs, log_list (log_run logs ops) = rev (written ops) ++ log_list logs.
Proof.
  unfold log_list, log_run. induction ops as [|o ops IH]; intros logs; [reflexivity|]. cbn [fold_left]. rewrite IH. destruct o as [l|]; cbn.
  - rewrite <- app_assoc. f_equal. destruct logs; reflexivity.
  - reflexivity.
Qed.
Lemma interleaved_stored {X Y} (f : X -> list Y) a b c : interleaved a b c -> flat_map f b = [] -> flat_map f c = flat_map f a.
Proof.
  induction 1 as [|x a b c _ IH|x a b c _ IH]; intros E; cbn in *; [reflexivity| |].
  - rewrite IH by exact E. reflexivity.
  - apply app_eq_nil in E. destruct E as [E1 E2]. rewrite E1. exact (IH E2).
Qed.
Lemma filter_flat ops : filter l_stored (written ops) = flat_map (fun o => match o with LLog l => if l_stored l then [l] else [] | LNewRep => [] end) ops.
Proof. unfold written. induction ops as [|[l|] ops IH]; cbn; [reflexivity| |exact IH]. destruct (l_stored l); cbn; rewrite IH; reflexivity. Qed.

(** ** C83: the log file holds every stored log of the simulation thread exactly once,
    newest first, before those of earlier simulations, however the other threads (which
    store none) are scheduled. *)
Theorem C83_log_file : forall logs sim others ops,
  interleaved sim others ops -> Forall (fun l => l_stored l = false) (written others) ->
  log_file (log_run logs ops) = map display (rev (filter l_stored (written sim))) ++ log_file logs.
Proof.
  intros logs sim others ops I O. unfold log_file. fold (log_list (log_run logs ops)). rewrite log_list_run, filter_app, map_app. f_equal. f_equal.
  assert (F : forall l, filter l_stored (rev l) = rev (filter l_stored l)).
  { induction l as [|x l IH]; [reflexivity|]. cbn [rev filter]. rewrite filter_app, IH. cbn. destruct (l_stored x); cbn; [reflexivity|apply app_nil_r]. }
  rewrite !F. f_equal. rewrite !filter_flat. apply (interleaved_stored _ _ _ _ I). rewrite <- filter_flat.
  induction O as [|l k H _ IH]; [reflexivity|]. cbn. rewrite H. exact IH.
Qed.
Print Assumptions C83_log_file.

(** The Home tab lists all logs of all threads, newest first, and their number never goes
    down (what C55 assumes). *)
Theorem C83_log_list : forall logs ops, log_list (log_run logs ops) = rev (written ops) ++ log_list logs /\
  List.length (log_list logs) <= List.length (log_list (log_run logs ops)).
Proof. intros logs ops. split; [apply log_list_run|]. rewrite log_list_run, app_length. lia. Qed.
Print Assumptions C83_log_list.

Definition demo_sim : list log_op := [LNewRep; LLog (Log Info "one" true); LLog (Log Error "two" false); LNewRep; LLog (Log Warning "three" true)].
Definition demo_others : list log_op := [LLog (Log Critical "key" false)].
Example C83_concrete : interleaved demo_sim demo_others [LNewRep; LLog (Log Info "one" true); LLog (Log Error "two" false); LNewRep; LLog (Log Critical "key" false); LLog (Log Warning "three" true)] /\
  Forall (fun l => l_stored l = false) (written demo_others) /\
  log_file (log_run [[Log Info "old" true]] [LNewRep; LLog (Log Info "one" true); LLog (Log Error "two" false); LNewRep; LLog (Log Critical "key" false); LLog (Log Warning "three" true)])
  = ["Warning:  three"; "Info:  one"; "Info:  old"]%string.
Proof. split; [repeat constructor|]. split; [repeat constructor|reflexivity]. Qed.
