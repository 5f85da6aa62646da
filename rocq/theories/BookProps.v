(** * Property theorems: the whole bookkeeping of the schedule (C04) *)
From Coq Require Import List Bool ZArith NArith Arith Lia Permutation.
From Verif Require Import F32 SchedModel SchedSpec SchedProofs SchedStep SchedHist SchedExamples Merge ParModel ParSpec ParProofs ParHistModel BookSpec BookProofs.
Import ListNotations.
Local Open Scope N_scope.

(** After every history of calls and steps, of the program and of the hooks, whatever is
    scheduled with whatever ids, times and options: the schedule holds exactly what the diary
    of the calls says, once each, and every answer was the one the diary gives. *)
Theorem C04_diary : forall A S (u : user A S) xs s sc w,
  acts u xs (sched_new, World s []) = (sc, w) ->
  always told (w_trace w) /\
  unique_ids (s_events sc) /\
  forall id rep p, (exists ag, In (AI id ag rep, p) (s_events sc)) <-> b_at (book_after (w_trace w)) id = Some (rep, p).
Proof.
  intros A S u xs s sc w E.
  destruct (follows_acts u xs (sched_new, World s [])) as [_ [U N At T]]; [reflexivity| |].
  - constructor; [constructor|reflexivity|reflexivity|]. intros pre c post K. destruct pre; discriminate.
  - rewrite E in *. cbn [fst snd] in *. split; [exact T|]. split; [exact U|]. intros id rep p. rewrite At. symmetry. apply look_in. exact U.
Qed.
Print Assumptions C04_diary.

(** ** The parallel build *)
Section Par.
Context {A S : Type}.
Notation any := (fun (_ : book) (_ : call A) => True).
Lemma par_follows_op tr sc (o : sop A) sc' r : parallel_call o = true -> follows any tr (s_events sc) (s_ids sc) -> par_do_op sc o = (sc', r) ->
  follows any (tr ++ [CApi o r]) (s_events sc') (s_ids sc').
Proof.
  intros PC F E. destruct o as [a t o|ag t o|ag t o|id| | |]; cbn in E, PC; try discriminate.
  - injection E as <- <-. apply follows_once; [exact (fun _ => I)|exact F].
  - unfold schedule_repeating in E. pose proof (follows_push any tr sc ag t o (CApi (OpRepeating ag t o) r)) as K.
    destruct (pq_push _ _ _) as [q2 ro] eqn:P. injection E as <- <-. apply K; [reflexivity|exact I|exact F].
  - injection E as <- <-. apply follows_other; [reflexivity|exact (fun _ => I)|exact F].
  - injection E as <- <-. apply follows_other; [reflexivity|exact (fun _ => I)|exact F].
  - injection E as <- <-. apply follows_other; [reflexivity|exact (fun _ => I)|exact F].
Qed.
Lemma par_follows_prog {X} (p : hprog A X) : forall tr sc sc' x log, par_run_hprog p sc = (sc', x, log) ->
  (forall o r, In (CApi o r) (api log) -> parallel_call o = true) ->
  follows any tr (s_events sc) (s_ids sc) -> follows any (tr ++ api log) (s_events sc') (s_ids sc').
Proof.
  induction p as [x|o k IH]; intros tr sc sc' y log E H F; cbn in E.
  - injection E as <- <- <-. cbn. rewrite app_nil_r. exact F.
  - destruct (par_do_op sc o) as [sc1 r] eqn:Eo. destruct (par_run_hprog (k r) sc1) as [[sc2 z] l] eqn:Ek. injection E as <- <- <-.
    assert (F1 : follows any (tr ++ [CApi o r]) (s_events sc1) (s_ids sc1)) by (eapply par_follows_op; [eapply (H o r); left; reflexivity|exact F|exact Eo]).
    pose proof (IH r _ _ _ _ _ Ek (fun o' r' K => H o' r' (or_intror K)) F1) as F2. rewrite <- app_assoc in F2. exact F2.
Qed.
Lemma items_trace (u : user A S) run : forall a (b : world A S) d f, run_items u a b run = (d, f) -> exists tr, w_trace f = w_trace b ++ tr.
Proof.
  induction run as [|e run IH]; intros a b d f R; cbn [run_items] in R.
  - injection R as <- <-. exists []. rewrite app_nil_r. reflexivity.
  - destruct (run_item u a b e) as [a1 b1] eqn:E. apply IH in R. destruct R as (tr & R). apply run_item_turn in E. destruct E as (x & _ & _ & _ & _ & _ & _ & Htr).
    rewrite R, Htr. eexists. rewrite <- app_assoc. reflexivity.
Qed.
Lemma par_follows_step (u : user A S) n ch inter sc (w : world A S) sc' w' : par_step u n ch inter sc w = PDone sc' w' ->
  (forall o r, In (CApi o r) (w_trace w') -> parallel_call o = true) ->
  follows any (w_trace w) (s_events sc) (s_ids sc) -> follows any (w_trace w') (s_events sc') (s_ids sc').
Proof.
  intros H PC F. unfold par_step in H. set (w0 := if s_step sc =? 0 then call_update u (s_step sc) w else w) in H.
  assert (F0 : follows any (w_trace w0 ++ [CStateBefore]) (s_events sc) (s_ids sc)).
  { apply follows_other; [reflexivity|exact (fun _ => I)|]. unfold w0. destruct (s_step sc =? 0); [|exact F]. apply follows_other; [reflexivity|exact (fun _ => I)|exact F]. }
  destruct (par_run_hprog (u_before u (w_st w0)) sc) as [[sc1 s1] log1] eqn:E1.
  destruct (pq_peek (ch O) (s_events sc1)) as [e0|] eqn:P; [|discriminate].
  destruct n as [|n']; [discriminate|]. set (n := Datatypes.S n') in *.
  set (popped := pop_all (length (s_events sc1)) ch O (s_events sc1)) in *.
  set (sc2 := Sched (s_step sc1) (ev_time e0) [] (s_ids sc1)) in *.
  set (w1 := World s1 (w_trace w0 ++ CStateBefore :: api log1)) in *.
  destruct (finished (exec u inter (start sc2 w1 (batches n popped)))) eqn:Fin; [|discriminate].
  destruct (exec_serial u (batches n popped) sc2 w1 inter Fin) as (run & Hmg & Hrun).
  set (c := exec u inter (start sc2 w1 (batches n popped))) in *.
  destruct (par_run_hprog (u_after u (w_st (c_w c))) (c_sc c)) as [[sc3 s3] log3] eqn:E3.
  injection H as <- <-. cbn [call_update w_trace] in PC |- *.
  assert (T2 : exists tr, w_trace (c_w c) = w_trace w1 ++ tr).
  { eapply items_trace. exact Hrun. }
  destruct T2 as (tr2 & T2).
  assert (F1 : follows any (w_trace w1) (s_events sc1) (s_ids sc1)).
  { cbn [w1 w_trace]. change (CStateBefore :: api log1) with ([CStateBefore] ++ api log1). rewrite app_assoc. eapply par_follows_prog; [exact E1| |exact F0].
    intros o r K. apply (PC o r). apply in_or_app. left. apply in_or_app. left. rewrite T2. apply in_or_app. left. cbn. apply in_or_app. right. right. exact K. }
  assert (F2 : follows any (w_trace (c_w c)) (s_events (c_sc c)) (s_ids (c_sc c))).
  { eapply follows_items; [exact (fun _ _ _ => I)| |exact Hrun]. eapply follows_perm; [|exact F1]. cbn. rewrite app_nil_r.
    assert (Hpop : Permutation (s_events sc1) popped) by (apply pop_all_spec; [exact (fo_unique _ _ _ _ F1)|auto]).
    rewrite Hpop. apply (proj1 (batches_dealt n popped run ltac:(discriminate) Hmg)). }
  apply follows_other; [reflexivity|exact (fun _ => I)|]. change (CStateAfter :: api log3) with ([CStateAfter] ++ api log3). rewrite app_assoc. cbn [s_events s_ids].
  eapply par_follows_prog; [exact E3| |apply follows_other; [reflexivity|exact (fun _ => I)|exact F2]].
  intros o r K. apply (PC o r). apply in_or_app. left. apply in_or_app. right. right. exact K.
Qed.
Lemma par_step_trace (u : user A S) n ch inter sc (w : world A S) sc' w' : par_step u n ch inter sc w = PDone sc' w' ->
  exists tr, w_trace w' = w_trace w ++ tr.
Proof.
  intros H. unfold par_step in H. set (w0 := if s_step sc =? 0 then call_update u (s_step sc) w else w) in H.
  assert (T0 : exists tr, w_trace w0 = w_trace w ++ tr).
  { unfold w0. destruct (s_step sc =? 0); [eexists; reflexivity|exists []; rewrite app_nil_r; reflexivity]. }
  destruct T0 as (tr0 & T0). destruct (par_run_hprog (u_before u (w_st w0)) sc) as [[sc1 s1] log1] eqn:E1.
  destruct (pq_peek (ch O) (s_events sc1)) as [e0|] eqn:P; [|discriminate]. destruct n as [|n']; [discriminate|].
  set (c := exec u inter _) in H. destruct (finished c) eqn:Fin; [|discriminate]. unfold c in Fin. apply exec_serial in Fin. fold c in Fin. destruct Fin as (run & _ & Hrun).
  destruct (items_trace _ _ _ _ _ _ Hrun) as (tr1 & T1).
  destruct (par_run_hprog (u_after u (w_st (c_w c))) (c_sc c)) as [[sc3 s3] log3]. injection H as <- <-. cbn [call_update w_trace]. rewrite T1. cbn [w_trace]. rewrite T0, <- !app_assoc. eexists. reflexivity.
Qed.
Lemma par_acts_trace (u : user A S) xs : forall c c', par_acts u xs c = Some c' -> exists tr, w_trace (snd c') = w_trace (snd c) ++ tr.
Proof.
  induction xs as [|x xs IH]; intros c c' E; cbn [par_acts] in E; [injection E as <-; exists []; rewrite app_nil_r; reflexivity|].
  destruct (par_act u x c) as [c1|] eqn:E1; [|discriminate]. destruct (IH _ _ E) as (tr & T).
  assert (K : exists tr1, w_trace (snd c1) = w_trace (snd c) ++ tr1).
  { destruct x as [o|n ch inter]; cbn [par_act] in E1.
    - destruct (par_do_op (fst c) o) as [sc1 r]. injection E1 as <-. cbn. eexists. reflexivity.
    - destruct (par_step u n ch inter (fst c) (snd c)) as [| | |sc1 w1] eqn:Es; try discriminate. injection E1 as <-. eapply par_step_trace. exact Es. }
  destruct K as (tr1 & K). rewrite T, K, <- app_assoc. eexists. reflexivity.
Qed.
Lemma par_follows_acts (u : user A S) xs : forall c c', par_acts u xs c = Some c' ->
  (forall o r, In (CApi o r) (w_trace (snd c')) -> parallel_call o = true) ->
  follows any (w_trace (snd c)) (s_events (fst c)) (s_ids (fst c)) -> follows any (w_trace (snd c')) (s_events (fst c')) (s_ids (fst c')).
Proof.
  induction xs as [|x xs IH]; intros c c' E PC F; cbn [par_acts] in E; [injection E as <-; exact F|].
  destruct (par_act u x c) as [c1|] eqn:E1; [|discriminate]. apply (IH _ _ E PC). destruct (par_acts_trace _ _ _ _ E) as (tr & T).
  assert (PC1 : forall o r, In (CApi o r) (w_trace (snd c1)) -> parallel_call o = true).
  { intros o r K. apply (PC o r). rewrite T. apply in_or_app. left. exact K. }
  destruct x as [o|n ch inter]; cbn [par_act] in E1.
  - destruct (par_do_op (fst c) o) as [sc1 r] eqn:Eo. injection E1 as <-. cbn [fst snd w_trace] in *. eapply par_follows_op; [|exact F|exact Eo].
    apply (PC1 o r). apply in_or_app. right. left. reflexivity.
  - destruct (par_step u n ch inter (fst c) (snd c)) as [| | |sc1 w1] eqn:Es; try discriminate. injection E1 as <-. eapply par_follows_step; [exact Es|exact PC1|exact F].
Qed.
End Par.

(** The same for every history of the parallel build, any numbers of threads and
    interleavings. *)
Theorem C04_parallel_diary : forall A S (u : user A S) xs s sc w,
  par_acts u xs (sched_new, World s []) = Some (sc, w) ->
  (forall o r, In (CApi o r) (w_trace w) -> parallel_call o = true) ->
  unique_ids (s_events sc) /\
  forall id rep p, (exists ag, In (AI id ag rep, p) (s_events sc)) <-> b_at (book_after (w_trace w)) id = Some (rep, p).
Proof.
  intros A S u xs s sc w E PC. pose proof (par_follows_acts u xs _ _ E PC) as F. cbn [fst snd] in F. destruct F as [U N At T].
  - constructor; [constructor|reflexivity|reflexivity|exact (fun _ _ _ _ => I)].
  - split; [exact U|]. intros id rep p. rewrite At. symmetry. apply look_in. exact U.
Qed.
Print Assumptions C04_parallel_diary.

(** An agent scheduled once, one repeating, one scheduled again under an id in use, a removal
    and an agent that stops. *)
Example C04_diary_concrete :
  let xs := [ActApi (OpRepeating 0 f0 0); ActApi (OpOnce (AI 7 1 false) f0 3); ActApi (OpOnce (AI 8 2 false) (f_of_Z 5) 3);
             ActApi (OpOnce (AI 0 2 false) f1 (-2)); ActStep ch0; ActApi (OpDequeue 8); ActApi (OpDequeue 8); ActStep ch0] in
  let w := snd (acts demo xs (sched_new, World 9 [])) in
  map (b_at (book_after (w_trace w))) [0; 7; 8] = [Some (true, Prio (f_of_Z 2) (-2)); None; None] /\
  In (CApi (OpDequeue 8) (RBool true)) (w_trace w) /\ In (CApi (OpDequeue 8) (RBool false)) (w_trace w).
Proof. vm_compute. intuition. Qed.

Example C04_parallel_concrete :
  let xs := [PApi (OpRepeating 0 f0 0); PApi (OpOnce (AI 7 1 false) (f_of_Z 5) 3); PStepping 2 ch0 (concat (repeat [0; 1]%nat 20))] in
  exists sc w, par_acts demo xs (sched_new, World 9 []) = Some (sc, w) /\
    (forall o r, In (CApi o r) (w_trace w) -> parallel_call o = true) /\
    map (b_at (book_after (w_trace w))) [0; 7] = [Some (true, Prio f1 0); None].
Proof.
  eexists _, _. split; [vm_compute; reflexivity|]. split.
  - intros o r K. cbn in K. repeat (destruct K as [K|K]; [try discriminate K; injection K as <- _; reflexivity|]). destruct K.
  - vm_compute. reflexivity.
Qed.
