(** * Property theorems: agents returned by agents (C129), panics of agents (C130) *)
From Coq Require Import List Bool ZArith NArith Arith Lia Permutation.
From Verif Require Import F32 F32Facts SchedModel SchedSpec SchedProofs SchedStep SchedTime SchedExamples
  Merge ParModel ParSpec ParProofs FaultModel FaultSpec FaultProofs.
Import ListNotations.

(** ** C129: what before_step and after_step return is ignored *)

(** In the sequential build: the same schedule, state, calls and panics after any history,
    whatever agents are returned. *)
Theorem C129_sequential_refuted : forall A S (fu fu' : fuser A S) xs c,
  same_but_offspring fu fu' -> facts fu xs c = facts fu' xs c.
Proof. intros A S fu fu' xs c H. apply facts_same. exact H. Qed.
Print Assumptions C129_sequential_refuted.

(** In the parallel build: the same result for every number of threads and interleaving. *)
Theorem C129_parallel_refuted : forall A S (fu fu' : fuser A S) n ch inter sc w,
  same_but_offspring fu fu' -> fpar_step fu n ch inter sc w = fpar_step fu' n ch inter sc w.
Proof. intros A S fu fu' n ch inter sc w H. apply fpar_step_same. exact H. Qed.
Print Assumptions C129_parallel_refuted.

(** An agent that returns a child, to be scheduled repeatedly, before and after every step. *)
Definition quiet : user N N :=
  User (fun s => HRet s) (fun _ s => s) (fun s => HRet s) (fun s => HRet s) (fun s => HRet (false, s))
    (fun a s => (a, s)) (fun a s => (a, s)) (fun a s => (a, s)) (fun a s => (false, (a, s))).
Definition child : offspring N := Some [(7%N, Options 0 true)].
Definition parent : fuser N N :=
  FUser quiet (fun a s => Returns child a (s + 1)%N) (fun a s => Returns tt a s) (fun a s => Returns child a (s + 1)%N)
    (fun a s => Returns false a s) (fun _ => true).
Definition barren : fuser N N :=
  FUser quiet (fun a s => Returns None a (s + 1)%N) (fun a s => Returns tt a s) (fun a s => Returns None a (s + 1)%N)
    (fun a s => Returns false a s) (fun _ => true).

Lemma peek_one {A} k (e : event A) : pq_peek k [e] = Some e.
Proof. unfold pq_peek. destruct (maxima [e]) as [|m ms] eqn:E; [destruct k; reflexivity|].
  unfold maxima in E. cbn [filter] in E. destruct (forallb _ _); [|discriminate]. injection E as <- <-.
  cbn [length]. rewrite Nat.mod_1_r. reflexivity. Qed.
Lemma gt_self x : fgtb x x = false.
Proof. destruct (f32_is_nan x) eqn:E; [destruct x; try discriminate; reflexivity|].
  apply fgtb_false_iff; auto. intros K. eapply klt_irrefl; exact K. Qed.

Lemma peek_pair {A} k (a : agentimpl A) p : pq_peek k (@cons (agentimpl A * priority) (a, p) nil) = Some (a, p).
Proof. exact (peek_one k (a, p)). Qed.
Lemma parent_step ch k t id a tm o ids w : exists w', 
  fstep parent ch (Sched k t [(AI id a true, Prio tm o)] ids) w =
    (Sched (u64_succ k) tm [(AI id a true, Prio (fadd tm f1) o)] ids, w', None) /\ w_st w' = (w_st w + 2)%N.
Proof.
  unfold fstep. cbn [f_base parent s_step].
  set (w0 := if (k =? 0)%N then _ else w). assert (E0 : w_st w0 = w_st w) by (unfold w0; destruct (k =? 0)%N; reflexivity).
  unfold call_before, quiet. cbn [u_before run_hprog s_events]. rewrite peek_pair. cbn [length pop_due ev_time snd p_time]. rewrite peek_pair, gt_self.
  cbn [ev_id fst ai_id pq_remove]. rewrite N.eqb_refl. cbn [fst pop_due].
  eexists. split; [reflexivity|]. cbn. rewrite E0. lia.
Qed.

(** However long it runs it stays alone, although [w_st w] children have been returned. *)
Theorem C129_alone_refuted : forall chs,
  let '(sc, w, fs) := facts parent (ActApi (OpRepeating 5%N f0 0) :: map ActStep chs) (sched_new, World 0%N [], []) in
  map ev_id (s_events sc) = [0%N] /\ w_st w = (2 * N.of_nat (length chs))%N /\ fs = [].
Proof.
  assert (G : forall chs k t id a tm o ids w,
    let '(sc', w', fs) := facts parent (map ActStep chs) (Sched k t [(AI id a true, Prio tm o)] ids, w, []) in
    map ev_id (s_events sc') = [id] /\ w_st w' = (w_st w + 2 * N.of_nat (length chs))%N /\ fs = []).
  { induction chs as [|ch chs IH]; intros k t id a tm o ids w.
    - cbn. split; [reflexivity|]. split; [lia|reflexivity].
    - cbn [map facts fold_left fact]. destruct (parent_step ch k t id a tm o ids w) as (w' & -> & Hw). cbn [app].
      specialize (IH (u64_succ k) tm id a (fadd tm f1) o ids w'). unfold facts in IH.
      destruct (fold_left _ _ _) as [[sc2 w2] fs]. destruct IH as (I1 & I2 & I3). split; [exact I1|]. split; [|exact I3].
      rewrite I2, Hw. cbn [length]. lia. }
  intros chs. cbn [facts fold_left fact]. 
  match goal with |- context [do_op sched_new ?o] => destruct (do_op sched_new o) as [sc r] eqn:E end.
  vm_compute in E. injection E as <- <-.
  match goal with |- context [(Sched ?k ?t [(AI ?id ?a true, Prio ?tm ?o)] ?ids, ?w, [])] => specialize (G chs k t id a tm o ids w) end.
  exact G.
Qed.
Print Assumptions C129_alone_refuted.

(** The two programs differ, and only in what they return. *)
Example C129_concrete :
  same_but_offspring parent barren /\ f_before parent 5%N 0%N <> f_before barren 5%N 0%N /\
  exists sc' w', fpar_step parent 2 ch0 (repeat 1%nat 9) (Sched 3 f0 [(AI 0 5%N true, Prio f0 0)] 1) (World 0%N []) = FRunning sc' /\
    fpar_step parent 2 ch0 (repeat 0%nat 9) (Sched 3 f0 [(AI 0 5%N true, Prio f0 0)] 1) (World 0%N []) =
      FDone (Sched 4 f0 [(AI 0 5%N true, Prio f1 0)] 1) w' /\ w_st w' = 2%N.
Proof.
  split; [repeat split; reflexivity|]. split; [discriminate|]. do 2 eexists. split; [vm_compute; reflexivity|].
  split; [vm_compute; reflexivity|reflexivity].
Qed.

(** ** C130: panics *)

(** Sequential, without a panic in this step: the step of SchedModel.v, of which the other
    properties speak. *)
Theorem C130_no_panic : forall A S (fu : fuser A S) u ch sc w sc' w',
  same_until_panic fu u -> unique_ids (s_events sc) ->
  fstep fu ch sc w = (sc', w', None) -> step u ch sc w = (sc', w').
Proof. intros A S fu u ch sc w sc' w' H U E. pose proof (fstep_sim fu u ch sc w H U) as K. rewrite E in K. exact K. Qed.
Print Assumptions C130_no_panic.

(** Sequential, with a panic: up to it everything is as without panics, the panicking call is
    the last one, the step is not counted, and scheduled remain the agents whose time had not
    come and those that had finished their turn and are not stopped. *)
Theorem C130_panic : forall A S (fu : fuser A S) u ch sc w sc' w' f,
  same_until_panic fu u -> unique_ids (s_events sc) ->
  fstep fu ch sc w = (sc', w', Some f) ->
  (exists more, w_trace (snd (step u ch sc w)) = w_trace w' ++ more) /\ ends_with f (w_trace w') /\
  s_step sc' = s_step sc /\
  exists sc1 s1 log1 new,
    run_hprog (u_before u (st0 u sc w)) sc = (sc1, s1, log1) /\
    w_trace w' = w_trace w ++ new /\
    (no_nan (s_events sc1) ->
     (exists e, In e (s_events sc1) /\ minimal (s_events sc1) e /\ ev_id e = fst f) /\
     forall id, In id (map ev_id (s_events sc')) <->
       (exists e, In e (s_events sc1) /\ ~ minimal (s_events sc1) e /\ ev_id e = id) \/ goes_on new id).
Proof.
  intros A S fu u ch sc w sc' w' f H U E. pose proof (fstep_sim fu u ch sc w H U) as K. rewrite E in K.
  destruct K as (P & En & Hs & sc1 & s1 & log1 & due & rest & new & e0 & E1 & U1 & Pk & Ht & Pd & Hf & Tr & Ids).
  split; [exact P|]. split; [exact En|]. split; [exact Hs|]. exists sc1, s1, log1, new. split; [exact E1|]. split; [exact Tr|].
  intros Nn. destruct (due_minimal _ _ _ _ _ _ _ U1 Nn Pk eq_refl Pd) as (D1 & D2 & _). split.
  - apply in_map_iff in Hf. destruct Hf as (e & He & Hi). exists e. pose proof (proj1 (D1 e) Hi) as M.
    split; [exact (proj1 M)|]. split; [exact M|exact He].
  - intros id. rewrite Ids. rewrite in_map_iff.
    assert (Q : (exists x, ev_id x = id /\ In x rest) <-> (exists e, In e (s_events sc1) /\ ~ minimal (s_events sc1) e /\ ev_id e = id)).
    { split; intros (e & K).
      - exists e. destruct K as [K1 K2]. apply D2 in K2. tauto.
      - exists e. split; [tauto|]. apply D2. tauto. }
    rewrite Q. reflexivity.
Qed.
Print Assumptions C130_panic.

(** Parallel: without a panic the step of ParModel.v, for every interleaving. *)
Theorem C130_parallel_no_panic : forall A S (fu : fuser A S) u n ch inter sc w, same_until_panic fu u ->
  match fpar_step fu n ch inter sc w with
  | FExit w' => par_step u n ch inter sc w = PExit w'
  | FNoThreads => par_step u n ch inter sc w = PPanic
  | FDone sc' w' => par_step u n ch inter sc w = PDone sc' w'
  | FRunning fc => fc_faults fc = [] -> par_step u n ch inter sc w = PRunning (fc_conf fc)
  | FPanicked fc => fc_faults fc <> []
  end.
Proof. intros A S fu u n ch inter sc w H. apply (proj1 (fpar_sim fu u n ch inter sc w H)). Qed.
Print Assumptions C130_parallel_no_panic.

(** Parallel, once an agent has panicked: no other agent panics or is called any more,
    whatever the threads do next; the calls made are those of a run without panics, the
    panicking one last; the step is not counted and cannot complete; and queued are exactly
    the agents that finished their turn and are not stopped (but for one whose clone
    panicked). *)
Theorem C130_parallel_panic : forall A S (fu : fuser A S) u n ch inter sc w fc, same_until_panic fu u ->
  fpar_step fu n ch inter sc w = FPanicked fc \/ (fpar_step fu n ch inter sc w = FRunning fc /\ fc_faults fc <> []) ->
  exists f new,
    fc_faults fc = [f] /\ ends_with f (w_trace (c_w (fc_conf fc))) /\
    (exists inter' c, par_step u n ch inter' sc w = PRunning c /\ w_trace (c_w c) = w_trace (c_w (fc_conf fc))) /\
    s_step (c_sc (fc_conf fc)) = s_step sc /\
    w_trace (c_w (fc_conf fc)) = w_trace w ++ new /\
    (forall id, goes_on new id <-> In id (map ev_id (s_events (c_sc (fc_conf fc)))) \/ f = (id, InClone)) /\
    forall more, exists fc',
      (fpar_step fu n ch (inter ++ more) sc w = FPanicked fc' \/ fpar_step fu n ch (inter ++ more) sc w = FRunning fc') /\
      fc_faults fc' = [f] /\ c_w (fc_conf fc') = c_w (fc_conf fc) /\ c_sc (fc_conf fc') = c_sc (fc_conf fc).
Proof. intros A S fu u n ch inter sc w fc H. apply (proj1 (proj2 (fpar_sim fu u n ch inter sc w H))). Qed.
Print Assumptions C130_parallel_panic.

(** What the panicking call did to the state stays; in the parallel build both mutexes are
    free again, and the queue's is poisoned (so every later call on the schedule panics)
    exactly if the agent panicked in its clone. *)
Theorem C130_state : forall A S (fu : fuser A S) ch sc w sc' w' f,
  fstep fu ch sc w = (sc', w', Some f) -> panicked_in fu (snd f) (w_st w').
Proof. intros A S fu ch sc w sc' w' f. apply fstep_left. Qed.
Print Assumptions C130_state.
Theorem C130_parallel_state : forall A S (fu : fuser A S) u n ch inter sc w fc f, same_until_panic fu u ->
  fpar_step fu n ch inter sc w = FPanicked fc \/ (fpar_step fu n ch inter sc w = FRunning fc /\ fc_faults fc <> []) ->
  fc_faults fc = [f] ->
  panicked_in fu (snd f) (w_st (c_w (fc_conf fc))) /\ c_lockS (fc_conf fc) = None /\ c_lockQ (fc_conf fc) = None /\
  (fc_poisonQ fc = true <-> snd f = InClone).
Proof.
  intros A S fu u n ch inter sc w fc [id x] H P F. destruct (fpar_left fu u n ch inter sc w fc H P) as (L1 & L2 & L3).
  rewrite F in *. destruct (L2 ltac:(discriminate)) as [L4 L5]. split; [apply L1; left; reflexivity|]. split; [exact L4|]. split; [exact L5|].
  rewrite L3. cbn [snd]. split; [intros (i & [K|[]]); congruence|intros ->; exists id; left; reflexivity].
Qed.
Print Assumptions C130_parallel_state.

(** Panics make nobody wait for ever: from any point the step comes to its end. *)
Theorem C130_no_deadlock : forall A S (fu : fuser A S) u n ch inter sc w fc, same_until_panic fu u ->
  fpar_step fu n ch inter sc w = FRunning fc ->
  exists more, (exists sc' w', fpar_step fu n ch (inter ++ more) sc w = FDone sc' w') \/
               (exists fc', fpar_step fu n ch (inter ++ more) sc w = FPanicked fc').
Proof. intros A S fu u n ch inter sc w fc H. apply (proj2 (proj2 (fpar_sim fu u n ch inter sc w H))). Qed.
Print Assumptions C130_no_deadlock.

(** ** Agents that did not panic are lost *)
(** The agent with value 9 panics in its step; the others do nothing. *)
Definition bomb : fuser N N :=
  FUser quiet (fun a s => Returns None a s) (fun a s => if (a =? 9)%N then Panics s else Returns tt a s)
    (fun a s => Returns None a s) (fun a s => Returns false a s) (fun _ => true).

(** Agents 0 (the bomb) and 1 are both scheduled repeatedly at time 0.  The program catches
    the panic and goes on, for as many steps as it likes: agent 1 is never called. *)
Theorem C130_lost_refuted : forall chs,
  let '(sc, w, fs) := facts bomb (ActApi (OpRepeating 9%N f0 0) :: ActApi (OpRepeating 5%N f0 1) :: ActStep ch0 :: map ActStep chs)
                        (sched_new, World 0%N [], []) in
  fs = [(0%N, InStep)] /\ s_events sc = [] /\ ran (w_trace w) = [0%N] /\
  s_step sc = Nat.iter (length chs) u64_succ 0%N.
Proof.
  intros chs. cbn [facts fold_left].
  match goal with |- context [fold_left _ _ ?c] => let v := eval vm_compute in c in change c with v end.
  match goal with |- context [(Sched _ ?t [] ?i, World ?s _, ?fs)] =>
    assert (G : forall chs k tr, ran tr = [0%N] ->
      let '(sc, w, fs') := facts bomb (map ActStep chs) (Sched k t [] i, World s tr, fs) in
      fs' = fs /\ s_events sc = [] /\ ran (w_trace w) = [0%N] /\ s_step sc = Nat.iter (length chs) u64_succ k) end.
  { induction chs0 as [|ch chs0 IH]; intros k tr Hr.
    - cbn. auto.
    - cbn [map facts fold_left fact].
      match goal with |- context [fstep bomb ch (Sched _ ?t [] ?i) ?w] =>
        assert (E : exists w', fstep bomb ch (Sched k t [] i) w = (Sched (u64_succ k) t [] i, w', None) /\ w_st w' = w_st w /\ ran (w_trace w') = ran (w_trace w)) end.
      { unfold fstep. cbn [f_base bomb s_step]. destruct (k =? 0)%N; cbn [call_before call_update quiet u_before u_update run_hprog s_events w_st w_trace];
          rewrite (proj2 (pq_peek_none (ch 0) []) eq_refl); cbn [finish_step call_after call_update quiet u_after run_hprog s_step s_time s_events s_ids];
          (eexists; split; [reflexivity|split; [reflexivity|]]); unfold ran; cbn; rewrite ?flat_map_app; cbn; rewrite ?app_nil_r; reflexivity. }
      destruct E as ([s' tr'] & E & Es & Et). rewrite E. cbn [w_st w_trace] in *. subst s'. rewrite app_nil_r.
      specialize (IH (u64_succ k) tr' ltac:(congruence)). unfold facts in IH. destruct (fold_left _ _ _) as [[sc2 w2] fs2].
      destruct IH as (I1 & I2 & I3 & I4). split; [exact I1|]. split; [exact I2|]. split; [exact I3|]. rewrite I4. cbn [length].
      clear. induction (length chs0) as [|m IH]; [reflexivity|]. cbn [Nat.iter nat_rect] in *. f_equal. exact IH. }
  refine (G chs _ _ _). reflexivity.
Qed.
Print Assumptions C130_lost_refuted.

(** The same in the parallel build, with one agent per thread: if the bomb comes first, the
    other agent is neither called nor queued. *)
Theorem C130_lost_parallel_refuted : exists fc,
  fpar_step bomb 2 ch0 [0; 0; 0; 1] (Sched 3 f0 [(AI 0 9%N true, Prio f0 0); (AI 1 5%N true, Prio f0 1)] 2) (World 0%N []) = FPanicked fc /\
  fc_faults fc = [(0%N, InStep)] /\ ran (w_trace (c_w (fc_conf fc))) = [0%N] /\ s_events (c_sc (fc_conf fc)) = [].
Proof. eexists. split; [vm_compute; reflexivity|]. vm_compute. auto. Qed.
Print Assumptions C130_lost_parallel_refuted.

(** A program without panics that does what the bomb does until it goes off; a step of the
    bomb with an agent before it, one after it and one that is not due. *)
Definition bomb_sc : sched N :=
  Sched 3 f0 [(AI 0 9%N true, Prio f0 1); (AI 1 5%N true, Prio f0 0); (AI 2 5%N true, Prio f0 2); (AI 3 5%N true, Prio f1 0)] 4.
Example C130_concrete :
  same_until_panic bomb quiet /\ unique_ids (s_events bomb_sc) /\ no_nan (s_events bomb_sc) /\
  (let '(sc, w, f) := fstep bomb ch0 bomb_sc (World 0%N []) in
   f = Some (0%N, InStep) /\ map ev_id (s_events sc) = [3; 1]%N /\
   w_trace w = [CStateBefore; CAgentBefore 1; CAgentStep 1; CAgentAfter 1; CAgentStopped 1 false; CAgentBefore 0; CAgentStep 0]) /\
  (exists fc, fpar_step bomb 2 ch0 (flat_map (fun _ => [0; 1]) (seq 0 15)) bomb_sc (World 0%N []) = FPanicked fc) /\
  (exists fc, fpar_step bomb 2 ch0 [1; 1; 1] bomb_sc (World 0%N []) = FRunning fc /\ fc_faults fc <> []).
Proof.
  split. { repeat split; intros a s r a' s'; cbn; try (destruct (a =? 9)%N; [discriminate|]); intros K; injection K as; subst; reflexivity. }
  split; [repeat constructor; cbn; intuition discriminate|].
  split; [intros e [<-|[<-|[<-|[<-|[]]]]]; reflexivity|].
  split; [vm_compute; auto|]. split; [eexists; vm_compute; reflexivity|].
  eexists. split; [vm_compute; reflexivity|discriminate].
Qed.
