(** * C126: no agent is lost or doubled in a distributed simulation *)
From Coq Require Import List Bool ZArith NArith Arith Lia Permutation.
From Verif Require Import F32 F32Facts F32Real SchedModel SchedSpec Grid ObjModel FieldModel FieldSpec FieldF32 FieldProps KdModel KdSpec KdProps
  MpiModel MpiSpec MpiProps FlockSpec DistModel DistSpec DistAll.
Import ListNotations.
Local Open Scope nat_scope.

Section Runs.
Variable A : arith.
Context {O : Type}.
Variable location : O -> num A * num A.
Variable key : O -> N.
Variable radius : O -> num A.
Variable rule : O -> list O -> O.
Variable p : nat.
Variable tree : nat -> kdtree A (O := O).
Variable born : nat -> list O.
Variable chs : nat -> nat -> nat -> nat.
(** All processes making two exchanges in each of [T] steps, under a schedule of the
    processes and of the network. *)
Definition dist_run (dummy : O) (T : nat) (cs : list choice) : option (state (O := O)) :=
  run p (partners A tree) (d_payload A location key radius rule p tree born chs) dummy (2 * T) false (start (partners A tree)) cs.
(** All have completed [t] steps. *)
Definition all_at (t : nat) (σ : state (O := O)) : Prop := forall r, r < p -> 2 * t <= length (p_log (procs σ r)).
(** Process [r] after [t] steps, in a run that has come to [σ]; its agents. *)
Definition process (σ : state (O := O)) (t r : nat) := d_run A location key radius rule p tree born chs r t (p_log (procs σ r)).
Definition agents_of (σ : state (O := O)) (t r : nat) : list O := queued (fst (process σ t r)).
End Runs.

Section Unpack.
Variable A : arith.
Context {O : Type}.
Variable location : O -> num A * num A.
Variable key : O -> N.
Variable radius : O -> num A.
Variable rule : O -> list O -> O.
Variable p : nat.
Variables x y w h d dist : num A.
Variable tree : nat -> kdtree A (O := O).
Variable born : nat -> list O.
Variable chs : nat -> nat -> nat -> nat.
Variable T : nat.
Hypothesis F : fits A location key rule p x y w h d dist tree born T.

Lemma unpack_net : network p (partners A tree).
Proof. destruct F as (GS & Hp & Made & _). eapply net; eassumption. Qed.
Lemma unpack_inv t : t <= T -> inv A location key radius rule p w h d tree born chs t.
Proof. destruct F as (GS & Hp & Made & Keys & Home & Key & Stays & Near & Few & Steps). intros Ht. eapply (inv_always A location key radius rule p x y w h d dist tree born chs T); eassumption. Qed.
Lemma unpack_step t : t < T -> forall r, r < p ->
  Permutation (queued (fst (settled A location key radius rule p tree born chs (S t) r)))
    (filter (lives_at A location p tree r) (everywhere p (fun r => queued (fst (middle A location key radius rule p tree born chs t r))))).
Proof. destruct F as (GS & Hp & Made & Keys & Home & Key & Stays & Near & Few & Steps). intros Ht. eapply (step_all A location key radius rule p x y w h d dist tree born chs T); try eassumption. apply unpack_inv. lia. Qed.
Lemma unpack_views t : t <= T -> exists K, (forall r, r < p -> tree_shows A location w h d (K r) (queued (fst (settled A location key radius rule p tree born chs t r)) ++ halo A location p tree (fun r => queued (fst (settled A location key radius rule p tree born chs t r))) r)) /\
  forall r, r < p -> Permutation (queued (fst (middle A location key radius rule p tree born chs t r))) (map (moves_to A location radius rule (K r)) (queued (fst (settled A location key radius rule p tree born chs t r)))).
Proof. destruct F as (GS & Hp & Made & Keys & Home & Key & Stays & Near & Few & Steps). intros Ht. eapply (views A location key radius rule p x y w h d dist tree born chs); try eassumption. apply unpack_inv. exact Ht. Qed.

Lemma reached_state dummy cs : exists σ, dist_run A location key radius rule p tree born chs dummy T cs = Some σ /\
  forall t, all_at p t σ -> t <= T /\ forall r, r < p -> process A location key radius rule p tree born chs σ t r = settled A location key radius rule p tree born chs t r.
Proof.
  destruct (C53_delivers_partial O p (partners A tree) (d_payload A location key radius rule p tree born chs) dummy (2 * T) unpack_net cs) as (σ & E & L).
  exists σ. split; [exact E|]. intros t Ht.
  assert (Hp : 2 <= p) by (destruct F as (_ & Hp & _); exact Hp). split.
  - destruct (L 0 ltac:(lia)) as [L0 _]. specialize (Ht 0 ltac:(lia)). lia.
  - intros r Hr. unfold process. destruct (L r Hr) as [_ ->]. apply settled_at. apply Ht. exact Hr.
Qed.
End Unpack.

(** Whatever the schedule of the processes and of the network, and however the queues break
    ties: when all processes have completed [t] steps, none of them has panicked; the keys of
    the agents in all queues together are those of the agents that were born, each once; and
    every agent is in the queue of the process whose block it is in. *)
Theorem C126_conserved_partial :
  forall (A : arith) (O : Type) location key radius rule p x y w h d dist tree (born : nat -> list O) chs T dummy,
    fits A location key rule p x y w h d dist tree born T -> forall cs,
    exists σ, dist_run A location key radius rule p tree born chs dummy T cs = Some σ /\
      forall t, all_at p t σ ->
        let state_of := process A location key radius rule p tree born chs σ t in
        let agents := agents_of A location key radius rule p tree born chs σ t in
        (forall r, r < p -> ps_panic (w_st (snd (state_of r))) = false) /\
        Permutation (map key (everywhere p agents)) (map key (everywhere p born)) /\
        (forall r o, r < p -> In o (agents r) -> in_field A w h d (location o) /\ lives_in A location p tree o = Some (Z.of_nat r)).
Proof.
  intros A O location key radius rule p x y w h d dist tree born chs T dummy F cs.
  destruct (reached_state A location key radius rule p x y w h d dist tree born chs T F dummy cs) as (σ & E & H).
  exists σ. split; [exact E|]. intros t Ht state_of agents. destruct (H t Ht) as [Tb Eq]. pose proof (unpack_inv A location key radius rule p x y w h d dist tree born chs T F t Tb) as I.
  assert (Ea : forall r, r < p -> agents r = queued (fst (settled A location key radius rule p tree born chs t r))) by (intros r Hr; unfold agents, agents_of; rewrite Eq by exact Hr; reflexivity).
  split; [|split].
  - intros r Hr. unfold state_of. rewrite Eq by exact Hr. destruct (proj1 I r Hr) as (_ & P & _). exact P.
  - rewrite <- (proj2 I). apply Permutation_map. unfold everywhere. apply flat_map_perm. intros r Hr. apply in_seq in Hr. rewrite Ea by lia. reflexivity.
  - intros r o Hr Ho. rewrite Ea in Ho by exact Hr. eapply pop_good; eassumption.
Qed.
Print Assumptions C126_conserved_partial.

(** The step in between: every process shows its agents its own agents and those of its
    neighbours that are in a halo region listed for it, all as they were at the start of the
    step; everyone moves by the rule; and each process ends up with exactly those of all the
    moved agents that are in its block. *)
Theorem C126_synchronous_partial :
  forall (A : arith) (O : Type) location key radius rule p x y w h d dist tree (born : nat -> list O) chs T dummy,
    fits A location key rule p x y w h d dist tree born T -> forall cs,
    exists σ, dist_run A location key radius rule p tree born chs dummy T cs = Some σ /\
      forall t, all_at p (S t) σ ->
        let before := agents_of A location key radius rule p tree born chs σ t in
        let after := agents_of A location key radius rule p tree born chs σ (S t) in
        exists seen : nat -> kdtree A,
          (forall r, r < p -> tree_shows A location w h d (seen r) (before r ++ halo A location p tree before r)) /\
          (forall r, r < p -> Permutation (after r)
             (filter (lives_at A location p tree r) (everywhere p (fun s => map (moves_to A location radius rule (seen s)) (before s))))).
Proof.
  intros A O location key radius rule p x y w h d dist tree born chs T dummy F cs.
  destruct (reached_state A location key radius rule p x y w h d dist tree born chs T F dummy cs) as (σ & E & H).
  exists σ. split; [exact E|]. intros t Ht before after. destruct (H (S t) Ht) as [Tb Eq].
  assert (Ht' : all_at p t σ) by (intros r Hr; specialize (Ht r Hr); lia). destruct (H t Ht') as [_ Eq'].
  assert (Ea : forall r, r < p -> after r = queued (fst (settled A location key radius rule p tree born chs (S t) r))) by (intros r Hr; unfold after, agents_of; rewrite Eq by exact Hr; reflexivity).
  assert (Eb : forall r, r < p -> before r = queued (fst (settled A location key radius rule p tree born chs t r))) by (intros r Hr; unfold before, agents_of; rewrite Eq' by exact Hr; reflexivity).
  destruct (unpack_views A location key radius rule p x y w h d dist tree born chs T F t ltac:(lia)) as (K & V1 & V2).
  exists K. split.
  - intros r Hr. specialize (V1 r Hr). rewrite Eb by exact Hr.
    replace (halo A location p tree before r) with (halo A location p tree (fun r => queued (fst (settled A location key radius rule p tree born chs t r))) r); [exact V1|].
    unfold halo. rewrite !flat_map_concat_map. f_equal. apply map_ext_in. intros s Hs. apply in_seq in Hs. rewrite Eb by lia. reflexivity.
  - intros r Hr. rewrite Ea by exact Hr. rewrite (unpack_step A location key radius rule p x y w h d dist tree born chs T F t ltac:(lia) r Hr).
    apply filter_perm. unfold everywhere. apply flat_map_perm. intros s Hs. apply in_seq in Hs. rewrite Eb by lia. apply V2. lia.
Qed.
Print Assumptions C126_synchronous_partial.

(** And all steps can be completed, whatever has happened so far. *)
Theorem C126_completes_partial :
  forall (A : arith) (O : Type) location key radius rule p x y w h d dist tree (born : nat -> list O) chs T dummy,
    fits A location key rule p x y w h d dist tree born T -> forall cs,
    exists cs' σ, dist_run A location key radius rule p tree born chs dummy T (cs ++ cs') = Some σ /\ mail σ = [] /\ all_at p T σ.
Proof.
  intros A O location key radius rule p x y w h d dist tree born chs T dummy F cs.
  destruct (C53_completes_partial O p (partners A tree) (d_payload A location key radius rule p tree born chs) dummy (2 * T) (unpack_net _ _ _ _ _ _ _ _ _ _ _ _ _ _ F) cs) as (cs' & σ & E & M & L).
  exists cs', σ. split; [exact E|]. split; [exact M|]. intros r Hr. rewrite L by exact Hr. rewrite ideal_length. reflexivity.
Qed.
Print Assumptions C126_completes_partial.

(** ** Examples with f32 *)
Definition blank : kdtree FA (O := obj) :=
  Kd (A := FA) (z 0) (z 0) (z 0) (z 0) (z 0) (z 0) [] [] 0%N 0%Z 0%Z (z 1) [] [] [] [] [] [] [] [] (z 0) 0%N false.
Definition sapling (p : nat) (dist : f32) (r : nat) : option (kdtree FA (O := obj)) := create_tree FA p (Z.of_nat r) 0 (z 0) (z 0) (z 128) (z 128) (z 8) dist.
Definition forest (p : nat) (dist : f32) : nat -> kdtree FA (O := obj) :=
  let trees := map (fun r => match sapling p dist r with Some k => k | None => blank end) (seq 0 p) in fun r => nth r trees blank.
Definition obj_key (o : obj) : N := N.of_nat (fst o).
Definition calm (_ _ _ : nat) : nat := 0.
(** Who is where after [t] steps, and the clocks. *)
Definition census (p : nat) (dist : f32) (rule : obj -> list obj -> obj) (born : nat -> list obj) (t : nat) : list (list nat * f32) :=
  map (fun r => let c := settled FA snd obj_key (fun _ => z 8) rule p (forest p dist) born calm t r in (map fst (queued (fst c)), s_time (fst c))) (seq 0 p).

(** Without the assumption that agents move at most into a neighbouring block an agent is
    lost: eight processes, one agent of process 0 that jumps into block 4. *)
Definition jump (o : obj) (_ : list obj) : obj := (fst o, (z 80, z 10)).
Definition one_born (r : nat) : list obj := match r with 0 => [at_ 1 10 10] | _ => [] end.
Theorem C126_jump_refuted :
  exists rule : obj -> list obj -> obj,
    (forall o l, obj_key (rule o l) = obj_key o) /\ (forall o l, inside FA (z 128) (z 128) (snd (rule o l))) /\
    flat_map fst (census 8 (z 2) rule one_born 0) = [1] /\ flat_map fst (census 8 (z 2) rule one_born 1) = [].
Proof. exists jump. split; [reflexivity|]. split; [intros; vm_compute; auto|]. split; vm_compute; reflexivity. Qed.
Print Assumptions C126_jump_refuted.

(** The clocks of the processes do not agree: a process without agents does not count steps.
    Here nobody moves, and the only agent is with process 0. *)
Theorem C126_clock_refuted :
  let rule := fun (o : obj) (_ : list obj) => o in
  map (fun t => census 2 (z 8) rule one_born t) [2; 3] = [[([1], z 1); ([], z 0)]; [([1], z 2); ([], z 0)]].
Proof. vm_compute. reflexivity. Qed.
Print Assumptions C126_clock_refuted.

(** Two processes with two agents each. An agent that sees nobody walks to one side of the
    border or to the other, one that sees one other walks to (30, 60), in the block of
    process 0, and one that sees more walks to (100, 100), in the block of process 1. *)
Definition hop (o : obj) (l : list obj) : obj :=
  (fst o, match l with [] => if Nat.even (fst o) then (z 60, z 60) else (z 68, z 60) | [_] => (z 30, z 60) | _ => (z 100, z 100) end).
Definition four (r : nat) : list obj := match r with 0 => [at_ 1 60 60; at_ 2 10 10] | 1 => [at_ 3 68 60; at_ 4 100 100] | _ => [] end.
Lemma planted p dist r : r < p -> match sapling p dist r with Some _ => true | None => false end = true -> sapling p dist r = Some (forest p dist r).
Proof.
  intros Hr H. unfold forest. set (f := fun r => match sapling p dist r with Some k => k | None => blank end).
  rewrite (nth_indep _ blank (f 0)) by (rewrite map_length, seq_length; exact Hr). rewrite map_nth, seq_nth by exact Hr. unfold f. cbn [Nat.add].
  destruct (sapling p dist r); [reflexivity|discriminate].
Qed.
Example C126_concrete :
  fits FA snd obj_key hop 2 (z 0) (z 0) (z 128) (z 128) (z 8) (z 8) (forest 2 (z 8)) four 1000 /\
  map (fun t => map fst (census 2 (z 8) hop four t)) [0; 1; 2; 3; 4] =
  [[[1; 2]; [3; 4]]; [[1; 2; 3; 4]; []]; [[2; 4]; [1; 3]]; [[]; [1; 3; 2; 4]]; [[2; 4]; [1; 3]]].
Proof.
  assert (U : usable (z 128) (z 128) (z 8)).
  { split; [apply pos_int; lia|]. split; [apply pos_int; lia|]. split; [apply pos_int; lia|]. change (cols FA (z 128) (z 8)) with 17%Z. lia. }
  assert (I : forall a b, In (a, b) [(60, 60); (10, 10); (68, 60); (100, 100); (30, 60)]%Z -> in_field FA (z 128) (z 128) (z 8) (z a, z b)).
  { intros a b Hn. destruct U as (U1 & U2 & U3 & U4 & U5 & U6). apply in_field_f32; try assumption; try (apply f_of_Z_valid).
    cbn [In] in Hn. destruct Hn as [Hn|[Hn|[Hn|[Hn|[Hn|[]]]]]]; injection Hn as <- <-; repeat split; vm_compute; reflexivity. }
  assert (B : forall n, lives_in FA snd 2 (forest 2 (z 8)) (n, (z 60, z 60)) = Some 0%Z /\ lives_in FA snd 2 (forest 2 (z 8)) (n, (z 10, z 10)) = Some 0%Z /\
    lives_in FA snd 2 (forest 2 (z 8)) (n, (z 30, z 60)) = Some 0%Z /\ lives_in FA snd 2 (forest 2 (z 8)) (n, (z 68, z 60)) = Some 1%Z /\
    lives_in FA snd 2 (forest 2 (z 8)) (n, (z 100, z 100)) = Some 1%Z).
  { intros n. repeat split; vm_compute; reflexivity. }
  assert (N0 : k_neighbor_trees (forest 2 (z 8) 0) = [1%Z]) by (vm_compute; reflexivity).
  assert (N1 : k_neighbor_trees (forest 2 (z 8) 1) = [0%Z]) by (vm_compute; reflexivity).
  split.
  - split; [apply usable_good; exact U|]. split; [lia|]. split.
    { intros r Hr. apply (planted 2 (z 8) r Hr). destruct r as [|[|r]]; [vm_compute; reflexivity|vm_compute; reflexivity|lia]. }
    split. { change (map obj_key (everywhere 2 four)) with [1; 2; 3; 4]%N. repeat constructor; cbn; intuition discriminate. }
    split.
    { intros r o Hr Ho. destruct r as [|[|r]]; [| |lia]; destruct Ho as [<-|[<-|[]]].
      - split; [apply (I 60 60)%Z; cbn; auto|exact (proj1 (B 1))].
      - split; [apply (I 10 10)%Z; cbn; auto|exact (proj1 (proj2 (B 2)))].
      - split; [apply (I 68 60)%Z; cbn; auto|exact (proj1 (proj2 (proj2 (proj2 (B 3)))))].
      - split; [apply (I 100 100)%Z; cbn; auto|exact (proj2 (proj2 (proj2 (proj2 (B 4)))))]. }
    split; [reflexivity|]. split.
    { intros o l _. unfold hop. destruct l as [|a [|b l]]; [match goal with |- context [if ?c then _ else _] => destruct c end; [apply (I 60 60)%Z|apply (I 68 60)%Z]|apply (I 30 60)%Z|apply (I 100 100)%Z]; cbn; auto 7. }
    split.
    { intros o l r Hr _ _. unfold hop. destruct (B (fst o)) as (B0 & _ & B3 & B1 & B4).
      assert (Q : forall b, b < 2 -> b = r \/ In (Z.of_nat b) (k_neighbor_trees (forest 2 (z 8) r))).
      { intros b Hb. destruct r as [|[|r]]; [rewrite N0|rewrite N1|lia]; destruct b as [|[|b]]; cbn; try lia; auto. }
      destruct l as [|a [|b l]]; [match goal with |- context [if ?c then _ else _] => destruct c end; [exists 0; split; [lia|]; split; [exact B0|]|exists 1; split; [lia|]; split; [exact B1|]]|exists 0; split; [lia|]; split; [exact B3|]|exists 1; split; [lia|]; split; [exact B4|]]; apply Q; lia. }
    split; vm_compute; reflexivity.
  - vm_compute. reflexivity.
Qed.

(** The flag tells a panic: an agent that leaves the field, and one that is born outside it. *)
Example C126_flag_concrete :
  map (fun t => ps_panic (w_st (snd (settled FA snd obj_key (fun _ => z 8) (fun o _ => (fst o, (z 200, z 200))) 2 (forest 2 (z 8)) one_born calm t 0)))) [0; 1] = [false; true] /\
  ps_panic (w_st (snd (settled FA snd obj_key (fun _ => z 8) (fun o _ => o) 2 (forest 2 (z 8)) (fun _ => [at_ 1 200 200; at_ 2 10 10]) calm 0 0))) = true.
Proof. split; vm_compute; reflexivity. Qed.
