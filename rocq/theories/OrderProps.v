(** * Property theorems: the order of agents that are due together (C116-C118) *)
From Coq Require Import List Bool ZArith NArith Arith Lia Permutation RelationClasses.
From Verif Require Import F32 F32Facts SchedModel SchedSpec SchedProofs SchedStep SchedExamples
  SimModel SimSpec ParModel ParSpec ParProofs Grid NumModel ObjModel FieldModel
  OrderSpec OrderProofs OrderModels OrderInst.
Import ListNotations.
Local Open Scope nat_scope.

(** ** C116: if the agents do not disturb each other ([independent]), how the queue breaks
    ties ([chs], [chs'], any) does not show: after the same number of steps the states are
    the same and the queues have the same content.  Distinctness is only asked of one of
    the two runs. *)
Theorem C116_steps :
  forall A S K (u : user A S) (key : A -> K) (same : S -> S -> Prop),
  independent u key same -> step_hooks (fun _ => True) answer_same u same ->
  forall (chs chs' : list (nat -> nat)) (sc sc' : sched A) (w w' : world A S),
  length chs = length chs' ->
  unique_ids (s_events sc) -> sched_same sc sc' -> same (w_st w) (w_st w') ->
  along u (distinct_agents key) chs sc w ->
  sched_same (fst (after_steps u chs sc w)) (fst (after_steps u chs' sc' w')) /\
  same (w_st (snd (after_steps u chs sc w))) (w_st (snd (after_steps u chs' sc' w'))).
Proof.
  intros A S K u key same I H chs chs' sc sc' w w' L U E Hs Al.
  exact (steps_same u key same I H chs chs' sc sc' w w' L U E Hs Al).
Qed.
Print Assumptions C116_steps.

(** The same for [simulate!]: every repetition makes the same number of steps, and the
    final states are the same. *)
Theorem C116_simulate :
  forall A S K (u : user A S) (key : A -> K) (same : S -> S -> Prop),
  independent u key same -> step_hooks (fun _ => True) answer_same u same -> sim_hooks u same ->
  forall (chs chs' : nat -> nat -> nat -> nat) (n reps : nat) (s : S),
  reps_along u (distinct_agents key) chs 0 reps n (World s []) ->
  fst (simulate u chs n reps s) = fst (simulate u chs' n reps s) /\
  same (w_st (snd (simulate u chs n reps s))) (w_st (snd (simulate u chs' n reps s))).
Proof.
  intros A S K u key same I H H' chs chs' n reps s Al. unfold simulate.
  apply (sim_reps_same u key same I H H' chs chs' n reps 0 (World s []) (World s [])); [|exact Al].
  apply (ind_equiv _ _ _ I).
Qed.
Print Assumptions C116_simulate.

(** Without independence it is false: two agents at the same time with the same ordering
    write the same place, and the tie-break decides which value stays. *)
Definition last_writer : user N N :=
  User (fun s => HCall (OpRepeating 1%N f0 0) (fun _ => HCall (OpRepeating 2%N f0 0) (fun _ => HRet s)))
       (fun _ s => s) (fun s => HRet s) (fun s => HRet s) (fun s => HRet (false, s))
       (fun a s => (a, s)) (fun a s => (a, a)) (fun a s => (a, s)) (fun a s => (false, (a, s))).
Theorem C116_shared_refuted :
  exists chs chs', w_st (snd (simulate last_writer chs 1 1 0%N)) <> w_st (snd (simulate last_writer chs' 1 1 0%N)).
Proof. exists (fun _ _ _ => 0), (fun _ _ _ => 1). vm_compute. discriminate. Qed.
Print Assumptions C116_shared_refuted.

(** Three agents that count in their own slot of the state, and a hook that reads the
    time: all hypotheses hold, and two different tie-breaks really run the agents in
    different orders. *)
Definition slots : user (N * N) (N -> N) :=
  User (fun s => schedule_all [(7, 1); (8, 2); (9, 3)]%N s)
       (fun _ s => s)
       (fun s => HCall OpReadTime (fun _ => HRet s))
       (fun s => HRet s) (fun s => HRet (false, s))
       (fun a s => (a, s))
       (fun a s => ((fst a, snd a + 1)%N, fun i => if N.eqb i (fst a) then (s i + snd a)%N else s i))
       (fun a s => (a, s)) (fun a s => (false, (a, s))).
Definition slots_same (s s' : N -> N) : Prop := forall i, s i = s' i.
Definition slots_w : world (N * N) (N -> N) := World (fun _ => 0%N) [].
Definition slots_sc : sched (N * N) := fst (call_init slots sched_new slots_w).
Example C116_concrete :
  independent slots fst slots_same /\ step_hooks (fun _ => True) answer_same slots slots_same /\
  sim_hooks slots slots_same /\
  along slots (distinct_agents fst) [fun _ => 0; fun _ => 0] slots_sc slots_w /\
  ran (w_trace (snd (after_steps slots [fun _ => 0] slots_sc slots_w))) = [0; 1; 2]%N /\
  ran (w_trace (snd (after_steps slots [fun _ => 1] slots_sc slots_w))) = [1; 2; 0]%N.
Proof.
  split.
  { split.
    - split; [intros s i; reflexivity|intros s s' H i; symmetry; apply H|intros a b c H H' i; rewrite H; apply H'].
    - intros r a s s' H. split; [destruct r; reflexivity|]. destruct r; intros i; cbn; rewrite (H i); reflexivity.
    - intros n s s' H. exact H.
    - intros r r' a b s D. destruct r, r'; reflexivity.
    - intros r r' a b s D i. destruct r, r'; cbn;
        destruct (N.eqb_spec i (fst a)), (N.eqb_spec i (fst b)); try reflexivity; congruence. }
  split. { intros s s' H. split; [constructor; [exact I|]; intros; constructor; exact H|constructor; exact H]. }
  split. { intros s s' H. split; [apply schedule_all_same; auto|constructor; split; [reflexivity|exact H]]. }
  split; [|vm_compute; auto].
  assert (D : forall q : list (event (N * N)), map (fun e => fst (ai_agent (fst e))) q = [7; 8; 9]%N ->
              forallb (fun e => negb (f32_is_nan (ev_time e))) q = true -> distinct_agents fst q).
  { intros q E1 E2. split; [rewrite E1; repeat constructor; cbn; intuition discriminate|].
    intros e He. rewrite forallb_forall in E2. specialize (E2 e He). destruct (f32_is_nan (ev_time e)); [discriminate|reflexivity]. }
  cbn [along]. repeat split; apply D; vm_compute; reflexivity.
Qed.

(** ** C117: for independent agents that are all due at the same time, the parallel build
    computes what the sequential build computes, whatever the interleavings of its
    threads. *)
Theorem C117_parallel_same :
  forall A S K (u : user A S) (key : A -> K) (same : S -> S -> Prop),
  independent u key same -> step_hooks both_builds answer_par u same ->
  forall (threads : nat) (l : list ((nat -> nat) * list nat)) (chs : list (nat -> nat))
         (sc sc2 : sched A) (w w2 : world A S),
  length l = length chs ->
  unique_ids (s_events sc) ->
  along u (fun q => distinct_agents key q /\ one_time q) chs sc w ->
  par_steps u threads l sc w = Some (sc2, w2) ->
  sched_same sc2 (fst (after_steps u chs sc w)) /\
  same (w_st w2) (w_st (snd (after_steps u chs sc w))).
Proof.
  intros A S K u key same I H threads l chs sc sc2 w w2 L U Al F.
  apply (par_steps_same u key same I H threads l chs sc sc sc2 w w w2 L U); auto.
  - repeat split; auto.
  - apply (ind_equiv _ _ _ I).
Qed.
Print Assumptions C117_parallel_same.

(** And it does get there: as long as somebody is scheduled in every step, the parallel
    steps complete under suitable interleavings, whatever the tie-breaks. *)
Theorem C117_completes :
  forall A S K (u : user A S) (key : A -> K) (same : S -> S -> Prop),
  independent u key same -> step_hooks both_builds answer_par u same ->
  forall (threads : nat) (pchs chs : list (nat -> nat)) (sc : sched A) (w : world A S),
  threads <> 0 -> length pchs = length chs -> unique_ids (s_events sc) ->
  along u (fun q => (distinct_agents key q /\ one_time q) /\ q <> []) chs sc w ->
  exists l sc2 w2, map fst l = pchs /\ par_steps u threads l sc w = Some (sc2, w2).
Proof.
  intros A S K u key same I H threads pchs chs sc w Ht L U Al.
  assert (G : forall pchs chs (sc' sc : sched A) (w' w : world A S), length pchs = length chs ->
     unique_ids (s_events sc') -> sched_same sc' sc -> same (w_st w') (w_st w) ->
     along u (fun q => (distinct_agents key q /\ one_time q) /\ q <> []) chs sc w ->
     exists l sc2 w2, map fst l = pchs /\ par_steps u threads l sc' w' = Some (sc2, w2)).
  2:{ apply (G pchs chs sc sc w w L U); auto. { repeat split; auto. } apply (ind_equiv _ _ _ I). }
  clear pchs chs sc w L U Al. induction pchs as [|pc pchs IH]; intros [|ch chs] sc' sc w' w L U E Hs Al; try discriminate.
  { exists [], sc', w'. auto. }
  destruct Al as [[[D O] Ne] Al].
  assert (X : exists inter sc1 w1, par_step u threads pc inter sc' w' = PDone sc1 w1).
  { destruct (par_step u threads pc [] sc' w') as [?| |c|sc1 w1] eqn:F.
    - exfalso. unfold par_step in F.
      pose proof (st0_same u key same I sc' sc w' w (proj1 E) Hs) as H0.
      destruct (H _ _ H0) as [Hb _]. destruct (par_run_same same _ _ Hb sc' sc U E) as [(_ & _ & _ & P) _].
      unfold queue_before in Ne. fold (st0 u sc w) in Ne.
      assert (E0 : w_st (if N.eqb (s_step sc') 0 then call_update u (s_step sc') w' else w') = st0 u sc' w').
      { unfold st0. destruct (N.eqb_spec (s_step sc') 0) as [Z|Z]; [rewrite Z; reflexivity|reflexivity]. }
      rewrite E0 in F. destruct (par_run_hprog (u_before u (st0 u sc' w')) sc') as [[sc1 s1] l1]. cbn [fst] in P.
      destruct (pq_peek (pc 0) (s_events sc1)) as [e|] eqn:Pk.
      + destruct threads; [discriminate|]. destruct (finished _); [|discriminate].
        destruct (par_run_hprog (u_after u _) _) as [[? ?] ?]. discriminate.
      + apply pq_peek_none in Pk. rewrite Pk in P. apply Permutation_nil in P. contradiction.
    - exfalso. unfold par_step in F. destruct (par_run_hprog _ sc') as [[sc1 s1] l1].
      destruct (pq_peek (pc 0) (s_events sc1)) as [e|]; [|discriminate].
      destruct threads; [congruence|]. destruct (finished _); [|discriminate].
      destruct (par_run_hprog (u_after u _) _) as [[? ?] ?]. discriminate.
    - destruct (par_step_progress u threads pc [] sc' w' c F) as (more & sc1 & w1 & F'). eauto.
    - eauto. }
  destruct X as (inter & sc1 & w1 & F).
  destruct (par_step_same u key same I H threads pc inter ch sc' sc sc1 w' w w1 U E Hs D O F) as (U1 & E1 & S1).
  injection L as L.
  destruct (IH chs sc1 _ w1 _ L U1 E1 S1 Al) as (l & sc2 & w2 & M & F2).
  exists ((pc, inter) :: l), sc2, w2. cbn. rewrite M, F. auto.
Qed.
Print Assumptions C117_completes.

(** Two steps of the three agents on two threads whose steps alternate. *)
Definition C117_inter : list nat := flat_map (fun _ => [1; 0; 1; 0]) (seq 0 30).
Example C117_concrete :
  step_hooks both_builds answer_par slots slots_same /\
  match par_steps slots 2 [(fun _ => 1, C117_inter); (fun _ => 0, C117_inter)] slots_sc slots_w with
  | Some (_, w2) => ran (w_trace w2) = [2; 1; 0; 1; 2; 0]%N /\ map (w_st w2) [7; 8; 9]%N = [3; 5; 7]%N
  | None => False
  end /\
  map (w_st (snd (after_steps slots [fun _ => 0; fun _ => 0] slots_sc slots_w))) [7; 8; 9]%N = [3; 5; 7]%N.
Proof.
  split; [|vm_compute; auto].
  intros s s' H. split; [constructor; [exact I|]; intros; constructor; exact H|constructor; exact H].
Qed.

(** ** C118: two families of simulations on buffered fields do not depend on the order of
    agents due together: their agents look only at what was published at the end of the
    last step. *)
(** Agents that own a cell of a SparseNumberGrid2D: whatever they read and compute, every
    query by location has the same answer in the final grids. *)
Theorem C118_number_grid :
  forall T X (look : loc * X -> list loc) (rule : loc * X -> list (option T) -> X * option T)
         (stops : loc * X -> bool) (ends : list (option T) -> bool) (watch : list loc) (agents : list (loc * X)),
  NoDup (map fst agents) ->
  forall (chs chs' : nat -> nat -> nat -> nat) (n reps : nat) (g : sgrid T),
  let u := cell_user look rule stops ends watch agents in
  fst (simulate u chs n reps g) = fst (simulate u chs' n reps g) /\
  grid_same (w_st (snd (simulate u chs n reps g))) (w_st (snd (simulate u chs' n reps g))).
Proof. intros T X look rule stops ends watch agents Nd chs chs' n reps g. apply cell_reps. exact Nd. Qed.
Print Assumptions C118_number_grid.

(** Agents that move in a Field2D, if what they compute does not depend on the order in
    which their neighbours are listed: the final fields have the same objects in every
    bag, and one run panics iff the other does. *)
Theorem C118_field_partial :
  forall (A : arith) O K (location : O -> num A * num A) (radius : O -> num A) (rule : O -> list O -> O)
         (stops : O -> bool) (agents : list O) (key : O -> K),
  (forall o l l', Permutation l l' -> rule o l = rule o l') ->
  (forall o l, key (rule o l) = key o) -> NoDup (map key agents) ->
  forall (chs chs' : nat -> nat -> nat -> nat) (n reps : nat) (s : @field2d A O * bool),
  let u := mover_user A location radius rule stops agents in
  fst (simulate u chs n reps s) = fst (simulate u chs' n reps s) /\
  mover_same (w_st (snd (simulate u chs n reps s))) (w_st (snd (simulate u chs' n reps s))).
Proof.
  intros A O K location radius rule stops agents key Hr Hk Nd chs chs' n reps s.
  exact (mover_reps A location radius rule stops agents key Hr Hk chs chs' n reps s Nd).
Qed.
Print Assumptions C118_field_partial.

(** For rules that do depend on it, such as a sum of f32 over the neighbours (the flockers
    of tests/model sum over theirs), the order shows: three agents in one place, with the
    masses 2^24, 1 and 1, each recording the sum of the masses around it. *)
Record grain := Grain { g_id : nat; g_mass : f32; g_sum : f32 }.
Definition grain_rule (o : grain) (l : list grain) : grain :=
  Grain (g_id o) (g_mass o) (fold_left fadd (map g_mass l) f0).
Definition grains : list grain := [Grain 0 (f_of_Z 16777216) f0; Grain 1 f1 f0; Grain 2 f1 f0].
Definition grain_user : user grain (@field2d f32_arith grain * bool) :=
  mover_user f32_arith (fun _ => (f1, f1)) (fun _ => f2) grain_rule (fun _ => false) grains.
Definition grain_start : @field2d f32_arith grain * bool :=
  (f_new f32_arith (f_of_Z 4) (f_of_Z 4) f2 false, false).
Definition sums (s : @field2d f32_arith grain * bool) : option (list f32) :=
  option_map (map g_sum) (f_get f32_arith (fst s) (f1, f1)).
Theorem C118_order_of_neighbours_refuted :
  exists (chs chs' : nat -> nat -> nat -> nat),
  sums (w_st (snd (simulate grain_user chs 2 1 grain_start))) = Some (repeat (f_of_Z 16777216) 3) /\
  sums (w_st (snd (simulate grain_user chs' 2 1 grain_start))) = Some (repeat (f_of_Z 16777218) 3).
Proof. exists (fun _ _ _ => 0), (fun _ _ _ => 1). vm_compute. auto. Qed.
Print Assumptions C118_order_of_neighbours_refuted.

(** Concrete cases: two agents of a number grid that read each other's cell; the same
    three grains with a rule that only counts its neighbours. *)
Definition swap_user : user (loc * N) (sgrid N) :=
  cell_user (fun a => [(1 - fst (fst a), 0)]%Z)
    (fun a r => match r with [Some v] => (snd a, Some (v + snd a)%N) | _ => (snd a, Some (snd a)) end)
    (fun _ => false) (fun _ => false) [] [((0, 0)%Z, 5%N); ((1, 0)%Z, 7%N)].
Definition count_rule (o : grain) (l : list grain) : grain :=
  Grain (g_id o) (g_mass o) (f_of_Z (Z.of_nat (length l))).
Example C118_concrete :
  NoDup (map fst [((0, 0)%Z, 5%N); ((1, 0)%Z, 7%N)]) /\
  map (sg_get (w_st (snd (simulate swap_user (fun _ _ _ => 1) 3 1 (sg_new 2 1))))) [(0, 0)%Z; (1, 0)%Z] = [Some 17%N; Some 19%N] /\
  (forall o l l', Permutation l l' -> count_rule o l = count_rule o l') /\ NoDup (map g_id grains) /\
  sums (w_st (snd (simulate (mover_user f32_arith (fun _ => (f1, f1)) (fun _ => f2) count_rule (fun _ => false) grains)
    (fun _ _ _ => 1) 2 1 grain_start))) = Some (repeat (f_of_Z 3) 3).
Proof.
  split; [repeat constructor; cbn; intuition discriminate|]. split; [vm_compute; reflexivity|].
  split; [|split; [repeat constructor; cbn; intuition discriminate|vm_compute; reflexivity]].
  intros o l l' P. unfold count_rule. rewrite (Permutation_length P). reflexivity.
Qed.
