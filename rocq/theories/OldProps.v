(** * Property theorems: simulate_mpi! and simulate_old! (C114-C115) *)
From Coq Require Import List Bool Arith NArith ZArith Lia.
From Verif Require Import F32 SchedModel SchedSpec SchedExamples SimModel VisSpec VisProofs OldModel.
Import ListNotations.
Local Open Scope N_scope.

(** ** C114: simulate_mpi! *)
(** How often [end_condition] answered no. *)
Definition noes {A} (l : list (call A)) : list (call A) := filter (fun c => match c with CEnd false => true | _ => false end) l.
Lemma noes_free {A} (l : list (call A)) : free l -> noes l = [].
Proof.
  intros F. unfold free, without_end, noes in *. induction l as [|c l IH]; [reflexivity|]. cbn in *. destruct (is_end c) eqn:E; cbn in F.
  - exfalso. assert (L : (List.length (filter (fun c => negb (is_end c)) l) <= List.length l)%nat) by (generalize (fun c : call A => negb (is_end c)); clear; intros f; induction l as [|x l IH]; [cbn; lia|]; cbn [filter]; destruct (f x); cbn [List.length]; lia). rewrite F in L. cbn in L. lia.
  - injection F as F. rewrite IH by exact F. destruct c; try reflexivity. discriminate.
Qed.
Lemma noes_app {A} (l l' : list (call A)) : noes (l ++ l') = noes l ++ noes l'.
Proof. apply filter_app. Qed.
Section Mpi.
Context {A S : Type}.
Variable u : user A S.
Lemma loop_ops chs : forall n i sc (w : world A S),
  fst (mpi_loop u chs i n sc w) = sim_loop u chs i n sc w /\
  exists k, snd (mpi_loop u chs i n sc w) = repeat Barrier k /\ noes (w_trace (snd (sim_loop u chs i n sc w))) = noes (w_trace w) ++ repeat (CEnd false) k.
Proof.
  induction n as [|n IH]; intros i sc w; [split; [reflexivity|exists O; cbn; rewrite app_nil_r; auto]|]. cbn [mpi_loop sim_loop]. destruct w as [s tr]. rewrite step_trace.
  pose proof (free_step u (chs i) sc (World s []) eq_refl) as FR. destruct (step u (chs i) sc (World s [])) as [sc1 w1]. cbn [snd] in FR. unfold after2, after. cbn [fst snd].
  unfold call_end. cbn [w_st w_trace]. destruct (run_hprog (u_end u (w_st w1)) sc1) as [[sc2 [b s2]] log]. destruct b.
  - split; [reflexivity|]. exists O. cbn [snd w_trace repeat]. split; [reflexivity|]. rewrite !noes_app, (noes_free _ FR). change (noes (CEnd true :: api log)) with (noes (api log)). rewrite (noes_free _ (free_api log)), !app_nil_r. reflexivity.
  - match goal with |- context[mpi_loop u chs (Datatypes.S i) n sc2 ?w] => destruct (IH (Datatypes.S i) sc2 w) as (E & k & K1 & K2); destruct (mpi_loop u chs (Datatypes.S i) n sc2 w) as [r ops] end.
    cbn [fst snd] in *. split; [exact E|]. exists (Datatypes.S k). cbn [repeat]. rewrite K1. split; [reflexivity|]. rewrite K2. cbn [w_trace]. rewrite !noes_app, (noes_free _ FR).
    change (noes (CEnd false :: api log)) with (CEnd false :: noes (api log)). rewrite (noes_free _ (free_api log)). cbn. rewrite <- !app_assoc. reflexivity.
Qed.
Lemma reps_ops chs n : forall reps r (w : world A S), fst (mpi_reps u chs r reps n w) = sim_reps u chs r reps n w /\
  (reps = 1%nat -> exists k, snd (mpi_reps u chs r reps n w) = repeat Barrier k ++ [Finalize] /\ noes (w_trace (snd (sim_reps u chs r reps n w))) = noes (w_trace w) ++ repeat (CEnd false) k).
Proof.
  induction reps as [|reps IH]; intros r w; [split; [reflexivity|discriminate]|]. cbn [mpi_reps sim_reps]. unfold sim_rep.
  assert (NI : noes (w_trace (snd (call_init u sched_new w))) = noes (w_trace w)).
  { unfold call_init. destruct (run_hprog (u_init u (w_st w)) sched_new) as [[sc' s'] log]. cbn [snd w_trace]. rewrite noes_app. change (noes (CInit :: api log)) with (noes (api log)). rewrite (noes_free _ (free_api log)). apply app_nil_r. }
  destruct (call_init u sched_new w) as [sc w1]. cbn [snd] in NI.
  destruct (loop_ops (chs r) n O sc w1) as (E & k & K1 & K2). rewrite <- E in K2 |- *. destruct (mpi_loop u (chs r) O n sc w1) as [[sc' w2] ops]. cbn [fst snd] in *.
  destruct (IH (Datatypes.S r) w2) as [E2 _]. rewrite <- E2. destruct (mpi_reps u chs (Datatypes.S r) reps n w2) as [[l w3] ops'] eqn:R. cbn [fst snd] in *. split; [reflexivity|].
  intros X. injection X as ->. cbn in R. injection R as <- <- <-. exists k. rewrite K1, K2, NI. auto.
Qed.
End Mpi.
(** Each process runs what [simulate!] runs, and process 0 returns the steps of each run. *)
Theorem C114_same :
  forall A S (u : user A S) rank chs n reps s,
    let r := fst (simulate_mpi rank u chs n reps s) in
    snd r = snd (simulate u chs n reps s) /\ fst r = (if Nat.eqb rank 0 then fst (simulate u chs n reps s) else []).
Proof.
  intros A S u rank chs n reps s r. unfold r, simulate_mpi, simulate. destruct (reps_ops u chs n reps O (World s [])) as [E _]. rewrite <- E.
  destruct (mpi_reps u chs 0 reps n (World s [])) as [[l w] ops]. split; reflexivity.
Qed.
Print Assumptions C114_same.

Definition procs (krs : list (nat * list mop)) : list (list mop) := map (fun kr => repeat Barrier (fst kr) ++ Finalize :: snd kr) krs.
Definition agree (krs : list (nat * list mop)) : bool := match krs with [] => true | kr :: _ => forallb (fun kr' => Nat.eqb (fst kr') (fst kr)) krs end.
Definition empty (p : list mop) : bool := match p with [] => true | _ => false end.
Lemma agree_spec krs : agree krs = true <-> forall p q, In p krs -> In q krs -> fst p = fst q.
Proof.
  unfold agree. destruct krs as [|kr krs]; [split; [intros _ p q []|reflexivity]|]. rewrite forallb_forall. split.
  - intros H p q P Q. apply H in P, Q. apply Nat.eqb_eq in P, Q. congruence.
  - intros H p P. apply Nat.eqb_eq. apply H; [exact P|left; reflexivity].
Qed.
Lemma together_end fuel ps : together fuel true ps = if forallb empty ps then Done else Abort.
Proof. destruct fuel; cbn; fold empty; destruct (forallb _ ps); reflexivity. Qed.
Lemma together_procs : forall fuel krs, (exists kr, In kr krs /\ (fst kr < fuel)%nat) ->
  together fuel false (procs krs) = if agree krs then (if forallb empty (map snd krs) then Done else Abort) else Deadlock.
Proof.
  induction fuel as [|fuel IH]; intros krs (kr & IN & LT); [lia|]. cbn [together].
  assert (NE : forallb (fun p : list mop => match p with [] => true | _ => false end) (procs krs) = false).
  { destruct (forallb _ (procs krs)) eqn:E; [|reflexivity]. rewrite forallb_forall in E. specialize (E (repeat Barrier (fst kr) ++ Finalize :: snd kr)).
    assert (X : In (repeat Barrier (fst kr) ++ Finalize :: snd kr) (procs krs)) by (apply in_map with (f := fun kr => repeat Barrier (fst kr) ++ Finalize :: snd kr); exact IN).
    apply E in X. destruct (repeat Barrier (fst kr)); discriminate. }
  rewrite NE. destruct (forallb is_barrier (procs krs)) eqn:B.
  - assert (POS : forall p, In p krs -> (0 < fst p)%nat).
    { intros p P. rewrite forallb_forall in B. specialize (B _ (in_map (fun kr => repeat Barrier (fst kr) ++ Finalize :: snd kr) krs p P)). destruct (fst p); [discriminate|lia]. }
    assert (T : map (@tl mop) (procs krs) = procs (map (fun p => (Nat.pred (fst p), snd p)) krs)).
    { unfold procs. rewrite !map_map. apply map_ext_in. intros p P. specialize (POS p P). cbn. destruct (fst p); [lia|reflexivity]. }
    rewrite T, IH.
    + rewrite map_map. cbn [snd]. assert (AG : agree (map (fun p => (Nat.pred (fst p), snd p)) krs) = agree krs).
      { apply eq_true_iff_eq. rewrite !agree_spec. split.
        - intros H p q P Q. specialize (H _ _ (in_map (fun p => (Nat.pred (fst p), snd p)) _ _ P) (in_map (fun p => (Nat.pred (fst p), snd p)) _ _ Q)). cbn in H. apply POS in P, Q. lia.
        - intros H p q P Q. apply in_map_iff in P, Q. destruct P as (p' & <- & P), Q as (q' & <- & Q). cbn. rewrite (H p' q' P Q). reflexivity. }
      rewrite AG. reflexivity.
    + exists (Nat.pred (fst kr), snd kr). split; [apply in_map with (f := fun p => (Nat.pred (fst p), snd p)); exact IN|]. cbn. specialize (POS kr IN). lia.
  - destruct (forallb is_finalize (procs krs)) eqn:F.
    + assert (Z : forall p, In p krs -> fst p = O).
      { intros p P. rewrite forallb_forall in F. specialize (F _ (in_map (fun kr => repeat Barrier (fst kr) ++ Finalize :: snd kr) krs p P)). destruct (fst p); [reflexivity|discriminate]. }
      assert (AG : agree krs = true) by (apply agree_spec; intros p q P Q; rewrite (Z p P), (Z q Q); reflexivity). rewrite AG, together_end.
      replace (map (@tl mop) (procs krs)) with (map snd krs); [reflexivity|]. unfold procs. rewrite map_map. apply map_ext_in. intros p P. rewrite (Z p P). reflexivity.
    + destruct (agree krs) eqn:AG; [|reflexivity]. exfalso. rewrite agree_spec in AG. destruct (fst kr) as [|k] eqn:K.
      * assert (FF : forallb is_finalize (procs krs) = true); [|congruence]. apply forallb_forall. intros p P. apply in_map_iff in P. destruct P as (q & <- & Q). rewrite (AG q kr Q IN), K. reflexivity.
      * assert (FF : forallb is_barrier (procs krs) = true); [|congruence]. apply forallb_forall. intros p P. apply in_map_iff in P. destruct P as (q & <- & Q). rewrite (AG q kr Q IN), K. reflexivity.
Qed.
Lemma run_procs krs : krs <> [] -> run_together (procs krs) = if agree krs then (if forallb empty (map snd krs) then Done else Abort) else Deadlock.
Proof.
  intros N. destruct krs as [|kr krs]; [congruence|]. unfold run_together. apply together_procs. exists kr. split; [left; reflexivity|].
  unfold procs. cbn [map concat]. rewrite !app_length, repeat_length. cbn. lia.
Qed.
(** With one repetition the processes complete if [end_condition] has said no equally often
    in all of them, and otherwise they wait for each other for ever. *)
Theorem C114_completes_partial :
  forall A S (u : user A S) n (ranks : list ((nat -> nat -> nat -> nat) * S)), ranks <> [] ->
    let run p := simulate_mpi 0 u (fst p) n 1 (snd p) in
    let count p := List.length (noes (w_trace (snd (simulate u (fst p) n 1 (snd p))))) in
    ((forall p q, In p ranks -> In q ranks -> count p = count q) -> run_together (map (fun p => snd (run p)) ranks) = Done) /\
    (forall p q, In p ranks -> In q ranks -> count p <> count q -> run_together (map (fun p => snd (run p)) ranks) = Deadlock).
Proof.
  intros A S u n ranks NE run count.
  assert (OP : forall p, snd (run p) = repeat Barrier (count p) ++ [Finalize]).
  { intros p. unfold run, count, simulate_mpi, simulate. destruct (reps_ops u (fst p) n 1 O (World (snd p) [])) as (_ & K). destruct (K eq_refl) as (k & K1 & K2).
    rewrite K2. cbn [w_trace]. change (noes []) with (@nil (call A)). cbn [app]. rewrite repeat_length. destruct (mpi_reps u (fst p) 0 1 n (World (snd p) [])) as [[l w] ops]. exact K1. }
  assert (M : map (fun p => snd (run p)) ranks = procs (map (fun p => (count p, [])) ranks)) by (unfold procs; rewrite map_map; apply map_ext; intros p; rewrite OP; reflexivity).
  rewrite M, run_procs by (destruct ranks; [congruence|discriminate]).
  assert (EE : forallb empty (map snd (map (fun p => (count p, @nil mop)) ranks)) = true) by (rewrite map_map; apply forallb_forall; intros x X; apply in_map_iff in X; destruct X as (y & <- & _); reflexivity).
  rewrite EE. split.
  - intros H. replace (agree _) with true; [reflexivity|]. symmetry. apply agree_spec. intros p q P Q. apply in_map_iff in P, Q. destruct P as (p' & <- & P), Q as (q' & <- & Q). cbn. apply H; assumption.
  - intros p q P Q D. destruct (agree _) eqn:AG; [|reflexivity]. exfalso. apply D. rewrite agree_spec in AG. specialize (AG (count p, []) (count q, []) (in_map (fun p => (count p, [])) _ _ P) (in_map (fun p => (count p, [])) _ _ Q)). exact AG.
Qed.
Print Assumptions C114_completes_partial.
(** Two processes whose simulations end after a different number of steps: [demo] started
    from 0 and from 3. *)
Theorem C114_end_refuted :
  fst (simulate demo (fun _ _ => ch0) 6 1 0) = [4] /\ fst (simulate demo (fun _ _ => ch0) 6 1 3) = [3] /\
  run_together (map (fun s => snd (simulate_mpi 0 demo (fun _ _ => ch0) 6 1 s)) [0; 3]) = Deadlock.
Proof. split; [vm_compute; reflexivity|]. split; vm_compute; reflexivity. Qed.
Print Assumptions C114_end_refuted.
(** With more than one repetition no simulation completes: MPI is finalised after each. *)
Theorem C114_reps_refuted :
  forall A S (u : user A S) n reps (ranks : list ((nat -> nat -> nat -> nat) * S)), ranks <> [] -> (2 <= reps)%nat ->
    run_together (map (fun p => snd (simulate_mpi 0 u (fst p) n reps (snd p))) ranks) <> Done.
Proof.
  intros A S u n reps ranks NE R.
  assert (OP : forall p : (nat -> nat -> nat -> nat) * S, exists k rest, rest <> [] /\ snd (simulate_mpi 0 u (fst p) n reps (snd p)) = repeat Barrier k ++ Finalize :: rest).
  { intros [chs s]. unfold simulate_mpi. cbn [fst snd]. destruct reps as [|[|reps]]; [lia|lia|]. cbn [mpi_reps]. destruct (call_init u sched_new (World s [])) as [sc w1].
    destruct (loop_ops u (chs O) n O sc w1) as (_ & k & K & _). destruct (mpi_loop u (chs O) O n sc w1) as [[sc' w2] ops]. cbn [snd] in K.
    destruct (call_init u sched_new w2) as [sc3 w3]. destruct (mpi_loop u (chs 1%nat) O n sc3 w3) as [[sc4 w4] ops4]. destruct (mpi_reps u chs 2 reps n w4) as [[l5 w5] ops5]. cbn [snd].
    exists k, (ops4 ++ [Finalize] ++ ops5). split; [intros E; apply app_eq_nil in E; destruct E; discriminate|]. rewrite K. reflexivity. }
  assert (M : exists krs, map (fun p => snd (simulate_mpi 0 u (fst p) n reps (snd p))) ranks = procs krs /\ krs <> [] /\ forall kr, In kr krs -> snd kr <> []).
  { clear R. induction ranks as [|p ranks IH]; [congruence|]. destruct (OP p) as (k & rest & NR & E). destruct ranks as [|q ranks].
    - exists [(k, rest)]. cbn. rewrite E. split; [reflexivity|]. split; [discriminate|]. intros kr [<-|[]]. exact NR.
    - destruct IH as (krs & E1 & _ & E3); [discriminate|]. exists ((k, rest) :: krs). cbn [map] in *. rewrite E, E1. split; [reflexivity|]. split; [discriminate|]. intros kr [<-|I]; [exact NR|apply E3; exact I]. }
  destruct M as (krs & -> & N & NR). rewrite run_procs by exact N. destruct (agree krs); [|discriminate]. destruct (forallb empty (map snd krs)) eqn:E; [|discriminate]. exfalso.
  destruct krs as [|kr krs]; [congruence|]. cbn in E. apply andb_prop in E. destruct E as [E _]. specialize (NR kr (or_introl eq_refl)). destruct (snd kr); [congruence|discriminate].
Qed.
Print Assumptions C114_reps_refuted.
Example C114_concrete :
  run_together (map (fun s => snd (simulate_mpi 0 demo (fun _ _ => ch0) 6 1 s)) [0; 0; 0]) = Done /\
  run_together (map (fun s => snd (simulate_mpi 0 demo (fun _ _ => ch0) 6 2 s)) [0; 0; 0]) = Abort.
Proof. split; vm_compute; reflexivity. Qed.

(** ** C115: simulate_old! *)
Lemma digits_fuel_spec : forall fuel n k, n < 2 ^ N.of_nat fuel -> 1 <= k -> (digits_fuel fuel n <= k <-> n < 10 ^ k).
Proof.
  induction fuel as [|fuel IH]; intros n k L K.
  - cbn in L. assert (n = 0) by lia. subst. cbn. split; [intros _; apply N.lt_le_trans with (10 ^ 0); [reflexivity|apply N.pow_le_mono_r; lia]|lia].
  - cbn [digits_fuel]. destruct (N.ltb_spec n 10) as [LT|GE].
    + split; [intros _|lia]. apply N.lt_le_trans with (10 ^ 1); [exact LT|]. apply N.pow_le_mono_r; lia.
    + assert (D : n / 10 < 2 ^ N.of_nat fuel).
      { rewrite Nat2N.inj_succ, N.pow_succ_r' in L. apply N.div_lt_upper_bound; [discriminate|]. lia. }
      destruct (N.eq_dec k 1) as [-> |NK].
      * split; [|intros; change (10 ^ 1) with 10 in *; lia]. intros X. exfalso. assert (1 <= digits_fuel fuel (n / 10)) by (destruct fuel; cbn [digits_fuel]; [lia|destruct (_ <? _); lia]). lia.
      * specialize (IH (n / 10) (k - 1) D ltac:(lia)). replace (10 ^ k) with (10 * 10 ^ (k - 1)) by (rewrite <- N.pow_succ_r'; f_equal; lia).
        split.
        -- intros X. assert (Y : n / 10 < 10 ^ (k - 1)) by (apply IH; lia). pose proof (N.div_mod n 10 ltac:(discriminate)). pose proof (N.mod_lt n 10 ltac:(discriminate)). lia.
        -- intros X. assert (Y : n / 10 < 10 ^ (k - 1)) by (apply N.div_lt_upper_bound; [discriminate|exact X]). apply IH in Y. lia.
Qed.
(** [digits n] is the number of decimal digits. *)
Lemma digits_spec n k : 1 <= k -> (digits n <= k <-> n < 10 ^ k).
Proof. intros K. apply digits_fuel_spec; [|exact K]. rewrite N2Nat.id. apply N.size_gt. Qed.
Lemma digits_pos n : 1 <= digits n.
Proof. unfold digits. destruct (N.to_nat (N.size n)); cbn [digits_fuel]; [lia|destruct (_ <? _); lia]. Qed.
(** The report can be printed. *)
Definition fits (o : info) (n reps : N) (m : timing) : Prop :=
  digits n + digits reps <= 15 /\ m_rate m <= 13 /\ (match o with Verbose => m_time m | Normal => m_avg m end) < 100000000.
Lemma report_fits o n reps m : report o n reps m <> None <-> fits o n reps m.
Proof.
  assert (T : forall t, (time_len t <= 9 <-> t < 100000000)).
  { intros t. unfold time_len. assert (X : digits (t / 10000) + 5 <= 9 <-> digits (t / 10000) <= 4) by lia. rewrite X, digits_spec by lia. change (10 ^ 4) with 10000. 
    pose proof (N.div_mod t 10000 ltac:(discriminate)). pose proof (N.mod_lt t 10000 ltac:(discriminate)). split; intros; [lia|apply N.div_lt_upper_bound; [discriminate|lia]]. }
  unfold report, fits, minus. pose proof (digits_pos n). pose proof (digits_pos reps).
  assert (E : (match o with Verbose => time_len (m_time m) | Normal => time_len (m_avg m) end) = time_len (match o with Verbose => m_time m | Normal => m_avg m end)) by (destruct o; reflexivity). rewrite E, <- T.
  destruct (N.leb_spec (digits reps) 14); [|split; [congruence|intros (? & _); lia]]. destruct (N.leb_spec (digits n) 15); [|split; [congruence|intros (? & _); lia]].
  destruct (N.leb_spec (digits reps) (15 - digits n)); [|split; [congruence|intros (? & _); lia]]. destruct (N.leb_spec (m_rate m) 13); [|split; [congruence|intros (? & ? & _); lia]].
  destruct (N.leb_spec (time_len match o with Verbose => m_time m | Normal => m_avg m end) 9); split; try congruence; intros; try lia; try (split; [lia|split; assumption]).
Qed.
(** As long as the report fits its columns, [simulate_old!] runs what [simulate!] runs. *)
Theorem C115_same_partial :
  forall A S (u : user A S) chs o ms n reps s,
    (forall r, (r < N.to_nat reps)%nat -> fits o n reps (ms r)) ->
    simulate_old u chs o ms n reps s = Some (simulate u chs (N.to_nat n) (N.to_nat reps) s).
Proof.
  intros A S u chs o ms n reps s F. unfold simulate_old, simulate.
  assert (G : forall todo r w, (forall q, (r <= q < r + todo)%nat -> fits o n reps (ms q)) -> old_reps u chs o ms r todo n reps w = Some (sim_reps u chs r todo (N.to_nat n) w)); [|apply G; intros q Q; apply F; lia].
  induction todo as [|todo IH]; intros r w H; [reflexivity|]. cbn [old_reps sim_reps]. destruct (sim_rep u (chs r) (N.to_nat n) w) as [sc w1].
  destruct (report o n reps (ms r)) eqn:R; [|exfalso; apply (proj2 (report_fits o n reps (ms r))); [apply H; lia|exact R]]. rewrite IH by (intros q Q; apply H; lia).
  destruct (sim_reps u chs (Datatypes.S r) todo (N.to_nat n) w1). reflexivity.
Qed.
Print Assumptions C115_same_partial.
(** Otherwise nothing is returned: in particular for more than 15 digits of steps and
    repetitions together, whatever the simulation, and for a run of 10000 seconds. *)
Theorem C115_report_refuted :
  forall A S (u : user A S) chs o ms n reps s r,
    (r < N.to_nat reps)%nat -> ~ fits o n reps (ms r) -> simulate_old u chs o ms n reps s = None.
Proof.
  intros A S u chs o ms n reps s r L F. unfold simulate_old.
  assert (G : forall todo q w, (q <= r < q + todo)%nat -> old_reps u chs o ms q todo n reps w = None); [|apply G; lia].
  induction todo as [|todo IH]; intros q w H; [lia|]. cbn [old_reps]. destruct (sim_rep u (chs q) (N.to_nat n) w) as [sc w1]. destruct (report o n reps (ms q)) eqn:R; [|reflexivity].
  destruct (Nat.eq_dec q r) as [-> |NQ]; [exfalso; apply F, report_fits; congruence|]. rewrite IH by lia. reflexivity.
Qed.
Print Assumptions C115_report_refuted.
Theorem C115_all_steps_refuted :
  forall A S (u : user A S) chs o ms s, simulate_old u chs o ms 18446744073709551615 1 s = None.
Proof.
  intros. apply C115_report_refuted with (r := O); [vm_compute; auto|]. intros (D & _). vm_compute in D. apply D. reflexivity.
Qed.
Print Assumptions C115_all_steps_refuted.
Theorem C115_long_run_refuted :
  forall A S (u : user A S) chs ms n reps s, 1 <= reps -> 100000000 <= m_time (ms O) -> simulate_old u chs Verbose ms n reps s = None.
Proof. intros A S u chs ms n reps s R T. apply C115_report_refuted with (r := O); [lia|]. intros (_ & _ & D). lia. Qed.
Print Assumptions C115_long_run_refuted.
Example C115_concrete :
  fits Normal 6 2 (Timing 5 12 12) /\ option_map fst (simulate_old demo (fun _ _ => ch0) Normal (fun _ => Timing 5 12 12) 6 2 0) = Some [4; 1] /\
  report Normal 6 2 (Timing 5 12 12) = Some (13, 13, 8, 3).
Proof. split; [repeat split; vm_compute; congruence|]. split; vm_compute; reflexivity. Qed.
