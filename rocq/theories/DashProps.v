(** * Property theorems: DBDashMap (C12-C15, C56) *)
From Coq Require Import List Bool NArith Arith Lia Permutation.
From Verif Require Import Merge DashModel DashSpec DashProofs DashRun DashConc DashConcRun.
Import ListNotations.

(** A map of a four-core machine used in the examples: keys are pairs (id, payload), equal
    when the ids are equal, spread over the 16 shards by id. *)
Definition ex_eqk (a b : N * N) : bool := N.eqb (fst a) (fst b).
Definition ex_hash (a : N * N) : N := (fst a * 2 ^ 53)%N.
Lemma ex_lawful : lawful ex_eqk ex_hash.
Proof.
  split; unfold ex_eqk, ex_hash; intros.
  - apply N.eqb_refl.
  - rewrite N.eqb_sym. assumption.
  - rewrite N.eqb_eq in *. congruence.
  - rewrite N.eqb_eq in H. rewrite H. reflexivity.
Qed.
Definition ex_it (l : list ((N * N) * N)) := rev l.
Lemma ex_iteration : iteration ex_it.
Proof. intros l. symmetry. apply Permutation_rev. Qed.

(** ** C12: every program of calls on a new map runs without a panic, and its results are
    results of the same program on a pair of abstract maps ([sstep], DashSpec), whatever
    the number of processors, the hash function and the iteration orders. *)
Theorem C12_two_maps :
  forall K V (eqk : K -> K -> bool) (hash : K -> N), lawful eqk hash ->
  forall cpus (os : list (dop K V)),
  (1 <= cpus)%N -> (cpus * 4 <= 2 ^ 63)%N -> Forall op_ok os ->
  exists d rs s, dash_run eqk hash (N.to_nat (shard_amount cpus)) (dash_new cpus) os = Some (d, rs) /\
    length rs = length os /\ sruns eqk (Two fempty fempty) (combine os rs) s.
Proof. exact @dash_program. Qed.
Print Assumptions C12_two_maps.

Definition C12_prog : list (dop (N * N) N) :=
  [DInsert (1, 0)%N 10%N; DInsert (17, 0)%N 11%N; DInsert (2, 0)%N 12%N; DInsert (1, 5)%N 13%N;
   DRemove (2, 7)%N; DGetRead (1, 0)%N; DLazyUpdate; DGetKeyValue (1, 0)%N; DLen; DRLen; DKeys ex_it;
   DApply ex_it N.succ; DUpdate ex_it; DGetRead (17, 9)%N;
   DApplyKeys ex_it (fun v k => if N.eqb (fst k) 1 then Some (33, 0)%N else None); DWKeys ex_it].
Example C12_concrete :
  Forall op_ok C12_prog /\
  option_map snd (dash_run ex_eqk ex_hash (N.to_nat (shard_amount 4)) (dash_new 4) C12_prog) =
  Some [DVal None; DVal None; DVal None; DVal None; DPair (Some ((2, 0), 12))%N; DVal None; DNone;
        DPair (Some ((1, 5), 13))%N; DNat 0; DNat 2; DKeyList [(1, 5); (17, 0)]%N; DNone; DNone;
        DVal (Some 12%N); DNone; DKeyList [(33, 0); (17, 0)]%N].
Proof.
  split; [repeat constructor; apply ex_iteration|vm_compute; reflexivity].
Qed.

(** ** C13 *)
Lemma shard_in_range K V (hash : K -> N) cpus k : (1 <= cpus)%N -> (cpus * 4 <= 2 ^ 63)%N ->
  shard_of hash (dash_new cpus : dmap K V) k < length (d_shards (dash_new cpus : dmap K V)) /\
  length (d_rshards (dash_new cpus : dmap K V)) = length (d_shards (dash_new cpus : dmap K V)).
Proof.
  intros H1 H2. cbn. rewrite !repeat_length. split; [|reflexivity].
  assert (L0 : lawful (fun a b : unit => true) (fun _ => hash k)) by (split; auto).
  pose proof (dash_new_wf (V := V) (fun a b : unit => true) (fun _ => hash k) cpus H1 H2) as [[Hi _] _].
  exact (Hi tt).
Qed.

(** The shard chosen for any 64-bit hash exists, in both buffers, and equal keys choose
    the same shard. *)
Theorem C13_shard_total :
  forall K V (eqk : K -> K -> bool) (hash : K -> N), lawful eqk hash ->
  forall cpus, (1 <= cpus)%N -> (cpus * 4 <= 2 ^ 63)%N ->
  let d : dmap K V := dash_new cpus in
  forall k k', shard_of hash d k < length (d_shards d) /\
    shard_of hash d k < length (d_rshards d) /\
    (eqk k k' = true -> shard_of hash d k = shard_of hash d k').
Proof.
  intros K V eqk hash L cpus H1 H2 d k k'. destruct (shard_in_range K V hash cpus k H1 H2) as [A B].
  subst d. rewrite B. split; [exact A|]. split; [exact A|].
  intros E. unfold shard_of. rewrite (hash_eqk _ _ L _ _ E). reflexivity.
Qed.
Print Assumptions C13_shard_total.

(** The same arithmetic for every shard count [2^k] with [1 <= k <= 63] and every hash. *)
Theorem C13_determine_shard :
  forall k h, (1 <= k <= 63)%N -> (determine_shard (64 - ncb (2 ^ k)) h < 2 ^ k)%N.
Proof. intros k h H. unfold ncb. rewrite tz_pow2. apply determine_shard_lt. exact H. Qed.
Print Assumptions C13_determine_shard.

(** The shard counts that occur: 4 * cpus rounded up to a power of two. *)
Theorem C13_shard_amount :
  forall cpus, (1 <= cpus)%N -> (cpus * 4 <= 2 ^ 63)%N ->
  exists k, shard_amount cpus = (2 ^ k)%N /\ (2 <= k <= 63)%N /\ (4 * cpus <= 2 ^ k < 8 * cpus)%N.
Proof.
  intros cpus H1 H2. destruct (shard_amount_pow2 cpus H1 H2) as (k & E & Hk). exists k.
  split; [exact E|]. split; [exact Hk|]. rewrite <- E. unfold shard_amount, next_pow2.
  destruct (N.leb_spec (cpus * 4) 1); [lia|].
  destruct (N.log2_up_spec (cpus * 4) ltac:(lia)) as [Ha Hb].
  assert (N.log2_up (cpus * 4) = N.succ (N.pred (N.log2_up (cpus * 4)))) as Es.
  { assert (0 < N.log2_up (cpus * 4))%N by (apply N.log2_up_pos; lia). lia. }
  rewrite Es, N.pow_succ_r' in *. rewrite N.pred_succ in *. lia.
Qed.
Print Assumptions C13_shard_amount.

(** The shifted-out bits do matter: all shards of a 16-shard map are used. *)
Example C13_concrete :
  map (fun i => shard_of ex_hash (dash_new 4 : dmap (N * N) N) (N.of_nat i, 0%N)) (seq 0 16) = seq 0 16.
Proof. vm_compute. reflexivity. Qed.

(** ** C14: a program [os0] builds a map, threads with programs [progs] then work on it in
    any interleaving, then a program [os] runs.  Everything any program can observe
    afterwards is explained by running the threads' operations one after the other in an
    order that keeps each thread's own order ([merge]). *)
Theorem C14_linearizable :
  forall K V (eqk : K -> K -> bool) (hash : K -> N), lawful eqk hash ->
  forall cpus os0 (d : dmap K V) rs0 progs inter os,
  (1 <= cpus)%N -> (cpus * 4 <= 2 ^ 63)%N -> Forall op_ok os0 -> Forall op_ok os ->
  let n := N.to_nat (shard_amount cpus) in
  dash_run eqk hash n (dash_new cpus) os0 = Some (d, rs0) ->
  let c := cexec eqk hash (d_shift d) inter (cstart (d_shards d) progs) in
  cfinished c = true ->
  exists order rs d' rs' s,
    merge progs order /\ length rs = length order /\
    dash_run eqk hash n (DMap (d_shift d) (cc_shards c) (d_rshards d)) os = Some (d', rs') /\
    length rs' = length os /\
    sruns eqk (Two fempty fempty)
      (combine os0 rs0 ++ combine (map call_of order) rs ++ combine os rs') s.
Proof. exact @concurrent_program. Qed.
Print Assumptions C14_linearizable.

(** With pairwise different keys nothing is lost: after publishing, every inserted pair
    is read back. *)
Theorem C14_nothing_lost :
  forall K V (eqk : K -> K -> bool) (hash : K -> N), lawful eqk hash ->
  forall cpus os0 (d : dmap K V) rs0 progs inter,
  (1 <= cpus)%N -> (cpus * 4 <= 2 ^ 63)%N -> Forall op_ok os0 ->
  let n := N.to_nat (shard_amount cpus) in
  dash_run eqk hash n (dash_new cpus) os0 = Some (d, rs0) ->
  let c := cexec eqk hash (d_shift d) inter (cstart (d_shards d) progs) in
  cfinished c = true ->
  (forall o, In o (concat progs) -> exists k v, o = WInsert k v) ->
  ForallOrdPairs (fun a b => eqk (wkey a) (wkey b) = false) (concat progs) ->
  forall k v, In (WInsert k v) (concat progs) ->
  exists d1, lazy_update n (DMap (d_shift d) (cc_shards c) (d_rshards d)) = Some d1 /\
    get_key_value eqk hash k d1 = Some (Some (k, v)).
Proof. exact @concurrent_inserts_kept. Qed.
Print Assumptions C14_nothing_lost.

(** An unfinished configuration can always move, and no interleaving moves for ever. *)
Theorem C14_no_deadlock :
  forall K V (eqk : K -> K -> bool) (hash : K -> N), lawful eqk hash ->
  forall cpus os0 (d : dmap K V) rs0 progs inter,
  (1 <= cpus)%N -> (cpus * 4 <= 2 ^ 63)%N -> Forall op_ok os0 ->
  dash_run eqk hash (N.to_nat (shard_amount cpus)) (dash_new cpus) os0 = Some (d, rs0) ->
  let c := cexec eqk hash (d_shift d) inter (cstart (d_shards d) progs) in
  cfinished c = false -> exists t c', cmicro eqk hash (d_shift d) t c = Some c'.
Proof. exact @concurrent_progress. Qed.
Print Assumptions C14_no_deadlock.

Theorem C14_terminates :
  forall K V (eqk : K -> K -> bool) (hash : K -> N) shift t (c c' : cconf (K := K) (V := V)),
  cmicro eqk hash shift t c = Some c' -> cweight c' < cweight c.
Proof. exact @cmicro_weight. Qed.
Print Assumptions C14_terminates.

(** Two threads insert into the same shards (keys 1 and 17 share one); thread 1 is
    blocked while thread 0 holds the lock. *)
Definition C14_progs : list (list (wop (K := N * N) (V := N))) :=
  [[WInsert (1, 0) 10; WInsert (2, 0) 11]; [WInsert (17, 0) 12; WInsert (3, 0) 13]]%N.
Example C14_concrete :
  let d : dmap (N * N) N := dash_new 4 in
  let start := cstart (d_shards d) C14_progs in
  let c := cexec ex_eqk ex_hash (d_shift d) (flat_map (fun _ => [0; 1]) (seq 0 12)) start in
  cfinished c = true /\
  cfinished (cexec ex_eqk ex_hash (d_shift d) [0; 1] start) = false /\
  cmicro ex_eqk ex_hash (d_shift d) 1 (cexec ex_eqk ex_hash (d_shift d) [0] start) = None /\
  map (fun m => length m) (cc_shards c) = [0; 2; 1; 1; 0; 0; 0; 0; 0; 0; 0; 0; 0; 0; 0; 0].
Proof. vm_compute. repeat split; reflexivity. Qed.

(** ** C15 is false: [insert] removes the old entry first, so it reports [None] even when
    the key is present. *)
Theorem C15_refuted :
  exists (d : dmap (N * N) N) k v,
    (exists rs, dash_run ex_eqk ex_hash (N.to_nat (shard_amount 4)) (dash_new 4)
                  [DInsert k 10%N] = Some (d, rs)) /\
    option_map snd (get_write ex_eqk ex_hash k (fun x => x) d) = Some (Some 10%N) /\
    option_map snd (insert ex_eqk ex_hash k v d) = Some None.
Proof.
  exists (match insert ex_eqk ex_hash (1, 0)%N 10%N (dash_new 4) with Some (d, _) => d | None => dash_new 4 end).
  exists (1, 0)%N, 11%N. split; [exists [DVal None]; vm_compute; reflexivity|].
  split; vm_compute; reflexivity.
Qed.
Print Assumptions C15_refuted.

(** What holds: the answer is always [None], which is right exactly when the key was
    absent. *)
Lemma insert_result_run K V (eqk : K -> K -> bool) (hash : K -> N) : lawful eqk hash ->
  forall cpus os (d : dmap K V) rs, (1 <= cpus)%N -> (cpus * 4 <= 2 ^ 63)%N -> Forall op_ok os ->
  dash_run eqk hash (N.to_nat (shard_amount cpus)) (dash_new cpus) os = Some (d, rs) ->
  forall k v, option_map snd (insert eqk hash k v d) = Some None.
Proof.
  intros L cpus os d rs H1 H2 Hos Hrun k v. destruct (dash_new_wf (V := V) eqk hash cpus H1 H2) as [W0 _].
  destruct (dash_run_ok eqk hash L _ os _ W0 Hos) as (d1 & rs1 & R1 & W1 & _). rewrite Hrun in R1. inversion R1; subst.
  destruct (insert_ok eqk hash L _ d1 k v W1) as (d2 & -> & _). reflexivity.
Qed.

Theorem C15_absent_key_partial :
  forall K V (eqk : K -> K -> bool) (hash : K -> N), lawful eqk hash ->
  forall cpus os (d : dmap K V) rs, (1 <= cpus)%N -> (cpus * 4 <= 2 ^ 63)%N -> Forall op_ok os ->
  dash_run eqk hash (N.to_nat (shard_amount cpus)) (dash_new cpus) os = Some (d, rs) ->
  forall k v, option_map snd (insert eqk hash k v d) = Some None.
Proof. exact insert_result_run. Qed.
Print Assumptions C15_absent_key_partial.

(** ** C56: [lazy_update], [update] and [merge_r_shards] ask for the number of processors
    again.  If it has changed since the map was made, publishing panics (more processors)
    or leaves entries unpublished (fewer). *)
Theorem C56_more_cpus_refuted :
  forall K V (d : dmap K V), d = dash_new 2 -> lazy_update (N.to_nat (shard_amount 4)) d = None.
Proof. intros K V d ->. vm_compute. reflexivity. Qed.
Print Assumptions C56_more_cpus_refuted.

Theorem C56_fewer_cpus_refuted :
  exists (d d' : dmap (N * N) N) k v,
    option_map fst (insert ex_eqk ex_hash k v (dash_new 4)) = Some d /\
    lazy_update (N.to_nat (shard_amount 1)) d = Some d' /\
    get_read ex_eqk ex_hash k d' = Some None.
Proof.
  exists (match insert ex_eqk ex_hash (9, 0)%N 10%N (dash_new 4) with Some (d, _) => d | None => dash_new 4 end).
  eexists _, (9, 0)%N, 10%N. split; [vm_compute; reflexivity|]. split; [vm_compute; reflexivity|].
  vm_compute. reflexivity.
Qed.
Print Assumptions C56_fewer_cpus_refuted.

(** When exactly it panics: when the number asked for exceeds one of the two vectors. *)
Theorem C56_panics :
  forall K V (it : hm K V -> hm K V) n (d : dmap K V),
    (lazy_update n d = None <-> (length (d_shards d) < n)%nat \/ (length (d_rshards d) < n)%nat) /\
    (forall eqk, update eqk it n d = None <-> (length (d_shards d) < n)%nat \/ (length (d_rshards d) < n)%nat) /\
    (forall eqk, merge_r_shards eqk it n d = None <-> (length (d_shards d) < n)%nat).
Proof.
  intros K V it n d. unfold lazy_update, update, merge_r_shards.
  destruct (Nat.leb_spec n (length (d_shards d))), (Nat.leb_spec n (length (d_rshards d))); cbn [andb];
    (split; [|split; [intros eqk|intros eqk]]); split; intros X; try discriminate; try reflexivity; lia.
Qed.
Print Assumptions C56_panics.

(** With an unchanged processor count publishing works from every reachable state: this
    is part of C12 ([DLazyUpdate], [DUpdate], [DMerge]). *)
Theorem C56_same_cpus_partial :
  forall K V (eqk : K -> K -> bool) (hash : K -> N), lawful eqk hash ->
  forall cpus os (d : dmap K V) rs, (1 <= cpus)%N -> (cpus * 4 <= 2 ^ 63)%N -> Forall op_ok os ->
  dash_run eqk hash (N.to_nat (shard_amount cpus)) (dash_new cpus) os = Some (d, rs) ->
  exists d', lazy_update (N.to_nat (shard_amount cpus)) d = Some d' /\
    forall k, get_read eqk hash k d' = option_map snd (get_write eqk hash k (fun v => v) d).
Proof.
  intros K V eqk hash L cpus os d rs H1 H2 Hos Hrun.
  destruct (dash_new_wf (V := V) eqk hash cpus H1 H2) as [W0 _].
  destruct (dash_run_ok eqk hash L _ os _ W0 Hos) as (d1 & rs1 & R1 & W1 & _). rewrite Hrun in R1. inversion R1; subst.
  destruct (lazy_update_ok eqk hash _ d1 W1) as (d' & E & _ & Sh & R & _). exists d'. split; [exact E|].
  intros k. unfold get_read, get_write, shard_of. rewrite Sh, R.
  destruct (nth_error (d_shards d1) _); reflexivity.
Qed.
Print Assumptions C56_same_cpus_partial.
