(** * Concurrent phases inside a program of API calls *)
From Coq Require Import List Bool NArith Arith Lia Permutation.
From Verif Require Import Merge DashModel DashSpec DashProofs DashRun DashConc.
Import ListNotations.

Section ConcRun.
Context {K V : Type}.
Variable eqk : K -> K -> bool.
Variable hash : K -> N.
Hypothesis L : lawful eqk hash.

(** The API call a thread's operation stands for. *)
Definition call_of (o : wop (K := K) (V := V)) : dop K V :=
  match o with
  | WInsert k v => DInsert k v
  | WRemove k => DRemove k
  | WModify k f => DGetWrite k f
  end.

Lemma sruns_app (s : two K V) l1 : forall s1 l2 s2, sruns eqk s l1 s1 -> sruns eqk s1 l2 s2 ->
  sruns eqk s (l1 ++ l2) s2.
Proof.
  intros s1 l2 s2 H. revert l2 s2. induction H as [s s' E|s s' o t res l t2 E St R IH]; intros l2 s2 H2; cbn.
  - eapply sruns_start; [|exact H2]. exact E.
  - econstructor; [exact E|exact St|]. apply IH. exact H2.
Qed.

Lemma sruns_end (s : two K V) l s1 s2 : sruns eqk s l s1 -> teq s1 s2 -> sruns eqk s l s2.
Proof.
  intros H E. rewrite <- (app_nil_r l). eapply sruns_app; [exact H|]. constructor. exact E.
Qed.

Lemma order_runs order : forall (r w : fmap (K := K) (V := V)),
  exists rs, length rs = length order /\
    sruns eqk (Two r w) (combine (map call_of order) rs) (Two r (fold_left (wapply eqk) order w)).
Proof.
  induction order as [|o order IH]; intros r w; cbn.
  - exists []. split; [reflexivity|]. constructor. split; intros k; reflexivity.
  - destruct (IH r (wapply eqk w o)) as (rs & Hl & H).
    assert (St : exists res, sstep eqk (Two r w) (call_of o) (Two r (wapply eqk w o)) res).
    { destruct o as [k v|k|k f]; cbn; [exists (DVal None)|eexists|eexists]; constructor. }
    destruct St as [res St]. exists (res :: rs). split; [cbn; congruence|].
    cbn. econstructor; [split; intros k; reflexivity|exact St|exact H].
Qed.

(** A program, then threads working concurrently, then another program. *)
Lemma concurrent_program cpus os0 (d : dmap K V) rs0 progs inter os :
  (1 <= cpus)%N -> (cpus * 4 <= 2 ^ 63)%N -> Forall op_ok os0 -> Forall op_ok os ->
  let n := N.to_nat (shard_amount cpus) in
  dash_run eqk hash n (dash_new cpus) os0 = Some (d, rs0) ->
  let c := cexec eqk hash (d_shift d) inter (cstart (d_shards d) progs) in
  cfinished c = true ->
  exists order rs d' rs' s,
    merge progs order /\ length rs = length order /\
    dash_run eqk hash n (DMap (d_shift d) (cc_shards c) (d_rshards d)) os = Some (d', rs') /\
    length rs' = length os /\
    sruns eqk (Two fempty fempty)
      (combine os0 rs0 ++ combine (map call_of order) rs ++ combine os rs') s.
Proof.
  intros H1 H2 Hos0 Hos n Hrun c Hf. destruct (dash_new_wf (V := V) eqk hash cpus H1 H2) as [W0 E0].
  destruct (dash_run_ok eqk hash L _ os0 _ W0 Hos0) as (d1 & rs1 & R1 & W1 & Len1 & Runs1).
  fold n in R1. rewrite Hrun in R1. inversion R1; subst d1 rs1; clear R1.
  destruct W1 as (Hidx & Hws & Hwr).
  assert (Hi : forall k, shard_index hash (d_shift d) k < n) by exact Hidx.
  destruct (concurrent_linear eqk hash (d_shift d) L n (d_shards d) progs inter Hi Hws Hf)
    as (order & Hm & Hw' & E). fold c in Hw', E.
  destruct (order_runs order (absl eqk hash (d_shift d) (d_rshards d)) (absl eqk hash (d_shift d) (d_shards d)))
    as (rs & Hl & Ho).
  assert (W2 : wf eqk hash n (DMap (d_shift d) (cc_shards c) (d_rshards d))) by (split; [exact Hidx|split; assumption]).
  destruct (dash_run_ok eqk hash L _ os _ W2 Hos) as (d2 & rs2 & R2 & _ & Len2 & Runs2).
  exists order, rs, d2, rs2, (abs eqk hash d2). split; [exact Hm|]. split; [exact Hl|].
  split; [exact R2|]. split; [exact Len2|].
  eapply sruns_app; [eapply sruns_start; [|exact Runs1]; split; intros k; symmetry; apply E0|].
  eapply sruns_app; [exact Ho|]. eapply sruns_start; [|exact Runs2].
  split; intros k; cbn; [reflexivity|]. symmetry. apply E.
Qed.

(** No deadlock, no livelock. *)
Lemma concurrent_progress cpus os0 (d : dmap K V) rs0 progs inter :
  (1 <= cpus)%N -> (cpus * 4 <= 2 ^ 63)%N -> Forall op_ok os0 ->
  dash_run eqk hash (N.to_nat (shard_amount cpus)) (dash_new cpus) os0 = Some (d, rs0) ->
  let c := cexec eqk hash (d_shift d) inter (cstart (d_shards d) progs) in
  cfinished c = false -> exists t c', cmicro eqk hash (d_shift d) t c = Some c'.
Proof.
  intros H1 H2 Hos0 Hrun c Hf. destruct (dash_new_wf (V := V) eqk hash cpus H1 H2) as [W0 E0].
  destruct (dash_run_ok eqk hash L _ os0 _ W0 Hos0) as (d1 & rs1 & R1 & W1 & _ & _).
  rewrite Hrun in R1. inversion R1; subst d1 rs1; clear R1. destruct W1 as (Hidx & Hws & Hwr).
  destruct (cstart_inv eqk hash (d_shift d) _ (d_shards d) progs Hws) as [Hx Hs].
  destruct (cexec_inv eqk hash (d_shift d) L _ _ progs inter Hidx _ Hx Hs) as [Hx' _].
  exact (cmicro_progress eqk hash (d_shift d) _ _ Hx' Hidx Hf).
Qed.

Definition cweight (c : cconf (K := K) (V := V)) : nat :=
  list_sum (map (fun th => 4 * length (ct_rest th) +
    match ct_pc th with CNext => 0 | CBody _ => 3 | CMid _ _ => 2 | CUnlock _ => 1 end) (cc_threads c)).

Lemma cmicro_weight sh t (c c' : cconf (K := K) (V := V)) :
  cmicro eqk hash sh t c = Some c' -> cweight c' < cweight c.
Proof.
  intros H. unfold cmicro in H. destruct (nth_error (cc_threads c) t) as [th|] eqn:Ht; [|discriminate].
  assert (U : forall p r, cc_threads c' = upd (cc_threads c) t (CThread p r) ->
     4 * length r + match p with CNext => 0 | CBody _ => 3 | CMid _ _ => 2 | CUnlock _ => 1 end <
     4 * length (ct_rest th) + match ct_pc th with CNext => 0 | CBody _ => 3 | CMid _ _ => 2 | CUnlock _ => 1 end ->
     cweight c' < cweight c).
  { intros p r E Hlt. unfold cweight. rewrite E. clear -Ht Hlt. revert t Ht.
    induction (cc_threads c) as [|a l IH]; intros [|t] Ht; cbn [nth_error upd map] in *; try discriminate;
      unfold list_sum; cbn [fold_right].
    - inversion Ht; subst. cbn [ct_rest ct_pc]. lia.
    - specialize (IH t Ht). unfold list_sum in IH. lia. }
  destruct (ct_pc th) as [|[k v|k|k f]|k v|k] eqn:Hp.
  - destruct (ct_rest th) as [|o rest] eqn:Hr; [discriminate|].
    destruct (cc_locks c _); [discriminate|]. inversion H; subst c'; clear H.
    eapply U; [reflexivity|]. cbn [length]. lia.
  - destruct (nth_error (cc_shards c) _) in H; [|discriminate]. inversion H; subst c'; clear H. eapply U; [reflexivity|]. cbn [ct_rest]. lia.
  - destruct (nth_error (cc_shards c) _) in H; [|discriminate]. inversion H; subst c'; clear H. eapply U; [reflexivity|]. cbn [ct_rest]. lia.
  - destruct (nth_error (cc_shards c) _) in H; [|discriminate]. inversion H; subst c'; clear H. eapply U; [reflexivity|]. cbn [ct_rest]. lia.
  - destruct (nth_error (cc_shards c) _) in H; [|discriminate]. inversion H; subst c'; clear H. eapply U; [reflexivity|]. cbn [ct_rest]. lia.
  - inversion H; subst c'; clear H. eapply U; [reflexivity|]. cbn [ct_rest]. lia.
Qed.

(** Pairwise different keys: every inserted pair can be read back. *)
Lemma concurrent_inserts_kept cpus os0 (d : dmap K V) rs0 progs inter :
  (1 <= cpus)%N -> (cpus * 4 <= 2 ^ 63)%N -> Forall op_ok os0 ->
  let n := N.to_nat (shard_amount cpus) in
  dash_run eqk hash n (dash_new cpus) os0 = Some (d, rs0) ->
  let c := cexec eqk hash (d_shift d) inter (cstart (d_shards d) progs) in
  cfinished c = true ->
  (forall o, In o (concat progs) -> exists k v, o = WInsert k v) ->
  ForallOrdPairs (fun a b => eqk (wkey a) (wkey b) = false) (concat progs) ->
  forall k v, In (WInsert k v) (concat progs) ->
  exists d1, lazy_update n (DMap (d_shift d) (cc_shards c) (d_rshards d)) = Some d1 /\
    get_key_value eqk hash k d1 = Some (Some (k, v)).
Proof.
  intros H1 H2 Hos0 n Hrun c Hf Hins Hd k v Hin. destruct (dash_new_wf (V := V) eqk hash cpus H1 H2) as [W0 E0].
  destruct (dash_run_ok eqk hash L _ os0 _ W0 Hos0) as (dd & rs1 & R1 & W1 & _ & _).
  fold n in R1. rewrite Hrun in R1. inversion R1; subst dd rs1; clear R1. destruct W1 as (Hidx & Hws & Hwr).
  destruct (concurrent_linear eqk hash (d_shift d) L n (d_shards d) progs inter Hidx Hws Hf)
    as (order & Hm & Hw' & E). fold c in Hw', E.
  pose proof (concurrent_distinct eqk hash (d_shift d) L n (d_shards d) progs inter Hidx Hws Hf Hins Hd k v Hin) as Hk.
  fold c in Hk.
  assert (W2 : wf eqk hash n (DMap (d_shift d) (cc_shards c) (d_rshards d))) by (split; [exact Hidx|split; assumption]).
  destruct (lazy_update_ok eqk hash n _ W2) as (d1 & Hl & _). exists d1. split; [exact Hl|].
  destruct (dash_run_ok eqk hash L n [DLazyUpdate; DGetKeyValue k] _ W2) as (d2 & rs & R & _ & _ & Runs).
  { repeat constructor. }
  cbn in R. rewrite Hl in R. cbn in R. destruct (get_key_value eqk hash k d1) as [r|] eqn:G; [|discriminate].
  cbn in R. inversion R; subst. cbn in Runs.
  inversion Runs as [|? s1 ? s2 ? ? ? T1 St1 Runs1]; subst. inversion St1; subst.
  inversion Runs1 as [|? s3 ? s4 ? ? ? T2 St2 Runs2]; subst. inversion St2; subst.
  f_equal. destruct T2 as [T2 _]. cbn in T2. rewrite <- (T2 k).
  destruct T1 as [_ T1]. cbn in T1. rewrite <- (T1 k). exact Hk.
Qed.

End ConcRun.
