(** * DBDashMap seen as two functions

    The results of DashProofs in a form convenient for the structures built from several
    maps: [rv d k] is the entry of [k] in the read buffer, [wv d k] in the write buffer. *)
From Coq Require Import List Bool NArith Arith Lia Permutation.
From Verif Require Import DashModel DashSpec DashProofs DashRun.
Import ListNotations.

Section View.
Context {K V : Type}.
Variable eqk : K -> K -> bool.
Variable hash : K -> N.
Hypothesis L : lawful eqk hash.
Implicit Types d : dmap K V.

Definition rv d (k : K) : option (K * V) := absl eqk hash (d_shift d) (d_rshards d) k.
Definition wv d (k : K) : option (K * V) := absl eqk hash (d_shift d) (d_shards d) k.

Lemma v_new cpus : (1 <= cpus)%N -> (cpus * 4 <= 2 ^ 63)%N ->
  wf eqk hash (N.to_nat (shard_amount cpus)) (@dash_new K V cpus) /\
  forall k, rv (dash_new cpus) k = None /\ wv (dash_new cpus) k = None.
Proof.
  intros H1 H2. destruct (@dash_new_wf K V eqk hash cpus H1 H2) as [W [E1 E2]].
  split; [exact W|]. intros k. split; [exact (E1 k)|exact (E2 k)].
Qed.

Lemma v_insert n d k v : wf eqk hash n d ->
  exists d', insert eqk hash k v d = Some (d', None) /\ wf eqk hash n d' /\
    (forall x, rv d' x = rv d x) /\ (forall x, wv d' x = if eqk x k then Some (k, v) else wv d x).
Proof.
  intros W. destruct (insert_ok eqk hash L n d k v W) as (d' & E & W' & Sh & R & F). exists d'.
  split; [exact E|]. split; [exact W'|]. unfold rv, wv. rewrite Sh, R. split; [reflexivity|]. intros x. rewrite (F x).
  reflexivity.
Qed.

Lemma v_remove n d k : wf eqk hash n d ->
  exists d', remove eqk hash k d = Some (d', wv d k) /\ wf eqk hash n d' /\
    (forall x, rv d' x = rv d x) /\ (forall x, wv d' x = if eqk x k then None else wv d x).
Proof.
  intros W. destruct (remove_ok eqk hash L n d k W) as (d' & E & W' & Sh & R & F). exists d'.
  split; [exact E|]. split; [exact W'|]. unfold rv, wv. rewrite Sh, R. split; [reflexivity|]. intros x. rewrite (F x).
  reflexivity.
Qed.

Lemma v_get_write n d k f : wf eqk hash n d ->
  exists d', get_write eqk hash k f d = Some (d', option_map snd (wv d k)) /\ wf eqk hash n d' /\
    (forall x, rv d' x = rv d x) /\
    (forall x, wv d' x = if eqk x k then option_map (fun p => (fst p, f (snd p))) (wv d x) else wv d x).
Proof.
  intros W. destruct (get_write_ok eqk hash L n d k f W) as (d' & E & W' & Sh & R & F). exists d'.
  split; [exact E|]. split; [exact W'|]. unfold rv, wv. rewrite Sh, R. split; [reflexivity|]. intros x. rewrite (F x).
  reflexivity.
Qed.

Lemma v_get_read n d k : wf eqk hash n d -> get_read eqk hash k d = Some (option_map snd (rv d k)).
Proof.
  intros (Hi & _ & Hr). unfold get_read, rv, absl, shard_of.
  destruct (wfs_get eqk hash _ _ _ k Hr (Hi k)) as (m & Hm & _). unfold idx in *. rewrite Hm. reflexivity.
Qed.

Lemma v_get_key_value n d k : wf eqk hash n d -> get_key_value eqk hash k d = Some (rv d k).
Proof.
  intros (Hi & _ & Hr). unfold get_key_value, rv, absl, shard_of.
  destruct (wfs_get eqk hash _ _ _ k Hr (Hi k)) as (m & Hm & _). unfold idx in *. rewrite Hm. reflexivity.
Qed.

Lemma v_lazy n d : wf eqk hash n d ->
  exists d', lazy_update n d = Some d' /\ wf eqk hash n d' /\
    (forall x, rv d' x = wv d x) /\ (forall x, wv d' x = None).
Proof.
  intros W. destruct (lazy_update_ok eqk hash n d W) as (d' & E & W' & Sh & R & F). exists d'.
  split; [exact E|]. split; [exact W'|]. unfold rv, wv. rewrite Sh, R, F. split; [reflexivity|]. intros x. apply absl_empty.
Qed.

Lemma v_update n d it : wf eqk hash n d -> iteration it ->
  exists d', update eqk it n d = Some d' /\ wf eqk hash n d' /\
    (forall x, rv d' x = match wv d x with Some p => Some p | None => rv d x end) /\ (forall x, wv d' x = wv d x).
Proof.
  intros W Hi. destruct (update_ok eqk hash L n d it W Hi) as (d' & E & W' & Sh & R & F). exists d'.
  split; [exact E|]. split; [exact W'|]. unfold rv, wv. rewrite Sh, R. split; [|reflexivity]. exact F.
Qed.

Lemma v_rlen n d : wf eqk hash n d -> exists l, lists eqk l (rv d) /\ r_len d = length l.
Proof.
  intros (_ & _ & Hr). exists (concat (d_rshards d)). split.
  - eapply concat_lists; [exact L|exact Hr|apply Permutation_refl].
  - unfold r_len. apply len_concat.
Qed.
Lemma v_len n d : wf eqk hash n d -> exists l, lists eqk l (wv d) /\ len d = length l.
Proof.
  intros (_ & Hw & _). exists (concat (d_shards d)). split.
  - eapply concat_lists; [exact L|exact Hw|apply Permutation_refl].
  - unfold len. apply len_concat.
Qed.
Lemma v_keys n d it : wf eqk hash n d -> iteration it ->
  exists l, lists eqk l (rv d) /\ keys it d = map fst l.
Proof.
  intros (_ & _ & Hr) Hi. exists (flat_map it (d_rshards d)). split.
  - eapply concat_lists; [exact L|exact Hr|apply flat_map_it_perm; exact Hi].
  - unfold keys. apply flat_map_map.
Qed.

Lemma v_clear n d : wf eqk hash n d ->
  wf eqk hash n (clear d) /\ (forall x, rv (clear d) x = rv d x) /\ (forall x, wv (clear d) x = None).
Proof.
  intros (Hi & [Lw Hw] & Hr). split; [|split; [reflexivity|]].
  - split; [exact Hi|]. split; [|exact Hr]. cbn [clear d_shift d_shards]. split; [rewrite map_length; exact Lw|].
    intros i m Hm. rewrite nth_error_map in Hm. destruct (nth_error (d_shards d) i); [|discriminate].
    injection Hm as <-. split; [constructor|intros p []].
  - intros x. unfold wv, absl. cbn [clear d_shift d_shards]. rewrite nth_error_map.
    destruct (nth_error (d_shards d) _); reflexivity.
Qed.

(** The entry found under [k] has a key equal to [k]. *)
Lemma v_key n d k p : wf eqk hash n d ->
  (rv d k = Some p -> eqk k (fst p) = true) /\ (wv d k = Some p -> eqk k (fst p) = true).
Proof.
  intros W. destruct (v_rlen n d W) as (lr & [Hr _] & _). destruct (v_len n d W) as (lw & [Hw _] & _).
  split; intros E; [apply Hr in E|apply Hw in E]; tauto.
Qed.
End View.
