(** * Driving a DBDashMap through its API; refinement to a pair of maps *)
From Coq Require Import List Bool NArith Arith Lia Permutation ZifyNat ZifyN.
From Verif Require Import DashModel DashSpec DashProofs.
Import ListNotations.

Section Run.
Context {K V : Type}.
Variable eqk : K -> K -> bool.
Variable hash : K -> N.

(** One API call ([None]: panic).  [n] is the value of [shard_amount()] during the call. *)
Definition dash_call (n : nat) (d : dmap K V) (o : dop K V) : option (dmap K V * dres K V) :=
  match o with
  | DInsert k v => option_map (fun x => (fst x, DVal (snd x))) (insert eqk hash k v d)
  | DRemove k => option_map (fun x => (fst x, DPair (snd x))) (remove eqk hash k d)
  | DGetRead k => option_map (fun r => (d, DVal r)) (get_read eqk hash k d)
  | DGetKeyValue k => option_map (fun r => (d, DPair r)) (get_key_value eqk hash k d)
  | DGetWrite k f => option_map (fun x => (fst x, DVal (snd x))) (get_write eqk hash k f d)
  | DLazyUpdate => option_map (fun d' => (d', DNone)) (lazy_update n d)
  | DUpdate it => option_map (fun d' => (d', DNone)) (update eqk it n d)
  | DMerge it => option_map (fun x => (fst x, DMapRes (snd x))) (merge_r_shards eqk it n d)
  | DLen => Some (d, DNat (len d))
  | DRLen => Some (d, DNat (r_len d))
  | DIsEmpty => Some (d, DBool (is_empty d))
  | DIsEmptyR => Some (d, DBool (is_empty_r d))
  | DKeys it => Some (d, DKeyList (keys it d))
  | DValues it => Some (d, DValList (values it d))
  | DWKeys it => Some (d, DKeyList (w_keys it d))
  | DClear => Some (clear d, DNone)
  | DApply it f => option_map (fun d' => (d', DNone)) (apply_to_all_values eqk hash it f d)
  | DApplyWrite f => Some (apply_to_all_values_write f d, DNone)
  | DApplyReadWrite it f =>
      option_map (fun d' => (d', DNone)) (apply_to_all_values_read_write eqk it f d)
  | DApplyKeys it f => option_map (fun d' => (d', DNone)) (apply_to_all_keys eqk hash it f d)
  end.

Fixpoint dash_run (n : nat) (d : dmap K V) (os : list (dop K V))
  : option (dmap K V * list (dres K V)) :=
  match os with
  | [] => Some (d, [])
  | o :: os' =>
      match dash_call n d o with
      | None => None
      | Some (d', r) =>
          match dash_run n d' os' with
          | None => None
          | Some (d'', rs) => Some (d'', r :: rs)
          end
      end
  end.

Hypothesis L : lawful eqk hash.

Lemma dash_call_ok n d o : wf eqk hash n d -> op_ok o ->
  exists d' r s, dash_call n d o = Some (d', r) /\ wf eqk hash n d' /\
    sstep eqk (abs eqk hash d) o s r /\ teq s (abs eqk hash d').
Proof.
  intros Hwf Hok. pose proof Hwf as (Hi & Hw & Hr). unfold abs.
  assert (Hfr : forall m : fmap (K := K) (V := V), feq m m) by (intros m k; reflexivity).
  destruct o; cbn in Hok; cbn [dash_call].
  - destruct (insert_ok eqk hash L n d k v Hwf) as (d' & -> & W & Sh & R & E).
    cbn [option_map fst snd]; do 3 eexists. split; [reflexivity|]. split; [exact W|]. split; [constructor|].
    rewrite Sh, R. split; cbn; [apply Hfr|]. intros x. symmetry. apply E.
  - destruct (remove_ok eqk hash L n d k Hwf) as (d' & -> & W & Sh & R & E).
    cbn [option_map fst snd]; do 3 eexists. split; [reflexivity|]. split; [exact W|]. split; [constructor|].
    rewrite Sh, R. split; cbn; [apply Hfr|]. intros x. symmetry. apply E.
  - unfold get_read, shard_of. destruct (wfs_get eqk hash _ _ _ k Hr (Hi k)) as (m & Hm & _).
    fold (idx hash (d_shift d) k). rewrite Hm. cbn. cbn [option_map fst snd]; do 3 eexists. split; [reflexivity|]. split; [exact Hwf|].
    split; [|split; apply Hfr].
    assert (E : Some m = nth_error (d_rshards d) (idx hash (d_shift d) k)) by auto.
    replace (hm_find eqk k m) with (absl eqk hash (d_shift d) (d_rshards d) k) by (unfold absl; rewrite Hm; reflexivity).
    constructor.
  - unfold get_key_value, shard_of. destruct (wfs_get eqk hash _ _ _ k Hr (Hi k)) as (m & Hm & _).
    fold (idx hash (d_shift d) k). rewrite Hm. cbn. cbn [option_map fst snd]; do 3 eexists. split; [reflexivity|]. split; [exact Hwf|].
    split; [|split; apply Hfr].
    replace (hm_find eqk k m) with (absl eqk hash (d_shift d) (d_rshards d) k) by (unfold absl; rewrite Hm; reflexivity).
    constructor.
  - destruct (get_write_ok eqk hash L n d k f Hwf) as (d' & -> & W & Sh & R & E).
    cbn [option_map fst snd]; do 3 eexists. split; [reflexivity|]. split; [exact W|]. split; [constructor|].
    rewrite Sh, R. split; cbn; [apply Hfr|]. intros x. symmetry. apply E.
  - destruct (lazy_update_ok eqk hash n d Hwf) as (d' & -> & W & Sh & R & E).
    cbn [option_map fst snd]; do 3 eexists. split; [reflexivity|]. split; [exact W|]. split; [constructor|].
    rewrite Sh, R, E. split; cbn; [apply Hfr|]. intros x. symmetry. apply absl_empty.
  - destruct (update_ok eqk hash L n d it Hwf Hok) as (d' & -> & W & Sh & R & E).
    cbn [option_map fst snd]; do 3 eexists. split; [reflexivity|]. split; [exact W|]. split; [constructor|].
    rewrite Sh, R. split; cbn; [|apply Hfr]. intros x. symmetry. apply E.
  - destruct (merge_ok eqk hash L n d it Hwf Hok) as (d' & l & -> & W & Sh & R & E & Hl).
    cbn [option_map fst snd]; do 3 eexists. split; [reflexivity|]. split; [exact W|]. split; [constructor; exact Hl|].
    rewrite Sh, R, E. split; cbn; [apply Hfr|]. intros x. symmetry. apply absl_empty.
  - cbn [option_map fst snd]; do 3 eexists. split; [reflexivity|]. split; [exact Hwf|]. split; [|split; apply Hfr].
    unfold len. rewrite len_concat. constructor. eapply concat_lists; [exact L|exact Hw|apply Permutation_refl].
  - cbn [option_map fst snd]; do 3 eexists. split; [reflexivity|]. split; [exact Hwf|]. split; [|split; apply Hfr].
    unfold r_len. rewrite len_concat. constructor. eapply concat_lists; [exact L|exact Hr|apply Permutation_refl].
  - cbn [option_map fst snd]; do 3 eexists. split; [reflexivity|]. split; [exact Hwf|]. split; [|split; apply Hfr].
    unfold is_empty, len. rewrite len_concat. constructor. eapply empty_iff; [exact L|exact Hw].
  - cbn [option_map fst snd]; do 3 eexists. split; [reflexivity|]. split; [exact Hwf|]. split; [|split; apply Hfr].
    unfold is_empty_r, r_len. rewrite len_concat. constructor. eapply empty_iff; [exact L|exact Hr].
  - cbn [option_map fst snd]; do 3 eexists. split; [reflexivity|]. split; [exact Hwf|]. split; [|split; apply Hfr].
    unfold keys. rewrite flat_map_map. constructor. eapply concat_lists; [exact L|exact Hr|].
    apply flat_map_it_perm. exact Hok.
  - cbn [option_map fst snd]; do 3 eexists. split; [reflexivity|]. split; [exact Hwf|]. split; [|split; apply Hfr].
    unfold values. rewrite flat_map_map. constructor. eapply concat_lists; [exact L|exact Hr|].
    apply flat_map_it_perm. exact Hok.
  - cbn [option_map fst snd]; do 3 eexists. split; [reflexivity|]. split; [exact Hwf|]. split; [|split; apply Hfr].
    unfold w_keys. rewrite flat_map_map. constructor. eapply concat_lists; [exact L|exact Hw|].
    apply flat_map_it_perm. exact Hok.
  - assert (E : map (fun _ : list (K * V) => @nil (K * V)) (d_shards d) = repeat [] n).
    { rewrite <- (proj1 Hw). generalize (d_shards d). clear. induction l as [|x l IH]; cbn; [reflexivity|]. rewrite IH. reflexivity. }
    cbn [option_map fst snd]; do 3 eexists. split; [reflexivity|]. unfold clear. rewrite E. split.
    + split; [exact Hi|]. cbn. split; [apply wfs_empty|exact Hr].
    + split; [constructor|]. cbn. split; cbn; [apply Hfr|]. intros x. symmetry. apply absl_empty.
  - destruct (apply_ok eqk hash L n d it f Hwf Hok) as (d' & -> & W & Sh & R & E).
    cbn [option_map fst snd]; do 3 eexists. split; [reflexivity|]. split; [exact W|]. split; [constructor|].
    rewrite Sh, R. split; cbn; [apply Hfr|]. intros x. symmetry. apply E.
  - destruct (apply_write_ok eqk hash n d f Hwf) as (W & E).
    cbn [option_map fst snd]; do 3 eexists. split; [reflexivity|]. split; [exact W|]. split; [constructor|].
    split; cbn; [apply Hfr|]. intros x. symmetry. apply E.
  - destruct (apply_rw_ok eqk hash L n d it f Hwf Hok) as (d' & -> & W & Sh & R & E).
    cbn [option_map fst snd]; do 3 eexists. split; [reflexivity|]. split; [exact W|]. split; [constructor|].
    rewrite Sh, R. split; cbn; [apply Hfr|]. intros x. symmetry. apply E.
  - destruct (apply_keys_ok eqk hash L n d it f Hwf Hok) as (d' & -> & W & Sh & R & E).
    cbn [option_map fst snd]; do 3 eexists. split; [reflexivity|]. split; [exact W|].
    split; [constructor; apply (r_entries_spec eqk hash L n d it Hwf Hok)|].
    rewrite Sh, R. split; cbn; [apply Hfr|]. intros x. symmetry. apply E.
Qed.

Lemma sruns_start (s s' : two K V) l s2 : teq s s' -> sruns eqk s' l s2 -> sruns eqk s l s2.
Proof.
  intros [E1 E2] H. inversion H as [? ? [A B]|? ? ? ? ? ? ? [A B]]; subst.
  - constructor. split; intros k; [rewrite (E1 k)|rewrite (E2 k)]; auto.
  - econstructor; eauto. split; intros k; [rewrite (E1 k)|rewrite (E2 k)]; auto.
Qed.

Lemma dash_run_ok n : forall os d, wf eqk hash n d -> Forall op_ok os ->
  exists d' rs, dash_run n d os = Some (d', rs) /\ wf eqk hash n d' /\ length rs = length os /\
    sruns eqk (abs eqk hash d) (combine os rs) (abs eqk hash d').
Proof.
  induction os as [|o os IH]; intros d Hwf Hos; cbn.
  - exists d, []. split; [reflexivity|]. split; [exact Hwf|]. split; [reflexivity|].
    constructor. split; intros k; reflexivity.
  - inversion Hos as [|? ? Ho Hos']; subst.
    destruct (dash_call_ok n d o Hwf Ho) as (d1 & r & s & -> & W1 & St & Eq).
    destruct (IH d1 W1 Hos') as (d2 & rs & -> & W2 & Len & Runs).
    exists d2, (r :: rs). split; [reflexivity|]. split; [exact W2|]. split; [cbn; congruence|].
    cbn. econstructor; [split; intros k; reflexivity|exact St|].
    eapply sruns_start; [exact Eq|exact Runs].
Qed.

Lemma dash_new_wf cpus : (1 <= cpus)%N -> (cpus * 4 <= 2 ^ 63)%N ->
  wf eqk hash (N.to_nat (shard_amount cpus)) (dash_new cpus : dmap K V) /\
  teq (abs eqk hash (dash_new cpus : dmap K V)) (Two fempty fempty).
Proof.
  intros H1 H2. destruct (shard_amount_pow2 cpus H1 H2) as (k & Ek & Hk).
  unfold dash_new, wf, abs. cbn [d_shift d_shards d_rshards]. split; [|split; apply absl_empty].
  split; [|split; apply wfs_empty]. intros x. unfold idx, ncb. rewrite Ek, tz_pow2.
  assert (Hlt : (determine_shard (64 - k) (hash x mod 2 ^ 64) < 2 ^ k)%N) by (apply determine_shard_lt; lia).
  revert Hlt. generalize (determine_shard (64 - k) (hash x mod 2 ^ 64)) (2 ^ k)%N. intros a b Hlt. lia.
Qed.


(** Every program of API calls on a new map behaves as on a pair of maps. *)
Lemma dash_program cpus os : (1 <= cpus)%N -> (cpus * 4 <= 2 ^ 63)%N -> Forall op_ok os ->
  exists d rs s, dash_run (N.to_nat (shard_amount cpus)) (dash_new cpus) os = Some (d, rs) /\
    length rs = length os /\ sruns eqk (Two fempty fempty) (combine os rs) s.
Proof.
  intros H1 H2 Hos. destruct (dash_new_wf cpus H1 H2) as [W E].
  destruct (dash_run_ok _ os _ W Hos) as (d & rs & R & _ & Len & Runs).
  exists d, rs, (abs eqk hash d). split; [exact R|]. split; [exact Len|].
  eapply sruns_start; [|exact Runs]. split; intros k; symmetry; apply E.
Qed.

End Run.
