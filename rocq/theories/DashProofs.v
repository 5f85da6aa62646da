(** * Proofs about DBDashMap *)
From Coq Require Import List Bool NArith PArith Arith Lia Permutation ZifyNat ZifyN ZifyBool.
From Verif Require Import DashModel DashSpec.
Import ListNotations.

(** ** Shard selection *)

Lemma determine_shard_lt k h : (1 <= k <= 63)%N -> (determine_shard (64 - k) h < 2 ^ k)%N.
Proof.
  intros Hk. unfold determine_shard. rewrite (N.mod_small (64 - k)) by lia.
  rewrite N.shiftr_div_pow2. apply N.div_lt_upper_bound; [apply N.pow_nonzero; lia|].
  rewrite <- N.pow_add_r. replace (64 - k + k)%N with 64%N by lia.
  apply N.mod_upper_bound. lia.
Qed.

Lemma tz_pow2 k : trailing_zeros (2 ^ k) = k.
Proof.
  induction k as [|k IH] using N.peano_ind; [reflexivity|].
  rewrite N.pow_succ_r'. assert (H : (2 ^ k <> 0)%N) by (apply N.pow_nonzero; lia).
  destruct (2 ^ k)%N as [|p]; [congruence|]. cbn in *. rewrite IH. reflexivity.
Qed.

Lemma next_pow2_is n : exists k, next_pow2 n = (2 ^ k)%N.
Proof. unfold next_pow2. destruct (n <=? 1)%N; [exists 0%N; reflexivity|eauto]. Qed.

Lemma shard_amount_pow2 cpus : (1 <= cpus)%N -> (cpus * 4 <= 2 ^ 63)%N ->
  exists k, shard_amount cpus = (2 ^ k)%N /\ (2 <= k <= 63)%N.
Proof.
  intros H1 H2. unfold shard_amount, next_pow2.
  destruct (N.leb_spec (cpus * 4) 1) as [L|L]; [lia|].
  exists (N.log2_up (cpus * 4)). split; [reflexivity|]. split.
  - change 2%N with (N.log2_up 4). apply N.log2_up_le_mono. lia.
  - rewrite <- (N.log2_up_pow2 63) by lia. apply N.log2_up_le_mono. exact H2.
Qed.

(** ** Lists *)

Lemma set_nth_same {X} i (x y : X) l : nth_error l i = Some y -> nth_error (set_nth i x l) i = Some x.
Proof. revert i; induction l as [|a l IH]; intros [|i]; cbn; try discriminate; auto. Qed.
Lemma set_nth_other {X} i j (x : X) l : i <> j -> nth_error (set_nth i x l) j = nth_error l j.
Proof.
  revert i j; induction l as [|a l IH]; intros [|i] [|j] H; cbn; auto; try congruence.
Qed.
Lemma set_nth_length {X} i (x : X) l : length (set_nth i x l) = length l.
Proof. revert i; induction l as [|a l IH]; intros [|i]; cbn; auto. Qed.

Section Proofs.
Context {K V : Type}.
Variable eqk : K -> K -> bool.
Variable hash : K -> N.
Hypothesis L : lawful eqk hash.

Notation uniq := (ForallOrdPairs (fun p q : K * V => eqk (fst p) (fst q) = false)).
Notation find1 := (hm_find eqk).

Local Lemma erefl a : eqk a a = true. Proof. apply (eqk_refl _ _ L). Qed.
Local Lemma esym a b : eqk a b = true -> eqk b a = true. Proof. apply (eqk_sym _ _ L). Qed.
Local Lemma etrans a b c : eqk a b = true -> eqk b c = true -> eqk a c = true.
Proof. apply (eqk_trans _ _ L). Qed.
Local Lemma esym_b a b : eqk a b = eqk b a.
Proof.
  destruct (eqk a b) eqn:E; [symmetry; apply esym; exact E|].
  destruct (eqk b a) eqn:E'; [|reflexivity]. apply esym in E'. congruence.
Qed.
Local Lemma econg a b c : eqk a b = true -> eqk a c = eqk b c.
Proof.
  intros H. destruct (eqk b c) eqn:E; [eapply etrans; eauto|].
  destruct (eqk a c) eqn:E'; [|reflexivity].
  rewrite (etrans b a c) in E; [discriminate|apply esym; exact H|exact E'].
Qed.
Local Lemma econg2 a b c : eqk a b = true -> eqk c a = eqk c b.
Proof. intros H. rewrite !(esym_b c). apply econg. exact H. Qed.

Lemma find1_cong x y (m : hm K V) : eqk x y = true -> find1 x m = find1 y m.
Proof.
  intros H. unfold hm_find. induction m as [|p m IH]; cbn; [reflexivity|].
  rewrite (econg _ _ _ H), IH. reflexivity.
Qed.

Lemma find1_cons x p (m : hm K V) : find1 x (p :: m) = if eqk x (fst p) then Some p else find1 x m.
Proof. reflexivity. Qed.

Lemma find1_iff x (m : hm K V) p : uniq m ->
  find1 x m = Some p <-> In p m /\ eqk x (fst p) = true.
Proof.
  unfold hm_find. intros Hu. split.
  - intros H. apply find_some in H. exact H.
  - induction m as [|q m IH]; cbn; intros [Hin He]; [tauto|].
    inversion Hu as [|? ? Hq Hu']; subst. rewrite Forall_forall in Hq.
    destruct Hin as [->|Hin]; [rewrite He; reflexivity|].
    destruct (eqk x (fst q)) eqn:Eq; [|auto].
    exfalso. specialize (Hq p Hin). rewrite <- (econg _ _ (fst p) Eq) in Hq. congruence.
Qed.

Lemma find1_none x (m : hm K V) : find1 x m = None <-> forall p, In p m -> eqk x (fst p) = false.
Proof.
  unfold hm_find. split.
  - intros H p Hp. exact (find_none _ _ H p Hp).
  - intros H. induction m as [|p m IH]; cbn; [reflexivity|].
    rewrite (H p) by (cbn; auto). apply IH. intros q Hq. apply H. cbn. auto.
Qed.

Lemma uniq_perm (l l' : hm K V) : Permutation l l' -> uniq l -> uniq l'.
Proof.
  induction 1 as [|x l l' P IH|x y l|l l' l'' P1 IH1 P2 IH2]; intros H; auto.
  - inversion H as [|? ? Hx Hl]; subst. constructor; [|auto].
    rewrite Forall_forall in *. intros q Hq. apply Hx. eapply Permutation_in; [symmetry; exact P|exact Hq].
  - inversion H as [|? ? Hx Hl]; subst. inversion Hl as [|? ? Hy Hl']; subst.
    inversion Hx; subst. constructor; [constructor; [rewrite esym_b; assumption|assumption]|].
    constructor; assumption.
Qed.

Lemma find1_perm x (l l' : hm K V) : Permutation l l' -> uniq l -> find1 x l = find1 x l'.
Proof.
  intros P Hu. pose proof (uniq_perm _ _ P Hu) as Hu'.
  destruct (find1 x l') as [p|] eqn:E.
  - apply find1_iff in E; [|exact Hu']. apply find1_iff; [exact Hu|].
    split; [|tauto]. eapply Permutation_in; [symmetry; exact P|tauto].
  - rewrite find1_none in *. intros p Hp. apply E. eapply Permutation_in; eauto.
Qed.

Lemma uniq_app (a b : hm K V) : uniq (a ++ b) <->
  uniq a /\ uniq b /\ forall p q, In p a -> In q b -> eqk (fst p) (fst q) = false.
Proof.
  induction a as [|x a IH]; cbn.
  - split; [intros H; split; [constructor|split; [exact H|intros ? ? []]]|tauto].
  - split.
    + intros H. inversion H as [|? ? Hx Hl]; subst. apply IH in Hl. rewrite Forall_app in Hx.
      destruct Hl as (Ha & Hb & Hab). destruct Hx as [Hxa Hxb]. split; [constructor; auto|].
      split; [exact Hb|]. intros p q [<-|Hp] Hq; [|auto]. rewrite Forall_forall in Hxb. auto.
    + intros (Ha & Hb & Hab). inversion Ha; subst. constructor.
      * rewrite Forall_app. split; [assumption|]. rewrite Forall_forall. intros q Hq. apply Hab; auto.
      * apply IH. split; [assumption|split; [exact Hb|]]. intros p q Hp Hq. apply Hab; auto.
Qed.

(** ** One shard *)

Lemma hm_remove_eq k (m : hm K V) : uniq m ->
  fst (hm_remove eqk k m) = filter (fun p => negb (eqk k (fst p))) m /\
  snd (hm_remove eqk k m) = find1 k m.
Proof.
  unfold hm_find. induction m as [|p m IH]; cbn; intros Hu; [auto|].
  inversion Hu as [|? ? Hp Hu']; subst. destruct (IH Hu') as [I1 I2].
  destruct (eqk k (fst p)) eqn:E; cbn.
  - split; [|reflexivity]. clear -Hp E L. symmetry. 
    rewrite Forall_forall in Hp. induction m as [|q m IH]; cbn; [reflexivity|].
    rewrite (econg _ _ (fst q) E), (Hp q) by (cbn; auto). cbn. f_equal. apply IH.
    intros x Hx. apply Hp. cbn. auto.
  - destruct (hm_remove eqk k m) as [m' r]. cbn in *. subst. auto.
Qed.

Lemma uniq_filter f (m : hm K V) : uniq m -> uniq (filter f m).
Proof.
  induction 1 as [|p m Hp Hm IH]; cbn; [constructor|].
  destruct (f p); [|exact IH]. constructor; [|exact IH].
  rewrite Forall_forall in *. intros q Hq. apply filter_In in Hq. apply Hp. tauto.
Qed.

Lemma hm_insert_fresh k v (m : hm K V) : (forall p, In p m -> eqk k (fst p) = false) ->
  hm_insert eqk k v m = (m ++ [(k, v)], None).
Proof.
  induction m as [|p m IH]; cbn; intros H; [reflexivity|].
  rewrite (H p) by auto. rewrite IH by auto. reflexivity.
Qed.

(** [remove] then [insert]. *)
Lemma put_eq k v (m : hm K V) : uniq m ->
  hm_insert eqk k v (fst (hm_remove eqk k m)) =
  (filter (fun p => negb (eqk k (fst p))) m ++ [(k, v)], None).
Proof.
  intros Hu. rewrite (proj1 (hm_remove_eq k m Hu)). apply hm_insert_fresh.
  intros p Hp. apply filter_In in Hp. destruct (eqk k (fst p)); [cbn in Hp; destruct Hp; discriminate|reflexivity].
Qed.

Lemma put_uniq k v (m : hm K V) : uniq m ->
  uniq (filter (fun p => negb (eqk k (fst p))) m ++ [(k, v)]).
Proof.
  intros Hu. apply uniq_app. split; [apply uniq_filter; exact Hu|]. split; [repeat constructor|].
  intros p q Hp [<-|[]]. apply filter_In in Hp. cbn. rewrite esym_b.
  destruct (eqk k (fst p)); [cbn in Hp; destruct Hp; discriminate|reflexivity].
Qed.

Lemma find1_filter k x (m : hm K V) :
  find1 x (filter (fun p => negb (eqk k (fst p))) m) = if eqk x k then None else find1 x m.
Proof.
  unfold hm_find. induction m as [|p m IH]; cbn; [destruct (eqk x k); reflexivity|].
  destruct (eqk k (fst p)) eqn:E; cbn; rewrite IH.
  - destruct (eqk x k) eqn:E2; [reflexivity|].
    rewrite <- (econg2 _ _ x E), E2. reflexivity.
  - destruct (eqk x k) eqn:E2.
    + rewrite (econg _ _ (fst p) E2), E. reflexivity.
    + reflexivity.
Qed.

Lemma find1_app x (a b : hm K V) :
  find1 x (a ++ b) = match find1 x a with Some p => Some p | None => find1 x b end.
Proof.
  unfold hm_find. induction a as [|p a IH]; cbn; [reflexivity|].
  destruct (eqk x (fst p)); auto.
Qed.

Lemma find1_put k v x (m : hm K V) :
  find1 x (filter (fun p => negb (eqk k (fst p))) m ++ [(k, v)]) =
  if eqk x k then Some (k, v) else find1 x m.
Proof.
  rewrite find1_app, find1_filter. unfold hm_find at 2. cbn.
  destruct (eqk x k); [reflexivity|]. destruct (find1 x m); reflexivity.
Qed.

Lemma hm_modify_map k f (m : hm K V) : uniq m ->
  hm_modify eqk k f m = map (fun p => if eqk k (fst p) then (fst p, f (snd p)) else p) m.
Proof.
  induction 1 as [|p m Hp Hm IH]; cbn; [reflexivity|].
  destruct (eqk k (fst p)) eqn:E; [|rewrite IH; reflexivity].
  f_equal. rewrite <- (map_id m) at 1. apply map_ext_in. intros q Hq.
  rewrite Forall_forall in Hp. rewrite (econg _ _ _ E), (Hp q Hq). reflexivity.
Qed.

Lemma uniq_map (g : K * V -> K * V) (m : hm K V) :
  (forall p, fst (g p) = fst p) -> uniq m -> uniq (map g m).
Proof.
  intros Hg. induction 1 as [|p m Hp Hm IH]; cbn; constructor; auto.
  rewrite Forall_forall in *. intros q Hq. apply in_map_iff in Hq.
  destruct Hq as (r & <- & Hr). rewrite !Hg. auto.
Qed.

Lemma find1_map (g : K * V -> K * V) x (m : hm K V) :
  (forall p, fst (g p) = fst p) -> find1 x (map g m) = option_map g (find1 x m).
Proof.
  intros Hg. unfold hm_find. induction m as [|p m IH]; cbn; [reflexivity|].
  rewrite Hg. destruct (eqk x (fst p)); auto.
Qed.

Lemma modify_uniq k f (m : hm K V) : uniq m -> uniq (hm_modify eqk k f m).
Proof.
  intros H. rewrite hm_modify_map by exact H. apply uniq_map; [|exact H].
  intros p. destruct (eqk k (fst p)); reflexivity.
Qed.

Lemma find1_modify k f x (m : hm K V) : uniq m ->
  find1 x (hm_modify eqk k f m) =
  if eqk x k then option_map (fun p => (fst p, f (snd p))) (find1 x m) else find1 x m.
Proof.
  intros Hu. rewrite hm_modify_map by exact Hu. rewrite find1_map.
  2:{ intros p. destruct (eqk k (fst p)); reflexivity. }
  destruct (find1 x m) as [p|] eqn:E; cbn; [|destruct (eqk x k); reflexivity].
  apply find1_iff in E; [|exact Hu]. rewrite (econg2 _ _ k (esym _ _ (proj2 E))) .
  rewrite (esym_b k x). destruct (eqk x k); reflexivity.
Qed.

(** ** All shards *)

Definition idx (shift : N) (k : K) : nat := N.to_nat (determine_shard shift (hash k mod 2 ^ 64)).

Lemma idx_cong sh x y : eqk x y = true -> idx sh x = idx sh y.
Proof. intros H. unfold idx. rewrite (hash_eqk _ _ L _ _ H). reflexivity. Qed.

Definition wfs (sh : N) (n : nat) (ss : list (hm K V)) : Prop :=
  length ss = n /\
  forall i m, nth_error ss i = Some m -> uniq m /\ forall p, In p m -> idx sh (fst p) = i.

Definition wf (n : nat) (d : dmap K V) : Prop :=
  (forall k, idx (d_shift d) k < n) /\
  wfs (d_shift d) n (d_shards d) /\ wfs (d_shift d) n (d_rshards d).

Definition absl (sh : N) (ss : list (hm K V)) : fmap (K := K) (V := V) :=
  fun k => match nth_error ss (idx sh k) with Some m => find1 k m | None => None end.

Definition abs (d : dmap K V) : two K V := Two (absl (d_shift d) (d_rshards d)) (absl (d_shift d) (d_shards d)).

Lemma wfs_get sh n ss k : wfs sh n ss -> idx sh k < n ->
  exists m, nth_error ss (idx sh k) = Some m /\ uniq m /\ (forall p, In p m -> idx sh (fst p) = idx sh k).
Proof.
  intros [Hlen Hw] Hk. destruct (nth_error ss (idx sh k)) as [m|] eqn:E.
  - exists m. destruct (Hw _ _ E). auto.
  - apply nth_error_None in E. lia.
Qed.

Lemma wfs_set sh n ss i m : wfs sh n ss -> uniq m -> (forall p, In p m -> idx sh (fst p) = i) ->
  wfs sh n (set_nth i m ss).
Proof.
  intros [Hlen Hw] Hu Hi. split; [rewrite set_nth_length; exact Hlen|].
  intros j m' Hj. destruct (Nat.eq_dec i j) as [<-|Hne].
  - destruct (nth_error ss i) as [m0|] eqn:E.
    + rewrite (set_nth_same _ _ _ _ E) in Hj. inversion Hj; subst. auto.
    + exfalso. apply nth_error_None in E. assert (H : nth_error (set_nth i m ss) i <> None) by (intros C; discriminate (eq_trans (eq_sym Hj) C)).
      apply nth_error_Some in H. rewrite set_nth_length in H. lia.
  - rewrite set_nth_other in Hj by exact Hne. auto.
Qed.

Lemma absl_set sh n ss k m m' x : wfs sh n ss ->
  nth_error ss (idx sh k) = Some m ->
  absl sh (set_nth (idx sh k) m' ss) x =
  if Nat.eqb (idx sh x) (idx sh k) then find1 x m' else absl sh ss x.
Proof.
  intros Hw Hm. unfold absl. destruct (Nat.eqb_spec (idx sh x) (idx sh k)) as [E|E].
  - rewrite E, (set_nth_same _ _ _ _ Hm). reflexivity.
  - rewrite set_nth_other by auto. reflexivity.
Qed.

(** Listing all shards. *)
Lemma concat_uniq sh n ss : wfs sh n ss -> uniq (concat ss).
Proof.
  intros [_ Hw].
  assert (G : forall ss off, (forall i m, nth_error ss i = Some m ->
     uniq m /\ forall p, In p m -> idx sh (fst p) = off + i) ->
     uniq (concat ss) /\ forall p, In p (concat ss) -> off <= idx sh (fst p)).
  { clear -L. induction ss as [|m ss IH]; intros off H; cbn.
    - split; [constructor|intros p []].
    - destruct (H 0 m eq_refl) as [Hu Hi]. destruct (IH (S off)) as [Hu' Hi'].
      { intros i m' Hm. destruct (H (S i) m' Hm) as [A B]. split; [exact A|].
        intros p Hp. rewrite (B p Hp). lia. }
      split.
      + apply uniq_app. split; [exact Hu|]. split; [exact Hu'|].
        intros p q Hp Hq. destruct (eqk (fst p) (fst q)) eqn:E; [|reflexivity].
        apply (idx_cong sh) in E. rewrite (Hi p Hp) in E. specialize (Hi' q Hq). lia.
      + intros p Hp. apply in_app_or in Hp. destruct Hp as [Hp|Hp]; [rewrite (Hi p Hp); lia|].
        specialize (Hi' p Hp). lia. }
  apply (G ss 0). intros i m Hm. destruct (Hw i m Hm). auto.
Qed.

Lemma concat_find sh n ss k : wfs sh n ss -> find1 k (concat ss) = absl sh ss k.
Proof.
  intros Hw. pose proof (concat_uniq _ _ _ Hw) as Hu. destruct Hw as [_ Hw]. unfold absl.
  destruct (find1 k (concat ss)) as [p|] eqn:E.
  - apply find1_iff in E; [|exact Hu]. destruct E as [Hin He]. apply in_concat in Hin.
    destruct Hin as (m & Hm & Hp). apply In_nth_error in Hm. destruct Hm as [i Hi].
    destruct (Hw i m Hi) as [Hum Hidx]. pose proof (Hidx p Hp) as Ei.
    rewrite (idx_cong sh _ _ He), Ei, Hi. symmetry. apply find1_iff; auto.
  - destruct (nth_error ss (idx sh k)) as [m|] eqn:Em; [|reflexivity].
    symmetry. apply find1_none. intros p Hp. rewrite find1_none in E. apply E.
    apply in_concat. exists m. split; [eapply nth_error_In; exact Em|exact Hp].
Qed.

Lemma lists_iff (l : hm K V) m : uniq l -> (forall k, find1 k l = m k) -> lists eqk l m.
Proof.
  intros Hu Hf. split; [|exact Hu]. intros k p. rewrite <- Hf. apply find1_iff. exact Hu.
Qed.

Lemma concat_lists sh n ss l : wfs sh n ss -> Permutation l (concat ss) -> lists eqk l (absl sh ss).
Proof.
  intros Hw P. pose proof (concat_uniq _ _ _ Hw) as Hu. apply lists_iff.
  - eapply uniq_perm; [symmetry; exact P|exact Hu].
  - intros k. rewrite <- (concat_find _ _ _ _ Hw). symmetry. apply find1_perm; [symmetry; exact P|exact Hu].
Qed.

Lemma flat_map_it_perm (it : hm K V -> hm K V) ss : iteration it -> Permutation (flat_map it ss) (concat ss).
Proof.
  intros Hit. induction ss as [|m ss IH]; cbn; [constructor|]. apply Permutation_app; [apply Hit|exact IH].
Qed.

Lemma flat_map_map {X Y} (f : X -> Y) (g : hm K V -> list X) ss :
  flat_map (fun m => map f (g m)) ss = map f (flat_map g ss).
Proof. induction ss as [|m ss IH]; cbn; [reflexivity|]. rewrite map_app, IH. reflexivity. Qed.

(** ** Basic operations *)

Lemma insert_ok n d k v : wf n d ->
  exists d', insert eqk hash k v d = Some (d', None) /\ wf n d' /\
    d_shift d' = d_shift d /\ d_rshards d' = d_rshards d /\
    feq (absl (d_shift d) (d_shards d')) (fput eqk k v (absl (d_shift d) (d_shards d))).
Proof.
  intros (Hi & Hw & Hr). destruct (wfs_get _ _ _ k Hw (Hi k)) as (m & Hm & Hu & Hidx).
  unfold insert. unfold shard_of. fold (idx (d_shift d) k). rewrite Hm, (put_eq k v m Hu).
  eexists. split; [reflexivity|]. cbn. split; [|split; [reflexivity|split; [reflexivity|]]].
  - split; [exact Hi|]. cbn. split; [|exact Hr].
    apply wfs_set; [exact Hw|apply put_uniq; exact Hu|].
    intros p Hp. apply in_app_or in Hp. destruct Hp as [Hp|[<-|[]]]; [|reflexivity].
    apply filter_In in Hp. apply Hidx. tauto.
  - intros x. rewrite (absl_set _ _ _ _ _ _ _ Hw Hm). unfold fput.
    destruct (Nat.eqb_spec (idx (d_shift d) x) (idx (d_shift d) k)) as [E|E].
    + rewrite find1_put. unfold absl. rewrite E, Hm. reflexivity.
    + destruct (eqk x k) eqn:Ex; [apply (idx_cong (d_shift d)) in Ex; congruence|reflexivity].
Qed.

Lemma remove_ok n d k : wf n d ->
  exists d', remove eqk hash k d = Some (d', absl (d_shift d) (d_shards d) k) /\ wf n d' /\
    d_shift d' = d_shift d /\ d_rshards d' = d_rshards d /\
    feq (absl (d_shift d) (d_shards d')) (fdel eqk k (absl (d_shift d) (d_shards d))).
Proof.
  intros (Hi & Hw & Hr). destruct (wfs_get _ _ _ k Hw (Hi k)) as (m & Hm & Hu & Hidx).
  unfold remove. unfold shard_of. fold (idx (d_shift d) k). rewrite Hm.
  destruct (hm_remove_eq k m Hu) as [E1 E2]. destruct (hm_remove eqk k m) as [m' r]. cbn in E1, E2. subst.
  eexists. split; [unfold absl; rewrite Hm; reflexivity|]. cbn. split; [|split; [reflexivity|split; [reflexivity|]]].
  - split; [exact Hi|]. cbn. split; [|exact Hr].
    apply wfs_set; [exact Hw|apply uniq_filter; exact Hu|].
    intros p Hp. apply filter_In in Hp. apply Hidx. tauto.
  - intros x. rewrite (absl_set _ _ _ _ _ _ _ Hw Hm). unfold fdel.
    destruct (Nat.eqb_spec (idx (d_shift d) x) (idx (d_shift d) k)) as [E|E].
    + rewrite find1_filter. unfold absl. rewrite E, Hm. reflexivity.
    + destruct (eqk x k) eqn:Ex; [apply (idx_cong (d_shift d)) in Ex; congruence|reflexivity].
Qed.

Lemma get_write_ok n d k f : wf n d ->
  exists d', get_write eqk hash k f d = Some (d', option_map snd (absl (d_shift d) (d_shards d) k)) /\ wf n d' /\
    d_shift d' = d_shift d /\ d_rshards d' = d_rshards d /\
    feq (absl (d_shift d) (d_shards d'))
      (fun x => if eqk x k then option_map (fun p => (fst p, f (snd p))) (absl (d_shift d) (d_shards d) x)
                else absl (d_shift d) (d_shards d) x).
Proof.
  intros (Hi & Hw & Hr). destruct (wfs_get _ _ _ k Hw (Hi k)) as (m & Hm & Hu & Hidx).
  unfold get_write. unfold shard_of. fold (idx (d_shift d) k). rewrite Hm.
  eexists. split; [unfold absl; rewrite Hm; reflexivity|]. cbn. split; [|split; [reflexivity|split; [reflexivity|]]].
  - split; [exact Hi|]. cbn. split; [|exact Hr].
    apply wfs_set; [exact Hw|apply modify_uniq; exact Hu|].
    intros p Hp. rewrite hm_modify_map in Hp by exact Hu. apply in_map_iff in Hp.
    destruct Hp as (q & <- & Hq). rewrite <- (Hidx q Hq). destruct (eqk k (fst q)); reflexivity.
  - intros x. rewrite (absl_set _ _ _ _ _ _ _ Hw Hm).
    destruct (Nat.eqb_spec (idx (d_shift d) x) (idx (d_shift d) k)) as [E|E].
    + rewrite find1_modify by exact Hu. unfold absl. rewrite E, Hm. reflexivity.
    + destruct (eqk x k) eqn:Ex; [apply (idx_cong (d_shift d)) in Ex; congruence|reflexivity].
Qed.

Lemma wfs_empty sh n : wfs sh n (repeat [] n).
Proof.
  split; [apply repeat_length|]. intros i m Hm. apply nth_error_In, repeat_spec in Hm. subst.
  split; [constructor|intros p []].
Qed.

Lemma absl_empty sh n : feq (absl sh (repeat [] n)) fempty.
Proof.
  intros k. unfold absl. destruct (nth_error _ _) as [m|] eqn:E; [|reflexivity].
  apply nth_error_In, repeat_spec in E. subst. reflexivity.
Qed.

Lemma lazy_update_ok n d : wf n d ->
  exists d', lazy_update n d = Some d' /\ wf n d' /\ d_shift d' = d_shift d /\
    d_rshards d' = d_shards d /\ d_shards d' = repeat [] n.
Proof.
  intros (Hi & Hw & Hr). unfold lazy_update. destruct Hw as [Lw Hw]. destruct Hr as [Lr Hr].
  rewrite Lw, Lr, Nat.leb_refl. cbn [andb]. eexists. split; [reflexivity|]. cbn.
  rewrite !skipn_all2, firstn_all2, !app_nil_r by lia. split; [|auto].
  split; [exact Hi|]. cbn. split; [apply wfs_empty|]. split; [exact Lw|exact Hw].
Qed.

Lemma hm_extend_fresh (l : hm K V) : forall m, uniq (m ++ l) -> hm_extend eqk m l = m ++ l.
Proof.
  unfold hm_extend. induction l as [|p l IH]; intros m Hu; cbn; [rewrite app_nil_r; reflexivity|].
  apply uniq_app in Hu. destruct Hu as (Hm & Hp & Hx). inversion Hp as [|? ? Hpl Hl]; subst.
  rewrite hm_insert_fresh. 2:{ intros q Hq. rewrite esym_b. apply Hx; cbn; auto. }
  cbn [fst]. rewrite IH; [rewrite <- app_assoc, <- surjective_pairing; reflexivity|].
  rewrite <- surjective_pairing. rewrite <- app_assoc. cbn. apply uniq_app. auto.
Qed.

Lemma merge_fold it ss : forall m, iteration it -> uniq (m ++ concat ss) ->
  fold_left (fun ris s => hm_extend eqk ris (it s)) ss m = m ++ flat_map it ss.
Proof.
  induction ss as [|s ss IH]; intros m Hit Hu; cbn; [rewrite app_nil_r; reflexivity|].
  cbn in Hu. assert (Hu2 : uniq (m ++ it s ++ concat ss)).
  { eapply uniq_perm; [|exact Hu]. apply Permutation_app_head, Permutation_app_tail. symmetry. apply Hit. }
  rewrite app_assoc in Hu2. rewrite hm_extend_fresh by (apply uniq_app in Hu2; tauto).
  rewrite IH by assumption. rewrite <- app_assoc. reflexivity.
Qed.

Lemma merge_ok n d it : wf n d -> iteration it ->
  exists d' l, merge_r_shards eqk it n d = Some (d', l) /\ wf n d' /\ d_shift d' = d_shift d /\
    d_rshards d' = d_rshards d /\ d_shards d' = repeat [] n /\
    lists eqk l (absl (d_shift d) (d_shards d)).
Proof.
  intros (Hi & Hw & Hr) Hit. unfold merge_r_shards. pose proof Hw as [Lw _].
  rewrite Lw, Nat.leb_refl. do 2 eexists. split; [reflexivity|]. cbn.
  rewrite skipn_all2, firstn_all2, app_nil_r by lia.
  split; [split; [exact Hi|cbn; split; [apply wfs_empty|exact Hr]]|].
  split; [reflexivity|]. split; [reflexivity|]. split; [reflexivity|].
  rewrite merge_fold; [|exact Hit|cbn; eapply concat_uniq; exact Hw].
  cbn. eapply concat_lists; [exact Hw|]. apply flat_map_it_perm. exact Hit.
Qed.

Lemma len_concat (ss : list (hm K V)) : list_sum (map (@length _) ss) = length (concat ss).
Proof.
  unfold list_sum. induction ss as [|m ss IH]; cbn; [reflexivity|]. rewrite app_length, IH. reflexivity.
Qed.

Lemma empty_iff sh n ss : wfs sh n ss -> (Nat.eqb (length (concat ss)) 0 = true <-> forall k, absl sh ss k = None).
Proof.
  intros Hw. rewrite Nat.eqb_eq. split.
  - intros H k. rewrite <- (concat_find _ _ _ _ Hw). destruct (concat ss); [reflexivity|discriminate].
  - intros H. destruct (concat ss) as [|p l] eqn:E; [reflexivity|]. exfalso.
    specialize (H (fst p)). rewrite <- (concat_find _ _ _ _ Hw), E in H. unfold hm_find in H. cbn in H.
    rewrite erefl in H. discriminate.
Qed.

(** Overwriting with all entries of a list. *)
Lemma fold_put_shard (g : K * V -> V) (l : hm K V) : forall r, uniq l -> uniq r ->
  uniq (fold_left (fun r p => fst (hm_insert eqk (fst p) (g p) (fst (hm_remove eqk (fst p) r)))) l r) /\
  forall x, find1 x (fold_left (fun r p => fst (hm_insert eqk (fst p) (g p) (fst (hm_remove eqk (fst p) r)))) l r)
    = match find1 x l with Some p => Some (fst p, g p) | None => find1 x r end.
Proof.
  induction l as [|p l IH]; intros r Hl Hr; cbn [fold_left]; [auto|].
  inversion Hl as [|? ? Hp Hl']; subst. rewrite put_eq by exact Hr. cbn [fst].
  destruct (IH (filter (fun q => negb (eqk (fst p) (fst q))) r ++ [(fst p, g p)]) Hl' (put_uniq _ _ _ Hr)) as [IH1 IH2].
  split; [exact IH1|]. intros x. rewrite IH2, find1_put. unfold hm_find at 3. cbn [find].
  destruct (eqk x (fst p)) eqn:E.
  - assert (Hn : find1 x l = None).
    { apply find1_none. intros q Hq. rewrite Forall_forall in Hp. rewrite (econg _ _ _ E). auto. }
    rewrite Hn. reflexivity.
  - reflexivity.
Qed.

Lemma update_shard_keys it (w r : hm K V) p : iteration it -> uniq w -> uniq r ->
  In p (update_shard eqk it w r) -> In p w \/ In p r.
Proof.
  intros Hit Hw Hr Hp. unfold update_shard in Hp.
  assert (Hiw : uniq (it w)) by (eapply uniq_perm; [symmetry; apply Hit|exact Hw]).
  destruct (fold_put_shard (fun p => snd p) (it w) r Hiw Hr) as [Hu Hf].
  specialize (Hf (fst p)). 
  assert (Hs : find1 (fst p) (fold_left (fun r p => fst (hm_insert eqk (fst p) (snd p) (fst (hm_remove eqk (fst p) r)))) (it w) r) = Some p).
  { apply find1_iff; [exact Hu|]. split; [exact Hp|apply erefl]. }
  rewrite Hs in Hf. destruct (find1 (fst p) (it w)) as [q|] eqn:E.
  - left. apply find1_iff in E; [|exact Hiw]. rewrite <- surjective_pairing in Hf. inversion Hf; subst.
    eapply Permutation_in; [apply Hit|tauto].
  - right. symmetry in Hf. apply find1_iff in Hf; tauto.
Qed.

Lemma nth_error_combine {X Y} (a : list X) (b : list Y) i :
  nth_error (combine a b) i =
  match nth_error a i, nth_error b i with Some x, Some y => Some (x, y) | _, _ => None end.
Proof.
  revert b i; induction a as [|x a IH]; intros [|y b] [|i]; cbn; auto.
  - destruct (nth_error a i); reflexivity.
Qed.

Lemma update_ok n d it : wf n d -> iteration it ->
  exists d', update eqk it n d = Some d' /\ wf n d' /\ d_shift d' = d_shift d /\
    d_shards d' = d_shards d /\
    feq (absl (d_shift d) (d_rshards d'))
        (fun x => match absl (d_shift d) (d_shards d) x with
                  | Some p => Some p
                  | None => absl (d_shift d) (d_rshards d) x end).
Proof.
  intros (Hi & Hw & Hr) Hit. unfold update. destruct Hw as [Lw Hw]. destruct Hr as [Lr Hr].
  rewrite Lw, Lr, Nat.leb_refl. cbn [andb]. eexists. split; [reflexivity|]. cbn.
  rewrite skipn_all2, !firstn_all2, app_nil_r by lia.
  assert (G : forall i wsh rsh, nth_error (d_shards d) i = Some wsh -> nth_error (d_rshards d) i = Some rsh ->
     uniq (update_shard eqk it wsh rsh) /\
     (forall p, In p (update_shard eqk it wsh rsh) -> idx (d_shift d) (fst p) = i) /\
     forall x, find1 x (update_shard eqk it wsh rsh) =
       match find1 x wsh with Some p => Some p | None => find1 x rsh end).
  { intros i wsh rsh E1 E2. destruct (Hw _ _ E1) as [U1 I1]. destruct (Hr _ _ E2) as [U2 I2].
    assert (Hiw : uniq (it wsh)) by (eapply uniq_perm; [symmetry; apply Hit|exact U1]).
    destruct (fold_put_shard (fun p => snd p) (it wsh) rsh Hiw U2) as [Hu Hf].
    split; [exact Hu|]. split.
    - intros p Hp. destruct (update_shard_keys it wsh rsh p Hit U1 U2 Hp); auto.
    - intros x. unfold update_shard. rewrite Hf, (find1_perm x (it wsh) wsh (Hit wsh) Hiw).
      destruct (find1 x wsh) as [p|]; [rewrite <- surjective_pairing|]; reflexivity. }
  split; [|split; [reflexivity|split; [reflexivity|]]].
  - split; [exact Hi|]. cbn. split; [split; [exact Lw|exact Hw]|]. split.
    + rewrite map_length, combine_length. lia.
    + intros i m Hm. rewrite nth_error_map, nth_error_combine in Hm.
      destruct (nth_error (d_shards d) i) as [wsh|] eqn:E1; [|discriminate].
      destruct (nth_error (d_rshards d) i) as [rsh|] eqn:E2; [|discriminate].
      cbn in Hm. inversion Hm; subst. destruct (G i wsh rsh E1 E2) as (A & B & _). auto.
  - intros x. unfold absl. rewrite nth_error_map, nth_error_combine.
    assert (H1 : idx (d_shift d) x < n) by apply Hi.
    destruct (nth_error (d_shards d) (idx (d_shift d) x)) as [wsh|] eqn:E1.
    2:{ apply nth_error_None in E1. lia. }
    destruct (nth_error (d_rshards d) (idx (d_shift d) x)) as [rsh|] eqn:E2.
    2:{ apply nth_error_None in E2. lia. }
    cbn. destruct (G _ wsh rsh E1 E2) as (_ & _ & G3). apply G3.
Qed.

(** [apply_to_all_values] and [apply_to_all_keys]: loops of map operations. *)
Lemma foldM_ok {X} n (f : dmap K V -> X -> option (dmap K V))
  (g : fmap (K := K) (V := V) -> X -> fmap (K := K) (V := V)) :
  (forall d x, wf n d -> exists d', f d x = Some d' /\ wf n d' /\ d_shift d' = d_shift d /\
      d_rshards d' = d_rshards d /\
      feq (absl (d_shift d) (d_shards d')) (g (absl (d_shift d) (d_shards d)) x)) ->
  (forall m m' x, feq m m' -> feq (g m x) (g m' x)) ->
  forall l d, wf n d -> exists d', foldM f l d = Some d' /\ wf n d' /\ d_shift d' = d_shift d /\
      d_rshards d' = d_rshards d /\
      feq (absl (d_shift d) (d_shards d')) (fold_left g l (absl (d_shift d) (d_shards d))).
Proof.
  intros Hf Hg. assert (Hgl : forall l m m', feq m m' -> feq (fold_left g l m) (fold_left g l m')).
  { induction l as [|x l IH]; cbn; intros m m' E; [exact E|]. apply IH. apply Hg. exact E. }
  induction l as [|x l IH]; intros d Hwf; cbn.
  - exists d. split; [reflexivity|]. split; [exact Hwf|]. split; [reflexivity|]. split; [reflexivity|]. intros k. reflexivity.
  - destruct (Hf d x Hwf) as (d1 & -> & W1 & S1 & R1 & E1).
    destruct (IH d1 W1) as (d2 & -> & W2 & S2 & R2 & E2).
    exists d2. split; [reflexivity|]. split; [exact W2|]. split; [congruence|]. split; [congruence|].
    intros k. rewrite S1 in E2. rewrite (E2 k). apply Hgl. exact E1.
Qed.

Lemma fput_feq k v m m' : feq m m' -> feq (fput (V := V) eqk k v m) (fput eqk k v m').
Proof. intros E x. unfold fput. rewrite (E x). reflexivity. Qed.
Lemma fdel_feq k m m' : feq m m' -> feq (fdel (V := V) eqk k m) (fdel eqk k m').
Proof. intros E x. unfold fdel. rewrite (E x). reflexivity. Qed.

Lemma fold_fput (f : V -> V) (l : hm K V) : forall w, uniq l ->
  feq (fold_left (fun m p => fput eqk (fst p) (f (snd p)) m) l w)
      (fun x => match find1 x l with Some p => Some (fst p, f (snd p)) | None => w x end).
Proof.
  induction l as [|p l IH]; intros w Hu x; cbn [fold_left]; [reflexivity|].
  inversion Hu as [|? ? Hp Hl]; subst. rewrite (IH _ Hl x). unfold fput, hm_find at 2. cbn [find].
  destruct (eqk x (fst p)) eqn:E; [|reflexivity].
  assert (Hn : find1 x l = None).
  { apply find1_none. intros q Hq. rewrite Forall_forall in Hp. rewrite (econg _ _ _ E). auto. }
  rewrite Hn. reflexivity.
Qed.

Lemma r_entries_spec n d it : wf n d -> iteration it ->
  uniq (r_entries it d) /\ lists eqk (r_entries it d) (absl (d_shift d) (d_rshards d)) /\
  forall x, find1 x (r_entries it d) = absl (d_shift d) (d_rshards d) x.
Proof.
  intros (Hi & Hw & Hr) Hit. pose proof (concat_uniq _ _ _ Hr) as Hu.
  assert (P : Permutation (r_entries it d) (concat (d_rshards d))) by (apply flat_map_it_perm; exact Hit).
  assert (Hu2 : uniq (r_entries it d)) by (eapply uniq_perm; [symmetry; exact P|exact Hu]).
  split; [exact Hu2|]. split; [eapply concat_lists; eauto|].
  intros x. rewrite (find1_perm x _ _ P Hu2). eapply concat_find. exact Hr.
Qed.

Lemma apply_ok n d it f : wf n d -> iteration it ->
  exists d', apply_to_all_values eqk hash it f d = Some d' /\ wf n d' /\ d_shift d' = d_shift d /\
    d_rshards d' = d_rshards d /\
    feq (absl (d_shift d) (d_shards d'))
        (fun x => match absl (d_shift d) (d_rshards d) x with
                  | Some p => Some (fst p, f (snd p))
                  | None => absl (d_shift d) (d_shards d) x end).
Proof.
  intros Hwf Hit. unfold apply_to_all_values.
  destruct (foldM_ok n (fun d p => option_map fst (insert eqk hash (fst p) (f (snd p)) d))
     (fun m p => fput eqk (fst p) (f (snd p)) m)) with (l := r_entries it d) (d := d)
    as (d' & E & W & Sh & R & Hf); auto.
  - intros d0 p W0. destruct (insert_ok n d0 (fst p) (f (snd p)) W0) as (d1 & -> & W1 & S1 & R1 & E1).
    exists d1. cbn. auto.
  - intros. apply fput_feq. assumption.
  - exists d'. split; [exact E|]. split; [exact W|]. split; [exact Sh|]. split; [exact R|].
    destruct (r_entries_spec n d it Hwf Hit) as (Hu & _ & Hfind).
    intros x. rewrite (Hf x), (fold_fput f _ _ Hu x), Hfind. reflexivity.
Qed.

Lemma apply_keys_ok n d it f : wf n d -> iteration it ->
  exists d', apply_to_all_keys eqk hash it f d = Some d' /\ wf n d' /\ d_shift d' = d_shift d /\
    d_rshards d' = d_rshards d /\
    feq (absl (d_shift d) (d_shards d'))
      (fold_left (fun m p => match f (snd p) (fst p) with
                             | None => m
                             | Some x => fput eqk x (snd p) (fdel eqk (fst p) m)
                             end) (r_entries it d) (absl (d_shift d) (d_shards d))).
Proof.
  intros Hwf Hit. unfold apply_to_all_keys. apply foldM_ok; auto.
  - intros d0 p W0. destruct (f (snd p) (fst p)) as [x|].
    + destruct (remove_ok n d0 (fst p) W0) as (d1 & -> & W1 & S1 & R1 & E1).
      destruct (insert_ok n d1 x (snd p) W1) as (d2 & -> & W2 & S2 & R2 & E2).
      exists d2. cbn. split; [reflexivity|]. split; [exact W2|]. split; [congruence|]. split; [congruence|].
      intros y. rewrite S1 in E2. rewrite (E2 y). apply fput_feq. exact E1.
    + exists d0. repeat (split; [solve [auto]|]). intros y. reflexivity.
  - intros m m' p E. destruct (f (snd p) (fst p)); [|exact E]. apply fput_feq, fdel_feq. exact E.
Qed.

Lemma absl_map (g : K * V -> K * V) sh ss x : (forall p, fst (g p) = fst p) ->
  absl sh (map (map g) ss) x = option_map g (absl sh ss x).
Proof.
  intros Hg. unfold absl. rewrite nth_error_map. destruct (nth_error ss (idx sh x)); cbn; [|reflexivity].
  apply find1_map. exact Hg.
Qed.

Lemma apply_write_ok n d f : wf n d ->
  wf n (apply_to_all_values_write f d) /\
  feq (absl (d_shift d) (d_shards (apply_to_all_values_write f d)))
      (fun x => option_map (fun p => (fst p, f (snd p))) (absl (d_shift d) (d_shards d) x)).
Proof.
  intros (Hi & (Lw & Hw) & Hr). unfold apply_to_all_values_write. cbn. split.
  - split; [exact Hi|]. cbn. split; [|exact Hr]. split; [rewrite map_length; exact Lw|].
    intros i m Hm. rewrite nth_error_map in Hm. destruct (nth_error (d_shards d) i) as [m0|] eqn:E; [|discriminate].
    cbn in Hm. inversion Hm; subst. destruct (Hw _ _ E) as [U I]. split.
    + apply uniq_map; [reflexivity|exact U].
    + intros p Hp. apply in_map_iff in Hp. destruct Hp as (q & <- & Hq). cbn. auto.
  - intros x. apply absl_map. reflexivity.
Qed.

Lemma rw_fold f (l : hm K V) : forall w, uniq l -> uniq w ->
  uniq (fold_left (rw_shard eqk f) l w) /\
  (forall p, In p (fold_left (rw_shard eqk f) l w) -> exists q, (In q l \/ In q w) /\ fst q = fst p) /\
  forall x, find1 x (fold_left (rw_shard eqk f) l w) =
    match find1 x l with
    | None => find1 x w
    | Some p => match find1 x w with
                | Some q => Some (fst q, f (snd q))
                | None => Some (fst p, f (snd p)) end
    end.
Proof.
  induction l as [|p l IH]; intros w Hl Hw; cbn [fold_left].
  - split; [exact Hw|]. split; [eauto|reflexivity].
  - inversion Hl as [|? ? Hp Hl']; subst.
    set (w1 := rw_shard eqk f w p).
    assert (U1 : uniq w1 /\ (forall q, In q w1 -> exists r, (r = p \/ In r w) /\ fst r = fst q) /\
       forall x, find1 x w1 = if eqk x (fst p) then
          match find1 x w with Some q => Some (fst q, f (snd q)) | None => Some (fst p, f (snd p)) end
          else find1 x w).
    { unfold w1, rw_shard. destruct (find1 (fst p) w) as [q|] eqn:E.
      - split; [apply modify_uniq; exact Hw|]. split.
        + intros r Hr. rewrite hm_modify_map in Hr by exact Hw. apply in_map_iff in Hr.
          destruct Hr as (s & <- & Hs). exists s. split; [auto|]. destruct (eqk (fst p) (fst s)); reflexivity.
        + intros x. rewrite find1_modify by exact Hw. destruct (eqk x (fst p)) eqn:Ex; [|reflexivity].
          rewrite (find1_cong _ _ w Ex), E. reflexivity.
      - rewrite hm_insert_fresh by (apply find1_none; exact E). cbn [fst]. split; [|split].
        + apply uniq_app. split; [exact Hw|]. split; [repeat constructor|].
          intros a b Ha [<-|[]]. cbn. rewrite esym_b. rewrite find1_none in E. auto.
        + intros r Hr. apply in_app_or in Hr. destruct Hr as [Hr|[<-|[]]]; [eauto|]. exists p. auto.
        + intros x. rewrite find1_app. unfold hm_find at 2. cbn [find fst].
          destruct (eqk x (fst p)) eqn:Ex.
          * rewrite (find1_cong _ _ w Ex), E. reflexivity.
          * destruct (find1 x w); reflexivity. }
    destruct U1 as (U1 & K1 & F1). destruct (IH w1 Hl' U1) as (U2 & K2 & F2).
    split; [exact U2|]. split.
    + intros q Hq. destruct (K2 q Hq) as (r & [Hr|Hr] & Er).
      * exists r. cbn. auto.
      * destruct (K1 r Hr) as (s & [->|Hs] & Es); [exists p|exists s]; cbn; split; auto; congruence.
    + intros x. rewrite F2, F1, (find1_cons x p l).
      destruct (eqk x (fst p)) eqn:Ex; [|reflexivity].
      assert (Hn : find1 x l = None).
      { apply find1_none. intros q Hq. rewrite Forall_forall in Hp. rewrite (econg _ _ _ Ex). auto. }
      rewrite Hn. destruct (find1 x w); reflexivity.
Qed.

Lemma apply_rw_ok n d it f : wf n d -> iteration it ->
  exists d', apply_to_all_values_read_write eqk it f d = Some d' /\ wf n d' /\ d_shift d' = d_shift d /\
    d_rshards d' = d_rshards d /\
    feq (absl (d_shift d) (d_shards d'))
        (fun x => match absl (d_shift d) (d_rshards d) x with
                  | None => absl (d_shift d) (d_shards d) x
                  | Some p => match absl (d_shift d) (d_shards d) x with
                              | Some q => Some (fst q, f (snd q))
                              | None => Some (fst p, f (snd p)) end end).
Proof.
  intros (Hi & (Lw & Hw) & (Lr & Hr)) Hit. unfold apply_to_all_values_read_write.
  rewrite Lw, Lr, Nat.leb_refl. eexists. split; [reflexivity|]. cbn.
  rewrite skipn_all2, app_nil_r by lia.
  assert (G : forall i wsh rsh, nth_error (d_shards d) i = Some wsh -> nth_error (d_rshards d) i = Some rsh ->
     uniq (fold_left (rw_shard eqk f) (it rsh) wsh) /\
     (forall p, In p (fold_left (rw_shard eqk f) (it rsh) wsh) -> idx (d_shift d) (fst p) = i) /\
     forall x, find1 x (fold_left (rw_shard eqk f) (it rsh) wsh) =
       match find1 x rsh with
       | None => find1 x wsh
       | Some p => match find1 x wsh with Some q => Some (fst q, f (snd q)) | None => Some (fst p, f (snd p)) end
       end).
  { intros i wsh rsh E1 E2. destruct (Hw _ _ E1) as [U1 I1]. destruct (Hr _ _ E2) as [U2 I2].
    assert (Hiw : uniq (it rsh)) by (eapply uniq_perm; [symmetry; apply Hit|exact U2]).
    destruct (rw_fold f (it rsh) wsh Hiw U1) as (A & B & C). split; [exact A|]. split.
    - intros p Hp. destruct (B p Hp) as (q & [Hq|Hq] & <-); auto. apply I2.
      eapply Permutation_in; [apply Hit|exact Hq].
    - intros x. rewrite C, (find1_perm x (it rsh) rsh (Hit rsh) Hiw). reflexivity. }
  split; [|split; [reflexivity|split; [reflexivity|]]].
  - split; [exact Hi|]. cbn. split; [|split; [exact Lr|exact Hr]]. split.
    + rewrite map_length, combine_length. lia.
    + intros i m Hm. rewrite nth_error_map, nth_error_combine in Hm.
      destruct (nth_error (d_shards d) i) as [wsh|] eqn:E1; [|discriminate].
      destruct (nth_error (d_rshards d) i) as [rsh|] eqn:E2; [|discriminate].
      cbn in Hm. inversion Hm; subst. destruct (G i wsh rsh E1 E2) as (A & B & _). auto.
  - intros x. unfold absl. rewrite nth_error_map, nth_error_combine.
    assert (H1 : idx (d_shift d) x < n) by apply Hi.
    destruct (nth_error (d_shards d) (idx (d_shift d) x)) as [wsh|] eqn:E1.
    2:{ apply nth_error_None in E1. lia. }
    destruct (nth_error (d_rshards d) (idx (d_shift d) x)) as [rsh|] eqn:E2.
    2:{ apply nth_error_None in E2. lia. }
    cbn. destruct (G _ wsh rsh E1 E2) as (_ & _ & G3). apply G3.
Qed.

End Proofs.
