(** * Concurrent use of a DBDashMap

    Several threads insert into, remove from and modify the write buffer of one map at
    the same time.  Models the lock-protected sections of [insert] (dbdashmap.rs
    L97-100), [remove] (L108-110) and [get_write] + assignment (L138-146, the lock is
    held by the returned reference) as separate micro steps: acquiring the shard's lock,
    each access to the shard, releasing the lock. *)
From Coq Require Import List Bool NArith Arith Lia Permutation.
From Verif Require Import Merge DashModel DashSpec DashProofs.
Import ListNotations.

Section Conc.
Context {K V : Type}.
Variable eqk : K -> K -> bool.
Variable hash : K -> N.
Variable shift : N.

Inductive wop := WInsert (k : K) (v : V) | WRemove (k : K) | WModify (k : K) (f : V -> V).
Definition wkey (o : wop) : K :=
  match o with WInsert k _ => k | WRemove k => k | WModify k _ => k end.

Inductive cpc :=
| CNext                        (* before [lock()] *)
| CBody (o : wop)              (* lock held, nothing done yet *)
| CMid (k : K) (v : V)         (* [insert]: old entry removed, L99 done, before L100 *)
| CUnlock (k : K).             (* before the guard is dropped *)

Record cthread := CThread { ct_pc : cpc; ct_rest : list wop }.

Record cconf := CConf {
  cc_locks : nat -> option nat;    (* who holds the lock of a shard *)
  cc_shards : list (list (K * V));
  cc_threads : list cthread
}.

Definition shard_index (k : K) : nat := N.to_nat (determine_shard shift (hash k mod 2 ^ 64)).

Definition set_lock (l : nat -> option nat) (i : nat) (x : option nat) : nat -> option nat :=
  fun j => if Nat.eqb j i then x else l j.

(** One micro step of thread [t]; [None] if it is blocked or finished (or would panic on
    a shard index out of bounds). *)
Definition cmicro (t : nat) (c : cconf) : option cconf :=
  match nth_error (cc_threads c) t with
  | None => None
  | Some th =>
      let goto p := upd (cc_threads c) t (CThread p (ct_rest th)) in
      let access k (f : list (K * V) -> list (K * V)) p :=
        match nth_error (cc_shards c) (shard_index k) with
        | None => None
        | Some m => Some (CConf (cc_locks c) (set_nth (shard_index k) (f m) (cc_shards c)) (goto p))
        end in
      match ct_pc th with
      | CNext =>
          match ct_rest th with
          | [] => None
          | o :: rest =>
              match cc_locks c (shard_index (wkey o)) with
              | Some _ => None
              | None => Some (CConf (set_lock (cc_locks c) (shard_index (wkey o)) (Some t))
                                (cc_shards c) (upd (cc_threads c) t (CThread (CBody o) rest)))
              end
          end
      | CBody (WInsert k v) => access k (fun m => fst (hm_remove eqk k m)) (CMid k v)
      | CBody (WRemove k) => access k (fun m => fst (hm_remove eqk k m)) (CUnlock k)
      | CBody (WModify k f) => access k (hm_modify eqk k f) (CUnlock k)
      | CMid k v => access k (fun m => fst (hm_insert eqk k v m)) (CUnlock k)
      | CUnlock k => Some (CConf (set_lock (cc_locks c) (shard_index k) None) (cc_shards c) (goto CNext))
      end
  end.

(** An interleaving: a blocked thread loses its turn. *)
Fixpoint cexec (inter : list nat) (c : cconf) : cconf :=
  match inter with
  | [] => c
  | t :: rest => cexec rest (match cmicro t c with Some c' => c' | None => c end)
  end.

Definition cfinished (c : cconf) : bool :=
  forallb (fun th => match ct_pc th, ct_rest th with CNext, [] => true | _, _ => false end)
          (cc_threads c).

Definition cstart (shards : list (list (K * V))) (progs : list (list wop)) : cconf :=
  CConf (fun _ => None) shards (map (CThread CNext) progs).

(** The same operations on an abstract map. *)
Definition wapply (m : fmap (K := K) (V := V)) (o : wop) : fmap (K := K) (V := V) :=
  match o with
  | WInsert k v => fput eqk k v m
  | WRemove k => fdel eqk k m
  | WModify k f => fun x => if eqk x k then option_map (fun p => (fst p, f (snd p))) (m x) else m x
  end.

(** ** Proofs *)
Hypothesis L : lawful eqk hash.
Notation uniq := (ForallOrdPairs (fun p q : K * V => eqk (fst p) (fst q) = false)).
Notation find1 := (hm_find eqk).

(** The shard key a thread holds the lock for. *)
Definition holds (p : cpc) : option K :=
  match p with CNext => None | CBody o => Some (wkey o) | CMid k _ => Some k | CUnlock k => Some k end.

(** What the shard becomes when the current operation is completed. *)
Definition complete (p : cpc) (m : list (K * V)) : list (K * V) :=
  match p with
  | CNext | CUnlock _ => m
  | CBody (WInsert k v) => fst (hm_insert eqk k v (fst (hm_remove eqk k m)))
  | CBody (WRemove k) => fst (hm_remove eqk k m)
  | CBody (WModify k f) => hm_modify eqk k f m
  | CMid k v => fst (hm_insert eqk k v m)
  end.

Definition pc_of (c : cconf) (i : nat) : cpc :=
  match cc_locks c i with
  | None => CNext
  | Some t => match nth_error (cc_threads c) t with Some th => ct_pc th | None => CNext end
  end.

Definition cexcl (n : nat) (c : cconf) : Prop :=
  length (cc_shards c) = n /\
  (forall i t, cc_locks c i = Some t ->
     exists th k, nth_error (cc_threads c) t = Some th /\ holds (ct_pc th) = Some k /\ shard_index k = i) /\
  (forall t th k, nth_error (cc_threads c) t = Some th -> holds (ct_pc th) = Some k ->
     cc_locks c (shard_index k) = Some t).

(** Well-formedness of one shard given what is going on in it. *)
Definition shard_ok (i : nat) (p : cpc) (m : list (K * V)) : Prop :=
  uniq m /\ (forall q, In q m -> shard_index (fst q) = i) /\
  match p with CMid k _ => find1 k m = None | _ => True end.

Definition csim (n : nat) (W0 : fmap (K := K) (V := V)) (progs : list (list wop)) (c : cconf) : Prop :=
  exists order,
    (forall o, merge (map ct_rest (cc_threads c)) o -> merge progs (order ++ o)) /\
    forall i m, nth_error (cc_shards c) i = Some m ->
      shard_ok i (pc_of c i) m /\
      forall x, shard_index x = i -> find1 x (complete (pc_of c i) m) = fold_left wapply order W0 x.

Lemma esym_c a b : eqk a b = eqk b a.
Proof.
  destruct (eqk a b) eqn:E1, (eqk b a) eqn:E2; try reflexivity.
  - apply (eqk_sym _ _ L) in E1. congruence.
  - apply (eqk_sym _ _ L) in E2. congruence.
Qed.

Lemma wapply_feq o m m' : feq m m' -> feq (wapply m o) (wapply m' o).
Proof.
  intros E x. destruct o; cbn.
  - apply fput_feq. exact E.
  - apply fdel_feq. exact E.
  - rewrite (E x). reflexivity.
Qed.
Lemma wapply_fold_feq l : forall m m', feq m m' -> feq (fold_left wapply l m) (fold_left wapply l m').
Proof. induction l as [|o l IH]; cbn; intros m m' E; [exact E|]. apply IH, wapply_feq, E. Qed.

Lemma shard_index_cong x y : eqk x y = true -> shard_index x = shard_index y.
Proof. intros H. unfold shard_index. rewrite (hash_eqk _ _ L _ _ H). reflexivity. Qed.

Lemma rest_map_same (l : list cthread) t th p :
  nth_error l t = Some th ->
  map ct_rest (upd l t (CThread p (ct_rest th))) = map ct_rest l.
Proof.
  revert t; induction l as [|a l IH]; intros [|t] H; cbn in *; try discriminate.
  - inversion H; subst. reflexivity.
  - rewrite IH by exact H. reflexivity.
Qed.

(** Running a whole operation on a well-formed shard. *)
Lemma find_complete o m x : uniq m ->
  find1 x (complete (CBody o) m) =
  match o with
  | WInsert k v => if eqk x k then Some (k, v) else find1 x m
  | WRemove k => if eqk x k then None else find1 x m
  | WModify k f => if eqk x k then option_map (fun p => (fst p, f (snd p))) (find1 x m) else find1 x m
  end.
Proof.
  intros Hu. destruct o as [k v|k|k f]; cbn [complete].
  - rewrite (put_eq eqk hash L k v m Hu). cbn [fst]. apply (find1_put eqk hash L).
  - rewrite (proj1 (hm_remove_eq eqk hash L k m Hu)). apply (find1_filter eqk hash L).
  - apply (find1_modify eqk hash L). exact Hu.
Qed.

(** Accessing the shard of the current operation: all other shards are untouched. *)
Lemma access_inv n W0 progs t c th k f p :
  cexcl n c -> csim n W0 progs c ->
  nth_error (cc_threads c) t = Some th -> holds (ct_pc th) = Some k -> holds p = Some k ->
  (forall m, shard_ok (shard_index k) (ct_pc th) m -> shard_ok (shard_index k) p (f m)) ->
  (forall m x, shard_ok (shard_index k) (ct_pc th) m ->
     find1 x (complete p (f m)) = find1 x (complete (ct_pc th) m)) ->
  forall m, nth_error (cc_shards c) (shard_index k) = Some m ->
  let c' := CConf (cc_locks c) (set_nth (shard_index k) (f m) (cc_shards c))
                  (upd (cc_threads c) t (CThread p (ct_rest th))) in
  cexcl n c' /\ csim n W0 progs c'.
Proof.
  intros (Hlen & Hl1 & Hl2) (order & Hmg & Hsh) Ht Hh Hp Hok Hcomp m Hm c'.
  pose proof (Hl2 t th k Ht Hh) as Hlock.
  assert (Hlock_inj : forall i, cc_locks c i = Some t -> i = shard_index k).
  { intros i Hi. destruct (Hl1 i t Hi) as (th' & k' & Ht' & Hh' & <-). congruence. }
  assert (Hpc : pc_of c (shard_index k) = ct_pc th) by (unfold pc_of; rewrite Hlock, Ht; reflexivity).
  assert (Hpc' : pc_of c' (shard_index k) = p).
  { unfold pc_of, c'. cbn. rewrite Hlock, (upd_nth_same _ _ _ _ Ht). reflexivity. }
  assert (Hpco : forall i, i <> shard_index k -> pc_of c' i = pc_of c i).
  { intros i Hi. unfold pc_of, c'. cbn. destruct (cc_locks c i) as [t'|] eqn:E; [|reflexivity].
    destruct (Nat.eq_dec t t') as [<-|Hne]; [destruct (Hi (Hlock_inj _ E))|].
    rewrite upd_nth_other by exact Hne. reflexivity. }
  split; [split; [|split]|].
  - cbn. rewrite set_nth_length. exact Hlen.
  - intros i t' Hi. cbn in *. destruct (Nat.eq_dec t t') as [<-|Hne].
    + exists (CThread p (ct_rest th)), k. rewrite (upd_nth_same _ _ _ _ Ht). split; [reflexivity|].
      split; [exact Hp|]. symmetry. apply Hlock_inj. exact Hi.
    + rewrite upd_nth_other by exact Hne. auto.
  - intros t' th' k' Ht' Hh'. cbn in *. destruct (Nat.eq_dec t t') as [<-|Hne].
    + rewrite (upd_nth_same _ _ _ _ Ht) in Ht'. injection Ht' as Ht'. rewrite <- Ht' in Hh'. cbn in Hh'.
      rewrite Hp in Hh'. injection Hh' as <-. exact Hlock.
    + rewrite upd_nth_other in Ht' by exact Hne. eauto.
  - exists order. split.
    + cbn. rewrite (rest_map_same _ _ _ _ Ht). exact Hmg.
    + intros i m' Hm'. cbn in Hm'. destruct (Nat.eq_dec i (shard_index k)) as [->|Hne].
      * rewrite (set_nth_same _ _ _ _ Hm) in Hm'. injection Hm' as <-. rewrite Hpc'.
        destruct (Hsh _ _ Hm) as [Hs Hv]. rewrite Hpc in Hs, Hv. split; [auto|].
        intros x Hx. rewrite Hcomp by exact Hs. auto.
      * rewrite set_nth_other in Hm' by auto. rewrite Hpco by exact Hne. auto.
Qed.

Lemma cmicro_inv n W0 progs t c c' :
  (forall k, shard_index k < n) ->
  cexcl n c -> csim n W0 progs c -> cmicro t c = Some c' -> cexcl n c' /\ csim n W0 progs c'.
Proof.
  intros Hidx Hx Hs Hm. unfold cmicro in Hm.
  destruct (nth_error (cc_threads c) t) as [th|] eqn:Ht; [|discriminate].
  destruct (ct_pc th) as [|o|k v|k] eqn:Hpc.
  - (* acquiring the lock *)
    destruct (ct_rest th) as [|o rest] eqn:Hr; [discriminate|].
    destruct (cc_locks c (shard_index (wkey o))) eqn:Hl; [discriminate|]. inversion Hm; subst c'; clear Hm.
    destruct Hx as (Hlen & Hl1 & Hl2). destruct Hs as (order & Hmg & Hsh).
    set (i0 := shard_index (wkey o)) in *.
    assert (Hnot : forall i, cc_locks c i <> Some t).
    { intros i Hi. destruct (Hl1 i t Hi) as (th' & k' & Ht' & Hh' & _).
      rewrite Ht in Ht'. inversion Ht'; subst. rewrite Hpc in Hh'. discriminate. }
    split; [split; [|split]|].
    + exact Hlen.
    + intros i t' Hi. cbn in *. unfold set_lock in Hi. destruct (Nat.eqb_spec i i0) as [->|Hne].
      * inversion Hi; subst t'. exists (CThread (CBody o) rest), (wkey o).
        rewrite (upd_nth_same _ _ _ _ Ht). auto.
      * destruct (Nat.eq_dec t t') as [<-|Hne2]; [destruct (Hnot _ Hi)|].
        rewrite upd_nth_other by exact Hne2. auto.
    + intros t' th' k' Ht' Hh'. cbn in *. unfold set_lock. destruct (Nat.eq_dec t t') as [<-|Hne].
      * rewrite (upd_nth_same _ _ _ _ Ht) in Ht'. inversion Ht'; subst. cbn in Hh'. inversion Hh'; subst.
        fold i0. rewrite Nat.eqb_refl. reflexivity.
      * rewrite upd_nth_other in Ht' by exact Hne. pose proof (Hl2 t' th' k' Ht' Hh') as Hk.
        destruct (Nat.eqb_spec (shard_index k') i0) as [E|E]; [rewrite E in Hk; congruence|exact Hk].
    + exists (order ++ [o]). split.
      * intros o' Ho'. cbn in Ho'. rewrite <- app_assoc. cbn [app]. apply Hmg.
        assert (Ht2 : nth_error (map ct_rest (cc_threads c)) t = Some (o :: rest)).
        { rewrite nth_error_map, Ht. cbn. rewrite Hr. reflexivity. }
        destruct (upd_split _ _ rest _ Ht2) as (l1 & l2 & El & Eu & _).
        assert (E : map ct_rest (upd (cc_threads c) t (CThread (CBody o) rest)) = l1 ++ rest :: l2).
        { rewrite <- Eu. clear. generalize t as j. induction (cc_threads c) as [|a l IH]; intros [|j]; cbn; auto.
          rewrite IH. reflexivity. }
        rewrite E in Ho'. rewrite El. constructor. exact Ho'.
      * intros i m Hmi. cbn in Hmi. destruct (Hsh i m Hmi) as [Hok Hval].
        destruct (Nat.eq_dec i i0) as [->|Hne].
        -- assert (P0 : pc_of c i0 = CNext) by (unfold pc_of; rewrite Hl; reflexivity).
           rewrite P0 in *.
           assert (P1 : pc_of (CConf (set_lock (cc_locks c) i0 (Some t)) (cc_shards c)
                        (upd (cc_threads c) t (CThread (CBody o) rest))) i0 = CBody o).
           { unfold pc_of. cbn. unfold set_lock. rewrite Nat.eqb_refl, (upd_nth_same _ _ _ _ Ht). reflexivity. }
           rewrite P1. split; [destruct Hok as (A & B & _); split; [exact A|split; [exact B|exact I]]|].
           intros x Hxi. rewrite fold_left_app. cbn [fold_left].
           rewrite find_complete by apply Hok. cbn [complete] in Hval. rewrite <- (Hval x Hxi) || idtac.
           destruct o as [k v|k|k f]; cbn [wapply]; unfold fput, fdel; rewrite (Hval x Hxi); reflexivity.
        -- assert (P1 : pc_of (CConf (set_lock (cc_locks c) i0 (Some t)) (cc_shards c)
                        (upd (cc_threads c) t (CThread (CBody o) rest))) i = pc_of c i).
           { unfold pc_of. cbn. unfold set_lock. destruct (Nat.eqb_spec i i0); [congruence|].
             destruct (cc_locks c i) as [t'|] eqn:E; [|reflexivity].
             destruct (Nat.eq_dec t t') as [<-|Hne2]; [destruct (Hnot _ E)|].
             rewrite upd_nth_other by exact Hne2. reflexivity. }
           rewrite P1. split; [exact Hok|]. intros x Hxi. rewrite (Hval x Hxi), fold_left_app. cbn [fold_left].
           assert (Hex : eqk x (wkey o) = false).
           { destruct (eqk x (wkey o)) eqn:E; [|reflexivity]. apply shard_index_cong in E. unfold i0 in Hne. congruence. }
           destruct o as [k v|k|k f]; cbn [wapply wkey] in *; unfold fput, fdel; rewrite Hex; reflexivity.
  - (* the body *)
    destruct o as [k v|k|k f].
    + destruct (nth_error (cc_shards c) (shard_index k)) as [m|] eqn:Hn; [|discriminate]. inversion Hm; subst c'; clear Hm.
      apply (access_inv n W0 progs t c th k (fun m => fst (hm_remove eqk k m)) (CMid k v) Hx Hs Ht); auto.
      * rewrite Hpc. reflexivity.
      * intros m0 Hok0. rewrite Hpc in Hok0. destruct Hok0 as (U & I0 & _).
        rewrite (proj1 (hm_remove_eq eqk hash L k m0 U)). split; [apply uniq_filter; exact U|]. split.
        -- intros q Hq. apply filter_In in Hq. apply I0. tauto.
        -- rewrite (find1_filter eqk hash L). rewrite (eqk_refl _ _ L). reflexivity.
      * intros m0 x _. rewrite Hpc. reflexivity.
    + destruct (nth_error (cc_shards c) (shard_index k)) as [m|] eqn:Hn; [|discriminate]. inversion Hm; subst c'; clear Hm.
      apply (access_inv n W0 progs t c th k (fun m => fst (hm_remove eqk k m)) (CUnlock k) Hx Hs Ht); auto.
      * rewrite Hpc. reflexivity.
      * intros m0 Hok0. rewrite Hpc in Hok0. destruct Hok0 as (U & I0 & _).
        rewrite (proj1 (hm_remove_eq eqk hash L k m0 U)). split; [apply uniq_filter; exact U|]. split; [|exact I].
        intros q Hq. apply filter_In in Hq. apply I0. tauto.
      * intros m0 x _. rewrite Hpc. reflexivity.
    + destruct (nth_error (cc_shards c) (shard_index k)) as [m|] eqn:Hn; [|discriminate]. inversion Hm; subst c'; clear Hm.
      apply (access_inv n W0 progs t c th k (hm_modify eqk k f) (CUnlock k) Hx Hs Ht); auto.
      * rewrite Hpc. reflexivity.
      * intros m0 Hok0. rewrite Hpc in Hok0. destruct Hok0 as (U & I0 & _).
        split; [apply (modify_uniq eqk hash L); exact U|]. split; [|exact I].
        intros q Hq. rewrite (hm_modify_map eqk hash L) in Hq by exact U. apply in_map_iff in Hq.
        destruct Hq as (r & <- & Hr). rewrite <- (I0 r Hr). destruct (eqk k (fst r)); reflexivity.
      * intros m0 x _. rewrite Hpc. reflexivity.
  - destruct (nth_error (cc_shards c) (shard_index k)) as [m|] eqn:Hn; [|discriminate]. inversion Hm; subst c'; clear Hm.
    apply (access_inv n W0 progs t c th k (fun m => fst (hm_insert eqk k v m)) (CUnlock k) Hx Hs Ht); auto.
    + rewrite Hpc. reflexivity.
    + intros m0 Hok0. rewrite Hpc in Hok0. destruct Hok0 as (U & I0 & Hno).
      pose proof (proj1 (find1_none eqk k m0) Hno) as Hno'.
      rewrite (hm_insert_fresh eqk k v m0 Hno'). cbn [fst]. split; [|split; [|exact I]].
      * apply uniq_app. split; [exact U|]. split; [repeat constructor|].
        intros a b Ha [<-|[]]. cbn. rewrite esym_c. auto.
      * intros q Hq. apply in_app_or in Hq. destruct Hq as [Hq|[<-|[]]]; [auto|reflexivity].
    + intros m0 x _. rewrite Hpc. reflexivity.
  - (* releasing *)
    inversion Hm; subst c'; clear Hm.
    destruct Hx as (Hlen & Hl1 & Hl2). destruct Hs as (order & Hmg & Hsh).
    assert (Hlock : cc_locks c (shard_index k) = Some t) by (apply (Hl2 t th k Ht); rewrite Hpc; reflexivity).
    assert (Hlock_inj : forall i, cc_locks c i = Some t -> i = shard_index k).
    { intros i Hi. destruct (Hl1 i t Hi) as (th' & k' & Ht' & Hh' & <-).
      rewrite Ht in Ht'. inversion Ht'; subst. rewrite Hpc in Hh'. inversion Hh'; reflexivity. }
    split; [split; [|split]|].
    + exact Hlen.
    + intros i t' Hi. cbn in *. unfold set_lock in Hi. destruct (Nat.eqb_spec i (shard_index k)); [discriminate|].
      destruct (Nat.eq_dec t t') as [<-|Hne]; [destruct (n0 (Hlock_inj _ Hi))|].
      rewrite upd_nth_other by exact Hne. auto.
    + intros t' th' k' Ht' Hh'. cbn in *. unfold set_lock. destruct (Nat.eq_dec t t') as [<-|Hne].
      * rewrite (upd_nth_same _ _ _ _ Ht) in Ht'. inversion Ht'; subst. discriminate.
      * rewrite upd_nth_other in Ht' by exact Hne. pose proof (Hl2 t' th' k' Ht' Hh') as Hk.
        destruct (Nat.eqb_spec (shard_index k') (shard_index k)) as [E|E]; [rewrite E in Hk; congruence|exact Hk].
    + exists order. split.
      * cbn. rewrite (rest_map_same _ _ _ _ Ht). exact Hmg.
      * intros i m Hmi. cbn in Hmi. destruct (Hsh i m Hmi) as [Hok Hval].
        destruct (Nat.eq_dec i (shard_index k)) as [->|Hne].
        -- assert (P0 : pc_of c (shard_index k) = CUnlock k) by (unfold pc_of; rewrite Hlock, Ht; exact Hpc).
           rewrite P0 in *. unfold pc_of at 1 2. cbn. unfold set_lock. rewrite Nat.eqb_refl.
           split; [exact Hok|exact Hval].
        -- assert (P1 : pc_of (CConf (set_lock (cc_locks c) (shard_index k) None) (cc_shards c)
                        (upd (cc_threads c) t (CThread CNext (ct_rest th)))) i = pc_of c i).
           { unfold pc_of. cbn. unfold set_lock. destruct (Nat.eqb_spec i (shard_index k)); [congruence|].
             destruct (cc_locks c i) as [t'|] eqn:E; [|reflexivity].
             destruct (Nat.eq_dec t t') as [<-|Hne2]; [destruct (n0 (Hlock_inj _ E))|].
             rewrite upd_nth_other by exact Hne2. reflexivity. }
           rewrite P1. auto.
Qed.

Lemma cstart_inv n shards progs : wfs eqk hash shift n shards ->
  cexcl n (cstart shards progs) /\ csim n (absl eqk hash shift shards) progs (cstart shards progs).
Proof.
  intros [Hlen Hw]. split; [split; [exact Hlen|split]|].
  - intros i t H. discriminate.
  - intros t th k Ht Hh. cbn in Ht. rewrite nth_error_map in Ht. destruct (nth_error progs t); [|discriminate].
    inversion Ht; subst. discriminate.
  - exists []. split.
    + cbn. intros o. rewrite map_map. cbn. rewrite map_id. auto.
    + intros i m Hm. cbn in Hm. destruct (Hw i m Hm) as [U I0]. cbn. split; [split; [exact U|split; [exact I0|exact I]]|].
      intros x Hx. unfold absl. fold (shard_index x). change (idx hash shift x) with (shard_index x). rewrite Hx, Hm. reflexivity.
Qed.

Lemma cexec_inv n W0 progs inter : (forall k, shard_index k < n) -> forall c,
  cexcl n c -> csim n W0 progs c -> cexcl n (cexec inter c) /\ csim n W0 progs (cexec inter c).
Proof.
  intros Hi. induction inter as [|t inter IH]; intros c Hx Hs; cbn [cexec]; [auto|].
  destruct (cmicro t c) as [c'|] eqn:E; [|auto].
  destruct (cmicro_inv n W0 progs t c c' Hi Hx Hs E). auto.
Qed.

(** Every interleaving that completes is equivalent to a sequential execution. *)
Lemma concurrent_linear n shards progs inter :
  (forall k, shard_index k < n) -> wfs eqk hash shift n shards ->
  let c := cexec inter (cstart shards progs) in
  cfinished c = true ->
  exists order, merge progs order /\ wfs eqk hash shift n (cc_shards c) /\
    feq (absl eqk hash shift (cc_shards c)) (fold_left wapply order (absl eqk hash shift shards)).
Proof.
  intros Hi Hw c Hf. destruct (cstart_inv n shards progs Hw) as [Hx Hs].
  destruct (cexec_inv n _ progs inter Hi _ Hx Hs) as [(Hlen & Hl1 & _) (order & Hmg & Hsh)].
  fold c in Hlen, Hl1, Hmg, Hsh. unfold cfinished in Hf. rewrite forallb_forall in Hf.
  exists order. split.
  - rewrite <- (app_nil_r order). apply Hmg. constructor. intros b Hb. apply in_map_iff in Hb.
    destruct Hb as (th & <- & Hth). specialize (Hf th Hth). destruct (ct_pc th); try discriminate.
    destruct (ct_rest th); [reflexivity|discriminate].
  - split.
    { split; [exact Hlen|]. intros i m Hm. destruct (Hsh i m Hm) as [(U & I0 & _) _]. auto. }
    intros x. unfold absl at 1. change (idx hash shift x) with (shard_index x).
    destruct (nth_error (cc_shards c) (shard_index x)) as [m|] eqn:E.
    2:{ apply nth_error_None in E. specialize (Hi x). lia. }
    destruct (Hsh _ _ E) as [_ Hv].
    assert (P : pc_of c (shard_index x) = CNext).
    { unfold pc_of. destruct (cc_locks c (shard_index x)) as [t|] eqn:El; [|reflexivity].
      destruct (Hl1 _ _ El) as (th & k & Ht & Hh & _). apply nth_error_In in Ht. specialize (Hf th Ht).
      destruct (ct_pc th); discriminate. }
    rewrite P in Hv. exact (Hv x eq_refl).
Qed.

(** With pairwise different keys every inserted pair is there at the end. *)
Lemma fold_put_notin order : forall W x, (forall o, In o order -> exists k v, o = WInsert k v /\ eqk x k = false) ->
  fold_left wapply order W x = W x.
Proof.
  induction order as [|o order IH]; intros W x H; cbn; [reflexivity|].
  destruct (H o) as (k & v & -> & E); [cbn; auto|]. rewrite IH by (intros; apply H; cbn; auto).
  cbn. unfold fput. rewrite E. reflexivity.
Qed.

Lemma fold_put_in order : forall W k v,
  (forall o, In o order -> exists k v, o = WInsert k v) ->
  ForallOrdPairs (fun a b => eqk (wkey a) (wkey b) = false) order ->
  In (WInsert k v) order -> fold_left wapply order W k = Some (k, v).
Proof.
  induction order as [|o order IH]; intros W k v Hins Hd Hin; [destruct Hin|].
  inversion Hd as [|? ? Ho Hd']; subst. rewrite Forall_forall in Ho. cbn.
  destruct Hin as [->|Hin].
  - rewrite fold_put_notin.
    + cbn. unfold fput. rewrite (eqk_refl _ _ L). reflexivity.
    + intros o' Ho'. destruct (Hins o') as (k' & v' & ->); [cbn; auto|]. exists k', v'. split; [reflexivity|].
      apply (Ho (WInsert k' v') Ho').
  - apply IH; auto. intros o' Ho'. apply Hins. cbn. auto.
Qed.

Lemma ForallOrdPairs_perm {X} (R : X -> X -> Prop) (l l' : list X) :
  (forall a b, R a b -> R b a) -> Permutation l l' -> ForallOrdPairs R l -> ForallOrdPairs R l'.
Proof.
  intros Hsym. induction 1 as [|x l l' P IH|x y l|l l' l'' P1 IH1 P2 IH2]; intros H; auto.
  - inversion H as [|? ? Hx Hl]; subst. constructor; [|auto].
    rewrite Forall_forall in *. intros q Hq. apply Hx. eapply Permutation_in; [symmetry; exact P|exact Hq].
  - inversion H as [|? ? Hx Hl]; subst. inversion Hl as [|? ? Hy Hl']; subst.
    inversion Hx; subst. constructor; [constructor; auto|]. constructor; assumption.
Qed.

Lemma concurrent_distinct n shards progs inter :
  (forall k, shard_index k < n) -> wfs eqk hash shift n shards ->
  let c := cexec inter (cstart shards progs) in
  cfinished c = true ->
  (forall o, In o (concat progs) -> exists k v, o = WInsert k v) ->
  ForallOrdPairs (fun a b => eqk (wkey a) (wkey b) = false) (concat progs) ->
  forall k v, In (WInsert k v) (concat progs) -> absl eqk hash shift (cc_shards c) k = Some (k, v).
Proof.
  intros Hi Hw c Hf Hins Hd k v Hin. destruct (concurrent_linear n shards progs inter Hi Hw Hf) as (order & Hm & _ & E).
  fold c in E. rewrite (E k). apply merge_perm in Hm. apply fold_put_in.
  - intros o Ho. apply Hins. eapply Permutation_in; [symmetry; exact Hm|exact Ho].
  - eapply ForallOrdPairs_perm; [|exact Hm|exact Hd]. intros a b H. rewrite esym_c. exact H.
  - eapply Permutation_in; [exact Hm|exact Hin].
Qed.

(** No deadlock: an unfinished configuration can always move. *)
Lemma cmicro_progress n c : cexcl n c -> (forall k, shard_index k < n) -> cfinished c = false ->
  exists t c', cmicro t c = Some c'.
Proof.
  intros (Hlen & Hl1 & Hl2) Hi Hf.
  assert (Hget : forall k, exists m, nth_error (cc_shards c) (shard_index k) = Some m).
  { intros k. destruct (nth_error (cc_shards c) (shard_index k)) eqn:E; [eauto|].
    apply nth_error_None in E. specialize (Hi k). lia. }
  assert (Hbusy : forall t th k, nth_error (cc_threads c) t = Some th -> holds (ct_pc th) = Some k ->
      exists c', cmicro t c = Some c').
  { intros t th k Ht Hh. unfold cmicro. rewrite Ht.
    destruct (ct_pc th) as [|[k0 v0|k0|k0 f0]|k0 v0|k0]; try discriminate;
      try (destruct (Hget k0) as [m ->]); eauto. }
  assert (E : exists th, In th (cc_threads c) /\ ~ (ct_pc th = CNext /\ ct_rest th = [])).
  { unfold cfinished in Hf. clear -Hf. induction (cc_threads c) as [|th l IH]; cbn in Hf; [discriminate|].
    destruct (ct_pc th) eqn:E1; [destruct (ct_rest th) eqn:E2|..].
    - destruct (IH Hf) as (th' & Hin & Hn). exists th'. cbn. auto.
    - exists th. split; [cbn; auto|]. intros [_ H]. congruence.
    - exists th. split; [cbn; auto|]. intros [H _]. congruence.
    - exists th. split; [cbn; auto|]. intros [H _]. congruence.
    - exists th. split; [cbn; auto|]. intros [H _]. congruence. }
  destruct E as (th & Hin & Hn). apply In_nth_error in Hin. destruct Hin as [t Ht].
  destruct (holds (ct_pc th)) as [k|] eqn:Hh; [exists t; eauto|].
  assert (Hp : ct_pc th = CNext) by (destruct (ct_pc th); try discriminate; reflexivity).
  destruct (ct_rest th) as [|o rest] eqn:Hr; [destruct Hn; auto|].
  destruct (cc_locks c (shard_index (wkey o))) as [t'|] eqn:El.
  - destruct (Hl1 _ _ El) as (th' & k' & Ht' & Hh' & _). exists t'. eauto.
  - exists t. unfold cmicro. rewrite Ht, Hp, Hr, El. eauto.
Qed.

End Conc.
