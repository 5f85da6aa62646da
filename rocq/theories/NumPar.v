(** * The parallel number grids compared with the sequential ones *)
From Coq Require Import List Bool ZArith NArith Arith Lia Permutation.
From Verif Require Import Grid DashModel DashSpec DashProofs DashRun NumModel NumSpec NumProofs.
Import ListNotations.
Open Scope Z_scope.

Section Par.
Context {T : Type}.
Variable eqv : T -> T -> bool.
Variable hash : loc -> N.

Lemma loc_lawful_any : lawful loc_eqb hash.
Proof.
  split; intros.
  - apply loc_eqb_refl.
  - apply loc_eqb_eq. symmetry. apply loc_eqb_eq. assumption.
  - apply loc_eqb_eq. transitivity b; apply loc_eqb_eq; assumption.
  - apply loc_eqb_eq in H. congruence.
Qed.
Notation LL := loc_lawful_any.

Notation rdp d l := (option_map snd (absl loc_eqb hash (d_shift d) (d_rshards d) l)).
Notation wrp d l := (option_map snd (absl loc_eqb hash (d_shift d) (d_shards d) l)).

Definition psame (n : nat) (d : dmap loc T) (s : sgrid T) : Prop :=
  wf loc_eqb hash n d /\ swf s /\
  forall l, rdp d l = sg_get s l /\ wrp d l = sg_get_unbuffered s l.

Lemma psame_call n d s o it : psame n d s -> par_sparse o -> iteration it ->
  exists d' s' r, pg_call hash n it d o = Some (d', r) /\ sg_call eqv it s o = Some (s', r) /\ psame n d' s'.
Proof.
  intros (Wd & Ws & Hv) Hc Hit.
  pose proof (sg_call_ok eqv it s o Ws Hit) as Hsc.
  destruct o as [v l|l| | |op f|l|l|v|v| |draws| |]; cbn [par_sparse] in Hc; try destruct Hc; cbn [pg_call].
  - destruct (insert_ok loc_eqb hash LL n d l v Wd) as (d' & -> & W' & Sh & R & F). cbn [option_map fst snd].
    cbn [sg_call] in *. destruct Hsc as (Ws' & _ & _ & Hs').
    exists d', (sg_set s v l), RUnit. split; [reflexivity|]. split; [reflexivity|].
    split; [exact W'|]. split; [exact Ws'|]. intros x. destruct (Hs' x) as [-> ->]. destruct (Hv x) as [H1 H2].
    rewrite Sh, R, (F x). cbn. unfold fput. split; [exact H1|]. destruct (loc_eqb x l); [reflexivity|exact H2].
  - destruct (lazy_update_ok loc_eqb hash n d Wd) as (d' & -> & W' & Sh & R & Wr). cbn [option_map].
    cbn [sg_call] in *. destruct Hsc as (Ws' & _ & _ & Hs').
    exists d', (sg_lazy_update s), RUnit. split; [reflexivity|]. split; [reflexivity|].
    split; [exact W'|]. split; [exact Ws'|]. intros x. destruct (Hs' x) as [-> ->]. destruct (Hv x) as [H1 H2].
    rewrite Sh, R, Wr. split; [exact H2|]. rewrite (absl_empty loc_eqb hash (d_shift d) n x). reflexivity.
  - destruct op; cbn [par_sparse] in Hc; try destruct Hc.
    + destruct (apply_write_ok loc_eqb hash n d f Wd) as (W' & F). cbn [sg_call] in *.
      destruct Hsc as (Ws' & _ & _ & Hs').
      eexists _, _, _. split; [reflexivity|]. split; [reflexivity|].
      split; [exact W'|]. split; [exact Ws'|]. intros x. destruct (Hs' x) as [-> ->]. destruct (Hv x) as [H1 H2].
      split; [exact H1|]. change (d_shift (apply_to_all_values_write f d)) with (d_shift d). rewrite (F x). cbn.
      rewrite <- H2. destruct (absl loc_eqb hash (d_shift d) (d_shards d) x); reflexivity.
    + destruct (apply_rw_ok loc_eqb hash LL n d it f Wd Hit) as (d' & -> & W' & Sh & R & F). cbn [option_map].
      cbn [sg_call] in *. destruct Hsc as (Ws' & _ & _ & Hs').
      eexists _, _, _. split; [reflexivity|]. split; [reflexivity|].
      split; [exact W'|]. split; [exact Ws'|]. intros x. destruct (Hs' x) as [-> ->]. destruct (Hv x) as [H1 H2].
      rewrite Sh, R, (F x). split; [exact H1|]. cbn. rewrite <- H1, <- H2.
      destruct (absl loc_eqb hash (d_shift d) (d_rshards d) x); [|reflexivity].
      destruct (absl loc_eqb hash (d_shift d) (d_shards d) x); reflexivity.
  - destruct (Hv l) as [H1 _]. cbn [sg_call].
    assert (E : get_read loc_eqb hash l d = Some (rdp d l)).
    { unfold get_read, absl, shard_of. change (idx hash (d_shift d) l) with (N.to_nat (determine_shard (d_shift d) (hash l mod 2 ^ 64))).
      destruct Wd as (Hi & _ & Hr). destruct (wfs_get loc_eqb hash _ _ _ l Hr (Hi l)) as (m & Hm & _).
      unfold idx in Hm. rewrite Hm. reflexivity. }
    rewrite E, H1. cbn [option_map]. exists d, s, (RValue (sg_get s l)). split; [reflexivity|]. split; [reflexivity|].
    split; [exact Wd|]. split; [exact Ws|exact Hv].
  - destruct (Hv l) as [_ H2]. cbn [sg_call].
    destruct (get_write_ok loc_eqb hash LL n d l (fun v => v) Wd) as (d' & -> & _). cbn [option_map snd]. rewrite H2.
    exists d, s, (RValue (sg_get_unbuffered s l)). split; [reflexivity|]. split; [reflexivity|].
    split; [exact Wd|]. split; [exact Ws|exact Hv].
Qed.

Lemma psame_run n os : forall d s, psame n d s ->
  Forall (fun p => par_sparse (fst p) /\ iteration (snd p)) os ->
  exists d' s' rs, pg_run hash n d os = Some (d', rs) /\ sg_run eqv s os = Some (s', rs) /\ length rs = length os.
Proof.
  induction os as [|[o it] os IH]; intros d s Hs Hos; cbn [pg_run sg_run]; [exists d, s, []; auto|].
  inversion Hos as [|? ? (Hc & Hit) Hos']; subst. cbn in Hc, Hit.
  destruct (psame_call n d s o it Hs Hc Hit) as (d1 & s1 & r & -> & -> & Hs1).
  destruct (IH d1 s1 Hs1 Hos') as (d2 & s2 & rs & -> & -> & Len). cbn. do 3 eexists.
  split; [reflexivity|]. split; [reflexivity|]. cbn. congruence.
Qed.

Lemma par_sparse_same w h cpus os : (1 <= cpus)%N -> (cpus * 4 <= 2 ^ 63)%N ->
  Forall (fun p => par_sparse (fst p) /\ iteration (snd p)) os ->
  exists d s rs, pg_run hash (N.to_nat (shard_amount cpus)) (dash_new cpus) os = Some (d, rs) /\
    sg_run eqv (sg_new w h) os = Some (s, rs) /\ length rs = length os.
Proof.
  intros H1 H2 Hos. apply psame_run; [|exact Hos].
  destruct (dash_new_wf (V := T) loc_eqb hash cpus H1 H2) as [W [E1 E2]].
  split; [exact W|]. split; [split; constructor|]. intros l.
  pose proof (E1 l) as F1. pose proof (E2 l) as F2. unfold abs, fempty in F1, F2.
  cbn [rd wr] in F1, F2. rewrite F1, F2. auto.
Qed.

Lemma par_dense_same w h cpus os : size_ok w h -> (1 <= cpus)%N -> (cpus * 4 <= 2 ^ 63)%N ->
  Forall (fun p => call_in w h (fst p) /\ par_dense (fst p) /\ iteration (snd p)) os ->
  exists d g0 g rs, pg_run hash (N.to_nat (shard_amount cpus)) (dash_new cpus) os = Some (d, rs) /\
    dg_new w h = Some g0 /\ dg_run eqv g0 (map fst os) = Some (g, rs) /\ length rs = length os.
Proof.
  intros Hs H1 H2 Hos.
  destruct (par_sparse_same w h cpus os H1 H2) as (d & s & rs & E1 & E2 & Len).
  { eapply Forall_impl; [|exact Hos]. intros [o it] (_ & Hp & Hi). cbn in *. split; [|exact Hi].
    destruct o as [v l|l| | |op f|l|l|v|v| |draws| |]; try destruct Hp; exact I. }
  destruct (dense_sparse_same eqv w h os Hs) as (g0 & g & s' & rs' & E3 & E4 & E5 & _).
  { eapply Forall_impl; [|exact Hos]. intros [o it] (Hi & Hp & Hit). cbn in *. split; [exact Hi|]. split; [|exact Hit].
    destruct o as [v l|l| | |op f|l|l|v|v| |draws| |]; try destruct Hp; exact I. }
  rewrite E2 in E5. inversion E5; subst. exists d, g0, g, rs'. auto.
Qed.
End Par.
