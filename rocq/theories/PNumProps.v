(** * Property theorems: histories of number grids of the parallel build (C57) *)
From Coq Require Import List Bool ZArith NArith Arith Lia Permutation.
From Verif Require Import Grid DashModel DashSpec DashProofs DashRun NumModel NumSpec NumProofs NumPar NumProps NumCellSpec PNumSpec.
Import ListNotations.
Open Scope Z_scope.

Section Par.
Context {T : Type}.
Variable hash : loc -> N.
Notation LL := (loc_lawful_any hash).
Notation rdp d l := (option_map snd (absl loc_eqb hash (d_shift d) (d_rshards d) l)).
Notation wrp d l := (option_map snd (absl loc_eqb hash (d_shift d) (d_shards d) l)).

Lemma pg_get n (d : dmap loc T) l : wf loc_eqb hash n d ->
  get_read loc_eqb hash l d = Some (rdp d l) /\ option_map snd (get_write loc_eqb hash l (fun v => v) d) = Some (wrp d l).
Proof.
  intros Wd. split.
  - unfold get_read, absl, shard_of. change (idx hash (d_shift d) l) with (N.to_nat (determine_shard (d_shift d) (hash l mod 2 ^ 64))).
    destruct Wd as (Hi & _ & Hr). destruct (wfs_get loc_eqb hash _ _ _ l Hr (Hi l)) as (m & Hm & _).
    unfold idx in Hm. rewrite Hm. reflexivity.
  - destruct (get_write_ok loc_eqb hash LL n d l (fun v => v) Wd) as (d' & -> & _). reflexivity.
Qed.

Lemma pg_call_ok n it (d : dmap loc T) o : wf loc_eqb hash n d -> offered o -> iteration it ->
  exists d' r, pg_call hash n it d o = Some (d', r) /\ wf loc_eqb hash n d' /\
    (forall l, (rdp d' l, wrp d' l) = par_cell_call l (rdp d l, wrp d l) o) /\
    match o with GGet l => r = RValue (rdp d l) | GGetUnbuffered l => r = RValue (wrp d l) | _ => r = RUnit end.
Proof.
  intros Wd Ho Hit. destruct o as [v l|l| | |op f|l|l|v|v| |draws| |]; cbn [offered] in Ho; try destruct Ho; cbn [pg_call].
  - destruct (insert_ok loc_eqb hash LL n d l v Wd) as (d' & -> & W' & Sh & R & F). cbn [option_map fst snd].
    exists d', RUnit. split; [reflexivity|]. split; [exact W'|]. split; [|reflexivity]. intros x. rewrite Sh, R, (F x). cbn. unfold fput.
    destruct (loc_eqb x l); reflexivity.
  - destruct (lazy_update_ok loc_eqb hash n d Wd) as (d' & -> & W' & Sh & R & Wr). cbn [option_map].
    exists d', RUnit. split; [reflexivity|]. split; [exact W'|]. split; [|reflexivity]. intros x. rewrite Sh, R, Wr.
    rewrite (absl_empty loc_eqb hash (d_shift d) n x). reflexivity.
  - destruct (update_ok loc_eqb hash LL n d it Wd Hit) as (d' & -> & W' & Sh & R & F). cbn [option_map].
    exists d', RUnit. split; [reflexivity|]. split; [exact W'|]. split; [|reflexivity]. intros x. rewrite Sh, R, (F x). cbn.
    destruct (absl loc_eqb hash (d_shift d) (d_shards d) x); reflexivity.
  - destruct op.
    + destruct (apply_ok loc_eqb hash LL n d it f Wd Hit) as (d' & -> & W' & Sh & R & F). cbn [option_map].
      exists d', RUnit. split; [reflexivity|]. split; [exact W'|]. split; [|reflexivity]. intros x. rewrite Sh, R, (F x). cbn.
      destruct (absl loc_eqb hash (d_shift d) (d_rshards d) x); reflexivity.
    + destruct (apply_write_ok loc_eqb hash n d f Wd) as (W' & F).
      exists (apply_to_all_values_write f d), RUnit. split; [reflexivity|]. split; [exact W'|]. split; [|reflexivity]. intros x.
      change (d_shift (apply_to_all_values_write f d)) with (d_shift d). rewrite (F x). cbn.
      destruct (absl loc_eqb hash (d_shift d) (d_shards d) x); reflexivity.
    + destruct (apply_rw_ok loc_eqb hash LL n d it f Wd Hit) as (d' & -> & W' & Sh & R & F). cbn [option_map].
      exists d', RUnit. split; [reflexivity|]. split; [exact W'|]. split; [|reflexivity]. intros x. rewrite Sh, R, (F x). cbn.
      destruct (absl loc_eqb hash (d_shift d) (d_rshards d) x), (absl loc_eqb hash (d_shift d) (d_shards d) x); reflexivity.
  - destruct (pg_get n d l Wd) as [-> _]. cbn [option_map]. exists d. eexists. split; [reflexivity|]. split; [exact Wd|]. split; reflexivity.
  - destruct (pg_get n d l Wd) as [_ E]. destruct (get_write loc_eqb hash l (fun v => v) d) as [p|]; [|discriminate]. cbn in *. injection E as E.
    exists d. eexists. split; [reflexivity|]. split; [exact Wd|]. split; [reflexivity|]. cbv beta iota. rewrite E. reflexivity.
Qed.

Lemma pg_run_app n os1 os2 : forall (d : dmap loc T),
  pg_run hash n d (os1 ++ os2) =
  match pg_run hash n d os1 with
  | None => None
  | Some (d1, r1) => option_map (fun p => (fst p, r1 ++ snd p)) (pg_run hash n d1 os2)
  end.
Proof.
  induction os1 as [|[o it] os1 IH]; intros d; cbn [app pg_run].
  - destruct (pg_run hash n d os2) as [[? ?]|]; reflexivity.
  - destruct (pg_call hash n it d o) as [[d1 r]|]; [|reflexivity]. rewrite IH.
    destruct (pg_run hash n d1 os1) as [[d2 r1]|]; [|reflexivity]. cbn. destruct (pg_run hash n d2 os2) as [[? ?]|]; reflexivity.
Qed.
Lemma par_snoc l (os : list (gop T)) o : par_cell_after l (os ++ [o]) = par_cell_call l (par_cell_after l os) o.
Proof. unfold par_cell_after. rewrite fold_left_app. reflexivity. Qed.
End Par.

(** Both number grids of the parallel build, every history of the calls they offer, every
    hash function, number of processors and iteration order: no call panics, every cell
    holds what its own history says, and so are the answers. *)
Theorem C57_parallel_history :
  forall T (hash : loc -> N) cpus os, (1 <= cpus)%N -> (cpus * 4 <= 2 ^ 63)%N ->
  Forall (fun p => offered (fst p) /\ iteration (snd p)) os ->
  exists (d : dmap loc T) rs, pg_run hash (N.to_nat (shard_amount cpus)) (dash_new cpus) os = Some (d, rs) /\ length rs = length os /\
    (forall l, get_read loc_eqb hash l d = Some (fst (par_cell_after l (map fst os))) /\
               option_map snd (get_write loc_eqb hash l (fun v => v) d) = Some (snd (par_cell_after l (map fst os)))) /\
    forall pre o post r, map fst os = pre ++ o :: post -> nth_error rs (length pre) = Some r -> par_cell_answer pre o r.
Proof.
  intros T hash cpus os H1 H2 H. set (n := N.to_nat (shard_amount cpus)).
  assert (G : exists (d : dmap loc T) rs, pg_run hash n (dash_new cpus) os = Some (d, rs) /\ length rs = length os /\ wf loc_eqb hash n d /\
    (forall l, (option_map snd (absl loc_eqb hash (d_shift d) (d_rshards d) l), option_map snd (absl loc_eqb hash (d_shift d) (d_shards d) l)) = par_cell_after l (map fst os)) /\
    forall pre o post r, map fst os = pre ++ o :: post -> nth_error rs (length pre) = Some r -> par_cell_answer pre o r).
  { induction os as [|[o it] os IH] using rev_ind.
    - destruct (dash_new_wf (K := loc) (V := T) loc_eqb hash cpus H1 H2) as (W & E1 & E2). exists (dash_new cpus), []. split; [reflexivity|]. split; [reflexivity|]. split; [exact W|]. split.
      + intros l. specialize (E1 l). specialize (E2 l). cbn [rd wr abs] in E1, E2. rewrite E1, E2. reflexivity.
      + intros pre o post r K. destruct pre; discriminate.
    - apply Forall_app in H. destruct H as [Ha Hb]. inversion Hb as [|? ? [Ho Hi] _]; subst. cbn [fst snd] in *.
      destruct (IH Ha) as (d & rs & E & Len & W & Hv & Hr).
      destruct (pg_call_ok hash n it d o W Ho Hi) as (d' & r & Ec & W' & Hv' & Hr').
      exists d', (rs ++ [r]). rewrite pg_run_app, E. cbn [pg_run]. rewrite Ec. cbn [option_map fst snd]. split; [reflexivity|].
      split; [rewrite !app_length; cbn; lia|]. split; [exact W'|]. rewrite map_app. cbn [map fst]. split.
      + intros l. rewrite par_snoc, <- Hv. apply Hv'.
      + intros pre o' post x K N. destruct post as [|y post] using rev_ind.
        * apply app_inj_tail in K. destruct K as [<- <-]. rewrite map_length in N. rewrite nth_error_app2 in N by lia. rewrite Len, Nat.sub_diag in N. injection N as <-.
          destruct o as [v l|l| | |op f|l|l|v|v| |draws| |]; cbn [offered] in Ho; try destruct Ho; cbn [par_cell_answer]; rewrite <- ?Hv; exact Hr'.
        * clear IHpost. rewrite app_comm_cons, app_assoc in K. apply app_inj_tail in K. destruct K as [K _].
          rewrite nth_error_app1 in N; [eapply Hr; [exact K|exact N]|]. rewrite Len, <- (map_length fst), K, app_length. cbn. lia. }
  destruct G as (d & rs & E & Len & W & Hv & Hr). exists d, rs. split; [exact E|]. split; [exact Len|]. split; [|exact Hr].
  intros l. destruct (pg_get hash n d l W) as [-> ->]. specialize (Hv l). rewrite <- Hv. split; reflexivity.
Qed.
Print Assumptions C57_parallel_history.

(** Where the two builds part: a cell of the sequential sparse grid and one of the parallel
    grid that agree still agree after every call, except [apply_to_all_values] with [READ] on
    a cell with a published value, which must be unchanged by the closure and also be the
    written one, and [update] on a cell that has any value. *)
Theorem C57_cell_difference :
  forall T (l : loc) (c : option T * option T) (o : gop T), offered o ->
    match o with
    | GApply READ f => par_cell_call l c o = cell_call false l c o <-> fst c = None \/ (exists v, fst c = Some v /\ f v = v /\ snd c = Some v)
    | GUpdate => par_cell_call l c o = cell_call false l c o <-> c = (None, None)
    | _ => par_cell_call l c o = cell_call false l c o
    end.
Proof.
  intros T l [r x] o Ho. destruct o as [v l'|l'| | |op f|l'|l'|v|v| |draws| |]; cbn [offered] in Ho; try destruct Ho; try reflexivity.
  - cbn. destruct x as [x|]; [|destruct r as [r|]]; split; intros H; try discriminate H; reflexivity.
  - destruct op; cbn.
    + destruct r as [r|]; cbn.
      * split.
        -- intros H. injection H as H1 H2. right. exists r. rewrite <- H1, <- H2, <- H1. auto.
        -- intros [H|(v & H1 & H2 & H3)]; [discriminate|]. injection H1 as <-. rewrite H3, H2. reflexivity.
      * split; auto.
    + destruct r, x; reflexivity.
    + destruct r as [r|], x as [x|]; reflexivity.
Qed.
Print Assumptions C57_cell_difference.

Example C57_parallel_history_concrete :
  let os := [GSet 7 (1, 2); GLazyUpdate; GSet 9 (1, 2); GApply READ (fun v => v + 1); GUpdate; GGet (1, 2); GApply READWRITE (fun v => v * 2); GGetUnbuffered (1, 2); GGet (0, 0)] in
  Forall offered os /\
  option_map snd (pg_run (fun l => Z.to_N (fst l)) (N.to_nat (shard_amount 2)) (dash_new 2) (map (fun o => (o, fun l => l)) os)) =
    Some [RUnit; RUnit; RUnit; RUnit; RUnit; RValue (Some 8); RUnit; RValue (Some 16); RValue None] /\
  par_cell_after (1, 2) os = (Some 8, Some 16) /\ cell_after false (1, 2) os = (Some 9, Some 18).
Proof. cbv zeta. split; [repeat constructor|]. vm_compute. repeat split; reflexivity. Qed.
