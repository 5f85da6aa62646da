(** * Property theorems: histories of number grids with [apply_to_all_values] (C20) *)
From Coq Require Import List Bool ZArith NArith Arith Lia Permutation.
From Verif Require Import Grid DashModel DashSpec NumModel NumSpec NumProofs NumProps NumCellSpec.
Import ListNotations.
Open Scope Z_scope.

Section Cells.
Context {T : Type}.
Variable eqv : T -> T -> bool.

Lemma cell_dense l (o : gop T) r x : (after_read o r x, after_write o l r x) = cell_call true l (r, x) o.
Proof.
  destruct o as [v l'|l'| | |op f|l'|l'|v|v| |draws| |]; try reflexivity; cbn [after_read after_write cell_call fst snd].
  - destruct (loc_eqb l l'); reflexivity.
  - destruct (loc_eqb l l'); reflexivity.
  - destruct op, r as [a|], x as [b|]; reflexivity.
Qed.
Lemma cell_sparse l (o : gop T) r x : (after_read o r x, sparse_after_write o l r x) = cell_call false l (r, x) o.
Proof.
  destruct o as [v l'|l'| | |op f|l'|l'|v|v| |draws| |]; try reflexivity; cbn [after_read sparse_after_write cell_call fst snd].
  - destruct (loc_eqb l l'); reflexivity.
  - destruct (loc_eqb l l'); reflexivity.
  - destruct op, r as [a|], x as [b|]; reflexivity.
Qed.
Lemma cell_snoc dense l (os : list (gop T)) o : cell_after dense l (os ++ [o]) = cell_call dense l (cell_after dense l os) o.
Proof. unfold cell_after. rewrite fold_left_app. reflexivity. Qed.

(** Both grids, every history with calls of [apply_to_all_values] among the others: each cell
    holds what its own history says, and so are the answers. *)
Theorem C20_dense_history : forall w h (os : list (gop T)), size_ok w h -> Forall (call_in w h) os ->
  exists g0 g rs, dg_new w h = Some g0 /\ dg_run eqv g0 os = Some (g, rs) /\ length rs = length os /\
    (forall l, in_range w h l ->
      dg_get g l = Some (fst (cell_after true l os)) /\ dg_get_unbuffered g l = Some (snd (cell_after true l os))) /\
    forall pre o post r, os = pre ++ o :: post -> nth_error rs (length pre) = Some r -> cell_answer true pre o r.
Proof.
  intros w h os Hs. induction os as [|o os IH] using rev_ind; intros Hin.
  - destruct (@dg_new_ok T w h Hs) as (g & E & W & Hg). exists g, g, []. split; [exact E|]. split; [reflexivity|]. split; [reflexivity|]. split; [exact Hg|].
    intros pre o post r K. destruct pre; discriminate.
  - apply Forall_app in Hin. destruct Hin as [Hin1 Hin2]. inversion Hin2 as [|? ? Hio _]; subst.
    destruct (IH Hin1) as (g0 & g & rs & Hn & Hr & Len & Hg & Ha).
    assert (W : dwf w h g) by (apply (dg_reachable_wf eqv w h g Hs); exists g0, os, rs; auto).
    destruct (dg_call_ok eqv w h g o W Hs Hio) as (g' & res & Hc & W' & Hg').
    exists g0, g', (rs ++ [res]). split; [exact Hn|]. rewrite dg_run_app, Hr. cbn [dg_run]. rewrite Hc. cbn [option_map fst snd].
    split; [reflexivity|]. split; [rewrite !app_length; cbn; lia|]. split.
    + intros l Hl. rewrite cell_snoc. destruct (Hg l Hl) as [Hp Hw]. destruct (Hg' l _ _ Hl Hp Hw) as [-> ->].
      destruct (cell_after true l os) as [r x]. rewrite <- cell_dense. split; reflexivity.
    + intros pre o' post r K N. destruct post as [|y post] using rev_ind.
      * apply app_inj_tail in K. destruct K as [<- <-]. rewrite nth_error_app2 in N by lia. rewrite Len, Nat.sub_diag in N. injection N as <-.
        destruct o as [v l|l| | |op f|l|l|v|v| |draws| |]; cbn [cell_answer]; cbn [dg_call] in Hc; try exact I.
        -- destruct (dg_set g v l); [injection Hc as _ <-; reflexivity|discriminate].
        -- destruct (dg_remove g l); [injection Hc as _ <-; reflexivity|discriminate].
        -- injection Hc as _ <-. reflexivity.
        -- destruct (dg_update g); [injection Hc as _ <-; reflexivity|discriminate].
        -- destruct (dg_apply g op f); [injection Hc as _ <-; reflexivity|discriminate].
        -- destruct (Hg l Hio) as [Hp _]. rewrite Hp in Hc. injection Hc as _ <-. reflexivity.
        -- destruct (Hg l Hio) as [_ Hp]. rewrite Hp in Hc. injection Hc as _ <-. reflexivity.
      * clear IHpost. rewrite app_comm_cons, app_assoc in K. apply app_inj_tail in K. destruct K as [-> _].
        rewrite nth_error_app1 in N by (rewrite Len, app_length; cbn; lia). eapply Ha; [reflexivity|exact N].
Qed.

Theorem C20_sparse_history : forall w h os g rs,
  Forall (fun p => iteration (snd p)) os -> sg_run eqv (sg_new w h) os = Some (g, rs) ->
  length rs = length os /\
  (forall l, sg_get g l = fst (cell_after false l (map fst os)) /\ sg_get_unbuffered g l = snd (cell_after false l (map fst os))) /\
  forall pre o post r, map fst os = pre ++ o :: post -> nth_error rs (length pre) = Some r -> cell_answer false pre o r.
Proof.
  intros w h os. induction os as [|[o it] os IH] using rev_ind; intros g rs Hit Hr.
  - cbn in Hr. injection Hr as <- <-. split; [reflexivity|]. split; [intros l; split; reflexivity|]. intros pre o post r K. destruct pre; discriminate.
  - apply Forall_app in Hit. destruct Hit as [Hit1 Hit2]. inversion Hit2 as [|? ? Hi _]; subst. cbn in Hi.
    rewrite sg_run_app in Hr. destruct (sg_run eqv (sg_new w h) os) as [[g1 r1]|] eqn:E1; [|discriminate].
    cbn [sg_run] in Hr. destruct (IH g1 r1 Hit1 eq_refl) as (Len & Hg & Ha).
    pose proof (sg_run_ok eqv os (sg_new w h)) as Hok. rewrite E1 in Hok.
    destruct Hok as (W1 & _); [split; constructor|exact Hit1|].
    pose proof (sg_call_ok eqv it g1 o W1 Hi) as Hc. destruct (sg_call eqv it g1 o) as [[g2 r2]|] eqn:Ec; [|discriminate].
    cbn in Hr. injection Hr as <- <-. destruct Hc as (_ & _ & _ & Hc).
    split; [rewrite !app_length; cbn; lia|]. rewrite map_app. cbn [map fst]. split.
    + intros l. rewrite cell_snoc. destruct (Hc l) as [-> ->]. destruct (Hg l) as [-> ->]. destruct (cell_after false l (map fst os)) as [a x].
      rewrite <- cell_sparse. split; reflexivity.
    + intros pre o' post r K N. destruct post as [|y post] using rev_ind.
      * apply app_inj_tail in K. destruct K as [<- <-]. rewrite map_length in N. rewrite nth_error_app2 in N by lia. rewrite Len, Nat.sub_diag in N. injection N as <-.
        destruct o as [v l|l| | |op f|l|l|v|v| |draws| |]; cbn [cell_answer]; cbn [sg_call] in Ec; try exact I; injection Ec as _ <-; try reflexivity; f_equal; apply Hg.
      * clear IHpost. rewrite app_comm_cons, app_assoc in K. apply app_inj_tail in K. destruct K as [K _].
        rewrite nth_error_app1 in N. { eapply Ha; [exact K|exact N]. }
        rewrite Len, <- (map_length fst os), K, app_length. cbn. lia.
Qed.
End Cells.
Print Assumptions C20_dense_history.
Print Assumptions C20_sparse_history.

(** The two grids disagree after [apply_to_all_values] with [WRITE]. *)
Example C20_history_concrete :
  let os := [GSet 5 (1, 1); GLazyUpdate; GSet 8 (0, 0); GApply WRITE Z.succ; GApply READWRITE Z.succ; GGetUnbuffered (0, 0)] in
  Forall (call_in 3 2) os /\
  map (fun l => cell_after true l os) [(1, 1); (0, 0)] = [(Some 5, Some 7); (None, Some 9)] /\
  map (fun l => cell_after false l os) [(1, 1); (0, 0)] = [(Some 5, Some 6); (None, Some 9)].
Proof. split; [repeat constructor; cbn; lia|]. split; vm_compute; reflexivity. Qed.
