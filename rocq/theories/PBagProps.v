(** * Property theorems: every history of the parallel object grids (C60, C61) *)
From Coq Require Import List Bool ZArith NArith Arith Lia Permutation.
From Verif Require Import Grid DashModel DashSpec DashProofs DashRun NumModel NumSpec NumProofs NumPar
  ObjModel ObjSpec ObjProofs ObjPar ObjBagSpec ObjBagProps PBagSpec.
Import ListNotations.
Open Scope Z_scope.

Definition orders_ok {O} (c : pop (O := O)) : Prop :=
  match c with
  | PUpdate it it' => iteration it /\ iteration it'
  | PApply it _ => iteration it
  | _ => True
  end.

Section Par.
Context {O : Type}.
Variable eqo : O -> O -> bool.
Variable hash_o : O -> N.
Variable hash_l : loc -> N.
Hypothesis L : lawful eqo hash_o.
Notation opwf := (opwf eqo hash_o hash_l).
Notation call := (op_call eqo hash_o hash_l).
Notation run := (op_run eqo hash_o hash_l).

Definition view (g : opar O) : pview O := PView (rl hash_l g) (wl hash_l g) (ro eqo hash_o g) (wo eqo hash_o g).

Lemma shown_is (b : option (list O)) : match b with Some b => nonempty b | None => None end = shown_bag b.
Proof. destruct b as [[|]|]; reflexivity. Qed.

Lemma apply_view n g it f : opwf n g -> iteration it ->
  exists g', op_apply eqo hash_o it g f = Some g' /\ opwf n g' /\ view_call eqo (view g) (PApply it f) OUnit (view g').
Proof.
  intros [W Wo] Hit. unfold op_apply.
  destruct (apply_keys_ok eqo hash_o L n (op_locs g) it f Wo Hit) as (d & -> & Wd & Sh & R & F). cbn [option_map].
  eexists. split; [reflexivity|]. split; [split; assumption|].
  destruct (r_entries_spec eqo hash_o L n (op_locs g) it Wo Hit) as (U & _ & Hf).
  cbn [view_call view]. split; [reflexivity|]. exists (r_entries it (op_locs g)). split.
  - split; [exact U|]. intros o. unfold ro. rewrite <- Hf. reflexivity.
  - unfold alike, view. cbn [p_bag p_next_bag p_loc p_next_loc]. unfold rl, wl, ro, wo. cbn [op_objs op_locs]. rewrite Sh, R.
    repeat (split; [reflexivity|]). intros o. rewrite (F o).
    assert (G : forall es (m : O -> option (O * loc)) (m' : O -> option loc), (forall x, option_map snd (m x) = m' x) ->
      forall x, option_map snd (fold_left (fun m p => match f (snd p) (fst p) with
           | None => m | Some x => fput eqo x (snd p) (fdel eqo (fst p) m) end) es m x) =
        fold_left (fun nm p => match f (snd p) (fst p) with
           | Some x => at_obj eqo x (Some (snd p)) (at_obj eqo (fst p) None nm) | None => nm end) es m' x).
    { clear. induction es as [|p es IH]; intros m m' H x; cbn [fold_left]; [apply H|]. apply IH. intros y.
      destruct (f (snd p) (fst p)) as [z|]; [|apply H]. unfold fput, fdel, at_obj. destruct (eqo y z); [reflexivity|].
      destruct (eqo y (fst p)); [reflexivity|apply H]. }
    apply G. reflexivity.
Qed.

Lemma alike_refl (v : pview O) : alike v v.
Proof. repeat split. Qed.

Lemma with_is o b : Some (placing eqo o b) = bag_with eqo o b.
Proof. unfold placing, bag_with. destruct b as [b|]; [rewrite <- keep_out_without|]; reflexivity. Qed.
Lemma without_is o b : option_map (without eqo o) b = bag_without eqo o b.
Proof. unfold bag_without. destruct b as [b|]; cbn; [rewrite <- keep_out_without|]; reflexivity. Qed.

Lemma view_one n g c : opwf n g -> orders_ok c ->
  match call n g c with
  | Some (g', r) => opwf n g' /\ view_call eqo (view g) c r (view g')
  | None => exists o, c = PRemove o /\ removal_panics (view g) o
  end.
Proof.
  intros W Hc. destruct c as [o l|o l|o| |it it'|it f|l|l|o|o]; cbn [op_call orders_ok] in *.
  - destruct (op_set_ok eqo hash_o hash_l L n g o l W) as (g' & -> & W' & R1 & R2 & F1 & F2). cbn [option_map].
    split; [exact W'|]. cbn [view_call view]. split; [reflexivity|]. repeat split; unfold view; cbn [p_bag p_next_bag p_loc p_next_loc]; auto.
    intros x. rewrite F1, with_is. reflexivity.
  - destruct (op_remove_at_ok eqo hash_o hash_l n g o l W) as (g' & -> & W' & R1 & R2 & F1 & F2). cbn [option_map].
    split; [exact W'|]. cbn [view_call view]. split; [reflexivity|]. repeat split; unfold view; cbn [p_bag p_next_bag p_loc p_next_loc]; auto.
    intros x. rewrite F1, without_is. reflexivity.
  - pose proof (op_remove_spec eqo hash_o hash_l L n g o W) as H. cbn [view_call view]. destruct (ro eqo hash_o g o) as [l|] eqn:Er.
    + destruct (wl hash_l g l) as [b|] eqn:Ew.
      * destruct H as (g' & -> & W' & R1 & R2 & F1 & F2). cbn [option_map]. split; [exact W'|]. split; [reflexivity|].
        repeat split; unfold view; cbn [p_bag p_next_bag p_loc p_next_loc]; auto. intros x. rewrite F1, without_is. reflexivity.
      * rewrite H. cbn [option_map]. exists o. split; [reflexivity|]. exists l. cbn. auto.
    + destruct H as (g' & -> & W' & R1 & R2 & F1 & F2). cbn [option_map]. split; [exact W'|]. split; [reflexivity|].
      repeat split; unfold view; cbn [p_bag p_next_bag p_loc p_next_loc]; auto.
  - destruct (op_lazy_ok eqo hash_o hash_l n g W) as (g' & -> & W' & R1 & R2 & F1 & F2). cbn [option_map].
    split; [exact W'|]. cbn [view_call view]. split; [reflexivity|]. repeat split; unfold view; cbn [p_bag p_next_bag p_loc p_next_loc]; auto.
  - destruct Hc as [H1 H2]. destruct (op_update_ok eqo hash_o hash_l L n g it it' W H1 H2) as (g' & -> & W' & R1 & R2 & F1 & F2). cbn [option_map].
    split; [exact W'|]. cbn [view_call view]. split; [reflexivity|]. repeat split; unfold view; cbn [p_bag p_next_bag p_loc p_next_loc]; auto.
  - destruct (apply_view n g it f W Hc) as (g' & -> & W' & H). cbn [option_map]. auto.
  - rewrite (op_get_eq eqo hash_o hash_l n g l W), shown_is. cbn [option_map]. split; [exact W|]. split; [reflexivity|apply alike_refl].
  - rewrite (op_get_unbuffered_eq eqo hash_o hash_l n g l W), shown_is. cbn [option_map]. split; [exact W|]. split; [reflexivity|apply alike_refl].
  - rewrite (op_location_eq eqo hash_o hash_l n g o W). cbn [option_map]. split; [exact W|]. split; [reflexivity|apply alike_refl].
  - rewrite (op_location_unbuffered_eq eqo hash_o hash_l L n g o W). cbn [option_map]. split; [exact W|]. split; [reflexivity|apply alike_refl].
Qed.

Lemma view_all n cs : forall g, opwf n g -> Forall orders_ok cs ->
  match run n g cs with
  | Some (g', rs) => opwf n g' /\ view_run eqo (view g) cs rs (view g')
  | None => exists pre o post rs v, cs = pre ++ PRemove o :: post /\ view_run eqo (view g) pre rs v /\ removal_panics v o
  end.
Proof.
  induction cs as [|c cs IH]; intros g W Hc; cbn [op_run]; [split; [exact W|constructor]|].
  inversion Hc as [|? ? H1 H2]; subst. pose proof (view_one n g c W H1) as H. destruct (call n g c) as [[g1 r]|].
  - destruct H as [W1 V1]. specialize (IH g1 W1 H2). destruct (run n g1 cs) as [[g2 rs]|]; cbn [option_map fst snd].
    + destruct IH as [W2 V2]. split; [exact W2|]. econstructor; eauto.
    + destruct IH as (pre & o & post & rs & v & -> & V2 & P). exists (c :: pre), o, post, (r :: rs), v.
      split; [reflexivity|]. split; [econstructor; eauto|exact P].
  - destruct H as (o & -> & P). exists [], o, cs, [], (view g). split; [reflexivity|]. split; [constructor|exact P].
Qed.
End Par.

(** Every program of calls, in whatever order the maps are walked: the bags, the locations and
    the answers are those of the specification; a program panics exactly where the specification
    says, in a call of [remove_object]. *)
Theorem C60_every_history_partial : forall O (eqo : O -> O -> bool) hash_o hash_l, lawful eqo hash_o ->
  forall cpus cs, (1 <= cpus)%N -> (cpus * 4 <= 2 ^ 63)%N -> Forall orders_ok cs ->
  exists v0, nothing v0 /\
  match op_run eqo hash_o hash_l (N.to_nat (shard_amount cpus)) (op_new cpus) cs with
  | Some (g, rs) => exists v, view_run eqo v0 cs rs v /\
      (forall l, op_get hash_l g l = Some (shown_bag (p_bag v l)) /\ op_get_unbuffered hash_l g l = Some (shown_bag (p_next_bag v l))) /\
      (forall o, op_location eqo hash_o g o = Some (p_loc v o) /\ op_location_unbuffered eqo hash_o g o = Some (p_next_loc v o)) /\
      (forall o, op_call eqo hash_o hash_l (N.to_nat (shard_amount cpus)) g (PRemove o) = None <-> removal_panics v o)
  | None => exists pre o post rs v, cs = pre ++ PRemove o :: post /\ view_run eqo v0 pre rs v /\ removal_panics v o
  end.
Proof.
  intros O eqo hash_o hash_l L cpus cs H1 H2 Hc. destruct (op_new_ok eqo hash_o hash_l cpus H1 H2) as (W0 & E1 & E2).
  exists (view eqo hash_o hash_l (op_new cpus)). split.
  { unfold nothing, view; cbn. repeat split; intros x; first [apply E1|apply E2]. }
  set (n := N.to_nat (shard_amount cpus)) in *. pose proof (view_all eqo hash_o hash_l L n cs (op_new cpus) W0 Hc) as H.
  destruct (op_run eqo hash_o hash_l n (op_new cpus) cs) as [[g rs]|]; [|exact H].
  destruct H as [W V]. exists (view eqo hash_o hash_l g). split; [exact V|]. split; [|split].
  - intros l. rewrite (op_get_eq eqo hash_o hash_l n g l W), (op_get_unbuffered_eq eqo hash_o hash_l n g l W), !shown_is. auto.
  - intros o. rewrite (op_location_eq eqo hash_o hash_l n g o W), (op_location_unbuffered_eq eqo hash_o hash_l L n g o W). auto.
  - intros o. pose proof (view_one eqo hash_o hash_l L n g (PRemove o) W I) as K. split.
    + intros E. rewrite E in K. destruct K as (o' & E' & P). injection E' as <-. exact P.
    + intros (l & Hl & Hb). cbn [view p_loc p_next_bag] in Hl, Hb. pose proof (op_remove_spec eqo hash_o hash_l L n g o W) as S.
      rewrite Hl, Hb in S. cbn [op_call]. rewrite S. reflexivity.
Qed.
Print Assumptions C60_every_history_partial.

Definition hz60 (z : Z) : N := Z.to_N (Z.abs z).
Definition hl60 (l : loc) : N := Z.to_N (Z.abs (fst l)).

(** Two objects; [apply_to_all_values] renames 8 to 9 in the table of locations only; 7 is removed
    from the place it had, which was used again; removing 8 panics. *)
Example C60_every_history_concrete :
  let cs := [PSet 7 (0, 0); PSet 8 (1, 1); PLazyUpdate; PSet 7 (0, 0); PApply (fun m => m) (fun _ o => if o =? 8 then Some 9 else None);
             PRemove 7; PLocationUnbuffered 9; PGetUnbuffered (0, 0); PGet (0, 0)] in
  Forall orders_ok cs /\
  option_map snd (op_run Z.eqb hz60 hl60 (N.to_nat (shard_amount 1)) (op_new 1) cs) =
    Some [OUnit; OUnit; OUnit; OUnit; OUnit; OUnit; OLoc (Some (1, 1)); OBag None; OBag (Some [7])] /\
  op_run Z.eqb hz60 hl60 (N.to_nat (shard_amount 1)) (op_new 1) (cs ++ [PRemove 8]) = None.
Proof.
  split; [|split; vm_compute; reflexivity]. repeat constructor. intros m. reflexivity.
Qed.
