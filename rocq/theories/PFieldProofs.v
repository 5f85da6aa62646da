(** * Proofs about the parallel Field2D *)
From Coq Require Import List Bool ZArith NArith Arith Lia Permutation.
From Verif Require Import F32 Grid DashModel DashSpec DashProofs DashRun DashView NumModel NumSpec NumProofs NumPar
  ObjModel ObjSpec ObjProofs FieldModel FieldSpec PFieldModel PFieldSpec.
Import ListNotations.
Open Scope Z_scope.

Section Par.
Variable A : arith.
Notation T := (num A).
Notation pt := (num A * num A)%type.
Context {O : Type}.
Variable eqo : O -> O -> bool.
Variable hash_o : O -> N.
Variable hash_l : loc -> N.
Hypothesis L : lawful eqo hash_o.
Notation LL := (loc_lawful_any hash_l).
Notation pfield := (pfield A (O := O)).
Notation pfop := (pfop A (O := O)).
Implicit Types f : pfield.
Variables w h d : T.
Variable t : bool.

Definition pfwf (n : nat) f : Prop :=
  wf eqo hash_o n (pf_loc f) /\ wf loc_eqb hash_l n (pf_bag f) /\ wf eqo hash_o n (pf_index f) /\
  pf_width f = w /\ pf_height f = h /\ pf_disc f = d /\ pf_toroidal f = t.

Notation rL f o := (rv eqo hash_o (pf_loc f) o).
Notation wL f o := (wv eqo hash_o (pf_loc f) o).
Notation rI f o := (rv eqo hash_o (pf_index f) o).
Notation wI f o := (wv eqo hash_o (pf_index f) o).
Notation rB f c := (option_map snd (rv loc_eqb hash_l (pf_bag f) c)).
Notation wB f c := (option_map snd (wv loc_eqb hash_l (pf_bag f) c)).

Lemma pf_new_ok cpus : (1 <= cpus)%N -> (cpus * 4 <= 2 ^ 63)%N ->
  let f := pf_new A cpus w h d t in
  pfwf (N.to_nat (shard_amount cpus)) f /\
  (forall o, rL f o = None /\ wL f o = None /\ rI f o = None /\ wI f o = None) /\
  (forall c, rB f c = None /\ wB f c = None).
Proof.
  intros H1 H2. cbv zeta.
  destruct (v_new (V := pt) eqo hash_o cpus H1 H2) as [W1 E1]. destruct (v_new (V := loc) eqo hash_o cpus H1 H2) as [W2 E2].
  destruct (v_new (V := list O) loc_eqb hash_l cpus H1 H2) as [W3 E3].
  split; [|split].
  - unfold pfwf. cbn [pf_new pf_loc pf_bag pf_index pf_width pf_height pf_disc pf_toroidal]. auto 10.
  - intros o. cbn [pf_new pf_loc pf_bag pf_index]. destruct (E1 o) as [-> ->]. destruct (E2 o) as [-> ->]. auto.
  - intros c. cbn [pf_new pf_loc pf_bag pf_index]. destruct (E3 c) as [-> ->]. auto.
Qed.

(** ** The four accesses of a placement *)
Lemma set1_ok n f o l : pfwf n f -> exists f', pf_set1 A eqo hash_o f o l = Some f' /\ pfwf n f' /\
  (forall x, rL f' x = rL f x) /\ (forall x, wL f' x = if eqo x o then Some (o, l) else wL f x) /\
  pf_index f' = pf_index f /\ pf_bag f' = pf_bag f.
Proof.
  intros (W1 & W2 & W3 & E). unfold pf_set1. destruct (v_insert eqo hash_o L n (pf_loc f) o l W1) as (m & -> & W & R & F).
  cbn [option_map fst]. eexists. split; [reflexivity|]. unfold pfwf, with_loc.
  cbn [pf_loc pf_bag pf_index pf_width pf_height pf_disc pf_toroidal]. auto 10.
Qed.
Lemma set2_ok n f o l : pfwf n f -> exists f', pf_set2 A eqo hash_o f o l = Some f' /\ pfwf n f' /\
  (forall x, rI f' x = rI f x) /\ (forall x, wI f' x = if eqo x o then Some (o, discretize A d l) else wI f x) /\
  pf_loc f' = pf_loc f /\ pf_bag f' = pf_bag f.
Proof.
  intros (W1 & W2 & W3 & E). unfold pf_set2.
  destruct (v_insert eqo hash_o L n (pf_index f) o (pf_cell A f l) W3) as (m & -> & W & R & F).
  cbn [option_map fst]. eexists. split; [reflexivity|]. unfold pfwf, with_index.
  cbn [pf_loc pf_bag pf_index pf_width pf_height pf_disc pf_toroidal]. unfold pf_cell in F.
  destruct E as (E1 & E2 & E3 & E4). rewrite E3 in F. auto 10.
Qed.
Lemma set3_ok n f o l : pfwf n f -> exists f', pf_set3 A hash_l f o l = Some (f', match wB f (discretize A d l) with Some _ => true | None => false end) /\
  pfwf n f' /\ (forall c, rB f' c = rB f c) /\
  (forall c, wB f' c = if loc_eqb c (discretize A d l) then option_map (fun b => b ++ [o]) (wB f c) else wB f c) /\
  pf_loc f' = pf_loc f /\ pf_index f' = pf_index f.
Proof.
  intros (W1 & W2 & W3 & E). unfold pf_set3, pf_cell. replace (pf_disc f) with d by (symmetry; tauto).
  destruct (v_get_write loc_eqb hash_l LL n (pf_bag f) (discretize A d l) (fun b => b ++ [o]) W2) as (m & -> & W & R & F).
  cbn [option_map fst snd]. eexists. split; [reflexivity|]. unfold pfwf, with_bag.
  cbn [pf_loc pf_bag pf_index pf_width pf_height pf_disc pf_toroidal]. split; [auto 10|].
  split; [intros c; rewrite R; reflexivity|]. split; [|auto]. intros c. rewrite F.
  destruct (loc_eqb c (discretize A d l)); [|reflexivity]. destruct (wv loc_eqb hash_l (pf_bag f) c); reflexivity.
Qed.
Lemma set4_ok n f o l : pfwf n f -> exists f', pf_set4 A hash_l f o l = Some f' /\
  pfwf n f' /\ (forall c, rB f' c = rB f c) /\
  (forall c, wB f' c = if loc_eqb c (discretize A d l) then Some [o] else wB f c) /\
  pf_loc f' = pf_loc f /\ pf_index f' = pf_index f.
Proof.
  intros (W1 & W2 & W3 & E). unfold pf_set4, pf_cell. replace (pf_disc f) with d by (symmetry; tauto).
  destruct (v_insert loc_eqb hash_l LL n (pf_bag f) (discretize A d l) [o] W2) as (m & -> & W & R & F).
  cbn [option_map fst snd]. eexists. split; [reflexivity|]. unfold pfwf, with_bag.
  cbn [pf_loc pf_bag pf_index pf_width pf_height pf_disc pf_toroidal]. split; [auto 10|].
  split; [intros c; rewrite R; reflexivity|]. split; [|auto]. intros c. rewrite F.
  destruct (loc_eqb c (discretize A d l)); reflexivity.
Qed.

Definition orempty {X} (b : option (list X)) : list X := match b with Some b => b | None => [] end.

Lemma set_ok n f o l : pfwf n f -> exists f', pf_set A eqo hash_o hash_l f o l = Some f' /\ pfwf n f' /\
  (forall x, rL f' x = rL f x) /\ (forall x, wL f' x = if eqo x o then Some (o, l) else wL f x) /\
  (forall x, rI f' x = rI f x) /\ (forall x, wI f' x = if eqo x o then Some (o, discretize A d l) else wI f x) /\
  (forall c, rB f' c = rB f c) /\
  (forall c, wB f' c = if loc_eqb c (discretize A d l) then Some (orempty (wB f c) ++ [o]) else wB f c).
Proof.
  intros W. unfold pf_set.
  destruct (set1_ok n f o l W) as (f1 & -> & W1 & A1 & B1 & I1 & G1).
  destruct (set2_ok n f1 o l W1) as (f2 & -> & W2 & A2 & B2 & L2 & G2).
  destruct (set3_ok n f2 o l W2) as (f3 & -> & W3 & A3 & B3 & L3 & I3).
  rewrite G2, G1 in *. destruct (wB f (discretize A d l)) as [b|] eqn:Eb.
  - exists f3. split; [reflexivity|]. split; [exact W3|]. rewrite L3, L2, I3. rewrite I1 in *. repeat (split; [assumption|]).
    intros c. rewrite B3. destruct (loc_eqb c (discretize A d l)) eqn:Ec; [|reflexivity]. apply loc_eqb_eq in Ec. subst c.
    rewrite Eb. reflexivity.
  - destruct (set4_ok n f3 o l W3) as (f4 & -> & W4 & A4 & B4 & L4 & I4).
    exists f4. split; [reflexivity|]. split; [exact W4|]. rewrite L4, L3, L2, I4, I3. rewrite I1 in *.
    repeat (split; [assumption|]). split; [intros c; rewrite A4; apply A3|].
    intros c. rewrite B4, B3. destruct (loc_eqb c (discretize A d l)) eqn:Ec; [|reflexivity]. apply loc_eqb_eq in Ec. subst c.
    rewrite Eb. reflexivity.
Qed.

Lemma lazy_ok n f : pfwf n f -> exists f', pf_lazy_update A n f = Some f' /\ pfwf n f' /\
  (forall x, rL f' x = wL f x) /\ (forall x, wL f' x = None) /\
  (forall x, rI f' x = wI f x) /\ (forall x, wI f' x = None) /\
  (forall c, rB f' c = wB f c) /\ (forall c, wB f' c = None).
Proof.
  intros (W1 & W2 & W3 & E). unfold pf_lazy_update.
  destruct (v_lazy eqo hash_o n (pf_loc f) W1) as (a & -> & Wa & Ra & Fa).
  destruct (v_lazy loc_eqb hash_l n (pf_bag f) W2) as (b & -> & Wb & Rb & Fb).
  destruct (v_lazy eqo hash_o n (pf_index f) W3) as (c & -> & Wc & Rc & Fc).
  eexists. split; [reflexivity|]. unfold pfwf, with_index, with_bag, with_loc.
  cbn [pf_loc pf_bag pf_index pf_width pf_height pf_disc pf_toroidal]. split; [auto 10|].
  repeat (split; [assumption|]). split; intros x; [rewrite Rb|rewrite Fb]; reflexivity.
Qed.

Lemma update_ok' n f it it' it'' : pfwf n f -> iteration it -> iteration it' -> iteration it'' ->
  exists f', pf_update A eqo it it' it'' n f = Some f' /\ pfwf n f' /\
  (forall x, rL f' x = match wL f x with Some p => Some p | None => rL f x end) /\ (forall x, wL f' x = wL f x) /\
  (forall x, rI f' x = match wI f x with Some p => Some p | None => rI f x end) /\ (forall x, wI f' x = wI f x) /\
  (forall c, rB f' c = match wB f c with Some p => Some p | None => rB f c end) /\ (forall c, wB f' c = wB f c).
Proof.
  intros (W1 & W2 & W3 & E) H1 H2 H3. unfold pf_update.
  destruct (v_update eqo hash_o L n (pf_loc f) it W1 H1) as (a & -> & Wa & Ra & Fa).
  destruct (v_update loc_eqb hash_l LL n (pf_bag f) it' W2 H2) as (b & -> & Wb & Rb & Fb).
  destruct (v_update eqo hash_o L n (pf_index f) it'' W3 H3) as (c & -> & Wc & Rc & Fc).
  eexists. split; [reflexivity|]. unfold pfwf, with_index, with_bag, with_loc.
  cbn [pf_loc pf_bag pf_index pf_width pf_height pf_disc pf_toroidal]. split; [auto 10|].
  repeat (split; [assumption|]). split; intros x; [rewrite Rb|rewrite Fb; reflexivity].
  destruct (wv loc_eqb hash_l (pf_bag f) x); reflexivity.
Qed.

(** ** Queries *)
Lemma read_bag_eq n f c : pfwf n f -> pf_read_bag A hash_l f c = Some (orempty (rB f c)).
Proof. intros (_ & W & _). unfold pf_read_bag. rewrite (v_get_read _ _ n _ _ W). reflexivity. Qed.
Lemma objects_eq n f l : pfwf n f -> pf_objects A hash_l f l = Some (orempty (rB f (discretize A d l))).
Proof. intros W. unfold pf_objects. rewrite (read_bag_eq n f _ W). unfold pf_cell. replace (pf_disc f) with d by (symmetry; apply W). reflexivity. Qed.
Lemma count_eq n f l : pfwf n f -> pf_count A hash_l f l = Some (length (orempty (rB f (discretize A d l)))).
Proof.
  intros W. unfold pf_count, pf_cell. replace (pf_disc f) with d by (symmetry; apply W). destruct W as (_ & W & _).
  rewrite (v_get_read _ _ n _ _ W). cbn [option_map]. destruct (rv loc_eqb hash_l (pf_bag f) _); reflexivity.
Qed.
Lemma location_eq n f o : pfwf n f -> pf_location A eqo hash_o f o = Some (option_map snd (rL f o)).
Proof. intros (W & _). apply (v_get_read _ _ n _ _ W). Qed.
Lemma get_eq n f o : pfwf n f -> pf_get A eqo hash_o f o = Some (option_map fst (rL f o)).
Proof. intros (W & _). unfold pf_get. rewrite (v_get_key_value _ _ n _ _ W). reflexivity. Qed.
Lemma location_unbuffered_eq n f o : pfwf n f ->
  pf_location_unbuffered A eqo hash_o f o = match wL f o with Some p => Some (Some (snd p)) | None => None end.
Proof.
  intros (W & _). unfold pf_location_unbuffered. destruct (v_get_write eqo hash_o L n (pf_loc f) o (fun l => l) W) as (m & -> & _).
  destruct (wv eqo hash_o (pf_loc f) o); reflexivity.
Qed.
Lemma get_unbuffered_eq n f o : pfwf n f ->
  pf_get_unbuffered A eqo hash_o hash_l f o =
  match wL f o with
  | None => Some None
  | Some p => match wB f (discretize A d (snd p)) with
              | Some b => Some (find (fun x => eqo x o) b)
              | None => None
              end
  end.
Proof.
  intros (W & W2 & _ & E). unfold pf_get_unbuffered. destruct (v_get_write eqo hash_o L n (pf_loc f) o (fun l => l) W) as (m & -> & _).
  destruct (wv eqo hash_o (pf_loc f) o) as [p|]; [|reflexivity]. cbn [option_map]. unfold pf_cell.
  replace (pf_disc f) with d by (symmetry; tauto).
  destruct (v_get_write loc_eqb hash_l LL n (pf_bag f) (discretize A d (snd p)) (fun l => l) W2) as (m' & -> & _).
  destruct (wv loc_eqb hash_l (pf_bag f) _); reflexivity.
Qed.

(** ** Histories *)
Notation lp := (last_place A (O := O) eqo).
Notation ib := (in_bag A (O := O) d).

Lemma last_place_snoc o ps q : lp o (ps ++ [q]) = if eqo o (fst q) then Some q else lp o ps.
Proof. unfold last_place. rewrite rev_app_distr. cbn [rev app find]. reflexivity. Qed.
Lemma in_bag_snoc c ps q : ib c (ps ++ [q]) = if loc_eqb (discretize A d (snd q)) c then ib c ps ++ [fst q] else ib c ps.
Proof.
  unfold in_bag. rewrite filter_app, map_app. cbn [filter]. destruct (loc_eqb (discretize A d (snd q)) c); cbn [map]; [reflexivity|apply app_nil_r].
Qed.
Lemma loc_eqb_sym a b : loc_eqb a b = loc_eqb b a.
Proof.
  destruct (loc_eqb a b) eqn:E.
  - apply loc_eqb_eq in E. subst. symmetry. apply loc_eqb_refl.
  - symmetry. apply loc_eqb_neq. apply loc_eqb_neq in E. congruence.
Qed.

Definition cell_entry (p : O * pt) : O * loc := (fst p, discretize A d (snd p)).
Definition bag_entry (b : list O) : option (list O) := match b with [] => None | _ => Some b end.

(** The state after a history [hs] (newest first). *)
Definition state_is (hs : list pfop) f : Prop :=
  (forall o, rL f o = shown_place A eqo o hs /\ wL f o = lp o (recent A hs) /\
     rI f o = option_map cell_entry (shown_place A eqo o hs) /\ wI f o = option_map cell_entry (lp o (recent A hs))) /\
  (forall c, rB f c = bag_entry (shown_bag A d c hs) /\ wB f c = bag_entry (ib c (recent A hs))).

Lemma bag_entry_empty {X} (b : list O) (x : X) y : match bag_entry b with Some _ => x | None => y end = match b with [] => y | _ => x end.
Proof. destruct b; reflexivity. Qed.
Lemma orempty_entry b : orempty (bag_entry b) = b.
Proof. destruct b; reflexivity. Qed.

Variable location : O -> num A * num A.
Variable osize : N.
Lemma step_state n f hs c f' r : pfwf n f -> state_is hs f -> pf_ok A c ->
  pf_step A eqo hash_o hash_l location osize n f c = Some (f', r) -> pfwf n f' /\ state_is (c :: hs) f'.
Proof.
  intros W [Ho Hc] Hok E.
  assert (Q : forall X (x : option X) (g : X -> pfres A), option_map (fun r => (f, g r)) x = Some (f', r) -> f' = f).
  { intros X [x|] g H; [injection H as <- _; reflexivity|discriminate]. }
  destruct c as [o l| |it it' it''|o|l|l|o|o|o| |l dist|l dist]; cbn [pf_step] in E.
  - destruct (set_ok n f o l W) as (f1 & E1 & W1 & RL & WL & RI & WI & RB & WB). rewrite E1 in E. injection E as <- _.
    split; [exact W1|]. split.
    + intros x. destruct (Ho x) as (H1 & H2 & H3 & H4). rewrite RL, WL, RI, WI. cbn [shown_place recent]. rewrite last_place_snoc.
      cbn [fst]. rewrite H1, H2, H3, H4. destruct (eqo x o); auto.
    + intros c. destruct (Hc c) as (H1 & H2). rewrite RB, WB. cbn [shown_bag recent]. rewrite in_bag_snoc. cbn [fst snd].
      rewrite H1, H2, (loc_eqb_sym (discretize A d l) c). split; [reflexivity|]. destruct (loc_eqb c (discretize A d l)); [|reflexivity].
      rewrite orempty_entry. destruct (ib c (recent A hs)); reflexivity.
  - destruct (lazy_ok n f W) as (f1 & E1 & W1 & RL & WL & RI & WI & RB & WB). rewrite E1 in E. injection E as <- _.
    split; [exact W1|]. split.
    + intros x. destruct (Ho x) as (H1 & H2 & H3 & H4). rewrite RL, WL, RI, WI. cbn [shown_place recent]. auto.
    + intros c. destruct (Hc c) as (H1 & H2). rewrite RB, WB. cbn [shown_bag recent]. auto.
  - destruct Hok as (K1 & K2 & K3).
    destruct (update_ok' n f it it' it'' W K1 K2 K3) as (f1 & E1 & W1 & RL & WL & RI & WI & RB & WB). rewrite E1 in E. injection E as <- _.
    split; [exact W1|]. split.
    + intros x. destruct (Ho x) as (H1 & H2 & H3 & H4). rewrite RL, WL, RI, WI. cbn [shown_place recent]. rewrite H1, H2, H3, H4.
      destruct (lp x (recent A hs)); cbn [option_map]; auto.
    + intros c. destruct (Hc c) as (H1 & H2). rewrite RB, WB. cbn [shown_bag recent]. rewrite H1, H2. split; [|reflexivity].
      destruct (ib c (recent A hs)); reflexivity.
  - apply (Q _ _ QObj) in E. subst f'. split; [exact W|split; assumption].
  - apply (Q _ _ QBag) in E. subst f'. split; [exact W|split; assumption].
  - apply (Q _ _ QNat) in E. subst f'. split; [exact W|split; assumption].
  - apply (Q _ _ QPlace) in E. subst f'. split; [exact W|split; assumption].
  - apply (Q _ _ QPlace) in E. subst f'. split; [exact W|split; assumption].
  - apply (Q _ _ QObj) in E. subst f'. split; [exact W|split; assumption].
  - injection E as <- _. split; [exact W|split; assumption].
  - apply (Q _ _ QBag) in E. subst f'. split; [exact W|split; assumption].
  - apply (Q _ _ QBag) in E. subst f'. split; [exact W|split; assumption].
Qed.

(** An object placed is in the bag of its place. *)
Lemma last_place_In o ps p : lp o ps = Some p -> In p ps /\ eqo o (fst p) = true.
Proof.
  intros E. apply find_some in E. destruct E as [E1 E2]. split; [apply in_rev; exact E1|exact E2].
Qed.
Lemma in_bag_In o l ps : In (o, l) ps -> In o (ib (discretize A d l) ps).
Proof.
  intros H. unfold in_bag. apply in_map_iff. exists (o, l). split; [reflexivity|]. apply filter_In. split; [exact H|].
  cbn [snd]. apply loc_eqb_refl.
Qed.

Lemma calm_step n f hs c : pfwf n f -> state_is hs f -> pf_ok A c -> pf_calm A c ->
  exists f' r, pf_step A eqo hash_o hash_l location osize n f c = Some (f', r).
Proof.
  intros W [Ho Hc] Hok Hcalm.
  destruct c as [o l| |it it' it''|o|l|l|o|o|o| |l dist|l dist]; cbn [pf_calm] in Hcalm; try contradiction; cbn [pf_step].
  - destruct (set_ok n f o l W) as (f1 & -> & _). eexists _, _. reflexivity.
  - destruct (lazy_ok n f W) as (f1 & -> & _). eexists _, _. reflexivity.
  - destruct Hok as (K1 & K2 & K3). destruct (update_ok' n f it it' it'' W K1 K2 K3) as (f1 & -> & _). eexists _, _. reflexivity.
  - rewrite (get_eq n f o W). eexists _, _. reflexivity.
  - rewrite (objects_eq n f l W). eexists _, _. reflexivity.
  - rewrite (count_eq n f l W). eexists _, _. reflexivity.
  - rewrite (location_eq n f o W). eexists _, _. reflexivity.
  - rewrite (get_unbuffered_eq n f o W). destruct (Ho o) as (_ & H2 & _). rewrite H2.
    destruct (lp o (recent A hs)) as [[o' l']|] eqn:E; [|eexists _, _; reflexivity].
    apply last_place_In in E. destruct E as [E _]. apply in_bag_In in E. cbn [snd].
    destruct (Hc (discretize A d l')) as (_ & ->). destruct (ib (discretize A d l') (recent A hs)); [destruct E|]. eexists _, _. reflexivity.
  - eexists _, _. reflexivity.
Qed.

Notation run := (pf_run A eqo hash_o hash_l location osize).
Lemma run_state n : forall cs f hs f' rs, pfwf n f -> state_is hs f -> Forall (pf_ok A) cs -> run n f cs = Some (f', rs) ->
  pfwf n f' /\ state_is (rev cs ++ hs) f'.
Proof.
  induction cs as [|c cs IH]; intros f hs f' rs W S K E; cbn [pf_run] in E.
  - injection E as <- _. auto.
  - inversion_clear K as [|? ? K1 K2]. destruct (pf_step _ _ _ _ _ _ n f c) as [[f1 r]|] eqn:Es; [|discriminate].
    destruct (step_state n f hs c f1 r W S K1 Es) as [W1 S1].
    destruct (run n f1 cs) as [[f2 rs2]|] eqn:Er; [|discriminate]. injection E as <- _.
    cbn [rev]. rewrite <- app_assoc. cbn [app]. exact (IH f1 (c :: hs) f2 rs2 W1 S1 K2 Er).
Qed.
Lemma run_calm n : forall cs f hs, pfwf n f -> state_is hs f -> Forall (pf_ok A) cs -> Forall (pf_calm A) cs ->
  exists f' rs, run n f cs = Some (f', rs) /\ length rs = length cs.
Proof.
  induction cs as [|c cs IH]; intros f hs W S K C; cbn [pf_run].
  - exists f, []. auto.
  - inversion_clear K as [|? ? K1 K2]. inversion_clear C as [|? ? C1 C2].
    destruct (calm_step n f hs c W S K1 C1) as (f1 & r & Es). rewrite Es.
    destruct (step_state n f hs c f1 r W S K1 Es) as [W1 S1].
    destruct (IH f1 (c :: hs) W1 S1 K2 C2) as (f2 & rs & -> & El). cbn [option_map fst snd].
    exists f2, (r :: rs). split; [reflexivity|]. cbn [length]. rewrite El. reflexivity.
Qed.

Lemma new_state cpus : (1 <= cpus)%N -> (cpus * 4 <= 2 ^ 63)%N ->
  pfwf (N.to_nat (shard_amount cpus)) (pf_new A cpus w h d t) /\ state_is [] (pf_new A cpus w h d t).
Proof.
  intros H1 H2. destruct (pf_new_ok cpus H1 H2) as (W & Eo & Ec). split; [exact W|]. split.
  - intros o. destruct (Eo o) as (-> & -> & -> & ->). auto.
  - intros c. destruct (Ec c) as (-> & ->). auto.
Qed.

Lemma num_ok n f hs : pfwf n f -> state_is hs f -> counts_shown A eqo hs (pf_num A f).
Proof.
  intros (_ & _ & W & _) [Ho _]. destruct (v_rlen eqo hash_o L n (pf_index f) W) as (es & [H1 H2] & E).
  exists (map fst es). split; [rewrite map_length; symmetry; exact E|]. split.
  - clear -H2. induction H2; cbn [map]; constructor; [|assumption]. rewrite Forall_forall in *. intros x Hx. apply in_map_iff in Hx.
    destruct Hx as (p & <- & Hp). apply H. exact Hp.
  - intros o. destruct (Ho o) as (_ & _ & H3 & _). split.
    + intros Hs. destruct (shown_place A eqo o hs) as [p|]; [|congruence]. apply H1 in H3. destruct H3 as [H3 H4].
      exists (fst (cell_entry p)). split; [apply in_map_iff; exists (cell_entry p); split; [reflexivity|exact H3]|exact H4].
    + intros (o' & Hin & He) Hs. apply in_map_iff in Hin. destruct Hin as (p & <- & Hp).
      assert (Hx : rI f o = Some p) by (apply H1; split; assumption). rewrite H3, Hs in Hx. discriminate.
Qed.

(** Two counts of the same history agree. *)
Lemma counts_le hs m n : counts_shown A eqo hs m -> counts_shown A eqo hs n -> (m <= n)%nat.
Proof.
  intros (a & <- & Da & Ha) (b & <- & Db & Hb).
  assert (K : forall x, In x a -> exists y, In y b /\ eqo x y = true).
  { intros x Hx. apply Hb, Ha. exists x. split; [exact Hx|apply (eqk_refl _ _ L)]. }
  clear Ha Hb. revert b Db K. induction Da as [|x a Hx Da IH]; intros b Db K; cbn [length]; [lia|].
  destruct (K x (or_introl eq_refl)) as (y & Hy & Exy). apply in_split in Hy. destruct Hy as (b1 & b2 & ->).
  assert (Db' : ForallOrdPairs (fun p q => eqo p q = false) (b1 ++ b2)).
  { clear -Db. induction b1 as [|z b1 IH]; cbn [app] in *; inversion_clear Db; [assumption|]. constructor; [|auto].
    rewrite Forall_app in *. destruct H as [H Hr]. inversion_clear Hr. auto. }
  specialize (IH (b1 ++ b2) Db'). rewrite app_length in *. cbn [length]. enough (length a <= length b1 + length b2)%nat by lia.
  apply IH. intros z Hz. destruct (K z (or_intror Hz)) as (u & Hu & Ezu). exists u. split; [|exact Ezu].
  apply in_app_or in Hu. apply in_or_app. destruct Hu as [Hu|[<-|Hu]]; [tauto| |tauto]. exfalso.
  rewrite Forall_forall in Hx. specialize (Hx z Hz).
  rewrite (eqk_trans _ _ L x y z Exy (eqk_sym _ _ L z y Ezu)) in Hx. discriminate.
Qed.
End Par.
