(** * C136: locations outside a dense grid *)
From Coq Require Import List Bool ZArith Lia.
From Verif Require Import Grid NumModel NumSpec NumProofs ObjModel ObjSpec ObjProofs EdgeSpec.
Import ListNotations.
Local Open Scope Z_scope.

Lemma wrap_wrap a b : wrap32 (wrap32 a + b) = wrap32 (a + b).
Proof.
  unfold wrap32. replace ((a + 2 ^ 31) mod 2 ^ 32 - 2 ^ 31 + b + 2 ^ 31) with ((a + 2 ^ 31) mod 2 ^ 32 + b) by lia.
  rewrite Zplus_mod_idemp_l. f_equal. f_equal. lia.
Qed.
Lemma index_number h l : cell_index h l = number h l.
Proof. unfold cell_index, number. apply wrap_wrap. Qed.
Lemma number_range h l : in_i32 (number h l).
Proof. unfold number, wrap32, in_i32. pose proof (Z.mod_pos_bound (fst l * h + snd l + 2 ^ 31) (2 ^ 32) eq_refl). lia. Qed.
Lemma home_in w h l : size_ok w h -> ~ stray w h l -> in_range w h (home h l) /\ number h (home h l) = number h l.
Proof.
  intros (Hw & Hh & Hw2 & Hh2 & Hs) N. unfold stray in N. pose proof (number_range h l) as R. set (k := number h l) in *.
  assert (B : 0 <= k < w * h) by lia. assert (P : 0 < h) by nia. unfold in_range, home. fold k. cbn [fst snd].
  pose proof (Z.mod_pos_bound k h P) as M. pose proof (Z_div_mod_eq_full k h) as D.
  split; [split; [|exact M]; split; [apply Z.div_pos; lia|apply Z.div_lt_upper_bound; lia]|].
  unfold number. cbn [fst snd]. rewrite Z.mul_comm, <- D. apply wrap32_id. exact R.
Qed.
Lemma home_same w h l : size_ok w h -> in_range w h l -> ~ stray w h l /\ home h l = l.
Proof.
  intros Hs Hl. destruct Hs as (Hw & Hh & Hw2 & Hh2 & Hs). destruct (cell_index_range w h l Hl Hs) as [E B]. rewrite index_number in E.
  split; [unfold stray; lia|]. unfold home. rewrite E. destruct l as [x y]. destruct Hl as [Hx Hy]. cbn [fst snd] in *.
  rewrite Z.add_comm. f_equal; [rewrite Z.div_add, Z.div_small by lia; lia|rewrite Z.mod_add, Z.mod_small by lia; reflexivity].
Qed.
Lemma vget_out {X} (v : list X) z : (exists x, vget v z = Some x) <-> 0 <= z < Z.of_nat (length v).
Proof.
  split; [|apply vget_in]. intros [x E]. unfold vget, as_index in E. destruct (Z.ltb_spec z 0); [discriminate|].
  assert (L : (Z.to_nat z < length v)%nat) by (apply nth_error_Some; congruence). lia.
Qed.
Lemma vget_none {X} (v : list X) z : vget v z = None <-> z < 0 \/ Z.of_nat (length v) <= z.
Proof.
  destruct (vget v z) as [x|] eqn:E.
  - split; [discriminate|]. pose proof (proj1 (vget_out v z) (ex_intro _ x E)). lia.
  - split; [|reflexivity]. intros _. destruct (Z_lt_dec z 0); [auto|]. right. destruct (Z_le_dec (Z.of_nat (length v)) z); [assumption|].
    destruct (vget_in v z) as [x F]; [lia|congruence].
Qed.
Lemma vset_none {X} (v : list X) z x : vset v z x = None <-> z < 0 \/ Z.of_nat (length v) <= z.
Proof.
  unfold vset, as_index. destruct (Z.ltb_spec z 0); [split; auto|]. destruct (Nat.ltb_spec (Z.to_nat z) (length v)); split; intros; try discriminate; try lia; reflexivity.
Qed.
Lemma bad_dec w h (ls : list loc) : {Exists (stray w h) ls} + {Forall (fun l => ~ stray w h l) ls}.
Proof.
  assert (D : forall l, {stray w h l} + {~ stray w h l}).
  { intros l. unfold stray. destruct (Z_lt_dec (number h l) 0); [left; auto|]. destruct (Z_le_dec (w * h) (number h l)); [left; auto|right; lia]. }
  induction ls as [|l ls [IH|IH]]; [right; constructor|left; constructor 2; exact IH|].
  destruct (D l); [left; constructor; assumption|right; constructor; assumption].
Qed.

(** ** Number grids *)
Section Num.
Context {T : Type}.
Variable eqv : T -> T -> bool.
Lemma num_call_same w h (g : dgrid T) o : size_ok w h -> dwf w h g -> Forall (fun l => ~ stray w h l) (num_locs o) ->
  dg_call eqv g (num_move (home h) o) = dg_call eqv g o.
Proof.
  intros S (_ & Eh & _) F. destruct o; try reflexivity; cbn in F; inversion F as [|? ? N _]; subst; destruct (home_in w (dg_h g) l S N) as [_ E];
    cbn [num_move dg_call]; unfold dg_set, dg_remove, dg_put, dg_get, dg_get_unbuffered; rewrite !index_number, E; reflexivity.
Qed.
Lemma num_call_in w h o : size_ok w h -> num_no_random o -> Forall (fun l => ~ stray w h l) (num_locs o) -> call_in w h (num_move (home h) o : gop T).
Proof.
  intros S R F. destruct o; try exact I; try destruct R; cbn in F; inversion F as [|? ? N _]; subst; exact (proj1 (home_in w h l S N)).
Qed.
Lemma num_call_bad w h (g : dgrid T) o : dwf w h g -> Exists (stray w h) (num_locs o) -> dg_call eqv g o = None.
Proof.
  intros (_ & Eh & Lr & Lw) E. destruct o; cbn in E; try solve [inversion E]; inversion E as [? ? N|? ? N]; subst; try solve [inversion N]; unfold stray in N;
    cbn [dg_call]; unfold dg_set, dg_remove, dg_put, dg_get, dg_get_unbuffered; rewrite !index_number;
    match goal with
    | |- context[vset ?v ?z ?x] => rewrite (proj2 (vset_none v z x)) by (rewrite Lw; exact N); reflexivity
    | |- context[vget ?v ?z] => rewrite (proj2 (vget_none v z)) by (rewrite ?Lw, ?Lr; exact N); reflexivity
    end.
Qed.
Lemma num_run w h : size_ok w h -> forall os (g : dgrid T), dwf w h g -> Forall num_no_random os ->
  (dg_run eqv g os = None <-> Exists (stray w h) (flat_map num_locs os)) /\
  (~ Exists (stray w h) (flat_map num_locs os) -> dg_run eqv g (map (num_move (home h)) os) = dg_run eqv g os).
Proof.
  intros S. induction os as [|o os IH]; intros g W R.
  - cbn. split; [split; [discriminate|intros E; inversion E]|reflexivity].
  - inversion R as [|? ? Ro Ros]; subst. cbn [flat_map map dg_run]. rewrite Exists_app.
    destruct (bad_dec w h (num_locs o)) as [B|G].
    + rewrite (num_call_bad w h g o W B). split; [split; auto|tauto].
    + rewrite (num_call_same w h g o S W G).
      destruct (dg_call_ok eqv w h g _ W S (num_call_in w h o S Ro G)) as (g1 & r & E & W1 & _).
      rewrite (num_call_same w h g o S W G) in E. rewrite E. destruct (IH g1 W1 Ros) as [I1 I2].
      assert (NB : ~ Exists (stray w h) (num_locs o)) by (intros X; apply Exists_exists in X; destruct X as [l [IN X]]; rewrite Forall_forall in G; exact (G l IN X)).
      split.
      * destruct (dg_run eqv g1 os) as [[g2 rs]|]; cbn [option_map].
        -- split; [discriminate|]. intros [X|X]; [contradiction|]. apply I1 in X. discriminate.
        -- split; [|reflexivity]. intros _. right. apply I1. reflexivity.
      * intros NX. rewrite I2 by tauto. reflexivity.
Qed.
End Num.

(** ** Object grids *)
Section Obj.
Context {O : Type}.
Variable eqo : O -> O -> bool.
Definition exact_size (w h : Z) (g : odense O) : Prop :=
  od_w g = w /\ od_h g = h /\ Z.of_nat (length (od_read g)) = w * h /\ Z.of_nat (length (od_write g)) = w * h.
Lemma exact_wf w h g : exact_size w h g -> owf w h g.
Proof. intros (A & B & C & D). unfold owf. rewrite A, B. repeat split; lia. Qed.
Lemma obj_call_same w h (g : odense O) c : size_ok w h -> exact_size w h g -> Forall (fun l => ~ stray w h l) (obj_locs c) ->
  od_call eqo g (obj_move (home h) c) = od_call eqo g c.
Proof.
  intros S (_ & Eh & _) F. destruct c; try reflexivity; cbn in F; inversion F as [|? ? N _]; subst; destruct (home_in w (od_h g) l S N) as [_ E];
    cbn [obj_move od_call]; unfold od_set, od_remove, od_edit, od_get, od_get_unbuffered; rewrite !index_number, E; reflexivity.
Qed.
Lemma obj_call_bad w h (g : odense O) c : exact_size w h g -> Exists (stray w h) (obj_locs c) -> od_call eqo g c = None.
Proof.
  intros (_ & Eh & Lr & Lw) E. destruct c; cbn in E; try solve [inversion E]; inversion E as [? ? N|? ? N]; subst; try solve [inversion N]; unfold stray in N;
    cbn [od_call]; unfold od_set, od_remove, od_edit, od_get, od_get_unbuffered; rewrite !index_number;
    match goal with |- context[vget ?v ?z] => rewrite (proj2 (vget_none v z)) by (rewrite ?Lw, ?Lr; exact N); reflexivity end.
Qed.
Lemma obj_edit_good w h (g : odense O) l f : exact_size w h g -> ~ stray w h l -> exists g', od_edit g l f = Some g' /\ exact_size w h g'.
Proof.
  intros (Ew & Eh & Lr & Lw) N. unfold stray in N. unfold od_edit. rewrite index_number, Eh.
  destruct (vget_in (od_write g) (number h l)) as [b ->]; [lia|]. destruct (vset_in (od_write g) (number h l) (f b)) as (v & -> & L & _); [lia|].
  eexists. split; [reflexivity|]. unfold exact_size. cbn. rewrite L. auto.
Qed.
Lemma obj_call_good w h (g : odense O) c : size_ok w h -> exact_size w h g -> obj_plain c -> Forall (fun l => ~ stray w h l) (obj_locs c) ->
  exists g' r, od_call eqo g c = Some (g', r) /\ exact_size w h g'.
Proof.
  intros S X P F. pose proof (exact_wf w h g X) as W. pose proof X as (Ew & Eh & Lr & Lw).
  destruct c; try destruct P; cbn in F; try (pose proof (Forall_inv F) as N; cbv beta in N); cbn [od_call].
  - destruct (obj_edit_good w h g l (fun b => without eqo o b ++ [o]) X N) as (g' & E & X'). unfold od_set. rewrite E. cbn. eauto.
  - destruct (obj_edit_good w h g l (without eqo o) X N) as (g' & E & X'). unfold od_remove. rewrite E. cbn. eauto.
  - do 2 eexists. split; [reflexivity|]. unfold exact_size, od_lazy_update. cbn. rewrite map_length. auto.
  - unfold od_get. rewrite index_number, Eh. unfold stray in N. destruct (vget_in (od_read g) (number h l)) as [b ->]; [lia|]. cbn. eauto.
  - unfold od_get_unbuffered. rewrite index_number, Eh. unfold stray in N. destruct (vget_in (od_write g) (number h l)) as [b ->]; [lia|]. cbn. eauto.
  - destruct (od_location_ok eqo w h g o W S) as (r & -> & _). cbn. eauto.
  - destruct (od_location_u_ok eqo w h g o W S) as (r & -> & _). cbn. eauto.
  - destruct (od_empty_ok eqo w h g W S) as (r & -> & _). cbn. eauto.
  - destruct (od_iter_ok w h g W S) as (r & -> & _). cbn. eauto.
  - unfold od_iter_unbuffered. rewrite Ew, Eh, od_collect_ok; [cbn; eauto|].
    intros c Hc. apply cells_In in Hc. destruct (wbag_total w h g c W S Hc) as [b Hb]. unfold wbag in Hb. rewrite Eh in Hb. eauto.
Qed.
Lemma obj_run w h : size_ok w h -> forall cs (g : odense O), exact_size w h g -> Forall obj_plain cs ->
  (od_run eqo g cs = None <-> Exists (stray w h) (flat_map obj_locs cs)) /\
  (~ Exists (stray w h) (flat_map obj_locs cs) -> od_run eqo g (map (obj_move (home h)) cs) = od_run eqo g cs).
Proof.
  intros S. induction cs as [|c cs IH]; intros g W R.
  - cbn. split; [split; [discriminate|intros E; inversion E]|reflexivity].
  - inversion R as [|? ? Ro Ros]; subst. cbn [flat_map map od_run]. rewrite Exists_app.
    destruct (bad_dec w h (obj_locs c)) as [B|G].
    + rewrite (obj_call_bad w h g c W B). split; [split; auto|tauto].
    + rewrite (obj_call_same w h g c S W G). destruct (obj_call_good w h g c S W Ro G) as (g1 & r & E & W1).
      rewrite E. destruct (IH g1 W1 Ros) as [I1 I2].
      assert (NB : ~ Exists (stray w h) (obj_locs c)) by (intros X; apply Exists_exists in X; destruct X as [l [IN X]]; rewrite Forall_forall in G; exact (G l IN X)).
      split.
      * destruct (od_run eqo g1 cs) as [[g2 rs]|]; cbn [option_map].
        -- split; [discriminate|]. intros [X|X]; [contradiction|]. apply I1 in X. discriminate.
        -- split; [|reflexivity]. intros _. right. apply I1. reflexivity.
      * intros NX. rewrite I2 by tauto. reflexivity.
Qed.
End Obj.

(** Locations of the grid are their own home; others have a home in the grid, or stray. *)
Theorem C136_home :
  forall w h l, size_ok w h ->
    (in_range w h l -> ~ stray w h l /\ home h l = l) /\
    (~ stray w h l -> in_range w h (home h l)).
Proof. intros w h l S. split; [apply home_same; exact S|intros N; apply (home_in w h l S N)]. Qed.
Print Assumptions C136_home.

(** Whatever locations a program uses: it panics exactly if one of them strays, and
    otherwise the answers and the grid are those of the program that uses their homes (to
    which C16, C18, C19, C20 and C58 apply). *)
Theorem C136_numbers :
  forall {T} (eqv : T -> T -> bool) w h (os : list (gop T)) g0,
    size_ok w h -> Forall num_no_random os -> dg_new w h = Some g0 ->
    (dg_run eqv g0 os = None <-> Exists (stray w h) (flat_map num_locs os)) /\
    (~ Exists (stray w h) (flat_map num_locs os) -> dg_run eqv g0 os = dg_run eqv g0 (map (num_move (home h)) os)).
Proof.
  intros T eqv w h os g0 S R E. destruct (dg_new_ok (T := T) w h S) as (g & E' & W & _). rewrite E in E'. injection E' as <-.
  destruct (num_run eqv w h S os g0 W R) as [A B]. split; [exact A|]. intros N. symmetry. exact (B N).
Qed.
Print Assumptions C136_numbers.
Theorem C136_objects :
  forall {O} (eqo : O -> O -> bool) w h (cs : list (oop O)) g0,
    size_ok w h -> Forall obj_plain cs -> od_new w h = Some g0 ->
    (od_run eqo g0 cs = None <-> Exists (stray w h) (flat_map obj_locs cs)) /\
    (~ Exists (stray w h) (flat_map obj_locs cs) -> od_run eqo g0 cs = od_run eqo g0 (map (obj_move (home h)) cs)).
Proof.
  intros O eqo w h cs g0 S R E. destruct (od_new_ok (O := O) w h S) as (g & E' & W & Lr & Lw & _). rewrite E in E'. injection E' as <-.
  assert (X : exact_size w h g0).
  { destruct W as (A & B & _). unfold exact_size. rewrite Lr, Lw. destruct S as (Hw & Hh & _). assert (0 <= w * h) by nia. repeat split; try assumption; lia. }
  destruct (obj_run eqo w h S cs g0 X R) as [A B]. split; [exact A|]. intros N. symmetry. exact (B N).
Qed.
Print Assumptions C136_objects.

(** Sizes: as long as the number of cells is a 32-bit number, [new] panics exactly if one
    size is negative and the other positive; two negative sizes are as good as positive ones. *)
Theorem C136_sizes :
  forall w h, in_i32 w -> in_i32 h -> in_i32 (w * h) ->
    (forall T, (dg_new (T := T) w h = None <-> w * h < 0) /\
               (0 <= w * h -> dg_new (T := T) w h = dg_new (Z.abs w) (Z.abs h))) /\
    (forall O, (od_new (O := O) w h = None <-> w * h < 0) /\
               (0 <= w * h -> od_new (O := O) w h = od_new (Z.abs w) (Z.abs h))).
Proof.
  intros w h Hw Hh Hs. unfold dg_new, od_new. rewrite (wrap32_id (w * h)) by exact Hs. unfold as_index.
  assert (X : 0 <= w * h -> Z.abs w * Z.abs h = w * h) by (intros P; rewrite <- Z.abs_mul; apply Z.abs_eq; exact P).
  split; intros T; (split; [destruct (Z.ltb_spec (w * h) 0); split; intros; try discriminate; try lia; reflexivity|]);
    intros P; rewrite X, (wrap32_id (w * h)), !Z.abs_involutive by assumption; reflexivity.
Qed.
Print Assumptions C136_sizes.

(** So a location beyond the top of a column is not refused: in every grid with at least
    two columns it is the bottom of the next column. *)
Theorem C136_next_column_refuted :
  ~ (exists w h, size_ok w h /\ 2 <= w /\ 1 <= h /\
       forall l, ~ in_range w h l -> stray w h l).
Proof.
  intros (w & h & S & W2 & H1 & A). destruct S as (Hw & Hh & Hw2 & Hh2 & Hs).
  assert (N : ~ in_range w h (0, h)) by (unfold in_range; cbn; lia). specialize (A _ N). unfold stray, number in A. cbn [fst snd] in A.
  rewrite Z.mul_0_l, Z.add_0_l, wrap32_id in A by (unfold in_i32; lia). nia.
Qed.
Print Assumptions C136_next_column_refuted.

Example C136_concrete :
  size_ok 3 4 /\ home 4 (1, 2) = (1, 2) /\ home 4 (0, 9) = (2, 1) /\ home 4 (2, -3) = (1, 1) /\ stray 3 4 (3, 0) /\ stray 3 4 (0, -1) /\
  (exists g0 g, dg_new 3 4 = Some g0 /\ dg_run Z.eqb g0 [GSet 7 (0, 9); GLazyUpdate; GGet (2, 1)] = Some (g, [RUnit; RUnit; RValue (Some 7)])) /\
  (exists g0, od_new 3 4 = Some g0 /\ od_run Z.eqb g0 [OSet 7 (0, 9); OGet (3, 0)] = None) /\
  dg_new (T := Z) (-3) (-4) = dg_new 3 4 /\ dg_new (T := Z) 3 (-4) = None.
Proof.
  split; [unfold size_ok; lia|]. split; [vm_compute; reflexivity|]. split; [vm_compute; reflexivity|]. split; [vm_compute; reflexivity|].
  split; [right; vm_compute; discriminate|]. split; [left; vm_compute; reflexivity|].
  split; [eexists; eexists; split; [vm_compute; reflexivity|vm_compute; reflexivity]|]. split; [eexists; split; [vm_compute; reflexivity|vm_compute; reflexivity]|].
  split; vm_compute; reflexivity.
Qed.
