(** * Property theorems: Field2D (C28-C32, C73, C74) *)
From Coq Require Import List Bool ZArith NArith Arith Permutation Reals Lia Lra Psatz.
From Verif Require Import F32 F32Real F32Ops Grid ObjModel FieldModel FieldSpec FieldProofs FieldReal FieldF32.
From Flocq Require Import Core.
Import ListNotations.
Local Open Scope Z_scope.

(** ** Vocabulary *)
(** A pair of f32, and the point of the plane it stands for. *)
Definition is_pt (l : f32 * f32) : Prop := f32_valid (fst l) /\ f32_valid (snd l).
Definition p2R (l : f32 * f32) : R * R := (f2R (fst l), f2R (snd l)).

(** A field with positive finite sides and discretization, at least two columns and rows
    (one for the area and one for the far border) and at most 2^24 cells. *)
Definition usable (w h d : f32) : Prop :=
  positive w /\ positive h /\ positive d /\ 2 <= cols FA w d /\ 2 <= cols FA h d /\ cols FA w d * cols FA h d <= 2 ^ 24.

(** Calls whose locations are in the field. *)
Definition call_ok {O} (w h : f32) (c : fop FA (O := O)) : Prop :=
  f_inside FA w h c /\ match c with FSet _ l | FRemove _ l | FGet l | FGetUnbuffered l | FCount l => is_pt l | _ => True end.

Lemma call_in {O} w h d (c : fop FA (O := O)) : usable w h d -> call_ok w h c -> f_in FA w h d c.
Proof.
  intros (Hw & Hh & Hd & H1 & H2 & H3) [Hi Hv]. destruct c; cbn [f_in] in *; try exact I; destruct Hv; apply in_field_f32; assumption.
Qed.
Lemma calls_in {O} w h d (cs : list (fop FA (O := O))) : usable w h d -> Forall (call_ok w h) cs -> Forall (f_in FA w h d) cs.
Proof. intros U. apply Forall_impl. intros c. apply call_in. exact U. Qed.
Lemma usable_good w h d : usable w h d -> good_size FA w h d.
Proof. intros (Hw & Hh & Hd & H1 & H2 & H3). apply good_size_f32; assumption. Qed.

Lemma at_cell_spec A {O} d l (ps : list (O * (num A * num A))) : at_cell A d (discretize A d l) ps = in_cell_of A d l ps.
Proof. reflexivity. Qed.

(** ** C28: what is stored *)
(** For any arithmetic, and any locations that fall in cells of the field. *)
Theorem C28_cells :
  forall (A : arith) (O : Type) (eqo : O -> O -> bool) location w h d t cs l,
    good_size A w h d -> Forall (f_in A w h d) cs -> in_field A w h d l ->
    exists f rs, f_run A eqo location (f_new A w h d t) cs = Some (f, rs) /\ length rs = length cs /\
      f_get A f l = Some (in_cell_of A d l (readable A eqo d cs)) /\
      f_get_unbuffered A f l = Some (in_cell_of A d l (pending A eqo d cs)) /\
      f_count A f l = Some (length (in_cell_of A d l (readable A eqo d cs))).
Proof.
  intros A O eqo location w h d t cs l GS Hcs Hl. destruct (history A eqo location w h d t GS cs Hcs) as (f & rs & E & L & W & S).
  exists f, rs. split; [exact E|]. split; [exact L|]. destruct (S _ Hl) as [S1 S2].
  unfold f_get, f_get_unbuffered, f_count. rewrite (index_eq A w h d t f l W), S1, S2, !at_cell_spec. split; [reflexivity|]. split; reflexivity.
Qed.
Print Assumptions C28_cells.
(** In f32, with coordinates between 0 and the sides of the field. *)
Theorem C28_history :
  forall (O : Type) (eqo : O -> O -> bool) location w h d t cs l,
    usable w h d -> Forall (call_ok w h) cs -> is_pt l -> inside FA w h l ->
    exists f rs, f_run FA eqo location (f_new FA w h d t) cs = Some (f, rs) /\ length rs = length cs /\
      f_get FA f l = Some (in_cell_of FA d l (readable FA eqo d cs)) /\
      f_get_unbuffered FA f l = Some (in_cell_of FA d l (pending FA eqo d cs)) /\
      f_count FA f l = Some (length (in_cell_of FA d l (readable FA eqo d cs))).
Proof.
  intros O eqo location w h d t cs l U Hcs Hp Hl. apply C28_cells; [apply usable_good; exact U|apply calls_in; assumption|].
  destruct U as (Hw & Hh & Hd & H1 & H2 & H3), Hp. apply in_field_f32; assumption.
Qed.
Print Assumptions C28_history.

(** Beyond the far border a location shares its bag with a location of the next column. *)
Definition z (n : Z) : f32 := f_of_Z n.
Notation put o l := (FSet (A := FA) o l).
Notation take o l := (FRemove (A := FA) o l).
Notation publish := (FLazyUpdate (A := FA)).
Theorem C28_alias_refuted :
  exists (f : field2d FA (O := nat)) rs,
    f_run FA Nat.eqb (fun _ => (z 0, z 0)) (f_new FA (z 10) (z 10) (z 1) false) [put 7%nat (z 0, z 11); publish] = Some (f, rs) /\
    f_get FA f (z 1, z 0) = Some [7%nat] /\ discretize FA (z 1) (z 0, z 11) <> discretize FA (z 1) (z 1, z 0).
Proof.
  assert (H : match f_run FA Nat.eqb (fun _ => (z 0, z 0)) (f_new FA (z 10) (z 10) (z 1) false) [put 7%nat (z 0, z 11); publish] with
              | Some (f, _) => f_get FA f (z 1, z 0) | None => None end = Some [7%nat]) by (vm_compute; reflexivity).
  destruct (f_run FA Nat.eqb _ _ _) as [[f rs]|]; [|discriminate H]. exists f, rs. split; [reflexivity|]. split; [exact H|].
  intros C. assert (K : loc_eqb (discretize FA (z 1) (z 0, z 11)) (discretize FA (z 1) (z 1, z 0)) = true) by (apply loc_eqb_eq; exact C).
  vm_compute in K. discriminate K.
Qed.
Print Assumptions C28_alias_refuted.
Lemma vget_past {X} (x : X) n k : Z.of_N n <= k -> vget (repeat x (N.to_nat n)) k = None.
Proof. intros H. unfold vget, as_index. destruct (Z.ltb_spec k 0); [reflexivity|]. apply nth_error_None. rewrite repeat_length. lia. Qed.
(** A field of 4097 by 4097 cells is created with one bag too few, because the product is
    computed in f32: placing an object at its far corner panics. *)
Theorem C28_large_refuted :
  forall (o : nat) t, f_set FA (f_new FA (z 4096) (z 4096) (z 1) t) o (z 4096, z 4096) = None.
Proof.
  intros o t. unfold f_set.
  assert (E : vget (f_write (f_new FA (O := nat) (z 4096) (z 4096) (z 1) t)) (f_index FA (f_new FA (O := nat) (z 4096) (z 4096) (z 1) t) (z 4096, z 4096)) = None).
  { assert (I : f_index FA (f_new FA (O := nat) (z 4096) (z 4096) (z 1) t) (z 4096, z 4096) = 16785408) by (unfold f_index, f_new; cbv zeta; cbn [f_dh f_disc]; vm_compute; reflexivity).
    rewrite I. unfold f_new. cbv zeta. cbn [f_write].
    replace (bag_count FA (z 4096) (z 4096) (z 1)) with 16785408%N by (vm_compute; reflexivity).
    apply vget_past. discriminate. }
  rewrite E. reflexivity.
Qed.
Print Assumptions C28_large_refuted.

(** Concrete cases. *)
Lemma pos_int n : 0 < n <= 2 ^ 24 -> positive (z n).
Proof. intros H. split; [apply fok_of_Z; lia|]. destruct (f_of_Z_exact n ltac:(lia)) as [E _]. unfold z. rewrite E. apply IZR_lt. lia. Qed.
Definition half : f32 := S754_finite false 8388608 (-24).
Lemma pos_half : positive half.
Proof. split; [split; reflexivity|]. apply F2R_gt_0. reflexivity. Qed.
Definition obj := (nat * (f32 * f32))%type.
Definition same_obj (a b : obj) : bool := Nat.eqb (fst a) (fst b).
Lemma usable_10 : usable (z 10) (z 10) half.
Proof.
  split; [apply pos_int; lia|]. split; [apply pos_int; lia|]. split; [apply pos_half|].
  change (cols FA (z 10) half) with 21. lia.
Qed.
Lemma pt_int a b : is_pt (z a, z b).
Proof. split; apply f_of_Z_valid. Qed.
Example C28_concrete :
  usable (z 10) (z 10) half /\
  let cs := [put 1%nat (z 5, z 5); put 2%nat (z 10, z 10); put 3%nat (z 5, z 5); take 1%nat (z 5, z 5); publish; put 4%nat (z 5, z 5)] in
  Forall (call_ok (z 10) (z 10)) cs /\ inside FA (z 10) (z 10) (z 5, z 5) /\
  in_cell_of FA half (z 5, z 5) (readable FA Nat.eqb half cs) = [3%nat] /\
  in_cell_of FA half (z 10, z 10) (readable FA Nat.eqb half cs) = [2%nat] /\
  in_cell_of FA half (z 5, z 5) (pending FA Nat.eqb half cs) = [4%nat].
Proof.
  split; [exact usable_10|]. cbv zeta. split.
  - repeat constructor; vm_compute; reflexivity.
  - repeat split; vm_compute; reflexivity.
Qed.

(** ** C29: only objects within the distance *)
Local Open Scope R_scope.
(** The size conditions of a field, for exact numbers. *)
Definition usable_R (w h d : R) : Prop :=
  0 < w /\ 0 < h /\ 0 < d /\
  (Zceil (w / d) + 1 < 2 ^ 31 /\ Zceil (h / d) + 1 < 2 ^ 31 /\ (Zceil (w / d) + 1) * (Zceil (h / d) + 1) < 2 ^ 31)%Z.
Lemma calls_in_R {O} w h d (cs : list (fop RA (O := O))) : usable_R w h d -> Forall (f_inside RA w h) cs -> Forall (f_in RA w h d) cs.
Proof.
  intros (Hw & Hh & Hd & Hs). apply Forall_impl. intros c H.
  assert (G : forall l, inside RA w h l -> in_field RA w h d l).
  { intros [lx ly] (I1 & I2 & I3 & I4). cbn [fst snd le RA of_int] in *. rewrite Rle_bool_iff in I1, I2, I3, I4.
    apply in_field_R; try assumption; cbn [fst snd]; split; assumption. }
  destruct c; try exact I; apply G, H.
Qed.
Lemma home A {O} eqo d location (cs : list (fop A (O := O))) o l :
  Forall (placed_at_home A location) cs -> In (o, l) (readable A eqo d cs) -> l = location o /\ In (FSet o l) cs.
Proof. intros H Hp. apply readable_In in Hp. cbn [fst snd] in Hp. rewrite Forall_forall in H. split; [exact (H _ Hp)|exact Hp]. Qed.

(** Exact numbers, not toroidal. *)
Theorem C29_plane_exact :
  forall (O : Type) (eqo : O -> O -> bool) location w h d cs f rs l dist r o,
    usable_R w h d -> Forall (f_inside RA w h) cs -> Forall (placed_at_home RA location) cs ->
    f_run RA eqo location (f_new RA w h d false) cs = Some (f, rs) ->
    f_neighbors RA location f l dist = Some r -> In o r ->
    exists l', In (o, l') (readable RA eqo d cs) /\ plane_distance l l' <= dist.
Proof.
  intros O eqo location w h d cs f rs l dist r o U Hcs Hh E En Ho. pose proof (calls_in_R w h d cs U Hcs) as Hin.
  destruct U as (Pw & Ph & Pd & Ps).
  destruct (neighbors_sound RA eqo location w h d false (good_size_R w h d Pw Ph Pd Ps) cs f rs l dist r o Hin E En Ho) as (_ & l' & Hl & C).
  exists l'. split; [exact Hl|]. destruct (home RA eqo d location cs o l' Hh Hl) as [-> Hs]. destruct C as [C|C].
  - cbn [le RA] in C. rewrite Rle_bool_iff, distance_RA_plane in C. exact C.
  - rewrite Forall_forall in Hcs. specialize (Hcs _ Hs). cbn [f_inside] in Hcs. destruct Hcs as (I1 & I2 & I3 & I4). cbn [le RA of_int] in I1, I2, I3, I4.
    rewrite Rle_bool_iff in I1, I2, I3, I4. apply (inside_plane w h d Pd Ps l (location o) dist); [split; assumption|split; assumption|].
    intros c Hc. specialize (C c Hc). cbn [le RA] in C. rewrite Rle_bool_iff, distance_RA_plane in C. exact C.
Qed.
Print Assumptions C29_plane_exact.
(** Exact numbers, toroidal: the distance may be exceeded, by at most the discretization. *)
Theorem C29_torus_exact_partial :
  forall (O : Type) (eqo : O -> O -> bool) location w h d cs f rs l dist r o,
    usable_R w h d -> Forall (f_inside RA w h) cs -> Forall (placed_at_home RA location) cs ->
    f_run RA eqo location (f_new RA w h d true) cs = Some (f, rs) ->
    f_neighbors RA location f l dist = Some r -> In o r ->
    exists l' far, In (o, l') (readable RA eqo d cs) /\ torus_distance w h l l' far /\ far <= dist + d.
Proof.
  intros O eqo location w h d cs f rs l dist r o U Hcs Hh E En Ho. pose proof (calls_in_R w h d cs U Hcs) as Hin.
  destruct U as (Pw & Ph & Pd & Ps).
  destruct (neighbors_sound RA eqo location w h d true (good_size_R w h d Pw Ph Pd Ps) cs f rs l dist r o Hin E En Ho) as (_ & l' & Hl & C).
  exists l', (distance RA l l' w h true). split; [exact Hl|]. split; [apply distance_RA_torus; assumption|].
  destruct (home RA eqo d location cs o l' Hh Hl) as [-> Hs]. destruct C as [C|C].
  - cbn [le RA] in C. rewrite Rle_bool_iff in C. cbn [num RA] in *. lra.
  - rewrite Forall_forall in Hcs. specialize (Hcs _ Hs). cbn [f_inside] in Hcs. destruct Hcs as (I1 & I2 & I3 & I4). cbn [le RA of_int] in I1, I2, I3, I4.
    rewrite Rle_bool_iff in I1, I2, I3, I4. apply (inside_torus w h d Pw Ph Pd Ps l (location o) dist); [split; assumption|split; assumption|].
    intros c Hc. specialize (C c Hc). cbn [le RA] in C. rewrite Rle_bool_iff in C. exact C.
Qed.
Print Assumptions C29_torus_exact_partial.

(** In f32, not toroidal, with a power of two as discretization: the distance computed
    by the code's own [distance] is within the limit. *)
Theorem C29_f32_partial :
  forall (O : Type) (eqo : O -> O -> bool) location w h d cs f rs l dist r o,
    usable w h d -> power_of_two d -> f2R w + f2R d < fmax -> f2R h + f2R d < fmax ->
    Forall (call_ok w h) cs -> Forall (placed_at_home FA location) cs ->
    f_run FA eqo location (f_new FA w h d false) cs = Some (f, rs) ->
    fok (fst l) -> fok (snd l) -> fok dist ->
    f_neighbors FA location f l dist = Some r -> In o r ->
    exists l', In (o, l') (readable FA eqo d cs) /\ fleb (distance FA l l' w h false) dist = true.
Proof.
  intros O eqo location w h d cs f rs l dist r o U P2 Mw Mh Hcs Hh E Klx Kly Kd En Ho. pose proof (calls_in w h d cs U Hcs) as Hin.
  destruct (neighbors_sound FA eqo location w h d false (usable_good w h d U) cs f rs l dist r o Hin E En Ho) as (_ & l' & Hl & C).
  exists l'. split; [exact Hl|]. destruct (home FA eqo d location cs o l' Hh Hl) as [-> Hs]. destruct C as [C|C]; [exact C|].
  rewrite Forall_forall in Hcs. specialize (Hcs _ Hs). destruct Hcs as [(I1 & I2 & I3 & I4) [V1 V2]].
  destruct U as (Uw & Uh & Ud & Cw & Ch & Cs). destruct (location o) as [ox oy]. cbn [fst snd] in *.
  destruct (inside_fok _ w V1 (proj1 Uw) I1 I2) as [K1 B1]. destruct (inside_fok _ h V2 (proj1 Uh) I3 I4) as [K2 B2].
  destruct (side_pow2 ox w d K1 Uw Ud P2 ltac:(nia) Mw B1) as (X1 & X2 & BX). destruct (side_pow2 oy h d K2 Uh Ud P2 ltac:(nia) Mh B2) as (Y1 & Y2 & BY).
  refine (inside_plane_f32 l (ox, oy) _ _ _ _ dist w h Klx Kly K1 K2 Kd X1 X2 Y1 Y2 BX BY _).
  intros c Hc. exact (C c Hc).
Qed.
Print Assumptions C29_f32_partial.

(** Toroidal fields really return objects that are too far: on a 20 by 20 torus with
    discretization 8, a query at (0,0) for distance 12 returns the object at (10,7). *)
Notation at_ n x y := ((n, (z x, z y)) : obj).
Definition ask (w h d : f32) (t : bool) (objs : list obj) (l : f32 * f32) (dist : f32) : option (list obj) :=
  match f_run FA same_obj snd (f_new FA w h d t) (map (fun o => put o (snd o)) objs ++ [publish]) with
  | Some (f, _) => f_neighbors FA snd f l dist
  | None => None
  end.
Lemma z_R n : (Z.abs n <= 2 ^ 24)%Z -> f2R (z n) = IZR n.
Proof. intros H. apply f_of_Z_exact. exact H. Qed.
Lemma circle_small dim a b : 0 < dim -> Rabs (a - b) <= dim / 2 -> circle_distance dim a b (Rabs (a - b)).
Proof.
  intros Hd H. split; [exists 0%Z; f_equal; lra|]. apply shortest; [exact Hd|exact H|apply congruent_refl].
Qed.
Theorem C29_torus_refuted :
  ask (z 20) (z 20) (z 8) true [at_ 1%nat 10 7]%Z (z 0, z 0) (z 12) = Some [at_ 1%nat 10 7]%Z /\
  forall far, torus_distance 20 20 (0, 0) (10, 7) far -> 12 < far.
Proof.
  split; [vm_compute; reflexivity|]. intros far (x & y & Hx & Hy & ->). cbn [fst snd] in *.
  rewrite (circle_unique _ _ _ _ _ Hx (circle_small 20 0 10 ltac:(lra) ltac:(apply Rabs_le; lra))).
  rewrite (circle_unique _ _ _ _ _ Hy (circle_small 20 0 7 ltac:(lra) ltac:(apply Rabs_le; lra))). rewrite !pow2_abs.
  rewrite <- (sqrt_square 12) by lra. apply sqrt_lt_1_alt. lra.
Qed.
Print Assumptions C29_torus_refuted.

(** And so do others, by a rounding error: the bag of a coordinate need not contain it.
    With discretization 0.1 the object at x = 0.9 is in the bag that starts at
    0.90000004. *)
Definition tenth : f32 := S754_finite false 13421773 (-27).
Definition x09 : f32 := S754_finite false 15099494 (-24).
Definition qx : f32 := S754_finite false 9189535 (-23).
Definition qy : f32 := S754_finite false 10586066 (-27).
Definition qd : f32 := S754_finite false 14145882 (-26).
Theorem C29_rounding_refuted :
  ask (z 10) (z 10) tenth false [(1%nat, (x09, z 0))] (qx, qy) qd = Some [(1%nat, (x09, z 0))] /\
  f2R qd < plane_distance (p2R (qx, qy)) (p2R (x09, z 0)).
Proof.
  split; [vm_compute; reflexivity|]. unfold plane_distance, p2R. cbn [fst snd]. rewrite (z_R 0) by lia.
  unfold qd, qx, qy, x09. rewrite !f2R_frac. cbn [Z.pow Z.pow_pos Pos.iter Z.mul Pos.mul].
  rewrite <- (sqrt_square (14145882 / 67108864)) by lra. apply sqrt_lt_1_alt. lra.
Qed.
Print Assumptions C29_rounding_refuted.

Example C29_concrete :
  usable (z 20) (z 20) (z 8) /\ power_of_two (z 8) /\ f2R (z 20) + f2R (z 8) < fmax /\
  ask (z 20) (z 20) (z 8) false [at_ 1%nat 10 7; at_ 2%nat 4 4; at_ 3%nat 9 5]%Z (z 0, z 0) (z 12) = Some [at_ 2%nat 4 4; at_ 3%nat 9 5]%Z /\
  usable_R 20 20 8.
Proof.
  assert (C : Zceil (20 / 8) = 3%Z) by (apply Zceil_imp; cbn; lra).
  split; [|split; [|split; [|split]]].
  - split; [apply pos_int; lia|]. split; [apply pos_int; lia|]. split; [apply pos_int; lia|]. change (cols FA (z 20) (z 8)) with 4%Z. lia.
  - exists 3%Z. rewrite z_R by lia. reflexivity.
  - rewrite !z_R by lia. rewrite <- plus_IZR. apply Rle_lt_trans with (Rabs (IZR (20 + 8))); [apply Rle_abs|apply IZR_lt_128; lia].
  - vm_compute. reflexivity.
  - unfold usable_R. rewrite C. split; [lra|]. split; [lra|]. split; [lra|]. lia.
Qed.

(** ** C30: every object within the distance, once *)
(** Exact numbers: an object whose distance (in the plane, hence also on the torus) is
    smaller by the discretization is returned.  [l] may be outside the field. *)
Theorem C30_inner_partial :
  forall (O : Type) (eqo : O -> O -> bool) location w h d t cs f rs (l : R * R) dist o,
    usable_R w h d -> Forall (f_inside RA w h) cs ->
    f_run RA eqo location (f_new RA w h d t) cs = Some (f, rs) ->
    Rabs (fst l) <= 2 ^ 29 * d -> Rabs (snd l) <= 2 ^ 29 * d -> 0 < dist <= 2 ^ 29 * d ->
    In (o, location o) (readable RA eqo d cs) -> 0 <= fst (location o) < w -> 0 <= snd (location o) < h ->
    plane_distance l (location o) <= dist - d ->
    exists r, f_neighbors RA location f l dist = Some r /\ In o r.
Proof.
  intros O eqo location w h d t cs f rs l dist o U Hcs E Lx Ly Hd Ho Ox Oy Hp. pose proof (calls_in_R w h d cs U Hcs) as Hin.
  destruct U as (Pw & Ph & Pd & Ps). eapply (neighbors_inner w h d Pw Ph Pd Ps eqo location t cs f rs l dist o); eassumption.
Qed.
Print Assumptions C30_inner_partial.

(** For any arithmetic, f32 included: no placement is returned twice in a toroidal field,
    nor in another one as long as the visited square of bags stays inside it. *)
Definition clear_of_border (A : arith) (w h d : num A) (l : num A * num A) (dist : num A) : Prop :=
  let k := floor_i32 A (div A dist d) in
  let c := discretize A d l in
  (0 <= k /\ 0 <= fst c - k /\ fst c + k < cols A w d - 1 /\ 0 <= snd c - k /\ snd c + k < cols A h d - 1)%Z.
Theorem C30_once_partial :
  forall (A : arith) (O : Type) (eqo : O -> O -> bool) location w h d t cs f rs l dist,
    good_size A w h d -> Forall (f_in A w h d) cs ->
    f_run A eqo location (f_new A w h d t) cs = Some (f, rs) ->
    t = true \/ clear_of_border A w h d l dist ->
    exists r keep, f_neighbors A location f l dist = Some r /\ Permutation r (map fst (filter keep (readable A eqo d cs))).
Proof.
  intros A O eqo location w h d t cs f rs l dist GS Hin E Hc.
  destruct (le A dist (of_int A 0)) eqn:Hd.
  { exists [], (fun _ => false). unfold f_neighbors. rewrite Hd. split; [reflexivity|]. replace (filter _ _) with (@nil (O * (num A * num A))); [constructor|]. symmetry. induction (readable A eqo d cs) as [|p ps IH]; [reflexivity|exact IH]. }
  destruct (history A eqo location w h d t GS cs Hin) as (f' & rs' & E' & _ & W & S). rewrite E in E'. injection E' as <- <-.
  assert (ID : exists ids, window A f l dist = Some ids /\ NoDup ids).
  { destruct Hc as [Ht|(H1 & H2 & H3 & H4 & H5)]; [exact (window_torus A w h d t GS f l dist W Ht)|].
    destruct (window_inside A w h d t GS f l dist W H1 H2 H3 H4 H5) as (ids & Ew & N & _). exists ids. split; assumption. }
  destruct ID as (ids & Ew & N). destruct (neighbors_perm A eqo location w h d t GS cs f rs l dist ids Hin E Hd Ew N) as (r & En & P).
  exists r. eexists. split; [exact En|exact P].
Qed.
Print Assumptions C30_once_partial.

(** Objects within the distance are missed: in the bag of the query itself, when all its
    corners are too far (distance 0 here); in the bag next to it, when the distance is
    below the discretization; across the border of a torus. *)
Theorem C30_own_bag_refuted : forall t,
  ask (z 20) (z 20) (z 8) t [at_ 1%nat 4 4]%Z (z 4, z 4) (z 1) = Some [] /\ plane_distance (4, 4) (4, 4) <= 1.
Proof.
  intros t. split; [destruct t; vm_compute; reflexivity|]. unfold plane_distance. cbn [fst snd]. replace ((4 - 4) ^ 2 + (4 - 4) ^ 2) with 0 by ring. rewrite sqrt_0. lra.
Qed.
Print Assumptions C30_own_bag_refuted.
Theorem C30_next_bag_refuted : forall t,
  ask (z 20) (z 20) (z 8) t [at_ 1%nat 9 4]%Z (z 7, z 4) (z 4) = Some [] /\ plane_distance (7, 4) (9, 4) <= 4.
Proof.
  intros t. split; [destruct t; vm_compute; reflexivity|]. unfold plane_distance. cbn [fst snd]. rewrite <- (sqrt_square 4) by lra. apply sqrt_le_1_alt. lra.
Qed.
Print Assumptions C30_next_bag_refuted.
Theorem C30_torus_refuted :
  ask (z 20) (z 20) (z 2) true [at_ 1%nat 19 1]%Z (z 1, z 1) (z 5) = Some [] /\
  exists near, torus_distance 20 20 (1, 1) (19, 1) near /\ near <= 5.
Proof.
  split; [vm_compute; reflexivity|]. exists 2. split; [|lra]. exists (Rabs 2), (Rabs 0). cbn [fst snd]. split; [|split].
  - split; [exists 1%Z; f_equal; lra|]. apply shortest; [lra|rewrite Rabs_right; lra|]. exists 1%Z. lra.
  - replace 0 with (1 - 1) by lra. apply circle_small; [lra|]. rewrite Rminus_diag_eq, Rabs_R0 by reflexivity. lra.
  - rewrite !pow2_abs. replace (2 ^ 2 + 0 ^ 2) with (2 * 2) by ring. rewrite sqrt_square; lra.
Qed.
Print Assumptions C30_torus_refuted.
(** And an object can be returned several times, in a field that is not toroidal: the
    visited square of bags wraps around. *)
Theorem C30_repeated_refuted :
  ask (z 3) (z 3) (z 1) false [at_ 1%nat 1 1]%Z (z 1, z 1) (z 3) = Some (repeat (at_ 1%nat 1 1)%Z 9).
Proof. vm_compute. reflexivity. Qed.
Print Assumptions C30_repeated_refuted.
(** For a field in f32: the hypotheses of [C30_once_partial] hold. *)
Example C30_concrete :
  good_size FA (z 20) (z 20) (z 2) /\ clear_of_border FA (z 20) (z 20) (z 2) (z 9, z 9) (z 5) /\
  ask (z 20) (z 20) (z 2) false [at_ 1%nat 10 10; at_ 2%nat 12 12; at_ 3%nat 13 13; at_ 1%nat 10 10]%Z (z 9, z 9) (z 5) = Some [at_ 1%nat 10 10; at_ 1%nat 10 10; at_ 2%nat 12 12]%Z /\
  usable_R 20 20 2 /\ plane_distance (9, 9) (10, 10) <= 5 - 2.
Proof.
  split; [|split; [|split; [|split]]].
  - apply usable_good. split; [apply pos_int; lia|]. split; [apply pos_int; lia|]. split; [apply pos_int; lia|]. change (cols FA (z 20) (z 2)) with 11%Z. lia.
  - unfold clear_of_border. change (floor_i32 FA (div FA (z 5) (z 2))) with 2%Z. change (discretize FA (z 2) (z 9, z 9)) with (4, 4)%Z. change (cols FA (z 20) (z 2)) with 11%Z. cbn [fst snd]. lia.
  - vm_compute. reflexivity.
  - unfold usable_R. assert (C : Zceil (20 / 2) = 10%Z) by (apply Zceil_imp; cbn; lra). rewrite C. split; [lra|]. split; [lra|]. split; [lra|]. lia.
  - unfold plane_distance. cbn [fst snd]. rewrite <- (sqrt_square (5 - 2)) by lra. apply sqrt_le_1_alt. lra.
Qed.

(** ** C31: the relaxed query *)
(** For any arithmetic, any state of the field, any location and distance: the two
    queries panic together, and the relaxed answer is the other with objects inserted. *)
Theorem C31_superset :
  forall (A : arith) (O : Type) location (f : field2d A (O := O)) l dist,
    match f_neighbors A location f l dist, f_relax A f l dist with
    | Some r, Some r' => subseq r r' /\ (forall o, In o r -> In o r') /\
                         (forall dec o, (count_occ dec r o <= count_occ dec r' o)%nat)
    | None, None => True
    | _, _ => False
    end.
Proof.
  intros A O location f l dist. pose proof (relax_rel A location f l dist) as H. destruct (f_neighbors A location f l dist), (f_relax A f l dist); try exact H.
  split; [exact H|]. split; [intros o; apply subseq_In; exact H|]. intros dec o. apply subseq_count. exact H.
Qed.
Print Assumptions C31_superset.
(** Neither query panics in a field reached by calls inside it. *)
Theorem C31_no_panic :
  forall (A : arith) (O : Type) (eqo : O -> O -> bool) location w h d t cs f rs l dist,
    good_size A w h d -> Forall (f_in A w h d) cs ->
    f_run A eqo location (f_new A w h d t) cs = Some (f, rs) ->
    exists r r', f_neighbors A location f l dist = Some r /\ f_relax A f l dist = Some r'.
Proof.
  intros A O eqo location w h d t cs f rs l dist GS Hin E.
  destruct (history A eqo location w h d t GS cs Hin) as (f' & rs' & E' & _ & W & _). rewrite E in E'. injection E' as <- <-.
  destruct (neighbors_total A location w h d t GS f l dist W) as [r Er]. destruct (relax_total A w h d t GS f l dist W) as [r' Er']. exists r, r'. split; assumption.
Qed.
Print Assumptions C31_no_panic.
Definition ask_relaxed (w h d : f32) (t : bool) (objs : list obj) (l : f32 * f32) (dist : f32) : option (list obj) :=
  match f_run FA same_obj snd (f_new FA w h d t) (map (fun o => put o (snd o)) objs ++ [publish]) with
  | Some (f, _) => f_relax FA f l dist
  | None => None
  end.
Example C31_concrete :
  ask (z 20) (z 20) (z 2) false [at_ 1%nat 10 10; at_ 3%nat 13 13]%Z (z 9, z 9) (z 5) = Some [at_ 1%nat 10 10]%Z /\
  ask_relaxed (z 20) (z 20) (z 2) false [at_ 1%nat 10 10; at_ 3%nat 13 13]%Z (z 9, z 9) (z 5) = Some [at_ 1%nat 10 10; at_ 3%nat 13 13]%Z.
Proof. split; vm_compute; reflexivity. Qed.

(** ** C32: toroidal arithmetic *)
Theorem C32_transform_exact :
  forall val dim : R, 0 < dim ->
    0 <= toroidal_transform RA val dim < dim /\ congruent dim (toroidal_transform RA val dim) val.
Proof. exact transform_R. Qed.
Print Assumptions C32_transform_exact.
Theorem C32_distance_exact :
  forall v1 v2 dim : R, 0 < dim ->
    Rabs (toroidal_distance RA v1 v2 dim) <= dim / 2 /\ congruent dim (toroidal_distance RA v1 v2 dim) (v1 - v2) /\
    toroidal_distance RA v2 v1 dim = - toroidal_distance RA v1 v2 dim /\
    circle_distance dim v1 v2 (Rabs (toroidal_distance RA v1 v2 dim)).
Proof.
  intros v1 v2 dim Hd. destruct (distance_R v1 v2 dim Hd) as [H1 H2]. split; [exact H1|]. split; [exact H2|].
  split; [apply distance_antisym; exact Hd|apply distance_circle; exact Hd].
Qed.
Print Assumptions C32_distance_exact.

(** In f32 the result is rounded: it may be [dim] itself, and it is congruent up to that
    rounding; nothing is rounded if the value is not negative. *)
Theorem C32_transform_f32_partial :
  forall val dim : f32, fok val -> positive dim ->
    let t := toroidal_transform FA val dim in
    fok t /\ 0 <= f2R t <= f2R dim /\
    exists k : Z, f2R t = rnd (f2R val + IZR k * f2R dim) /\ 0 <= f2R val + IZR k * f2R dim < f2R dim /\
      (0 <= f2R val -> f2R t = f2R val + IZR k * f2R dim).
Proof.
  intros val dim Kv Pd. cbv zeta. destruct (transform_f32 dim Pd val Kv) as (K & B & k & E1 & E2 & E3).
  split; [exact K|]. split; [exact B|]. exists k. split; [exact E1|]. split; [exact E3|exact E2].
Qed.
Print Assumptions C32_transform_f32_partial.
Theorem C32_distance_f32_partial :
  forall v1 v2 dim : f32, fok v1 -> fok v2 -> positive dim -> bpow radix2 (-125) <= f2R dim < bpow radix2 127 ->
    let x := toroidal_distance FA v1 v2 dim in
    fok x /\ Rabs (f2R x) <= f2R dim / 2 /\
    (exists k : Z, Rabs (f2R x - (f2R v1 - f2R v2 + IZR k * f2R dim)) <= f2R dim * bpow radix2 (-22)) /\
    f2R (toroidal_distance FA v2 v1 dim) = - f2R x.
Proof. intros v1 v2 dim K1 K2 Pd [B1 B2]. exact (distance_f32 dim Pd B1 B2 v1 v2 K1 K2). Qed.
Print Assumptions C32_distance_f32_partial.
(** A small negative value is mapped to [dim], and is not congruent to it. *)
Definition tiny : f32 := S754_finite true 8388608 (-53).
Theorem C32_refuted :
  fok tiny /\ positive (z 10) /\ toroidal_transform FA tiny (z 10) = z 10 /\ ~ congruent (f2R (z 10)) (f2R (z 10)) (f2R tiny).
Proof.
  split; [split; reflexivity|]. split; [apply pos_int; lia|]. split; [vm_compute; reflexivity|].
  rewrite (z_R 10) by lia. replace (f2R tiny) with (- / 1073741824).
  - intros [k H]. assert (1 < IZR k < 2) by lra. destruct H0 as [H1 H2]. apply lt_IZR in H1, H2. lia.
  - unfold tiny. change (f2R (S754_finite true 8388608 (-53))) with (IZR (-8388608) * / IZR (2 ^ 53)). cbn [Z.pow Z.pow_pos Pos.iter Z.mul Pos.mul]. lra.
Qed.
Print Assumptions C32_refuted.
Example C32_concrete :
  toroidal_transform FA (z (-3)) (z 10) = z 7 /\ toroidal_transform FA (z 24) (z 10) = z 4 /\
  toroidal_distance FA (z 1) (z 9) (z 10) = z 2 /\ toroidal_distance FA (z 9) (z 1) (z 10) = z (-2) /\
  toroidal_distance FA (z 8) (z 3) (z 10) = z 5 /\ bpow radix2 (-125) <= f2R (z 10) < bpow radix2 127.
Proof.
  split; [vm_compute; reflexivity|]. split; [vm_compute; reflexivity|]. split; [vm_compute; reflexivity|]. split; [vm_compute; reflexivity|].
  split; [vm_compute; reflexivity|]. rewrite z_R by lia. split.
  - apply Rle_trans with (bpow radix2 0); [apply bpow_le; lia|]. cbn. lra.
  - apply Rlt_trans with (bpow radix2 4); [cbn; lra|]. apply bpow_lt. lia.
Qed.

(** ** C73: iteration *)
(** The closure is called once for every readable (pending) placement, with the lower
    corner of its cell and not its location. *)
Theorem C73_iter :
  forall (A : arith) (O : Type) (eqo : O -> O -> bool) location w h d t cs,
    good_size A w h d -> Forall (f_in A w h d) cs ->
    exists f rs calls calls', f_run A eqo location (f_new A w h d t) cs = Some (f, rs) /\
      f_iter A f = Some calls /\ f_iter_unbuffered A f = Some calls' /\
      Permutation calls (map (fun p => (corner A d (discretize A d (snd p)), fst p)) (readable A eqo d cs)) /\
      Permutation calls' (map (fun p => (corner A d (discretize A d (snd p)), fst p)) (pending A eqo d cs)).
Proof.
  intros A O eqo location w h d t cs GS Hin. destruct (history A eqo location w h d t GS cs Hin) as (f & rs & E & _ & W & S).
  exists f, rs. do 2 eexists. split; [exact E|]. unfold f_iter, f_iter_unbuffered.
  rewrite (iter_eq A w h d t f _ _ W (fun c Hc => proj1 (S c Hc))), (iter_eq A w h d t f _ _ W (fun c Hc => proj2 (S c Hc))).
  split; [reflexivity|]. split; [reflexivity|]. rewrite Forall_forall in Hin.
  split; apply iter_placements; intros p Hp; [apply readable_In in Hp|apply pending_In in Hp]; exact (Hin _ Hp).
Qed.
Print Assumptions C73_iter.
Theorem C73_location_refuted :
  match f_run FA same_obj snd (f_new FA (z 20) (z 20) (z 8) false) [put (at_ 1%nat 4 4)%Z (z 4, z 4); publish] with
  | Some (f, _) => f_iter FA f | None => None end = Some [((z 0, z 0), at_ 1%nat 4 4)]%Z.
Proof. vm_compute. reflexivity. Qed.
Print Assumptions C73_location_refuted.

(** ** C74: empty bags *)
(** The lower corners of exactly the cells without readable object, in column order; and
    [get_random_empty_bag] is one of them, [None] if there are none. *)
Theorem C74_empty :
  forall (A : arith) (O : Type) (eqo : O -> O -> bool) location w h d t cs,
    good_size A w h d -> Forall (f_in A w h d) cs ->
    exists f rs, f_run A eqo location (f_new A w h d t) cs = Some (f, rs) /\
      let free := map (corner A d)
        (filter (fun c => negb (existsb (fun p => loc_eqb (discretize A d (snd p)) c) (readable A eqo d cs))) (cells (cols A w d) (cols A h d))) in
      f_empty_bags A f = Some free /\
      forall k, match f_random_empty_bag A f k with
                | Some (Some p) => In p free
                | Some None => free = []
                | None => False
                end.
Proof.
  intros A O eqo location w h d t cs GS Hin. destruct (history A eqo location w h d t GS cs Hin) as (f & rs & E & _ & W & S).
  exists f, rs. split; [exact E|]. cbv zeta. pose proof (empty_eq A w h d t f _ W (fun c Hc => proj1 (S c Hc))) as EB.
  erewrite filter_ext in EB; [|intros c; apply at_cell_nil]. split; [exact EB|].
  intros k. unfold f_random_empty_bag. rewrite EB. destruct (map _ _) as [|p ps] eqn:EM; [reflexivity|].
  destruct (nth_error (p :: ps) (k mod length (p :: ps))) as [q|] eqn:EN; [apply nth_error_In in EN; exact EN|].
  apply nth_error_None in EN. pose proof (Nat.mod_upper_bound k (length (p :: ps)) ltac:(discriminate)). lia.
Qed.
Print Assumptions C74_empty.
(** A new field of 10 by 10 with discretization 0.5 has 441 empty bags, not 400 as its
    documentation says. *)
Theorem C74_documented_refuted :
  option_map (@length (f32 * f32)) (f_empty_bags FA (f_new FA (O := nat) (z 10) (z 10) half true)) = Some 441%nat.
Proof. vm_compute. reflexivity. Qed.
Print Assumptions C74_documented_refuted.
Example C73_C74_concrete :
  good_size FA (z 20) (z 20) (z 8) /\ Forall (f_in FA (z 20) (z 20) (z 8)) [put 1%nat (z 4, z 4); put 2%nat (z 20, z 20); publish; put 3%nat (z 5, z 5)].
Proof.
  assert (U : usable (z 20) (z 20) (z 8)).
  { split; [apply pos_int; lia|]. split; [apply pos_int; lia|]. split; [apply pos_int; lia|]. change (cols FA (z 20) (z 8)) with 4%Z. lia. }
  split; [apply usable_good; exact U|]. apply (calls_in _ _ _ _ U). repeat constructor; vm_compute; reflexivity.
Qed.
