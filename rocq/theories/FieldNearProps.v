(** * Property theorems: the exact answer of neighbour queries (C30, C31, C78) *)
From Coq Require Import List Bool ZArith NArith Arith Permutation Reals Lia Lra.
From Flocq Require Import Core.
From Verif Require Import F32 Grid ObjModel FieldModel FieldSpec FieldProofs FieldReal FieldProps FieldNearSpec FieldNear.
From Verif Require Import KdModel KdSpec KdReal KdStore KdProps.
Import ListNotations.
Local Open Scope R_scope.

(** Exact numbers: after any history of a field, toroidal or not, the two neighbour queries
    return nothing for distances that are not positive, and otherwise exactly the placements
    in the cells they look at, as often as they look at them; the narrower query only those
    it selects.  With this the missing and the repeated answers of C30 are accounted for. *)
Theorem C30_answer_partial :
  forall (O : Type) (eqo : O -> O -> bool) location w h d t cs f rs (l : R * R) (dist : R),
    usable_R w h d -> Forall (f_inside RA w h) cs ->
    f_run RA eqo location (f_new RA w h d t) cs = Some (f, rs) ->
    (dist <= 0 -> f_neighbors RA location f l dist = Some [] /\ f_relax RA f l dist = Some []) /\
    (Rabs (fst l) <= 2 ^ 29 * d -> Rabs (snd l) <= 2 ^ 29 * d -> 0 < dist <= 2 ^ 29 * d ->
     exists r r' keep, f_neighbors RA location f l dist = Some r /\ f_relax RA f l dist = Some r' /\
       (forall o p, In (o, p) (readable RA eqo d cs) -> keep (o, p) = true <-> selected t w h d l dist (location o) p) /\
       Permutation r (as_often (fun q => if keep q then visits t w h d l dist (snd q) else 0%nat) (readable RA eqo d cs)) /\
       Permutation r' (as_often (fun q => visits t w h d l dist (snd q)) (readable RA eqo d cs))).
Proof.
  intros O eqo location w h d t cs f rs l dist U Hcs E. pose proof (calls_in_R w h d cs U Hcs) as Hin.
  destruct U as (Pw & Ph & Pd & Ps). split.
  - intros N. unfold f_neighbors, f_relax. cbn [le RA of_int]. destruct (Rle_bool_spec dist 0); [split; reflexivity|lra].
  - intros Lx Ly Hd. destruct (history RA eqo location w h d t (good_size_R w h d Pw Ph Pd Ps) cs Hin) as (f' & rs' & E' & _ & W & S).
    rewrite E in E'. injection E' as <- <-.
    apply (exact_at w h d Pw Ph Pd Ps location t f (readable RA eqo d cs) l dist W (fun c Hc => proj1 (S c Hc))); try assumption.
    intros o p Hp. apply (readable_In RA eqo d cs (o, p)) in Hp. cbn [fst snd] in Hp. rewrite Forall_forall in Hcs. specialize (Hcs _ Hp).
    destruct Hcs as (I1 & I2 & I3 & I4). cbn [le RA of_int] in *. rewrite Rle_bool_iff in I1, I2, I3, I4. repeat split; assumption.
Qed.
Print Assumptions C30_answer_partial.

(** In a toroidal field every cell is looked at once or not at all: the reach of a query
    ends at the border, and the cells of the far border are never looked at. *)
Lemma looks_torus n q k x : (1 <= n)%Z -> looks true n q k x = if ((Z.max 0 (q - k) <=? x) && (x <=? Z.min (q + k) (n - 1)))%Z then 1%nat else 0%nat.
Proof.
  intros Hn. unfold looks. cbv zeta. set (lo := Z.max 0 (q - k)). set (hi := Z.min (q + k) (n - 1)).
  assert (L : (0 <= lo)%Z) by (unfold lo; lia). assert (H : (hi <= n - 1)%Z) by (unfold hi; lia). clearbody lo hi.
  rewrite numbers_zfrom. rewrite (filter_ext_in (fun i => stands_for n i =? x)%Z (fun i => i =? x)%Z).
  - pose proof (zfrom_NoDup lo (hi + 1)) as ND. assert (IN : forall i, In i (zfrom lo (hi + 1)) <-> (lo <= i < hi + 1)%Z) by (intros i; apply zfrom_In).
    destruct ((lo <=? x) && (x <=? hi))%Z eqn:B.
    + assert (Hx : In x (zfrom lo (hi + 1))) by (apply IN; lia). clear IN B. revert ND Hx. generalize (zfrom lo (hi + 1)).
      intros zs. induction 1 as [|y zs Hy ND IH]; [intros []|]. intros [->|Hx]; cbn [filter].
      * rewrite Z.eqb_refl. cbn. f_equal. clear -Hy. induction zs as [|y zs IH]; [reflexivity|]. cbn. destruct (Z.eqb_spec y x) as [->|]; [exfalso; apply Hy; left; reflexivity|]. apply IH. intros H. apply Hy. right. exact H.
      * destruct (Z.eqb_spec y x) as [->|]; [contradiction|]. apply IH. exact Hx.
    + assert (Hx : ~ In x (zfrom lo (hi + 1))) by (rewrite IN; lia). clear -Hx. induction (zfrom lo (hi + 1)) as [|y zs IH]; [reflexivity|].
      cbn. destruct (Z.eqb_spec y x) as [->|]; [exfalso; apply Hx; left; reflexivity|]. apply IH. intros H. apply Hx. right. exact H.
  - intros i Hi. rewrite zfrom_In in Hi. unfold stands_for. destruct (Z.leb_spec 0 i); [|lia]. rewrite Z.mod_small by lia. reflexivity.
Qed.
Theorem C30_visits_torus :
  forall (w h d : R) (l p : R * R) (dist : R), 0 < w -> 0 < h -> 0 < d ->
    let reaches (size q x : R) :=
      (Z.max 0 (column d q - column d dist) <= column d x <= Z.min (column d q + column d dist) (Zceil (size / d) - 1))%Z in
    (reaches w (fst l) (fst p) /\ reaches h (snd l) (snd p) /\ visits true w h d l dist p = 1%nat) \/
    (~ (reaches w (fst l) (fst p) /\ reaches h (snd l) (snd p)) /\ visits true w h d l dist p = 0%nat).
Proof.
  intros w h d l p dist Hw Hh Hd reaches. unfold visits. rewrite !looks_torus by (apply ceil_pos; assumption).
  unfold reaches. match goal with |- context [Nat.mul (if ?a then _ else _) (if ?b then _ else _)] => destruct a eqn:A, b eqn:B end; cbn; lia.
Qed.
Print Assumptions C30_visits_torus.

(** In a field that is not toroidal a cell is looked at once if the square of cells stays
    inside it. *)
Theorem C30_visits_plane :
  forall (w h d : R) (l p : R * R) (dist : R), 0 < w -> 0 < h -> 0 < d -> 0 <= dist ->
    (column d dist <= column d (fst l))%Z -> (column d (fst l) + column d dist < Zceil (w / d))%Z ->
    (column d dist <= column d (snd l))%Z -> (column d (snd l) + column d dist < Zceil (h / d))%Z ->
    visits false w h d l dist p =
      if (Z.abs (column d (fst p) - column d (fst l)) <=? column d dist)%Z && (Z.abs (column d (snd p) - column d (snd l)) <=? column d dist)%Z
      then 1%nat else 0%nat.
Proof.
  intros w h d l p dist Hw Hh Hd Hdist X1 X2 Y1 Y2.
  assert (D : (0 <= column d dist)%Z) by (apply Zfloor_lub, Rmult_le_pos; [exact Hdist|left; apply Rinv_0_lt_compat; exact Hd]).
  assert (G : forall n q k x, (0 <= k <= q)%Z -> (q + k < n)%Z -> looks false n q k x = looks true n q k x).
  { intros n q k x H1 H2. unfold looks. cbv zeta. rewrite Z.max_r, Z.min_l by lia. reflexivity. }
  unfold visits. rewrite !G by lia. rewrite !looks_torus by lia.
  match goal with |- ((if ?a then _ else _) * (if ?b then _ else _))%nat = _ => destruct a eqn:A, b eqn:B end;
  match goal with |- context [(if ?c && ?e then _ else _)] => destruct c eqn:C, e eqn:E end; cbn; try reflexivity; lia.
Qed.
Print Assumptions C30_visits_plane.

(** The distributed field: the same answer, without the agents at the very location of the
    query. *)
Lemma often_filter {X Y} (g : X -> bool) (a : X * Y -> nat) ps :
  filter g (as_often a ps) = as_often (fun q => if g (fst q) then a q else 0%nat) ps.
Proof.
  unfold as_often. induction ps as [|p ps IH]; [reflexivity|]. cbn [flat_map]. rewrite filter_app, IH. f_equal.
  induction (a p) as [|n IHn]; [destruct (g (fst p)); reflexivity|]. cbn [repeat filter].
  destruct (g (fst p)); cbn [repeat] in *; rewrite IHn; reflexivity.
Qed.
Lemma perm_filter {X} (g : X -> bool) u v : Permutation u v -> Permutation (filter g u) (filter g v).
Proof.
  induction 1 as [|a u v P IH|a b u|u v t P1 IH1 P2 IH2]; cbn [filter].
  - constructor.
  - destruct (g a); [constructor|]; exact IH.
  - destruct (g a), (g b); try apply Permutation_refl. apply perm_swap.
  - eapply Permutation_trans; eassumption.
Qed.
Theorem C78_answer_partial :
  forall (O : Type) (eqo : O -> O -> bool) location p rank (x y w h d rad : R) cs (l : R * R) dist,
    usable_R w h d -> (2 <= p)%nat -> (rank < p)%nat -> Forall (k_in RA p w h d) cs ->
    (forall o l, In (KInsert o l) cs \/ In (KInsertRead o l) cs -> 0 <= fst l <= w /\ 0 <= snd l <= h) ->
    Rabs (fst l) <= 2 ^ 29 * d -> Rabs (snd l) <= 2 ^ 29 * d -> 0 < dist <= 2 ^ 29 * d ->
    exists (k0 k : kdtree RA (O := O)) r keep,
      create_tree RA p (Z.of_nat rank) 0 x y w h d rad = Some k0 /\ k_run RA eqo p k0 cs = Some k /\
      k_neighbors_within RA location k l dist = Some r /\
      (forall o q, In (o, q) (k_readable RA eqo d cs) ->
         keep (o, q) = true <-> location o <> l /\ selected true w h d l dist (location o) q) /\
      Permutation r (as_often (fun q => if keep q then visits true w h d l dist (snd q) else 0%nat) (k_readable RA eqo d cs)).
Proof.
  intros O eqo location p rank x y w h d rad cs l dist (Pw & Ph & Pd & Ps) Hp Hr Hin Hi Lx Ly Hd.
  pose proof (good_size_R w h d Pw Ph Pd Ps) as GS.
  destruct (fresh_tree RA (O := O) p rank x y w h d rad GS Hp Hr) as (k0 & C & K0 & F1 & F2 & F3 & F4 & F5 & F6 & _).
  destruct (k_history RA eqo w h d GS p k0 K0 F1 F2 F3 F4 F5 F6 cs Hin) as (k & E & W & Sh & (B & _)).
  destruct (exact_at w h d Pw Ph Pd Ps location true (as_field RA k 0) (k_readable RA eqo d cs) l dist (as_field_wf RA w h d k W)
    (fun c Hc => proj1 (B c Hc))) as (r & r' & keep & Er & _ & K & P & _); try assumption.
  { intros o q Hq. apply (Hi o q). eapply k_readable_In. exact Hq. }
  exists k0, k, (filter (fun o => negb (eqpt RA (location o) l)) r), (fun q => negb (eqpt RA (location (fst q)) l) && keep q).
  split; [exact C|]. split; [exact E|]. split; [rewrite (neighbors_same RA location k 0), Er; reflexivity|]. split.
  - intros o q Hq. cbn [fst]. rewrite andb_true_iff, (K o q Hq), negb_true_iff, <- not_true_iff_false. rewrite (eqpt_R (location o) l). reflexivity.
  - etransitivity; [apply perm_filter; exact P|]. rewrite often_filter. erewrite as_often_ext; [reflexivity|]. intros q _. cbv beta.
    destruct (negb _), (keep q); reflexivity.
Qed.
Print Assumptions C78_answer_partial.

(** Non-vacuity: the object of [C30_repeated_refuted], looked at nine times; and an object
    on the far border of a field that is not toroidal, which only queries that reach below
    0 look at. *)
Lemma Zfloor_int n : Zfloor (IZR n / 1) = n.
Proof. unfold Rdiv. rewrite Rinv_1, Rmult_1_r. apply Zfloor_IZR. Qed.
Lemma Zceil_int n : Zceil (IZR n / 1) = n.
Proof. unfold Rdiv. rewrite Rinv_1, Rmult_1_r. apply Zceil_IZR. Qed.
Example C30_answer_concrete :
  usable_R 3 3 1 /\
  visits false 3 3 1 (1, 1) 3 (1, 1) = 9%nat /\ selected false 3 3 1 (1, 1) 3 (1, 1) (1, 1) /\
  visits true 3 3 1 (1, 1) 3 (1, 1) = 1%nat /\
  visits false 3 3 1 (1, 1) 1 (3, 1) = 0%nat /\ visits false 3 3 1 (0, 1) 3 (3, 1) = 3%nat.
Proof.
  split; [|split; [|split; [|split; [|split]]]].
  - unfold usable_R. rewrite !Zceil_int. split; [lra|]. split; [lra|]. split; [lra|]. cbn. lia.
  - unfold visits, column. cbn [fst snd]. rewrite !Zceil_int, !Zfloor_int. reflexivity.
  - left. intros [cx cy] (Hx & Hy). unfold column in *. cbn [fst snd] in *. rewrite !Zfloor_int in *. rewrite Rmin_left in Hx by lra. rewrite Rmin_left in Hy by lra.
    unfold close, plane_distance. cbn [fst snd]. rewrite <- (sqrt_square 3) by lra. apply sqrt_le_1_alt. nra.
  - unfold visits, column. cbn [fst snd]. rewrite !Zceil_int, !Zfloor_int. reflexivity.
  - unfold visits, column. cbn [fst snd]. rewrite !Zceil_int, !Zfloor_int. reflexivity.
  - unfold visits, column. cbn [fst snd]. rewrite !Zceil_int, !Zfloor_int. reflexivity.
Qed.
