(** * Proofs about the Kdtree of one process, in terms of the last two epochs *)
From Coq Require Import List Bool ZArith NArith Arith Lia Permutation.
From Verif Require Import F32 Grid ObjModel FieldModel FieldSpec FieldProofs KdModel KdSpec KdProofs KdStore DistSpec.
Import ListNotations.
Local Open Scope nat_scope.

Section Tree.
Variable A : arith.
Context {O : Type}.
Notation pt := (num A * num A)%type.
Notation kop := (kop A (O := O)).
Notation kdtree := (kdtree A (O := O)).
Variable location : O -> pt.
Variable p rank : nat.
Variables x y w h d dist : num A.
Hypothesis GS : good_size A w h d.
Hypothesis Hp : 2 <= p.
Hypothesis Hr : rank < p.
Variable k0 : kdtree.
Hypothesis Made : create_tree A p (Z.of_nat rank) 0 x y w h d dist = Some k0.
Notation nw := (cols A w d).
Notation nh := (cols A h d).
Definition never (_ _ : O) : bool := false.

(** [k] is [k0] after calls, [S] since the last [lazy_update], [E] in the epoch before. *)
Definition epoch (k : kdtree) (E : option (list kop)) (S : list kop) : Prop :=
  exists cs, Forall (k_in A p w h d) cs /\ k_run A never p k0 cs = Some k /\
    since_update A (rev cs) = S /\ before_update A (rev cs) = E.

Lemma fresh : kwf A w h d k0 /\
    (forall l g, region_of A k0 l = Some g -> (0 <= g < 4)%Z) /\
    (forall c, in_range nw nh c -> vget (k_read k0) (cell_index nh c) = Some []) /\
    (forall c, in_range nw nh c -> vget (k_write k0) (cell_index nh c) = Some []) /\
    k_neighbors k0 = repeat [] 4 /\ k_prec_neighbors k0 = [] /\ k_agents_to_send k0 = repeat [] p /\
    NoDup (concat (k_neighbor_regions k0)).
Proof.
  destruct (fresh_tree A (O := O) p rank x y w h d dist GS Hp Hr) as (k & C & K0 & F1 & F2 & F3 & F4 & F5 & F6 & F7 & F8 & F9 & _).
  rewrite Made in C. injection C as <-. auto 10.
Qed.

Lemma history cs : Forall (k_in A p w h d) cs ->
  exists k, k_run A never p k0 cs = Some k /\ kwf A w h d k /\ shape A k = shape A k0 /\ k_after A never w h d p k0 cs k.
Proof. destruct fresh as (K0 & F1 & F2 & F3 & F4 & F5 & F6 & _). intros Hin. apply k_history; assumption. Qed.

Lemma epoch_start : epoch k0 None [].
Proof. exists []. cbn. auto. Qed.

Lemma epoch_op k E S c : epoch k E S -> k_in A p w h d c -> c <> KLazyUpdate ->
  exists k', k_step A never p k c = Some k' /\ epoch k' E (S ++ [c]).
Proof.
  intros (cs & Hin & Hk & HS & HE) Hc Nl.
  assert (Hin' : Forall (k_in A p w h d) (cs ++ [c])) by (apply Forall_app; auto).
  destruct (history _ Hin') as (k' & E' & _). pose proof E' as E2. rewrite run_snoc, Hk in E'.
  exists k'. split; [exact E'|]. exists (cs ++ [c]). split; [exact Hin'|]. split; [exact E2|].
  rewrite (since_snoc A cs c Nl), (before_snoc A cs c Nl), HS, HE. auto.
Qed.
Lemma epoch_update k E S : epoch k E S -> exists k', k_lazy_update A p k = Some k' /\ epoch k' (Some S) [].
Proof.
  intros (cs & Hin & Hk & HS & HE).
  assert (Hin' : Forall (k_in A p w h d) (cs ++ [KLazyUpdate])) by (apply Forall_app; repeat constructor; auto).
  destruct (history _ Hin') as (k' & E' & _). pose proof E' as E2. rewrite run_snoc, Hk in E'.
  exists k'. split; [exact E'|]. exists (cs ++ [KLazyUpdate]). split; [exact Hin'|]. split; [exact E2|].
  rewrite rev_app_distr. cbn. rewrite HS. auto.
Qed.
Lemma epoch_shape k E S : epoch k E S -> kwf A w h d k /\ shape A k = shape A k0.
Proof.
  intros (cs & Hin & Hk & _). destruct (history _ Hin) as (k' & E' & W & Sh & _). rewrite Hk in E'. injection E' as <-. auto.
Qed.

(** ** What is readable *)
Definition tidy (c : kop) : Prop :=
  match c with KInsert o l | KInsertRead o l => l = location o | KAddress _ _ => True | _ => False end.
Definition inserted (e : list kop) : list O := flat_map (fun c => match c with KInsert o _ => [o] | _ => [] end) e.
Definition copied (e : list kop) : list O := flat_map (fun c => match c with KInsertRead o _ => [o] | _ => [] end) e.
Definition at_home (l : list O) : list (O * pt) := map (fun o => (o, location o)) l.

Lemma live_tidy e : Forall tidy e -> live A never d (flat_map (as_calls A) e) = at_home (inserted e).
Proof.
  intros F. induction F as [|c e Hc F IH]; [reflexivity|].
  assert (NT : forall o l, existsb (takes_back A never d o l) (flat_map (as_calls A) e) = false).
  { intros o l. destruct (existsb _ _) eqn:X; [|reflexivity]. apply existsb_exists in X. destruct X as (f & _ & Hf).
    unfold takes_back, never in Hf. destruct f; try discriminate. rewrite andb_false_r in Hf. discriminate. }
  destruct c; cbn [tidy] in Hc; try contradiction; cbn [flat_map as_calls app live inserted at_home map].
  - rewrite NT. subst l. f_equal. exact IH.
  - exact IH.
  - exact IH.
Qed.
Lemma read_tidy e : Forall tidy e -> read_inserts A e = at_home (copied e).
Proof.
  intros F. induction F as [|c e Hc F IH]; [reflexivity|].
  destruct c; cbn [tidy] in Hc; try contradiction; cbn [read_inserts copied flat_map app at_home map]; try exact IH.
  subst l. f_equal. exact IH.
Qed.
Lemma current_calls (cs : list kop) : current_epoch A (rev (flat_map (as_calls A) cs)) = flat_map (as_calls A) (since_update A (rev cs)).
Proof.
  induction cs as [|c cs IH] using rev_ind; [reflexivity|]. rewrite flat_map_app, !rev_app_distr. cbn [rev app flat_map].
  destruct c; cbn [as_calls rev app since_update current_epoch flat_map]; try (rewrite flat_map_app; cbn [flat_map as_calls app]; rewrite IH, ?app_nil_r; reflexivity). reflexivity.
Qed.
Lemma previous_calls (cs : list kop) : previous_epoch A (rev (flat_map (as_calls A) cs)) =
  match before_update A (rev cs) with Some e => flat_map (as_calls A) e | None => [] end.
Proof.
  induction cs as [|c cs IH] using rev_ind; [reflexivity|]. rewrite flat_map_app, !rev_app_distr. cbn [rev app flat_map].
  destruct c; cbn [as_calls rev app before_update previous_epoch flat_map]; try exact IH. apply current_calls.
Qed.

Lemma epoch_cells k E S c : epoch k (Some E) S -> Forall tidy E -> Forall tidy S -> in_range nw nh c ->
  vget (k_read k) (cell_index nh c) = Some (filter (fun o => loc_eqb (discretize A d (location o)) c) (inserted E ++ copied S)).
Proof.
  intros (cs & Hin & Hk & HS & HE) FE FS Hc. destruct (history _ Hin) as (k' & E' & _ & _ & (B & _)). rewrite Hk in E'. injection E' as <-.
  destruct (B c Hc) as [R _]. rewrite R. f_equal. unfold k_readable, readable. rewrite previous_calls, HE, HS, live_tidy, read_tidy by assumption.
  unfold at_home. rewrite <- map_app. unfold FieldProofs.at_cell. induction (inserted E ++ copied S) as [|o l IH]; [reflexivity|]. cbn [map filter snd fst].
  destruct (loc_eqb _ c); cbn [map fst]; rewrite IH; reflexivity.
Qed.

Lemma epoch_shows k E S : epoch k (Some E) S -> Forall tidy E -> Forall tidy S ->
  tree_shows A location w h d k (inserted E ++ copied S).
Proof.
  intros He FE FS l Hl. destruct (epoch_shape _ _ _ He) as [(_ & _ & W3 & W4 & _) _].
  eexists. split; [unfold k_index; rewrite W3, W4; apply (epoch_cells k E S _ He FE FS); exact Hl|]. reflexivity.
Qed.

(** ** Queries *)
Lemma relax_read k k' l r : shape A k = shape A k0 -> shape A k' = shape A k0 -> k_read k' = k_read k ->
  k_relax A location k' l r = k_relax A location k l r.
Proof.
  intros E1 E2 E3. unfold shape in *. rewrite <- E1 in E2. injection E2 as _ _ _ _ H5 H6 H7 H8 H9 _ _ _ _ H10.
  unfold k_relax, k_window. rewrite H5, H6, H7, H9, H10, E3. reflexivity.
Qed.
Lemma relax_some k E S l r : epoch k E S -> exists v, k_relax A location k l r = Some v.
Proof.
  intros He. destruct (epoch_shape _ _ _ He) as [W _]. rewrite (relax_same A location k 0%N).
  destruct (relax_total A w h d true GS _ l (clipped A k r) (as_field_wf A w h d k W)) as [v ->]. cbn. eauto.
Qed.

(** ** What is sent *)
Lemma epoch_mail k E S arg : epoch k E S ->
  outgoing A p k arg false = Some (map (fun s => if existsb (Z.eqb (Z.of_nat s)) (k_neighbor_trees k0) then addressed A S s else []) (seq 0 p)).
Proof.
  intros (cs & Hin & Hk & HS & HE). destruct (outgoing_addressed A never p rank x y w h d dist cs arg GS Hp Hr Hin) as (k1 & k2 & out & C & E1 & E2 & ->).
  rewrite Made in C. injection C as <-. rewrite Hk in E1. injection E1 as <-. rewrite HS in E2. exact E2.
Qed.
Lemma epoch_sent k E S : epoch k E S -> k_agents_to_send k = map (addressed A S) (seq 0 p).
Proof.
  intros (cs & Hin & Hk & HS & HE). destruct (history _ Hin) as (k' & E' & _ & _ & (_ & _ & _ & B)). rewrite Hk in E'. injection E' as <-.
  rewrite HS in B. exact B.
Qed.
Lemma epoch_halo k E S : epoch k (Some E) S ->
  outgoing A p k (k_prec_neighbors k) true = Some (map (fun s => flat_map (fun n => if (snd n =? Z.of_nat s)%Z then inserted_in A (region_of A k0) E (fst n) else []) (concat (k_neighbor_regions k0))) (seq 0 p)).
Proof.
  intros (cs & Hin & Hk & HS & HE). destruct (outgoing_regions A never p rank x y w h d dist cs E GS Hp Hr Hin HE) as (k1 & k2 & out & C & E1 & E2 & ->).
  rewrite Made in C. injection C as <-. rewrite Hk in E1. injection E1 as <-. exact E2.
Qed.

(** The halo slots hold every inserted agent of a listed region once. *)
Lemma inserted_region e g : Forall tidy e ->
  inserted_in A (region_of A k0) e g = filter (fun o => match region_of A k0 (location o) with Some i => (i =? g)%Z | None => false end) (inserted e).
Proof.
  intros F. induction F as [|c e Hc F IH]; [reflexivity|].
  destruct c; cbn [tidy] in Hc; try contradiction; cbn [inserted_in inserted flat_map app]; try exact IH.
  subst l. cbn [filter]. destruct (region_of A k0 (location o)) as [i|]; [destruct (i =? g)%Z|]; cbn [app]; try exact IH. f_equal. exact IH.
Qed.
Lemma filter_or_perm {X} (f g : X -> bool) l : (forall o, f o = true -> g o = false) ->
  Permutation (filter f l ++ filter g l) (filter (fun o => f o || g o) l).
Proof.
  intros D. induction l as [|o l IH]; [reflexivity|]. cbn [filter]. destruct (f o) eqn:F; cbn [orb app].
  - rewrite (D o F). constructor. exact IH.
  - destruct (g o); [|exact IH]. symmetry. apply Permutation_cons_app. symmetry. exact IH.
Qed.
Lemma halo_slot E r : Forall tidy E ->
  Permutation (flat_map (fun n => if (snd n =? Z.of_nat r)%Z then inserted_in A (region_of A k0) E (fst n) else []) (concat (k_neighbor_regions k0)))
    (filter (fun o => match region_of A k0 (location o) with
                      | None => false
                      | Some g => existsb (fun n => (fst n =? g)%Z && (snd n =? Z.of_nat r)%Z) (concat (k_neighbor_regions k0))
                      end) (inserted E)).
Proof.
  intros F. destruct fresh as (_ & _ & _ & _ & _ & _ & _ & ND). revert ND. generalize (concat (k_neighbor_regions k0)). intros l ND.
  induction ND as [|[g i] l Hn ND IH]; cbn [flat_map].
  - induction (inserted E) as [|o q IH]; [reflexivity|]. cbn. destruct (region_of A k0 (location o)); exact IH.
  - cbn [fst snd]. rewrite IH. clear IH. destruct (Z.eqb_spec i (Z.of_nat r)) as [->|Ni].
    + rewrite inserted_region by exact F. rewrite filter_or_perm.
      * erewrite filter_ext; [reflexivity|]. intros o. cbn beta. destruct (region_of A k0 (location o)) as [j|]; [|reflexivity].
        cbn [existsb fst snd]. rewrite Z.eqb_refl, andb_true_r. rewrite (Z.eqb_sym j g). reflexivity.
      * intros o. cbn beta. destruct (region_of A k0 (location o)) as [j|]; [|reflexivity]. intros Hj. apply Z.eqb_eq in Hj. subst j.
        destruct (existsb _ l) eqn:X; [|reflexivity]. apply existsb_exists in X. destruct X as ([a b] & Hin & Hab). cbn [fst snd] in Hab.
        apply andb_true_iff in Hab. destruct Hab as [H1 H2]. apply Z.eqb_eq in H1, H2. subst. contradiction.
    + cbn [app]. erewrite filter_ext; [reflexivity|]. intros o. cbn beta. destruct (region_of A k0 (location o)) as [j|]; [|reflexivity].
      cbn [existsb fst snd]. destruct (Z.eqb_spec i (Z.of_nat r)); [contradiction|]. rewrite andb_false_r. reflexivity.
Qed.
End Tree.
