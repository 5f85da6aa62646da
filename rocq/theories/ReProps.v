(** * Closures that use the field they are given to: C119, C120, C121 *)
From Coq Require Import List Bool ZArith NArith Arith Lia Permutation.
From Verif Require Import F32 Grid DashModel NumModel NumProofs NumSpec ObjModel FieldModel ReModel ReSpec ReProofs ReInst.
Import ListNotations.
Local Open Scope nat_scope.

Local Notation od_asks := (asks odr_needs odr_ap_needs).
Local Notation os_asks := (asks osr_needs osr_ap_needs).
Local Notation dg_asks := (asks dgr_needs dgr_ap_needs).
Local Notation sg_asks := (asks sgr_needs sgr_ap_needs).
Local Notation fd_asks A := (asks (fr_needs A) (fun _ => [])).

(** ** The two buffers, for every field: what is visited is what was there *)
Section Both.
Context {X : Type}.

Lemma od_iter_any {O} eqo b (f : loc * O -> od_prog O unit) (k : od_prog O X) g :
  (forall x, od_asks (fun h => h <> (b, Change)) (f x)) ->
  od_exec eqo (Iter tt b f k) [] g =
  match (match b with Pub => od_iter g | Wrt => od_iter_unbuffered g end) with
  | None => None
  | Some xs => od_exec eqo (each xs f k) [] g
  end.
Proof.
  intros Q. unfold od_exec.
  rewrite (run_iter odr_needs (odr_act eqo) odr_groups odr_items true odr_ap_needs odr_ap_items (odr_ap_finish eqo)
             od_same (od_same_refl) (od_same_trans) (od_act_same eqo) (od_fin_same eqo) od_same_items
             tt b f k [] g Q eq_refl).
  rewrite od_contents. reflexivity.
Qed.
Lemma os_iter_any {O} eqo it b (f : loc * O -> os_prog O unit) (k : os_prog O X) g :
  (forall x, os_asks (fun h => h <> (b, Change)) (f x)) ->
  os_exec eqo (Iter it b f k) [] g =
  os_exec eqo (each (match b with Pub => os_iter it g | Wrt => os_iter_unbuffered it g end) f k) [] g.
Proof.
  intros Q. unfold os_exec.
  rewrite (run_iter osr_needs (osr_act eqo) osr_groups osr_items true osr_ap_needs osr_ap_items osr_ap_finish
             os_same); [rewrite os_contents; reflexivity|..]; unfold os_same; try congruence; try assumption.
  - intros b0 c s s' r. apply (os_act_same eqo b0 c s s' r).
  - intros b0 r o outs s s'. apply (os_fin_same b0 r o outs s s').
  - intros b0 s s' r g0 E. unfold osr_items. rewrite E. reflexivity.
  - reflexivity.
Qed.
Lemma dg_iter_any {T} eqv b (f : loc * T -> dg_prog T unit) (k : dg_prog T X) g :
  (forall x, dg_asks (fun h => h <> (b, Change)) (f x)) ->
  dg_exec eqv (Iter tt b f k) [] g =
  match (match b with Pub => dg_iter g | Wrt => dg_iter_unbuffered g end) with
  | None => None
  | Some xs => dg_exec eqv (each xs f k) [] g
  end.
Proof.
  intros Q. unfold dg_exec.
  rewrite (run_iter dgr_needs (dgr_act eqv) dgr_groups dgr_items false dgr_ap_needs dgr_ap_items dgr_ap_finish
             dg_same (dg_same_refl) (dg_same_trans) (dg_act_same eqv) (dg_fin_same) dg_same_items
             tt b f k [] g Q eq_refl).
  rewrite dg_contents. reflexivity.
Qed.
Lemma sg_iter_any {T} eqv it b (f : loc * T -> sg_prog T unit) (k : sg_prog T X) g :
  (forall x, sg_asks (fun h => h <> (b, Change)) (f x)) ->
  sg_exec eqv (Iter it b f k) [] g =
  sg_exec eqv (each (match b with Pub => sg_iter it g | Wrt => sg_iter_unbuffered it g end) f k) [] g.
Proof.
  intros Q. unfold sg_exec.
  rewrite (run_iter sgr_needs (sgr_act eqv) sgr_groups sgr_items true sgr_ap_needs sgr_ap_items sgr_ap_finish
             sg_same); [rewrite sg_contents; reflexivity|..]; unfold sg_same; try congruence; try assumption.
  - intros b0 c s s' r. apply (sg_act_same eqv b0 c s s' r).
  - intros b0 r o outs s s'. apply (sg_fin_same b0 r o outs s s').
  - intros b0 s s' r g0 E. unfold sgr_items. rewrite E. reflexivity.
  - reflexivity.
Qed.
Lemma fd_iter_any {A O} eqo location b (f : (num A * num A) * O -> f_prog A unit) (k : f_prog A X) (g : @field2d A O) :
  (forall x, fd_asks A (fun h => h <> (b, Change)) (f x)) ->
  f_exec A eqo location (Iter tt b f k) [] g =
  match (match b with Pub => f_iter A g | Wrt => f_iter_unbuffered A g end) with
  | None => None
  | Some xs => f_exec A eqo location (each xs f k) [] g
  end.
Proof.
  intros Q. unfold f_exec.
  rewrite (run_iter (fr_needs A) (fr_act A eqo location) (fr_groups A) (fr_items A) true (fun _ => []) (fun _ _ _ => None)
             (fun _ _ _ _ => None) (fd_same A)); [rewrite fd_contents; reflexivity|..]; try assumption.
  - apply fd_same_refl.
  - apply fd_same_trans.
  - intros b0 c s s' r. apply fd_act_same.
  - discriminate.
  - apply fd_same_items.
  - reflexivity.
Qed.
End Both.

(** ** C119: a closure given to [iter_objects] or [iter_values] may use the field

    Whatever the closure does with the field, short of asking to change the published
    state (only [apply_to_all_values] with READ does, and in [Field2D]
    [get_neighbors_within_relax_distance]), iterating is the same as taking the list of
    published items first and then calling the closure on each, outside of the
    iteration. *)
Theorem C119_dense_objects : forall O eqo X (f : loc * O -> od_prog O unit) (k : od_prog O X) (g : odense O),
  (forall x, od_asks (fun h => h <> (Pub, Change)) (f x)) ->
  od_exec eqo (Iter tt Pub f k) [] g =
  match od_iter g with
  | None => None
  | Some xs => od_exec eqo (each xs f k) [] g
  end.
Proof. intros. apply (od_iter_any eqo Pub). assumption. Qed.
Print Assumptions C119_dense_objects.

Theorem C119_sparse_objects : forall O eqo it X (f : loc * O -> os_prog O unit) (k : os_prog O X) (g : osparse O),
  (forall x, os_asks (fun h => h <> (Pub, Change)) (f x)) ->
  os_exec eqo (Iter it Pub f k) [] g = os_exec eqo (each (os_iter it g) f k) [] g.
Proof. intros. apply (os_iter_any eqo it Pub). assumption. Qed.
Print Assumptions C119_sparse_objects.

Theorem C119_dense_numbers : forall T eqv X (f : loc * T -> dg_prog T unit) (k : dg_prog T X) (g : dgrid T),
  (forall x, dg_asks (fun h => h <> (Pub, Change)) (f x)) ->
  dg_exec eqv (Iter tt Pub f k) [] g =
  match dg_iter g with
  | None => None
  | Some xs => dg_exec eqv (each xs f k) [] g
  end.
Proof. intros. apply (dg_iter_any eqv Pub). assumption. Qed.
Print Assumptions C119_dense_numbers.

Theorem C119_sparse_numbers : forall T eqv it X (f : loc * T -> sg_prog T unit) (k : sg_prog T X) (g : sgrid T),
  (forall x, sg_asks (fun h => h <> (Pub, Change)) (f x)) ->
  sg_exec eqv (Iter it Pub f k) [] g = sg_exec eqv (each (sg_iter it g) f k) [] g.
Proof. intros. apply (sg_iter_any eqv it Pub). assumption. Qed.
Print Assumptions C119_sparse_numbers.

Theorem C119_field_partial : forall A O eqo location X (f : (num A * num A) * O -> f_prog A unit) (k : f_prog A X) (g : @field2d A O),
  (forall x, fd_asks A (fun h => h <> (Pub, Change)) (f x)) ->
  f_exec A eqo location (Iter tt Pub f k) [] g =
  match f_iter A g with
  | None => None
  | Some xs => f_exec A eqo location (each xs f k) [] g
  end.
Proof. intros. apply (fd_iter_any eqo location Pub). assumption. Qed.
Print Assumptions C119_field_partial.

(** In particular, closures that make calls without a closure of their own: on the grids
    all of them are allowed, and the iteration is the closure on each item in turn. *)
Lemma odr_needs_top {O} (c : ocall O) g : all_free [] (odr_needs c g) = true.
Proof. destruct c; cbn; try reflexivity; destruct (cells _ _); reflexivity. Qed.
Lemma osr_needs_top {O} c (g : osparse O) : all_free [] (osr_needs c g) = true.
Proof. destruct c as [c it]; destruct c; cbn; try reflexivity; unfold osr_needs; cbn; destruct (cells _ _); reflexivity. Qed.
Lemma dgr_needs_top {T} (c : gcall T) g : all_free [] (dgr_needs c g) = true.
Proof. destruct c; cbn; try reflexivity; destruct (cells _ _); reflexivity. Qed.
Lemma sgr_needs_top {T} c (g : sgrid T) : all_free [] (sgr_needs c g) = true.
Proof. destruct c as [c it]; destruct c; cbn; try reflexivity; unfold sgr_needs; cbn; destruct (cells _ _); reflexivity. Qed.
Lemma odr_needs_quiet {O} (c : ocall O) g h : In h (odr_needs c g) -> h <> (Pub, Change).
Proof. destruct c; cbn; try (destruct (cells _ _); cbn); intuition (subst; discriminate). Qed.
Lemma osr_needs_quiet {O} c (g : osparse O) h : In h (osr_needs c g) -> h <> (Pub, Change).
Proof. destruct c as [c it]; destruct c; cbn; unfold osr_needs; cbn; try (destruct (cells _ _); cbn); intuition (subst; discriminate). Qed.
Lemma dgr_needs_quiet {T} (c : gcall T) g h : In h (dgr_needs c g) -> h <> (Pub, Change).
Proof. destruct c; cbn; try (destruct (cells _ _); cbn); intuition (subst; discriminate). Qed.
Lemma sgr_needs_quiet {T} c (g : sgrid T) h : In h (sgr_needs c g) -> h <> (Pub, Change).
Proof. destruct c as [c it]; destruct c; cbn; unfold sgr_needs; cbn; try (destruct (cells _ _); cbn); intuition (subst; discriminate). Qed.

Theorem C119_dense_objects_calls : forall O eqo (f : loc * O -> od_prog O unit) (g : odense O),
  (forall x, plain (f x)) ->
  od_exec eqo (Iter tt Pub f (Ret tt)) [] g =
  match od_iter g with
  | None => None
  | Some xs => option_map (fun g' => (g', tt)) (in_turn (odr_act eqo) f xs g)
  end.
Proof.
  intros O eqo f g P. rewrite C119_dense_objects.
  - destruct (od_iter g) as [xs|]; [|reflexivity]. apply run_each_plain; [apply odr_needs_top|exact P].
  - intros x. apply plain_asks; [apply odr_needs_quiet|apply P].
Qed.
Print Assumptions C119_dense_objects_calls.

Theorem C119_sparse_objects_calls : forall O eqo it (f : loc * O -> os_prog O unit) (g : osparse O),
  (forall x, plain (f x)) ->
  os_exec eqo (Iter it Pub f (Ret tt)) [] g =
  option_map (fun g' => (g', tt)) (in_turn (osr_act eqo) f (os_iter it g) g).
Proof.
  intros O eqo it f g P. rewrite C119_sparse_objects.
  - apply run_each_plain; [apply osr_needs_top|exact P].
  - intros x. apply plain_asks; [apply osr_needs_quiet|apply P].
Qed.
Print Assumptions C119_sparse_objects_calls.

Theorem C119_dense_numbers_calls : forall T eqv (f : loc * T -> dg_prog T unit) (g : dgrid T),
  (forall x, plain (f x)) ->
  dg_exec eqv (Iter tt Pub f (Ret tt)) [] g =
  match dg_iter g with
  | None => None
  | Some xs => option_map (fun g' => (g', tt)) (in_turn (dgr_act eqv) f xs g)
  end.
Proof.
  intros T eqv f g P. rewrite C119_dense_numbers.
  - destruct (dg_iter g) as [xs|]; [|reflexivity]. apply run_each_plain; [apply dgr_needs_top|exact P].
  - intros x. apply plain_asks; [apply dgr_needs_quiet|apply P].
Qed.
Print Assumptions C119_dense_numbers_calls.

Theorem C119_sparse_numbers_calls : forall T eqv it (f : loc * T -> sg_prog T unit) (g : sgrid T),
  (forall x, plain (f x)) ->
  sg_exec eqv (Iter it Pub f (Ret tt)) [] g =
  option_map (fun g' => (g', tt)) (in_turn (sgr_act eqv) f (sg_iter it g) g).
Proof.
  intros T eqv it f g P. rewrite C119_sparse_numbers.
  - apply run_each_plain; [apply sgr_needs_top|exact P].
  - intros x. apply plain_asks; [apply sgr_needs_quiet|apply P].
Qed.
Print Assumptions C119_sparse_numbers_calls.

(** The same of [Field2D] is false: a closure that asks for the neighbours within the
    relaxed distance panics as soon as there is an object and a bag to look at, although
    the query is fine outside of the iteration. *)
Theorem C119_field_relax_refuted : forall A O eqo location X
  (f : (num A * num A) * O -> f_prog A unit) (k : f_prog A X) (g : @field2d A O) xs,
  f_iter A g = Some xs -> xs <> [] ->
  (forall x, exists l d k', f x = Do (DRelax A l d) k' /\
     le A d (of_int A 0) = false /\ exists c cs, window A g l d = Some (c :: cs)) ->
  f_exec A eqo location (Iter tt Pub f k) [] g = None.
Proof.
  intros A O eqo location X f k g xs E N Q.
  apply (run_iter_clash (fr_needs A) (fr_act A eqo location) (fr_groups A) (fr_items A) true (fun _ => []) (fun _ _ _ => None)
             (fun _ _ _ _ => None)); [reflexivity|..].
  - intros x. destruct (Q x) as (l & d & k' & -> & L & c & cs & W). exists (DRelax A l d), k'. split; [reflexivity|].
    cbn. unfold fr_looks. rewrite L, W. left. reflexivity.
  - intros ys. rewrite (fd_contents A Pub g), E. intros [= <-]. exact N.
Qed.
Print Assumptions C119_field_relax_refuted.

(** Only the bags looked at count: if the distance is not positive or the window is empty,
    the query is fine in the iteration too and finds nobody. *)
Theorem C119_field_relax_partial : forall A O eqo location X
  (f : (num A * num A) * O -> f_prog A unit) (k : f_prog A X) (g : @field2d A O) xs,
  f_iter A g = Some xs ->
  (forall x, exists l d, f x = Do (DRelax A l d) (fun r => match r with FObjects [] => Ret tt | _ => f x end) /\
     (le A d (of_int A 0) = true \/ window A g l d = Some [])) ->
  f_exec A eqo location (Iter tt Pub f k) [] g = f_exec A eqo location k [] g.
Proof.
  intros A O eqo location X f k g xs E Q. unfold f_exec. cbn [run].
  assert (B : forall x, option_map fst (run (fr_needs A) (fr_act A eqo location) (fr_groups A) (fr_items A) true (fun _ => []) (fun _ _ _ => None)
             (fun _ _ _ _ => None) (f x) [(Pub, Look)] g) = Some g).
  { intros x. destruct (Q x) as (l & d & Ef & W). rewrite Ef. cbn [run fr_needs].
    assert (L : fr_looks A g l d = false) by (unfold fr_looks; destruct W as [-> | ->]; [reflexivity|destruct (le _ _ _); reflexivity]).
    assert (R : f_relax A g l d = Some []) by (unfold f_relax; destruct W as [-> | ->]; [reflexivity|destruct (le _ _ _); reflexivity]).
    rewrite L. unfold fr_act. cbn [fcall_op f_step query]. rewrite R. reflexivity. }
  assert (F : forall ys, for_each (fun x s => option_map fst (run (fr_needs A) (fr_act A eqo location) (fr_groups A) (fr_items A) true (fun _ => []) (fun _ _ _ => None)
             (fun _ _ _ _ => None) (f x) [(Pub, Look)] s)) ys g = Some g).
  { induction ys as [|y ys IH]; cbn [for_each]; [reflexivity|]. rewrite B. exact IH. }
  rewrite <- (fd_contents A Pub g) in E. unfold contents in E.
  destruct (mapM (fun c => fr_items A tt Pub c g) (fr_groups A Pub g)) as [xss|] eqn:M; [|discriminate]. clear E.
  assert (G : for_each (fun c s => if free [] (Pub, Look) then
      match fr_items A tt Pub c s with
      | None => None
      | Some ys => for_each (fun x s => option_map fst (run (fr_needs A) (fr_act A eqo location) (fr_groups A) (fr_items A) true (fun _ => []) (fun _ _ _ => None)
             (fun _ _ _ _ => None) (f x) [(Pub, Look)] s)) ys s
      end else None) (fr_groups A Pub g) g = Some g).
  { revert xss M. generalize (fr_groups A Pub g). induction l as [|c l IH]; intros xss M; cbn [for_each]; [reflexivity|].
    cbn [mapM] in M. destruct (fr_items A tt Pub c g) as [ys|]; [|discriminate]. cbn [free forallb]. rewrite F.
    destruct (mapM _ l) as [yss|]; [|discriminate]. eapply IH. reflexivity. }
  lazymatch goal with |- match ?Y with _ => _ end = _ => replace Y with (Some g) by (symmetry; exact G) end. reflexivity.
Qed.
Print Assumptions C119_field_relax_partial.

(** ** C120: a closure given to an unbuffered iteration

    As long as it does not ask to change the write buffer, iterating is again the same as
    calling the closure on the list of the items written so far. *)
Theorem C120_dense_objects_partial : forall O eqo X (f : loc * O -> od_prog O unit) (k : od_prog O X) (g : odense O),
  (forall x, od_asks (fun h => h <> (Wrt, Change)) (f x)) ->
  od_exec eqo (Iter tt Wrt f k) [] g =
  match od_iter_unbuffered g with
  | None => None
  | Some xs => od_exec eqo (each xs f k) [] g
  end.
Proof. intros. apply (od_iter_any eqo Wrt). assumption. Qed.
Print Assumptions C120_dense_objects_partial.

Theorem C120_sparse_objects_partial : forall O eqo it X (f : loc * O -> os_prog O unit) (k : os_prog O X) (g : osparse O),
  (forall x, os_asks (fun h => h <> (Wrt, Change)) (f x)) ->
  os_exec eqo (Iter it Wrt f k) [] g = os_exec eqo (each (os_iter_unbuffered it g) f k) [] g.
Proof. intros. apply (os_iter_any eqo it Wrt). assumption. Qed.
Print Assumptions C120_sparse_objects_partial.

Theorem C120_dense_numbers_partial : forall T eqv X (f : loc * T -> dg_prog T unit) (k : dg_prog T X) (g : dgrid T),
  (forall x, dg_asks (fun h => h <> (Wrt, Change)) (f x)) ->
  dg_exec eqv (Iter tt Wrt f k) [] g =
  match dg_iter_unbuffered g with
  | None => None
  | Some xs => dg_exec eqv (each xs f k) [] g
  end.
Proof. intros. apply (dg_iter_any eqv Wrt). assumption. Qed.
Print Assumptions C120_dense_numbers_partial.

Theorem C120_sparse_numbers_partial : forall T eqv it X (f : loc * T -> sg_prog T unit) (k : sg_prog T X) (g : sgrid T),
  (forall x, sg_asks (fun h => h <> (Wrt, Change)) (f x)) ->
  sg_exec eqv (Iter it Wrt f k) [] g = sg_exec eqv (each (sg_iter_unbuffered it g) f k) [] g.
Proof. intros. apply (sg_iter_any eqv it Wrt). assumption. Qed.
Print Assumptions C120_sparse_numbers_partial.

Theorem C120_field_partial : forall A O eqo location X (f : (num A * num A) * O -> f_prog A unit) (k : f_prog A X) (g : @field2d A O),
  (forall x, fd_asks A (fun h => h <> (Wrt, Change)) (f x)) ->
  f_exec A eqo location (Iter tt Wrt f k) [] g =
  match f_iter_unbuffered A g with
  | None => None
  | Some xs => f_exec A eqo location (each xs f k) [] g
  end.
Proof. intros. apply (fd_iter_any eqo location Wrt). assumption. Qed.
Print Assumptions C120_field_partial.

(** A closure that starts by placing or removing something panics as soon as there is one
    item: the write buffer is still borrowed. *)
Theorem C120_dense_objects_refuted : forall O eqo X (f : loc * O -> od_prog O unit) (k : od_prog O X) (g : odense O) xs,
  od_iter_unbuffered g = Some xs -> xs <> [] ->
  (forall x, exists c k', f x = Do c k' /\ places c) ->
  od_exec eqo (Iter tt Wrt f k) [] g = None.
Proof.
  intros O eqo X f k g xs E N Q. apply run_iter_clash; [reflexivity|..].
  - intros x. destruct (Q x) as (c & k' & -> & P). exists c, k'. split; [reflexivity|].
    destruct c; destruct P; cbn; auto.
  - intros ys. rewrite od_contents, E. intros [= <-]. exact N.
Qed.
Print Assumptions C120_dense_objects_refuted.

Theorem C120_sparse_objects_refuted : forall O eqo it X (f : loc * O -> os_prog O unit) (k : os_prog O X) (g : osparse O),
  os_iter_unbuffered it g <> [] ->
  (forall x, exists c k', f x = Do c k' /\ places (fst c)) ->
  os_exec eqo (Iter it Wrt f k) [] g = None.
Proof.
  intros O eqo it X f k g N Q. apply run_iter_clash; [reflexivity|..].
  - intros x. destruct (Q x) as ([c i] & k' & -> & P). exists (c, i), k'. split; [reflexivity|].
    destruct c; destruct P; cbn; auto.
  - intros ys. rewrite os_contents. intros [= <-]. exact N.
Qed.
Print Assumptions C120_sparse_objects_refuted.

Theorem C120_sparse_numbers_refuted : forall T eqv it X (f : loc * T -> sg_prog T unit) (k : sg_prog T X) (g : sgrid T),
  sg_iter_unbuffered it g <> [] ->
  (forall x, exists c k', f x = Do c k' /\ nplaces (fst c)) ->
  sg_exec eqv (Iter it Wrt f k) [] g = None.
Proof.
  intros T eqv it X f k g N Q. apply run_iter_clash; [reflexivity|..].
  - intros x. destruct (Q x) as ([c i] & k' & -> & P). exists (c, i), k'. split; [reflexivity|].
    destruct c; destruct P; cbn; auto.
  - intros ys. rewrite sg_contents. intros [= <-]. exact N.
Qed.
Print Assumptions C120_sparse_numbers_refuted.

Theorem C120_field_refuted : forall A O eqo location X (f : (num A * num A) * O -> f_prog A unit) (k : f_prog A X) (g : @field2d A O) xs,
  f_iter_unbuffered A g = Some xs -> xs <> [] ->
  (forall x, exists o l k', f x = Do (DSet A o l) k' \/ f x = Do (DRemove A o l) k') ->
  f_exec A eqo location (Iter tt Wrt f k) [] g = None.
Proof.
  intros A O eqo location X f k g xs E N Q.
  apply (run_iter_clash (fr_needs A) (fr_act A eqo location) (fr_groups A) (fr_items A) true (fun _ => []) (fun _ _ _ => None)
             (fun _ _ _ _ => None)); [reflexivity|..].
  - intros x. destruct (Q x) as (o & l & k' & [-> | ->]); eexists; eexists; (split; [reflexivity|]); cbn; auto.
  - intros ys. rewrite (fd_contents A Wrt g), E. intros [= <-]. exact N.
Qed.
Print Assumptions C120_field_refuted.

(** Not so in the dense number grid: there the closure may rewrite the value it is given,
    cell by cell. *)
Theorem C120_dense_numbers_rewrite : forall T eqv (w h : Z) (g : dgrid T) (new : loc * T -> T),
  size_ok w h -> dg_w g = w -> dg_h g = h ->
  Z.of_nat (length (dg_read g)) = (w * h)%Z -> Z.of_nat (length (dg_write g)) = (w * h)%Z ->
  exists g',
    dg_exec eqv (Iter tt Wrt (fun p => Do (NSet (new p) (fst p)) (fun _ => Ret tt)) (Ret tt)) [] g = Some (g', tt) /\
    forall l, in_range w h l ->
      dg_get g' l = dg_get g l /\
      dg_get_unbuffered g' l = option_map (option_map (fun v => new (l, v))) (dg_get_unbuffered g l).
Proof.
  intros T eqv w h g new Sz Ew Eh Lr Lw. unfold dg_exec. cbn. unfold dgr_groups. rewrite Ew, Eh.
  assert (M : forall cs (s : dgrid T), dwf w h s -> NoDup cs -> (forall c, In c cs -> in_range w h c) ->
    exists s', for_each (fun g0 s0 => match dgr_items tt Wrt g0 s0 with
              | None => None
              | Some xs => for_each (fun x s1 => option_map fst
                  (match dg_set s1 (new x) (fst x) with Some a => Some (a, @RUnit T) | None => None end)) xs s0
              end) cs s = Some s' /\ dwf w h s' /\
      forall l, in_range w h l -> dg_get s' l = dg_get s l /\
        dg_get_unbuffered s' l = if existsb (loc_eqb l) cs then option_map (option_map (fun v => new (l, v))) (dg_get_unbuffered s l)
                                 else dg_get_unbuffered s l).
  { induction cs as [|c cs IH]; intros s W D R; cbn [for_each existsb].
    - exists s. repeat split; try apply W; reflexivity.
    - apply NoDup_cons_iff in D. destruct D as [N D'].
      assert (Rc := R c (or_introl eq_refl)).
      assert (It : dgr_items tt Wrt c s = option_map (fun e => match e with None => [] | Some v => [(c, v)] end) (dg_get_unbuffered s c)) by reflexivity.
      rewrite It. destruct (dg_getu_total w h s c W Sz Rc) as [e Ee]. rewrite Ee. cbn [option_map].
      destruct e as [v|]; cbn [for_each].
      + destruct (dg_put_ok w h s c (Some (new (c, v))) W Sz Rc) as (s1 & E1 & W1 & H1).
        unfold dg_set. cbn [fst]. rewrite E1. cbn [option_map fst].
        destruct (IH s1 W1 D' (fun c' H => R c' (or_intror H))) as (s2 & E2 & W2 & H2).
        exists s2. split; [exact E2|]. split; [exact W2|]. intros l Hl.
        destruct (H1 l Hl) as [A1 A2], (H2 l Hl) as [B1 B2]. split; [congruence|]. rewrite B2, A2.
        destruct (loc_eqb l c) eqn:El; cbn [orb].
        * apply loc_eqb_eq in El. subst l. rewrite Ee. cbn.
          destruct (existsb (loc_eqb c) cs) eqn:X; [|reflexivity]. exfalso. apply existsb_exists in X.
          destruct X as (c' & I & X). apply loc_eqb_eq in X. subst c'. contradiction.
        * reflexivity.
      + destruct (IH s W D' (fun c' H => R c' (or_intror H))) as (s2 & E2 & W2 & H2).
        exists s2. split; [exact E2|]. split; [exact W2|]. intros l Hl.
        destruct (H2 l Hl) as [B1 B2]. split; [exact B1|]. rewrite B2.
        destruct (loc_eqb l c) eqn:El; cbn [orb]; [|reflexivity].
        apply loc_eqb_eq in El. subst l. rewrite Ee. destruct (existsb _ cs); reflexivity. }
  destruct (M (cells w h) g) as (g' & E & W & H).
  - repeat split; assumption.
  - apply cells_NoDup.
  - intros c Hc. apply cells_In. exact Hc.
  - exists g'. split.
    + match goal with |- match ?x with _ => _ end = _ => replace x with (Some g') end; [reflexivity|].
      rewrite <- E. apply for_each_ext. intros c s0. destruct (dgr_items tt Wrt c s0) as [xs|]; [|reflexivity].
      apply for_each_ext. intros x s1. cbn. unfold dgr_act. cbn. destruct (dg_set s1 (new x) (fst x)); reflexivity.
    + intros l Hl. destruct (H l Hl) as [H1 H2]. split; [exact H1|]. rewrite H2.
      replace (existsb (loc_eqb l) (cells w h)) with true; [reflexivity|]. symmetry. apply existsb_exists.
      exists l. split; [apply cells_In; exact Hl|apply loc_eqb_refl].
Qed.
Print Assumptions C120_dense_numbers_rewrite.

(** But then it also visits what the closure writes ahead of it: on a row of two cells with
    a value in the first, a closure that puts the successor of what it sees into the second
    cell is called twice. *)
Theorem C120_dense_numbers_refuted : exists (f : loc * nat -> dg_prog nat unit) (g : dgrid nat) xs g1 g2,
  dg_iter_unbuffered g = Some xs /\ length xs = 1 /\
  dg_exec Nat.eqb (Iter tt Wrt f (Ret tt)) [] g = Some (g1, tt) /\
  dg_exec Nat.eqb (each xs f (Ret tt)) [] g = Some (g2, tt) /\
  dg_get_unbuffered g1 (1%Z, 0%Z) = Some (Some 3) /\ dg_get_unbuffered g2 (1%Z, 0%Z) = Some (Some 2).
Proof.
  exists (fun p => Do (NSet (S (snd p)) (1%Z, 0%Z)) (fun _ => Ret tt)), (DGrid [None; None] [Some 1; None] 2%Z 1%Z).
  do 3 eexists. repeat split; vm_compute; reflexivity.
Qed.
Print Assumptions C120_dense_numbers_refuted.

(** ** C121: a closure given to [apply_to_all_values] may look at the other buffer

    Then the call is [apply_to_all_values] with the function the closure computes on the
    grid as it is before the call. *)
Theorem C121_dense_objects : forall O eqo X o (f : loc * O -> od_prog O (option O)) (k : od_prog O X) (g : odense O) fn,
  (forall x, od_asks (fun h => h = (other o, Look)) (f x)) ->
  (forall xs x, odr_ap_items tt o g = Some xs -> In x xs -> od_exec eqo (f x) [] g = Some (g, fn (fst x) (snd x))) ->
  od_exec eqo (Apply tt o f k) [] g =
  match od_apply eqo g o fn with
  | None => None
  | Some g' => od_exec eqo k [] g'
  end.
Proof.
  intros O eqo X o f k g fn Q F. unfold od_exec. rewrite run_apply.
  - rewrite <- (od_finish_agrees eqo fn o g). destruct (odr_ap_items tt o g) as [xs|] eqn:E; [|reflexivity].
    rewrite (for_all_pure _ (fun x => fn (fst x) (snd x))).
    + destruct (odr_ap_finish _ _ _ _ _); reflexivity.
    + intros x Hx. apply (F xs x eq_refl Hx).
  - destruct o; reflexivity.
  - intros x. apply (asks_weaken _ _ (fun h => h = (other o, Look))); [|apply Q].
    intros h ->. destruct o; reflexivity.
Qed.
Print Assumptions C121_dense_objects.

Theorem C121_sparse_objects : forall O eqo it X o (f : loc * O -> os_prog O (option O)) (k : os_prog O X) (g : osparse O) fn,
  (forall m, Permutation (it m) m) -> NoDup (map fst (os_read g)) -> NoDup (map fst (os_write g)) ->
  (forall x, os_asks (fun h => h = (other o, Look)) (f x)) ->
  (forall xs x, osr_ap_items it o g = Some xs -> In x xs -> os_exec eqo (f x) [] g = Some (g, fn (fst x) (snd x))) ->
  os_exec eqo (Apply it o f k) [] g =
  match os_apply it g o fn with
  | None => None
  | Some g' => os_exec eqo k [] g'
  end.
Proof.
  intros O eqo it X o f k g fn P Dr Dw Q F. unfold os_exec. rewrite run_apply.
  - rewrite <- (os_finish_agrees fn it o g P Dr Dw). destruct (osr_ap_items it o g) as [xs|] eqn:E; [|reflexivity].
    rewrite (for_all_pure _ (fun x => fn (fst x) (snd x))).
    + destruct (osr_ap_finish _ _ _ _); reflexivity.
    + intros x Hx. apply (F xs x eq_refl Hx).
  - destruct o; reflexivity.
  - intros x. apply (asks_weaken _ _ (fun h => h = (other o, Look))); [|apply Q].
    intros h ->. destruct o; reflexivity.
Qed.
Print Assumptions C121_sparse_objects.

Theorem C121_sparse_numbers : forall T eqv it X o (f : T -> sg_prog T T) (k : sg_prog T X) (g : sgrid T) fn,
  (forall m, Permutation (it m) m) -> NoDup (map fst (sg_read g)) -> NoDup (map fst (sg_write g)) ->
  (forall x, sg_asks (fun h => h = (other o, Look)) (f x)) ->
  (forall xs x, sgr_ap_items it o g = Some xs -> In x xs -> sg_exec eqv (f x) [] g = Some (g, fn x)) ->
  sg_exec eqv (Apply it o f k) [] g = sg_exec eqv k [] (sg_apply it g o fn).
Proof.
  intros T eqv it X o f k g fn P Dr Dw Q F. unfold sg_exec. rewrite run_apply.
  - pose proof (sg_finish_agrees fn it o g P Dr Dw) as H. destruct (sgr_ap_items it o g) as [xs|] eqn:E; [|discriminate].
    rewrite (for_all_pure _ fn) by (intros x Hx; apply (F xs x eq_refl Hx)). rewrite H. reflexivity.
  - destruct o; reflexivity.
  - intros x. apply (asks_weaken _ _ (fun h => h = (other o, Look))); [|apply Q].
    intros h ->. destruct o; reflexivity.
Qed.
Print Assumptions C121_sparse_numbers.

(** In the dense number grid this holds of READ and WRITE. *)
Theorem C121_dense_numbers_partial : forall T eqv X o (f : T -> dg_prog T T) (k : dg_prog T X) (g : dgrid T) fn,
  o <> READWRITE -> length (dg_read g) = length (dg_write g) ->
  (forall x, dg_asks (fun h => h = (other o, Look)) (f x)) ->
  (forall xs x, dgr_ap_items tt o g = Some xs -> In x xs -> dg_exec eqv (f x) [] g = Some (g, fn x)) ->
  dg_exec eqv (Apply tt o f k) [] g =
  match dg_apply g o fn with
  | None => None
  | Some g' => dg_exec eqv k [] g'
  end.
Proof.
  intros T eqv X o f k g fn NO L Q F. unfold dg_exec. rewrite run_apply.
  - rewrite <- (dg_finish_agrees fn o g L). destruct (dgr_ap_items tt o g) as [xs|] eqn:E; [|reflexivity].
    rewrite (for_all_pure _ fn) by (intros x Hx; apply (F xs x eq_refl Hx)).
    destruct (dgr_ap_finish _ _ _ _); reflexivity.
  - destruct o; reflexivity.
  - intros x. apply (asks_weaken _ _ (fun h => h = (other o, Look))); [|apply Q].
    intros h ->. destruct o; try reflexivity. congruence.
Qed.
Print Assumptions C121_dense_numbers_partial.

(** With READWRITE a closure that reads the published values panics there, as soon as it
    is called. *)
Theorem C121_dense_numbers_refuted : forall T eqv X (f : T -> dg_prog T T) (k : dg_prog T X) (g : dgrid T) xs,
  dgr_ap_items tt READWRITE g = Some xs -> xs <> [] ->
  (forall x, exists c k', f x = Do c k' /\ nlooks c) ->
  dg_exec eqv (Apply tt READWRITE f k) [] g = None.
Proof.
  intros T eqv X f k g xs E N Q. apply run_apply_clash; [reflexivity|..].
  - intros x. destruct (Q x) as (c & k' & -> & P). exists c, k', (Pub, Look).
    destruct c; destruct P; cbn; repeat split; auto.
  - intros ys. rewrite E. intros [= <-]. exact N.
Qed.
Print Assumptions C121_dense_numbers_refuted.

(** A closure may not use the buffer that is worked on: with READ one that reads the
    published state, with WRITE and READWRITE one that reads or changes what is being
    written, panics as soon as it is called. *)
Theorem C121_own_buffer_refuted :
  (forall O eqo X o (f : loc * O -> od_prog O (option O)) (k : od_prog O X) (g : odense O) xs,
     odr_ap_items tt o g = Some xs -> xs <> [] ->
     (forall x, exists c k', f x = Do c k' /\ match o with READ => looks c | _ => places c \/ looks_ahead c end) ->
     od_exec eqo (Apply tt o f k) [] g = None) /\
  (forall O eqo it X o (f : loc * O -> os_prog O (option O)) (k : os_prog O X) (g : osparse O) xs,
     osr_ap_items it o g = Some xs -> xs <> [] ->
     (forall x, exists c k', f x = Do c k' /\ match o with READ => looks (fst c) | _ => places (fst c) \/ looks_ahead (fst c) end) ->
     os_exec eqo (Apply it o f k) [] g = None) /\
  (forall T eqv X o (f : T -> dg_prog T T) (k : dg_prog T X) (g : dgrid T) xs,
     dgr_ap_items tt o g = Some xs -> xs <> [] ->
     (forall x, exists c k', f x = Do c k' /\ match o with READ => nlooks c | _ => nplaces c \/ nlooks_ahead c end) ->
     dg_exec eqv (Apply tt o f k) [] g = None) /\
  (forall T eqv it X o (f : T -> sg_prog T T) (k : sg_prog T X) (g : sgrid T) xs,
     sgr_ap_items it o g = Some xs -> xs <> [] ->
     (forall x, exists c k', f x = Do c k' /\ match o with READ => nlooks (fst c) | _ => nplaces (fst c) \/ nlooks_ahead (fst c) end) ->
     sg_exec eqv (Apply it o f k) [] g = None).
Proof.
  split; [|split; [|split]].
  - intros O eqo X o f k g xs E N Q. apply run_apply_clash; [destruct o; reflexivity|..].
    + intros x. destruct (Q x) as (c & k' & -> & P). exists c, k'.
      destruct o; destruct c; cbn in P; try (destruct P; contradiction); try contradiction;
        cbn; eexists; (split; [reflexivity|split; [left; reflexivity|reflexivity]]).
    + intros ys. rewrite E. intros [= <-]. exact N.
  - intros O eqo it X o f k g xs E N Q. apply run_apply_clash; [destruct o; reflexivity|..].
    + intros x. destruct (Q x) as ([c i] & k' & -> & P). exists (c, i), k'.
      destruct o; destruct c; cbn in P; try (destruct P; contradiction); try contradiction;
        cbn; eexists; (split; [reflexivity|split; [left; reflexivity|reflexivity]]).
    + intros ys. rewrite E. intros [= <-]. exact N.
  - intros T eqv X o f k g xs E N Q. apply run_apply_clash; [destruct o; reflexivity|..].
    + intros x. destruct (Q x) as (c & k' & -> & P). exists c, k'.
      destruct o; destruct c; cbn in P; try (destruct P; contradiction); try contradiction;
        cbn; eexists; (split; [reflexivity|split; [left; reflexivity|reflexivity]]).
    + intros ys. rewrite E. intros [= <-]. exact N.
  - intros T eqv it X o f k g xs E N Q. apply run_apply_clash; [destruct o; reflexivity|..].
    + intros x. destruct (Q x) as ([c i] & k' & -> & P). exists (c, i), k'.
      destruct o; destruct c; cbn in P; try (destruct P; contradiction); try contradiction;
        cbn; eexists; (split; [reflexivity|split; [left; reflexivity|reflexivity]]).
    + intros ys. rewrite E. intros [= <-]. exact N.
Qed.
Print Assumptions C121_own_buffer_refuted.

(** ** Concrete cases *)

(** On a grid with three published objects, a closure moves every object to the first empty
    bag if there is one and counts what it sees: the hypotheses of C119 and its result. *)
Definition ex_grid : odense nat := ODense [[1]; []; [2; 3]; []] [[]; []; []; []] 2%Z 2%Z.
Definition ex_mover (p : loc * nat) : od_prog nat unit :=
  Do CEmptyBags (fun r => match r with
    | OLocs (c :: _) => Do (CSet (snd p) c) (fun _ => Do (CGetUnbuffered c) (fun _ => Ret tt))
    | _ => Ret tt
    end).
Example C119_concrete :
  (forall x, plain (ex_mover x)) /\
  od_exec Nat.eqb (Iter tt Pub ex_mover (Ret tt)) [] ex_grid =
  Some (ODense [[1]; []; [2; 3]; []] [[]; [1; 2; 3]; []; []] 2%Z 2%Z, tt).
Proof.
  split; [|vm_compute; reflexivity]. intros x [| | | [|c l] | ]; cbn; auto.
Qed.
(** The same with a nested iteration: every object is placed once for every published
    object, on top of the last one; the closure asks for nothing that is refused. *)
Definition ex_nested (p : loc * nat) : od_prog nat unit :=
  Iter tt Pub (fun q => Do (CSet (10 * snd p + snd q) (fst q)) (fun _ => Ret tt)) (Ret tt).
Example C119_nested_concrete :
  (forall x, od_asks (fun h => h <> (Pub, Change)) (ex_nested x)) /\
  od_exec Nat.eqb (Iter tt Pub ex_nested (Ret tt)) [] ex_grid =
  Some (ODense [[1]; []; [2; 3]; []] [[11; 21; 31]; []; [12; 13; 22; 23; 32; 33]; []] 2%Z 2%Z, tt).
Proof.
  split; [|vm_compute; reflexivity].
  intros x. cbn. repeat split; try discriminate. intros s h [<-|[]]. discriminate.
Qed.
(** A sparse grid: the closure removes what it visits from the write buffer. *)
Example C119_sparse_concrete :
  let g := SGrid [((0%Z, 0%Z), 5); ((3%Z, 1%Z), 7)] [((3%Z, 1%Z), 9)] 4%Z 4%Z in
  let f := fun p : loc * nat => Do (NRemove (fst p), fun m => m) (fun _ => Do (NSet (snd p) (snd (fst p), fst (fst p)), fun m => m) (fun _ => Ret tt)) in
  (forall x, plain (f x)) /\
  sg_exec Nat.eqb (Iter (fun m => m) Pub f (Ret tt)) [] g =
  Some (SGrid [((0%Z, 0%Z), 5); ((3%Z, 1%Z), 7)] [((0%Z, 0%Z), 5); ((1%Z, 3%Z), 7)] 4%Z 4%Z, tt).
Proof. split; [|vm_compute; reflexivity]. intros x r r'. exact I. Qed.

(** C120: three items are written, a closure that removes them panics, while the same calls
    outside of the iteration succeed. *)
Example C120_concrete :
  let g := ODense [[]; []; []; []] [[1]; []; [2; 3]; []] 2%Z 2%Z in
  let f := fun p : loc * nat => Do (CRemove (snd p) (fst p)) (fun _ => Ret tt) : od_prog nat unit in
  od_iter_unbuffered g = Some [((0%Z, 0%Z), 1); ((1%Z, 0%Z), 2); ((1%Z, 0%Z), 3)] /\
  od_exec Nat.eqb (Iter tt Wrt f (Ret tt)) [] g = None /\
  od_exec Nat.eqb (each [((0%Z, 0%Z), 1); ((1%Z, 0%Z), 2); ((1%Z, 0%Z), 3)] f (Ret tt)) [] g =
    Some (ODense [[]; []; []; []] [[]; []; []; []] 2%Z 2%Z, tt).
Proof. repeat split; vm_compute; reflexivity. Qed.
(** The same closure that doubles every written value: done in the dense grid, a panic in
    the sparse one. *)
Example C120_numbers_concrete :
  let it := fun m : list (loc * nat) => m in
  dg_exec Nat.eqb (Iter tt Wrt (fun p => Do (NSet (2 * snd p) (fst p)) (fun _ => Ret tt)) (Ret tt)) []
    (DGrid [None; None] [Some 4; Some 5] 2%Z 1%Z) = Some (DGrid [None; None] [Some 8; Some 10] 2%Z 1%Z, tt) /\
  sg_exec Nat.eqb (Iter it Wrt (fun p => Do (NSet (2 * snd p) (fst p), it) (fun _ => Ret tt)) (Ret tt)) []
    (SGrid [] [((0%Z, 0%Z), 4); ((1%Z, 0%Z), 5)] 2%Z 1%Z) = None.
Proof. repeat split; vm_compute; reflexivity. Qed.

(** C121: with WRITE, every published object is copied with the number of published objects
    in its cell added; the same closure panics with READ. *)
Definition ex_reader (p : loc * nat) : od_prog nat (option nat) :=
  Do (CGet (fst p)) (fun r => match r with
    | OBag (Some b) => Ret (Some (snd p + length b))
    | _ => Ret None
    end).
Definition ex_fn (l : loc) (o : nat) : option nat :=
  match od_get ex_grid l with Some (Some b) => Some (o + length b) | _ => None end.
Example C121_concrete :
  (forall x, od_asks (fun h => h = (other WRITE, Look)) (ex_reader x)) /\
  (forall xs x, odr_ap_items tt WRITE ex_grid = Some xs -> In x xs ->
     od_exec Nat.eqb (ex_reader x) [] ex_grid = Some (ex_grid, ex_fn (fst x) (snd x))) /\
  od_exec Nat.eqb (Apply tt WRITE ex_reader (Ret tt)) [] ex_grid =
    Some (ODense [[1]; []; [2; 3]; []] [[2]; []; []; []] 2%Z 2%Z, tt) /\
  od_exec Nat.eqb (Apply tt READ ex_reader (Ret tt)) [] ex_grid = None.
Proof.
  split; [|split; [|split; vm_compute; reflexivity]].
  - intros x. cbn. split; [intros s h [<-|[]]; reflexivity|]. intros [|[b|]| | |]; exact I.
  - intros xs x E I. vm_compute in E. injection E as <-. repeat (destruct I as [<-|I]; [vm_compute; reflexivity|]). destruct I.
Qed.

(** [Field2D] with f32: an object is published at (1, 1); a closure that asks for the
    relaxed neighbours of (1, 1) panics, while the query by itself returns. *)
Definition ex_pt : num f32_arith * num f32_arith := (f_of_Z 1, f_of_Z 1).
Definition ex_field : @field2d f32_arith nat :=
  Field2D (A := f32_arith) (repeat [] 11 ++ [7] :: repeat [] 88) (repeat [] 100) 1%N
      (f_of_Z 10) (f_of_Z 10) (f_of_Z 1) false 10%Z 10%Z 0%N true.
Example C119_field_concrete :
  option_map (map snd) (f_iter f32_arith ex_field) = Some [7] /\
  le f32_arith (f_of_Z 2) (of_int f32_arith 0) = false /\
  option_map (@hd_error loc) (window f32_arith ex_field ex_pt (f_of_Z 2)) = Some (Some (9, 9)%Z) /\
  option_map snd (f_exec f32_arith Nat.eqb (fun _ => ex_pt) (Iter tt Pub (fun _ => Do (DRelax f32_arith ex_pt (f_of_Z 2)) (fun _ => Ret tt)) (Ret tt)) [] ex_field) = None /\
  option_map snd (f_exec f32_arith Nat.eqb (fun _ => ex_pt) (Do (DRelax f32_arith ex_pt (f_of_Z 2))
    (fun r => Ret match r with FObjects b => b | _ => [] end)) [] ex_field) = Some [7].
Proof.
  split; [vm_compute; reflexivity|]. split; [vm_compute; reflexivity|]. split; [vm_compute; reflexivity|].
  split; [vm_compute; reflexivity|vm_compute; reflexivity].
Qed.
