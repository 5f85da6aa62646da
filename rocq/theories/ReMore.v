(** * Closures that use the field they are given to: C120 and C121 in terms of calls

    The theorems of ReProps speak of the borrows a closure asks for.  Here the closures are
    described by the calls they make. *)
From Coq Require Import List Bool ZArith NArith Arith Lia Permutation.
From Verif Require Import F32 Grid DashModel NumModel NumProofs NumSpec ObjModel FieldModel ReModel ReSpec ReProofs ReInst ReProps.
Import ListNotations.
Local Open Scope nat_scope.

Section Gen.
Context {St Call Res Item AItem Out Ora : Type}.
Variable needs : Call -> St -> list hold.
Variable act : Call -> St -> option (St * Res).
Context {G : Type}.
Variable groups : cell -> St -> list G.
Variable items : Ora -> cell -> G -> St -> option (list Item).
Variable keeps : bool.
Variable ap_needs : grid_option -> list hold.
Variable ap_items : Ora -> grid_option -> St -> option (list AItem).
Variable ap_finish : Ora -> grid_option -> list Out -> St -> option St.
Local Notation prog := (prog Call Res Item AItem Out Ora).
Local Notation run := (run needs act groups items keeps ap_needs ap_items ap_finish).

Lemma only_plain (P : Call -> Prop) {X} (p : prog X) : only P p -> plain p.
Proof. induction p; cbn; intros Q; try contradiction; [exact I|]. intros r. apply H, Q. Qed.
Lemma only_asks (P : Call -> Prop) (B : hold -> Prop) {X} (p : prog X) :
  (forall c s h, P c -> In h (needs c s) -> B h) -> only P p -> asks needs ap_needs B p.
Proof.
  intros N. induction p; cbn; intros Q; try contradiction; [exact I|]. destruct Q as [Q1 Q2].
  split; [intros s h; apply N, Q1|intros r; apply H, Q2].
Qed.
(** A closure of [apply_to_all_values] that starts with another [apply_to_all_values]. *)
Lemma run_apply_nested {X} r o (f : AItem -> prog Out) (k : prog X) s :
  (forall x, exists r' o' f' k', f x = Apply r' o' f' k' /\ all_free (ap_needs o ++ []) (ap_needs o') = false) ->
  (forall xs, ap_items r o s = Some xs -> xs <> []) ->
  run (Apply r o f k) [] s = None.
Proof.
  intros Q NE. cbn. destruct (all_free [] (ap_needs o)); [|reflexivity]. destruct (ap_items r o s) as [xs|]; [|reflexivity].
  destruct xs as [|x xs]; [exfalso; apply (NE [] eq_refl); reflexivity|]. cbn. destruct (Q x) as (r' & o' & f' & k' & -> & F). cbn. rewrite F. reflexivity.
Qed.
End Gen.

(** ** C120: a closure of the unbuffered iteration that places and removes nothing *)
Theorem C120_dense_objects_looking : forall O eqo (f : loc * O -> od_prog O unit) (g : odense O),
  (forall x, only (fun c => ~ places c) (f x)) ->
  od_exec eqo (Iter tt Wrt f (Ret tt)) [] g =
  match od_iter_unbuffered g with
  | None => None
  | Some xs => option_map (fun g' => (g', tt)) (in_turn (odr_act eqo) f xs g)
  end.
Proof.
  intros O eqo f g P. rewrite C120_dense_objects_partial.
  - destruct (od_iter_unbuffered g) as [xs|]; [|reflexivity]. apply run_each_plain; [apply odr_needs_top|]. intros x. apply (only_plain _ _ (P x)).
  - intros x. apply (only_asks _ _ (fun c => ~ places c)); [|apply P]. intros c s h NP. destruct c; cbn in *; try (destruct (cells _ _); cbn); intuition (subst; discriminate).
Qed.
Print Assumptions C120_dense_objects_looking.

Theorem C120_sparse_objects_looking : forall O eqo it (f : loc * O -> os_prog O unit) (g : osparse O),
  (forall x, only (fun c => ~ places (fst c)) (f x)) ->
  os_exec eqo (Iter it Wrt f (Ret tt)) [] g =
  option_map (fun g' => (g', tt)) (in_turn (osr_act eqo) f (os_iter_unbuffered it g) g).
Proof.
  intros O eqo it f g P. rewrite C120_sparse_objects_partial.
  - apply run_each_plain; [apply osr_needs_top|]. intros x. apply (only_plain _ _ (P x)).
  - intros x. apply (only_asks _ _ (fun c => ~ places (fst c))); [|apply P]. intros [c i] s h NP. destruct c; cbn in *; unfold osr_needs; cbn; try (destruct (cells _ _); cbn); intuition (subst; discriminate).
Qed.
Print Assumptions C120_sparse_objects_looking.

Theorem C120_dense_numbers_looking : forall T eqv (f : loc * T -> dg_prog T unit) (g : dgrid T),
  (forall x, only (fun c => ~ nplaces c) (f x)) ->
  dg_exec eqv (Iter tt Wrt f (Ret tt)) [] g =
  match dg_iter_unbuffered g with
  | None => None
  | Some xs => option_map (fun g' => (g', tt)) (in_turn (dgr_act eqv) f xs g)
  end.
Proof.
  intros T eqv f g P. rewrite C120_dense_numbers_partial.
  - destruct (dg_iter_unbuffered g) as [xs|]; [|reflexivity]. apply run_each_plain; [apply dgr_needs_top|]. intros x. apply (only_plain _ _ (P x)).
  - intros x. apply (only_asks _ _ (fun c => ~ nplaces c)); [|apply P]. intros c s h NP. destruct c; cbn in *; try (destruct (cells _ _); cbn); intuition (subst; discriminate).
Qed.
Print Assumptions C120_dense_numbers_looking.

Theorem C120_sparse_numbers_looking : forall T eqv it (f : loc * T -> sg_prog T unit) (g : sgrid T),
  (forall x, only (fun c => ~ nplaces (fst c)) (f x)) ->
  sg_exec eqv (Iter it Wrt f (Ret tt)) [] g =
  option_map (fun g' => (g', tt)) (in_turn (sgr_act eqv) f (sg_iter_unbuffered it g) g).
Proof.
  intros T eqv it f g P. rewrite C120_sparse_numbers_partial.
  - apply run_each_plain; [apply sgr_needs_top|]. intros x. apply (only_plain _ _ (P x)).
  - intros x. apply (only_asks _ _ (fun c => ~ nplaces (fst c))); [|apply P]. intros [c i] s h NP. destruct c; cbn in *; unfold sgr_needs; cbn; try (destruct (cells _ _); cbn); intuition (subst; discriminate).
Qed.
Print Assumptions C120_sparse_numbers_looking.

(** [Field2D]: all queries, even the relaxed one that the other iteration refuses. *)
Lemma fr_needs_top {A O} (c : fcall A) (g : @field2d A O) : all_free [] (fr_needs A c g) = true.
Proof. destruct c; cbn; try reflexivity; try (destruct (fr_looks _ _ _ _)); try (destruct (cells _ _)); reflexivity. Qed.
Theorem C120_field_looking : forall A O eqo location (f : (num A * num A) * O -> f_prog A unit) (g : @field2d A O),
  (forall x, only (fun c => match c with DSet _ _ _ | DRemove _ _ _ => False | _ => True end) (f x)) ->
  f_exec A eqo location (Iter tt Wrt f (Ret tt)) [] g =
  match f_iter_unbuffered A g with
  | None => None
  | Some xs => option_map (fun g' => (g', tt)) (in_turn (fr_act A eqo location) f xs g)
  end.
Proof.
  intros A O eqo location f g P. rewrite C120_field_partial.
  - destruct (f_iter_unbuffered A g) as [xs|]; [|reflexivity]. apply run_each_plain; [apply fr_needs_top|]. intros x. apply (only_plain _ _ (P x)).
  - intros x. eapply only_asks; [|apply P]. intros c s h NP. destruct c; cbn in *; try (destruct (fr_looks _ _ _ _); cbn); try (destruct (cells _ _); cbn); intuition (subst; discriminate).
Qed.
Print Assumptions C120_field_looking.

(** ** C121: a closure of [apply_to_all_values] that only looks at the other buffer *)
Theorem C121_dense_objects_looking : forall O eqo X o (f : loc * O -> od_prog O (option O)) (k : od_prog O X) (g : odense O) fn,
  (forall x, only (looks_over o) (f x)) ->
  (forall x, calls_only (odr_act eqo) (f x) g = Some (g, fn (fst x) (snd x))) ->
  od_exec eqo (Apply tt o f k) [] g =
  match od_apply eqo g o fn with
  | None => None
  | Some g' => od_exec eqo k [] g'
  end.
Proof.
  intros O eqo X o f k g fn P F. apply C121_dense_objects.
  - intros x. apply (only_asks _ _ (looks_over o)); [|apply P]. intros c s h L. destruct o; destruct c; cbn in *; intuition (subst; auto).
  - intros xs x _ _. rewrite <- F. apply run_plain; [apply odr_needs_top|]. apply (only_plain _ _ (P x)).
Qed.
Print Assumptions C121_dense_objects_looking.

Theorem C121_sparse_objects_looking : forall O eqo it X o (f : loc * O -> os_prog O (option O)) (k : os_prog O X) (g : osparse O) fn,
  (forall m, Permutation (it m) m) -> NoDup (map fst (os_read g)) -> NoDup (map fst (os_write g)) ->
  (forall x, only (fun c => looks_over o (fst c)) (f x)) ->
  (forall x, calls_only (osr_act eqo) (f x) g = Some (g, fn (fst x) (snd x))) ->
  os_exec eqo (Apply it o f k) [] g =
  match os_apply it g o fn with
  | None => None
  | Some g' => os_exec eqo k [] g'
  end.
Proof.
  intros O eqo it X o f k g fn I N1 N2 P F. apply C121_sparse_objects; try assumption.
  - intros x. apply (only_asks _ _ (fun c => looks_over o (fst c))); [|apply P]. intros [c i] s h L. destruct o; destruct c; cbn in *; intuition (subst; auto).
  - intros xs x _ _. rewrite <- F. apply run_plain; [apply osr_needs_top|]. apply (only_plain _ _ (P x)).
Qed.
Print Assumptions C121_sparse_objects_looking.

Theorem C121_sparse_numbers_looking : forall T eqv it X o (f : T -> sg_prog T T) (k : sg_prog T X) (g : sgrid T) fn,
  (forall m, Permutation (it m) m) -> NoDup (map fst (sg_read g)) -> NoDup (map fst (sg_write g)) ->
  (forall x, only (fun c => nlooks_over o (fst c)) (f x)) ->
  (forall x, calls_only (sgr_act eqv) (f x) g = Some (g, fn x)) ->
  sg_exec eqv (Apply it o f k) [] g = sg_exec eqv k [] (sg_apply it g o fn).
Proof.
  intros T eqv it X o f k g fn I N1 N2 P F. apply C121_sparse_numbers; try assumption.
  - intros x. apply (only_asks _ _ (fun c => nlooks_over o (fst c))); [|apply P]. intros [c i] s h L. destruct o; destruct c; cbn in *; intuition (subst; auto).
  - intros xs x _ _. rewrite <- F. apply run_plain; [apply sgr_needs_top|]. apply (only_plain _ _ (P x)).
Qed.
Print Assumptions C121_sparse_numbers_looking.

(** Not with READWRITE ([C121_dense_numbers_refuted]). *)
Theorem C121_dense_numbers_looking_partial : forall T eqv X o (f : T -> dg_prog T T) (k : dg_prog T X) (g : dgrid T) fn,
  o <> READWRITE -> length (dg_read g) = length (dg_write g) ->
  (forall x, only (nlooks_over o) (f x)) ->
  (forall x, calls_only (dgr_act eqv) (f x) g = Some (g, fn x)) ->
  dg_exec eqv (Apply tt o f k) [] g =
  match dg_apply g o fn with
  | None => None
  | Some g' => dg_exec eqv k [] g'
  end.
Proof.
  intros T eqv X o f k g fn NR L P F. apply C121_dense_numbers_partial; try assumption.
  - intros x. apply (only_asks _ _ (nlooks_over o)); [|apply P]. intros c s h Q. destruct o; destruct c; cbn in *; intuition (subst; auto).
  - intros xs x _ _. rewrite <- F. apply run_plain; [apply dgr_needs_top|]. apply (only_plain _ _ (P x)).
Qed.
Print Assumptions C121_dense_numbers_looking_partial.

(** [apply_to_all_values] inside [apply_to_all_values] panics as soon as there is an item,
    in the dense grids whatever the two options are, in the sparse ones unless one is READ
    and the other WRITE. *)
Definition apart (o o' : grid_option) : Prop := (o = READ /\ o' = WRITE) \/ (o = WRITE /\ o' = READ).
Theorem C121_nested_refuted :
  (forall O eqo X o (f : loc * O -> od_prog O (option O)) (k : od_prog O X) (g : odense O) xs,
     odr_ap_items tt o g = Some xs -> xs <> [] ->
     (forall x, exists o' f' k', f x = Apply tt o' f' k') ->
     od_exec eqo (Apply tt o f k) [] g = None) /\
  (forall T eqv X o (f : T -> dg_prog T T) (k : dg_prog T X) (g : dgrid T) xs,
     dgr_ap_items tt o g = Some xs -> xs <> [] ->
     (forall x, exists o' f' k', f x = Apply tt o' f' k') ->
     dg_exec eqv (Apply tt o f k) [] g = None) /\
  (forall O eqo it X o (f : loc * O -> os_prog O (option O)) (k : os_prog O X) (g : osparse O) xs,
     osr_ap_items it o g = Some xs -> xs <> [] ->
     (forall x, exists it' o' f' k', f x = Apply it' o' f' k' /\ ~ apart o o') ->
     os_exec eqo (Apply it o f k) [] g = None) /\
  (forall T eqv it X o (f : T -> sg_prog T T) (k : sg_prog T X) (g : sgrid T) xs,
     sgr_ap_items it o g = Some xs -> xs <> [] ->
     (forall x, exists it' o' f' k', f x = Apply it' o' f' k' /\ ~ apart o o') ->
     sg_exec eqv (Apply it o f k) [] g = None).
Proof.
  split; [|split; [|split]].
  - intros O eqo X o f k g xs E N Q. apply run_apply_nested; [|intros ys; rewrite E; intros [= <-]; exact N].
    intros x. destruct (Q x) as (o' & f' & k' & ->). exists tt, o', f', k'. split; [reflexivity|]. destruct o, o'; reflexivity.
  - intros T eqv X o f k g xs E N Q. apply run_apply_nested; [|intros ys; rewrite E; intros [= <-]; exact N].
    intros x. destruct (Q x) as (o' & f' & k' & ->). exists tt, o', f', k'. split; [reflexivity|]. destruct o, o'; reflexivity.
  - intros O eqo it X o f k g xs E N Q. apply run_apply_nested; [|intros ys; rewrite E; intros [= <-]; exact N].
    intros x. destruct (Q x) as (it' & o' & f' & k' & -> & A). exists it', o', f', k'. split; [reflexivity|]. unfold apart in A. destruct o, o'; try reflexivity; exfalso; apply A; auto.
  - intros T eqv it X o f k g xs E N Q. apply run_apply_nested; [|intros ys; rewrite E; intros [= <-]; exact N].
    intros x. destruct (Q x) as (it' & o' & f' & k' & -> & A). exists it', o', f', k'. split; [reflexivity|]. unfold apart in A. destruct o, o'; try reflexivity; exfalso; apply A; auto.
Qed.
Print Assumptions C121_nested_refuted.

(** In the sparse number grid a closure of the READ pass may double what is being written,
    once for every published value; and a closure of the unbuffered iteration may ask for
    what is being written. *)
Example C121_nested_concrete :
  let g := SGrid [((0%Z, 0%Z), 5); ((3%Z, 1%Z), 7)] [((3%Z, 1%Z), 9)] 4%Z 4%Z in
  let id := fun m : list (loc * nat) => m in
  sg_exec Nat.eqb (Apply id READ (fun v => Apply id WRITE (fun w => Ret (2 * w)) (Ret (v + 1))) (Ret tt)) [] g =
  Some (SGrid [((0%Z, 0%Z), 6); ((3%Z, 1%Z), 8)] [((3%Z, 1%Z), 36)] 4%Z 4%Z, tt).
Proof. vm_compute. reflexivity. Qed.
Example C120_looking_concrete :
  let g := ODense [[1]; []; [2; 3]; []] [[4]; []; []; [5]] 2%Z 2%Z in
  let f := fun p : loc * nat => Do (CGetUnbuffered (fst p)) (fun _ => Do (CGet (fst p)) (fun _ => Ret tt)) in
  (forall x, only (fun c => ~ places c) (f x)) /\
  od_exec Nat.eqb (Iter tt Wrt f (Ret tt)) [] g = Some (g, tt).
Proof. split; [intros x; cbn; tauto|vm_compute; reflexivity]. Qed.
