(** * Property theorems: number grids (C16-C21, C57, C58) *)
From Coq Require Import List Bool ZArith NArith Arith Lia Permutation.
From Verif Require Import Grid DashModel DashSpec NumModel NumSpec NumProofs NumPar.
Import ListNotations.
Open Scope Z_scope.

(** A 3 x 2 grid used in the examples. *)
Definition ex_ops : list (gop Z) :=
  [GSet 5 (1, 1); GSet 6 (2, 0); GLazyUpdate; GSet 7 (1, 1); GRemove (2, 0); GGet (1, 1); GSet 8 (0, 0)].
Lemma ex_size : size_ok 3 2.
Proof. unfold size_ok. lia. Qed.
Lemma ex_in : Forall (call_in 3 2) ex_ops.
Proof. repeat constructor; cbn; lia. Qed.
Lemma id_iteration {T} : iteration (fun m : list (loc * T) => m).
Proof. intros m. apply Permutation_refl. Qed.
Definition ex_grid : dgrid Z :=
  match @dg_new Z 3 2 with
  | Some g0 => match dg_run Z.eqb g0 ex_ops with Some (g, _) => g | None => g0 end
  | None => DGrid [] [] 0 0
  end.
Lemma ex_reach : dg_reachable Z.eqb 3 2 ex_grid.
Proof.
  destruct (@dg_new Z 3 2) as [g0|] eqn:E; [|discriminate]. exists g0, ex_ops.
  destruct (dg_run Z.eqb g0 ex_ops) as [[g rs]|] eqn:R.
  - exists rs. split; [exact E|]. split; [exact ex_in|]. unfold ex_grid. rewrite E, R. reflexivity.
  - vm_compute in E. injection E as <-. vm_compute in R. discriminate.
Qed.

(** ** C16 *)
Theorem C16_history :
  forall T (eqv : T -> T -> bool) w h os,
  size_ok w h -> Forall (call_in w h) os -> Forall no_apply os ->
  exists g0 g rs, dg_new w h = Some g0 /\ dg_run eqv g0 os = Some (g, rs) /\ length rs = length os /\
    forall l, in_range w h l ->
      dg_get g l = Some (last_published l (rev os)) /\
      dg_get_unbuffered g l = Some (last_written l (rev os)).
Proof. exact @dg_history. Qed.
Print Assumptions C16_history.

(** In terms of the two read calls: [get_value] now is [get_value_unbuffered] just before
    the last publication. *)
Theorem C16_last_publication :
  forall T (eqv : T -> T -> bool) w h os1 pub os2,
  size_ok w h -> Forall (call_in w h) (os1 ++ pub :: os2) ->
  match pub with GLazyUpdate | GUpdate => True | _ => False end ->
  Forall (fun o => match o with GLazyUpdate | GUpdate | GApply READ _ => False | _ => True end) os2 ->
  exists g0 g1 g rs1 rs, dg_new w h = Some g0 /\ dg_run eqv g0 os1 = Some (g1, rs1) /\
    dg_run eqv g0 (os1 ++ pub :: os2) = Some (g, rs) /\
    forall l, in_range w h l -> dg_get g l = dg_get_unbuffered g1 l.
Proof. exact @dg_last_publication. Qed.
Print Assumptions C16_last_publication.

Example C16_concrete :
  size_ok 3 2 /\ Forall (call_in 3 2) ex_ops /\ Forall no_apply ex_ops /\
  map (fun l => (dg_get ex_grid l, dg_get_unbuffered ex_grid l)) [(1, 1); (2, 0); (0, 0); (0, 1)] =
  [(Some (Some 5), Some (Some 7)); (Some (Some 6), Some None); (Some None, Some (Some 8)); (Some None, Some None)].
Proof.
  split; [exact ex_size|]. split; [exact ex_in|]. split; [repeat constructor|vm_compute; reflexivity].
Qed.

(** ** C17 *)
Theorem C17_independent_partial :
  forall T (eqv : T -> T -> bool) w h g l (x : option T),
  size_ok w h -> dg_reachable eqv w h g -> in_range w h l ->
  exists g', match x with Some v => dg_set g v l | None => dg_remove g l end = Some g' /\
    dg_get_unbuffered g' l = Some x /\
    forall l', in_range w h l' -> dg_get g' l' = dg_get g l' /\
      (l' <> l -> dg_get_unbuffered g' l' = dg_get_unbuffered g l').
Proof. intros T eqv w h g l x Hs Hr Hl. destruct x; exact (dg_frame eqv w h g l _ Hs Hr Hl). Qed.
Print Assumptions C17_independent_partial.

(** Only the resulting index is checked: a location whose [y] is out of range is accepted
    and is another name for a cell of the next column. *)
Theorem C17_out_of_range_refuted :
  exists g g' : dgrid Z, dg_reachable Z.eqb 3 2 g /\
    ~ in_range 3 2 (0, 2) /\ dg_set g 9 (0, 2) = Some g' /\
    dg_get_unbuffered g (1, 0) = Some None /\ dg_get_unbuffered g' (1, 0) = Some (Some 9).
Proof.
  exists ex_grid. eexists. split; [exact ex_reach|].
  split; [unfold in_range; cbn; lia|]. split; [vm_compute; reflexivity|]. split; vm_compute; reflexivity.
Qed.
Print Assumptions C17_out_of_range_refuted.

(** The sparse grid has no such aliasing: any two different locations. *)
Theorem C17_sparse_independent :
  forall T (eqv : T -> T -> bool) w h g (v : T) l, sg_reachable eqv w h g ->
  (sg_get_unbuffered (sg_set g v l) l = Some v /\ sg_get_unbuffered (sg_remove g l) l = None) /\
  forall l', sg_get (sg_set g v l) l' = sg_get g l' /\ sg_get (sg_remove g l) l' = sg_get g l' /\
    (l' <> l -> sg_get_unbuffered (sg_set g v l) l' = sg_get_unbuffered g l' /\
                sg_get_unbuffered (sg_remove g l) l' = sg_get_unbuffered g l').
Proof. exact @sg_frame. Qed.
Print Assumptions C17_sparse_independent.

Example C17_concrete :
  dg_reachable Z.eqb 3 2 ex_grid /\ in_range 3 2 (0, 1) /\
  option_map (fun g => map (dg_get_unbuffered g) [(0, 1); (1, 0); (1, 1); (0, 0)]) (dg_set ex_grid 9 (0, 1))
  = Some [Some (Some 9); Some None; Some (Some 7); Some (Some 8)].
Proof. split; [exact ex_reach|]. split; [unfold in_range; cbn; lia|vm_compute; reflexivity]. Qed.

(** ** C18 *)
Theorem C18_dense_location :
  forall T (eqv : T -> T -> bool) w h g v, size_ok w h -> dg_reachable eqv w h g ->
  exists r, dg_location eqv g v = Some r /\
    match r with
    | Some l => in_range w h l /\ (exists x, dg_get g l = Some (Some x) /\ eqv x v = true) /\
        forall l' x, in_range w h l' -> lex l' l -> dg_get g l' = Some (Some x) -> eqv x v = false
    | None => forall l' x, in_range w h l' -> dg_get g l' = Some (Some x) -> eqv x v = false
    end.
Proof.
  intros T eqv w h g v Hs Hr. apply dg_location_ok; [exact Hs|]. exact (dg_reachable_wf eqv w h g Hs Hr).
Qed.
Print Assumptions C18_dense_location.

Theorem C18_dense_location_unbuffered :
  forall T (eqv : T -> T -> bool) w h g v, size_ok w h -> dg_reachable eqv w h g ->
  exists r, dg_location_unbuffered eqv g v = Some r /\
    match r with
    | Some l => in_range w h l /\ (exists x, dg_get_unbuffered g l = Some (Some x) /\ eqv x v = true) /\
        forall l' x, in_range w h l' -> lex l' l -> dg_get_unbuffered g l' = Some (Some x) -> eqv x v = false
    | None => forall l' x, in_range w h l' -> dg_get_unbuffered g l' = Some (Some x) -> eqv x v = false
    end.
Proof.
  intros T eqv w h g v Hs Hr. apply dg_locationu_ok; [exact Hs|]. exact (dg_reachable_wf eqv w h g Hs Hr).
Qed.
Print Assumptions C18_dense_location_unbuffered.

Theorem C18_sparse_location :
  forall T (eqv : T -> T -> bool) w h g v it, sg_reachable eqv w h g -> iteration it ->
  (match sg_location eqv it g v with
   | Some l => exists x, sg_get g l = Some x /\ eqv x v = true
   | None => forall l x, sg_get g l = Some x -> eqv x v = false
   end) /\
  (match sg_location_unbuffered eqv it g v with
   | Some l => exists x, sg_get_unbuffered g l = Some x /\ eqv x v = true
   | None => forall l x, sg_get_unbuffered g l = Some x -> eqv x v = false
   end).
Proof.
  intros T eqv w h g v it Hr Hit. apply (sg_reachable_wf eqv) in Hr. destruct Hr as [[U1 U2] _].
  split; apply sg_search_ok; assumption.
Qed.
Print Assumptions C18_sparse_location.

Example C18_concrete :
  dg_reachable Z.eqb 3 2 ex_grid /\
  dg_location Z.eqb ex_grid 6 = Some (Some (2, 0)) /\ dg_location Z.eqb ex_grid 7 = Some None /\
  dg_location_unbuffered Z.eqb ex_grid 7 = Some (Some (1, 1)).
Proof. split; [exact ex_reach|]. repeat split; vm_compute; reflexivity. Qed.

(** ** C19 *)
Theorem C19_dense_empty :
  forall T (eqv : T -> T -> bool) w h g, size_ok w h -> dg_reachable eqv w h g ->
  exists ls, dg_empty_bags g = Some ls /\ NoDup ls /\
    (forall l, In l ls <-> in_range w h l /\ dg_get g l = Some None) /\
    (forall r, (r < length ls)%nat \/ ls = [] ->
       exists x, dg_random_empty g r = Some x /\ (x = None <-> ls = []) /\
         forall l, x = Some l -> in_range w h l /\ dg_get g l = Some None) /\
    (forall l, In l ls -> exists r, (r < length ls)%nat /\ dg_random_empty g r = Some (Some l)).
Proof.
  intros T eqv w h g Hs Hr. apply (dg_reachable_wf eqv) in Hr; [|exact Hs].
  destruct (dg_empty_ok w h g Hs Hr) as (ls & E & _ & N & H). exists ls.
  split; [exact E|]. split; [exact N|]. split; [exact H|]. split.
  - intros r Hlt. destruct (dg_random_ok g r ls E Hlt) as (x & Ex & H1 & H2). exists x.
    split; [exact Ex|]. split; [exact H1|]. intros l Hl. apply H. auto.
  - intros l Hl. exact (dg_random_complete g ls l E Hl).
Qed.
Print Assumptions C19_dense_empty.

Theorem C19_sparse_empty :
  forall T (eqv : T -> T -> bool) w h g, sg_reachable eqv w h g ->
  NoDup (sg_empty_bags g) /\
  forall l : loc, In l (sg_empty_bags g) <-> in_range w h l /\ sg_get g l = @None T.
Proof.
  intros T eqv w h g Hr. apply (sg_reachable_wf eqv) in Hr. destruct Hr as (_ & Ew & Eh).
  destruct (sg_empty_ok w h g Ew Eh) as (_ & A & B). auto.
Qed.
Print Assumptions C19_sparse_empty.

(** The sparse grid's random search: whatever locations it draws, it returns as soon as it
    draws an empty one, and then returns that one. *)
Theorem C19_sparse_random_partial :
  forall T (eqv : T -> T -> bool) w h (g : sgrid T) draws, sg_reachable eqv w h g ->
  0 < w -> 0 < h -> Forall (in_range w h) draws ->
  exists r, sg_random_empty g draws = Some r /\
    (forall x, r = Some x -> exists l, x = Some l /\ In l (sg_empty_bags g)) /\
    (r = None <-> forall l, In l draws -> ~ In l (sg_empty_bags g)).
Proof.
  intros T eqv w h g draws Hr. apply (sg_reachable_wf eqv) in Hr. destruct Hr as (_ & Ew & Eh).
  exact (sg_random_ok w h g draws Ew Eh).
Qed.
Print Assumptions C19_sparse_random_partial.

(** A grid with an empty side: it panics. *)
Theorem C19_sparse_random_empty_side :
  forall T (eqv : T -> T -> bool) w h (g : sgrid T) draws, sg_reachable eqv w h g ->
  w <= 0 \/ h <= 0 -> sg_random_empty g draws = None.
Proof.
  intros T eqv w h g draws Hr H. apply (sg_reachable_wf eqv) in Hr. destruct Hr as (_ & Ew & Eh).
  unfold sg_random_empty. rewrite Ew, Eh. destruct (Z.leb_spec w 0), (Z.leb_spec h 0); try reflexivity; lia.
Qed.
Print Assumptions C19_sparse_random_empty_side.

(** On a full grid it never returns (instead of returning [None]). *)
Theorem C19_sparse_random_refuted :
  exists g : sgrid Z, sg_reachable Z.eqb 1 1 g /\ sg_empty_bags g = [] /\
    forall draws, Forall (in_range 1 1) draws -> sg_random_empty g draws = Some None.
Proof.
  exists (SGrid [((0, 0), 4)] [] 1 1). split; [|split; [reflexivity|]].
  - exists [(GSet 4 (0, 0), fun m => m); (GLazyUpdate, fun m => m)]. eexists.
    split; [repeat constructor; cbn; apply id_iteration|vm_compute; reflexivity].
  - intros draws Hd. unfold sg_random_empty. cbn [sg_w sg_h sg_read]. cbn [Z.leb orb].
    replace (find _ draws) with (@None loc); [reflexivity|]. symmetry.
    induction Hd as [|[x y] draws [H1 H2] Hd IH]; [reflexivity|]. cbn in H1, H2.
    assert (x = 0) by lia. assert (y = 0) by lia. subst. cbn. exact IH.
Qed.
Print Assumptions C19_sparse_random_refuted.

Example C19_concrete :
  dg_empty_bags ex_grid = Some [(0, 0); (0, 1); (1, 0); (2, 1)] /\
  dg_random_empty ex_grid 3 = Some (Some (2, 1)) /\
  sg_random_empty (SGrid [((0, 0), 4)] [] 2 1) [(0, 0); (0, 0); (1, 0)] = Some (Some (Some (1, 0))).
Proof. repeat split; vm_compute; reflexivity. Qed.

(** ** C20 *)
Theorem C20_dense_read :
  forall T (eqv : T -> T -> bool) w h g (f : T -> T), size_ok w h -> dg_reachable eqv w h g ->
  exists g', dg_apply g READ f = Some g' /\
  forall l, in_range w h l ->
    dg_get g' l = option_map (option_map f) (dg_get g l) /\ dg_get_unbuffered g' l = dg_get_unbuffered g l.
Proof.
  intros T eqv w h g f Hs Hr. apply (dg_reachable_wf eqv) in Hr; [|exact Hs].
  destruct (dg_apply_ok w h g READ f Hr Hs) as (g' & E & _ & H). exists g'. split; [exact E|].
  intros l Hl. destruct (dg_get_total w h g l Hr Hs Hl) as [x Hx]. destruct (dg_getu_total w h g l Hr Hs Hl) as [y Hy].
  destruct (H l x y Hl Hx Hy) as [-> ->]. rewrite Hx, Hy. auto.
Qed.
Print Assumptions C20_dense_read.

Theorem C20_dense_readwrite :
  forall T (eqv : T -> T -> bool) w h g (f : T -> T), size_ok w h -> dg_reachable eqv w h g ->
  exists g', dg_apply g READWRITE f = Some g' /\
  forall l r x, in_range w h l -> dg_get g l = Some r -> dg_get_unbuffered g l = Some x ->
    dg_get g' l = Some r /\
    dg_get_unbuffered g' l = Some (match x with Some v => Some (f v) | None => option_map f r end).
Proof.
  intros T eqv w h g f Hs Hr. apply (dg_reachable_wf eqv) in Hr; [|exact Hs].
  destruct (dg_apply_ok w h g READWRITE f Hr Hs) as (g' & E & _ & H). exists g'. split; [exact E|exact H].
Qed.
Print Assumptions C20_dense_readwrite.

(** [WRITE] on the dense grid reads the read buffer: values only present in the write
    state are not transformed, values of the read state overwrite the write state. *)
Theorem C20_dense_write_refuted :
  exists (g g' : dgrid Z) l, dg_reachable Z.eqb 3 2 g /\ in_range 3 2 l /\
    dg_apply g WRITE Z.succ = Some g' /\
    dg_get_unbuffered g l = Some (Some 8) /\ dg_get_unbuffered g' l = Some (Some 8).
Proof.
  exists ex_grid. eexists. exists (0, 0). split; [exact ex_reach|]. split; [unfold in_range; cbn; lia|].
  split; [vm_compute; reflexivity|]. split; vm_compute; reflexivity.
Qed.
Print Assumptions C20_dense_write_refuted.

Theorem C20_dense_write_actual_partial :
  forall T (eqv : T -> T -> bool) w h g (f : T -> T), size_ok w h -> dg_reachable eqv w h g ->
  exists g', dg_apply g WRITE f = Some g' /\
  forall l r x, in_range w h l -> dg_get g l = Some r -> dg_get_unbuffered g l = Some x ->
    dg_get g' l = Some r /\
    dg_get_unbuffered g' l = Some (match r with Some v => Some (f v) | None => x end).
Proof.
  intros T eqv w h g f Hs Hr. apply (dg_reachable_wf eqv) in Hr; [|exact Hs].
  destruct (dg_apply_ok w h g WRITE f Hr Hs) as (g' & E & _ & H). exists g'. split; [exact E|exact H].
Qed.
Print Assumptions C20_dense_write_actual_partial.

Theorem C20_sparse_read_write :
  forall T (eqv : T -> T -> bool) w h g it (f : T -> T), sg_reachable eqv w h g -> iteration it ->
  forall l,
    (sg_get (sg_apply it g READ f) l = option_map f (sg_get g l) /\
     sg_get_unbuffered (sg_apply it g READ f) l = sg_get_unbuffered g l) /\
    (sg_get (sg_apply it g WRITE f) l = sg_get g l /\
     sg_get_unbuffered (sg_apply it g WRITE f) l = option_map f (sg_get_unbuffered g l)).
Proof.
  intros T eqv w h g it f Hr Hit l. apply (sg_reachable_wf eqv) in Hr. destruct Hr as [W _].
  destruct (sg_apply_ok it g READ f W Hit) as [_ H1]. destruct (sg_apply_ok it g WRITE f W Hit) as [_ H2].
  split; [exact (H1 l)|exact (H2 l)].
Qed.
Print Assumptions C20_sparse_read_write.

(** [READWRITE] on the sparse grid visits only the locations of the read state. *)
Theorem C20_sparse_readwrite_refuted :
  exists (g : sgrid Z) l, sg_reachable Z.eqb 3 2 g /\ in_range 3 2 l /\
    forall it, iteration it -> sg_get_unbuffered g l = Some 8 /\
      sg_get_unbuffered (sg_apply it g READWRITE Z.succ) l = Some 8.
Proof.
  exists (SGrid [] [((0, 0), 8)] 3 2), (0, 0). split; [|split; [unfold in_range; cbn; lia|]].
  - exists [(GSet 8 (0, 0), fun m => m)]. eexists.
    split; [repeat constructor; cbn; apply id_iteration|vm_compute; reflexivity].
  - intros it Hit. split; [reflexivity|]. unfold sg_apply. cbn [sg_read sg_write].
    assert (E : it [] = []) by (apply Permutation_nil; symmetry; apply Hit). rewrite E. reflexivity.
Qed.
Print Assumptions C20_sparse_readwrite_refuted.

Theorem C20_sparse_readwrite_partial :
  forall T (eqv : T -> T -> bool) w h g it (f : T -> T), sg_reachable eqv w h g -> iteration it ->
  forall l, sg_get (sg_apply it g READWRITE f) l = sg_get g l /\
    sg_get_unbuffered (sg_apply it g READWRITE f) l =
      match sg_get g l, sg_get_unbuffered g l with
      | Some _, Some x => Some (f x)
      | Some v, None => Some (f v)
      | None, x => x
      end.
Proof.
  intros T eqv w h g it f Hr Hit l. apply (sg_reachable_wf eqv) in Hr. destruct Hr as [W _].
  destruct (sg_apply_ok it g READWRITE f W Hit) as [_ H]. destruct (H l) as [A B]. rewrite A, B. cbn.
  split; [reflexivity|]. destruct (sg_get g l), (sg_get_unbuffered g l); reflexivity.
Qed.
Print Assumptions C20_sparse_readwrite_partial.

Example C20_concrete :
  option_map (fun g => map (dg_get_unbuffered g) [(0, 0); (1, 1); (2, 0); (0, 1)]) (dg_apply ex_grid READWRITE Z.succ)
  = Some [Some (Some 9); Some (Some 8); Some (Some 7); Some None].
Proof. vm_compute. reflexivity. Qed.

(** ** C21: the same program gives the same answers on both grids, whatever the iteration
    orders of the sparse grid's hash maps. *)
Theorem C21_same_answers :
  forall T (eqv : T -> T -> bool) w h os, size_ok w h ->
  Forall (fun p => call_in w h (fst p) /\ common (fst p) /\ iteration (snd p)) os ->
  exists d0 d s rs, dg_new w h = Some d0 /\ dg_run eqv d0 (map fst os) = Some (d, rs) /\
    sg_run eqv (sg_new w h) os = Some (s, rs) /\ length rs = length os.
Proof. exact @dense_sparse_same. Qed.
Print Assumptions C21_same_answers.

(** The sparse grid has the same history semantics as the dense one, at every location. *)
Theorem C21_sparse_history :
  forall T (eqv : T -> T -> bool) w h os g rs,
  Forall (fun p => iteration (snd p)) os -> Forall (fun p => no_apply (fst p)) os ->
  sg_run eqv (sg_new w h) os = Some (g, rs) ->
  forall l, sg_get g l = last_published l (rev (map fst os)) /\
            sg_get_unbuffered g l = last_written l (rev (map fst os)).
Proof. exact @sg_history. Qed.
Print Assumptions C21_sparse_history.

Example C21_concrete :
  let os := map (fun o => (o, @rev (loc * Z))) (ex_ops ++ [GUpdate; GGet (1, 1); GEmptyBags]) in
  Forall (fun p => call_in 3 2 (fst p) /\ common (fst p) /\ iteration (snd p)) os /\
  option_map snd (sg_run Z.eqb (sg_new 3 2) os) =
  Some [RUnit; RUnit; RUnit; RUnit; RUnit; RValue (Some 5); RUnit; RUnit; RValue (Some 7);
        RLocs [(0, 1); (1, 0); (2, 0); (2, 1)]].
Proof.
  cbv zeta. unfold ex_ops. cbn [map app]. split; [|vm_compute; reflexivity].
  repeat (constructor; [split; [cbn; unfold in_range; cbn; first [lia|exact I]|split; [exact I|intros m; cbn; symmetry; apply Permutation_rev]]|]).
  constructor.
Qed.

(** Outside the common calls the grids differ, e.g. [apply_to_all_values(.., WRITE)]. *)
Theorem C21_apply_refuted :
  exists os : list (gop Z), Forall (call_in 3 2) os /\
    forall g0, dg_new 3 2 = Some g0 ->
    option_map snd (dg_run Z.eqb g0 os) <>
    option_map snd (sg_run Z.eqb (sg_new 3 2) (map (fun o => (o, fun m => m)) os)).
Proof.
  exists [GSet 8 (0, 0); GApply WRITE Z.succ; GGetUnbuffered (0, 0)]. split.
  - repeat constructor; cbn; lia.
  - intros g0 E. vm_compute in E. injection E as <-. vm_compute. discriminate.
Qed.
Print Assumptions C21_apply_refuted.

(** ** C57: the parallel build of the number grids *)
Theorem C57_sparse_partial :
  forall T (eqv : T -> T -> bool) (hash : loc -> N) w h cpus os,
  (1 <= cpus)%N -> (cpus * 4 <= 2 ^ 63)%N ->
  Forall (fun p => par_sparse (fst p) /\ iteration (snd p)) os ->
  exists d s rs, pg_run hash (N.to_nat (shard_amount cpus)) (dash_new cpus) os = Some (d, rs) /\
    sg_run eqv (sg_new w h) os = Some (s, rs) /\ length rs = length os.
Proof. exact @par_sparse_same. Qed.
Print Assumptions C57_sparse_partial.

Theorem C57_dense_partial :
  forall T (eqv : T -> T -> bool) (hash : loc -> N) w h cpus os,
  size_ok w h -> (1 <= cpus)%N -> (cpus * 4 <= 2 ^ 63)%N ->
  Forall (fun p => call_in w h (fst p) /\ par_dense (fst p) /\ iteration (snd p)) os ->
  exists d g0 g rs, pg_run hash (N.to_nat (shard_amount cpus)) (dash_new cpus) os = Some (d, rs) /\
    dg_new w h = Some g0 /\ dg_run eqv g0 (map fst os) = Some (g, rs) /\ length rs = length os.
Proof. exact @par_dense_same. Qed.
Print Assumptions C57_dense_partial.

(** [update] replaces the read state in the sequential build and merges into it in the
    parallel one; [apply_to_all_values(.., READ)] changes the read state in the
    sequential build and the write state in the parallel one. *)
Definition par_answers (os : list (gop Z)) : option (list (gres Z)) :=
  option_map snd (pg_run (fun l => Z.to_N (fst l * 2 ^ 53)) (N.to_nat (shard_amount 2)) (dash_new 2)
                    (map (fun o => (o, fun m => m)) os)).
Definition seq_answers (os : list (gop Z)) : option (list (gres Z)) :=
  option_map snd (sg_run Z.eqb (sg_new 3 2) (map (fun o => (o, fun m => m)) os)).
Theorem C57_refuted :
  (exists os, par_answers os = Some [RUnit; RUnit; RUnit; RValue (Some 8)] /\
              seq_answers os = Some [RUnit; RUnit; RUnit; RValue None]) /\
  (exists os, par_answers os = Some [RUnit; RUnit; RUnit; RValue (Some 8)] /\
              seq_answers os = Some [RUnit; RUnit; RUnit; RValue (Some 9)]).
Proof.
  split.
  - exists [GSet 8 (0, 0); GLazyUpdate; GUpdate; GGet (0, 0)]. split; vm_compute; reflexivity.
  - exists [GSet 8 (0, 0); GLazyUpdate; GApply READ Z.succ; GGet (0, 0)]. split; vm_compute; reflexivity.
Qed.
Print Assumptions C57_refuted.

Example C57_concrete :
  let os := map (fun o => (o, fun m : list (loc * Z) => m))
    [GSet 8 (0, 0); GSet 9 (1, 1); GGetUnbuffered (1, 1); GLazyUpdate; GGet (0, 0); GGetUnbuffered (0, 0)] in
  Forall (fun p => call_in 3 2 (fst p) /\ par_dense (fst p) /\ iteration (snd p)) os /\
  par_answers (map fst os) = Some [RUnit; RUnit; RValue (Some 9); RUnit; RValue (Some 8); RValue None].
Proof.
  cbv zeta. cbn [map app]. split; [|vm_compute; reflexivity].
  repeat (constructor; [split; [cbn; unfold in_range; cbn; first [lia|exact I]|split; [exact I|apply id_iteration]]|]). constructor.
Qed.

(** ** C58: iteration visits every value once *)
Theorem C58_dense_iter :
  forall T (eqv : T -> T -> bool) w h g, size_ok w h -> dg_reachable eqv w h g ->
  (exists es, dg_iter g = Some es /\ ForallOrdPairs (fun a b => lex (fst a) (fst b)) es /\
     forall l (v : T), In (l, v) es <-> in_range w h l /\ dg_get g l = Some (Some v)) /\
  (exists es, dg_iter_unbuffered g = Some es /\ ForallOrdPairs (fun a b => lex (fst a) (fst b)) es /\
     forall l (v : T), In (l, v) es <-> in_range w h l /\ dg_get_unbuffered g l = Some (Some v)).
Proof.
  intros T eqv w h g Hs Hr. apply (dg_reachable_wf eqv) in Hr; [|exact Hs].
  split; [apply (dg_iter_ok eqv)|apply (dg_iteru_ok eqv)]; assumption.
Qed.
Print Assumptions C58_dense_iter.

Theorem C58_sparse_iter :
  forall T (eqv : T -> T -> bool) w h g it, sg_reachable eqv w h g -> iteration it ->
  (NoDup (map fst (sg_iter it g)) /\
   forall l (v : T), In (l, v) (sg_iter it g) <-> sg_get g l = Some v) /\
  (NoDup (map fst (sg_iter_unbuffered it g)) /\
   forall l (v : T), In (l, v) (sg_iter_unbuffered it g) <-> sg_get_unbuffered g l = Some v).
Proof.
  intros T eqv w h g it Hr Hit. apply (sg_reachable_wf eqv) in Hr. destruct Hr as [[U1 U2] _].
  split; [exact (sg_iter_ok it _ Hit U1)|exact (sg_iter_ok it _ Hit U2)].
Qed.
Print Assumptions C58_sparse_iter.

Example C58_concrete :
  dg_iter ex_grid = Some [((1, 1), 5); ((2, 0), 6)] /\
  dg_iter_unbuffered ex_grid = Some [((0, 0), 8); ((1, 1), 7)].
Proof. split; vm_compute; reflexivity. Qed.
