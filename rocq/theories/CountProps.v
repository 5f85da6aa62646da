(** * Property theorems: the counters of agents of [Field2D] and [Kdtree] (C128) *)
From Coq Require Import List Bool ZArith NArith Arith Lia.
From Verif Require Import F32 Grid ObjModel FieldModel FieldSpec FieldProofs FieldF32 FieldProps KdModel KdSpec KdProofs KdStore KdProps CountSpec CountProofs.
Import ListNotations.
Local Open Scope Z_scope.

(** ** C128: the number of agents *)
(** [Field2D]: after any calls inside the field, [nagents] is the number of placements made
    before the first [lazy_update] and not taken back before it; [density_estimation] is
    zero until then, and from then on that number divided by the number of cells.  Neither
    changes any more after the first [lazy_update]. *)
Theorem C128_field :
  forall (A : arith) (O : Type) (eqo : O -> O -> bool) location w h d t cs,
    good_size A w h d -> Forall (f_in A w h d) cs ->
    exists f rs, f_run A eqo location (f_new A w h d t) cs = Some (f, rs) /\
      f_nagents f = N.of_nat (length (live A eqo d (setup A cs))) /\
      f_density f = if published A cs then (f_nagents f / Z.to_N (cols A w d * cols A h d))%N else 0%N.
Proof.
  intros A O eqo location w h d t cs GS Hin. destruct (count_history A eqo location w h d t GS cs Hin) as (f & rs & E & _ & _ & (_ & C2 & C3)).
  exists f, rs. auto.
Qed.
Print Assumptions C128_field.

(** So [nagents] is what its documentation says, the number of objects in the field, as long
    as there was no [lazy_update] (counting the objects being written), and right after the
    first one (counting the objects that can be read). *)
Theorem C128_until_first_update :
  forall (A : arith) (O : Type) (eqo : O -> O -> bool) location w h d t cs,
    good_size A w h d -> Forall (f_in A w h d) cs -> ~ In FLazyUpdate cs ->
    exists f f' rs rs', f_run A eqo location (f_new A w h d t) cs = Some (f, rs) /\
      f_run A eqo location (f_new A w h d t) (cs ++ [FLazyUpdate]) = Some (f', rs') /\
      f_nagents f = N.of_nat (length (pending A eqo d cs)) /\
      f_nagents f' = N.of_nat (length (readable A eqo d (cs ++ [FLazyUpdate]))).
Proof.
  intros A O eqo location w h d t cs GS Hin Hn.
  assert (P : published A cs = false).
  { clear - Hn. induction cs as [|c cs IH]; [reflexivity|]. destruct c; cbn; try (apply IH; intros H; apply Hn; right; exact H). destruct Hn. left. reflexivity. }
  destruct (count_history A eqo location w h d t GS cs Hin) as (f & rs & E & _ & _ & (_ & C2 & _)).
  destruct (count_history A eqo location w h d t GS (cs ++ [FLazyUpdate])) as (f' & rs' & E' & _ & _ & (_ & C2' & _)).
  { apply Forall_app. split; [exact Hin|]. constructor; [exact I|constructor]. }
  exists f, f', rs, rs'. split; [exact E|]. split; [exact E'|].
  unfold pending, readable. rewrite rev_app_distr. cbn [rev app previous_epoch]. rewrite (setup_epoch A cs P), C2, C2', setup_snoc, P, app_nil_r. auto.
Qed.
Print Assumptions C128_until_first_update.

(** [Kdtree]: [nagents] counts the agents inserted before the first [lazy_update] on either
    side; it is frozen in the same way. *)
Theorem C128_tree :
  forall (A : arith) (O : Type) (eqo : O -> O -> bool) p rank (x y w h d dist : num A) cs,
    good_size A w h d -> (2 <= p)%nat -> (rank < p)%nat -> Forall (k_in A p w h d) cs ->
    exists k0 k : kdtree A (O := O),
      create_tree A p (Z.of_nat rank) 0 x y w h d dist = Some k0 /\ k_run A eqo p k0 cs = Some k /\
      k_nagents k = N.of_nat (length (live A eqo d (flat_map (as_calls A) (k_setup A cs))) + length (read_inserts A (k_setup A cs))) /\
      k_density k = if k_published A cs then (k_nagents k / Z.to_N (cols A w d * cols A h d))%N else 0%N.
Proof.
  intros A O eqo p rank x y w h d dist cs GS Hp Hr Hin.
  destruct (fresh_tree A (O := O) p rank x y w h d dist GS Hp Hr) as (k0 & C & K0 & F1 & F2 & F3 & F4 & F5 & F6 & _).
  assert (Z0 : k_checked k0 = false /\ k_nagents k0 = 0%N /\ k_density k0 = 0%N).
  { clear - C. unfold create_tree in C. destruct (blocks A p 0 x y w h); [|discriminate]. destruct (fold_left _ _ _) as [[? ?] [? ?]]. injection C as <-. auto. }
  assert (H : exists k, k_run A eqo p k0 cs = Some k /\ kwf A w h d k /\ shape A k = shape A k0 /\ k_after A eqo w h d p k0 cs k /\ k_counted A eqo w h d cs k).
  { revert Hin. induction cs as [|c cs IH] using rev_ind; intros Hin.
    - destruct (k_history A eqo w h d GS p k0 K0 F1 F2 F3 F4 F5 F6 [] (Forall_nil _)) as (k & E & W & Sh & H). exists k. split; [exact E|]. split; [exact W|]. split; [exact Sh|]. split; [exact H|].
      cbn in E. injection E as <-. destruct Z0 as (Z1 & Z2 & Z3). unfold k_counted. cbn. auto.
    - apply Forall_app in Hin. destruct Hin as [Hin Hc]. inversion_clear Hc as [|? ? Hc' _].
      destruct (IH Hin) as (k & E & W & Sh & H & Ct). destruct (step_ok A eqo w h d GS p k0 F1 cs k c W Sh H Hc') as (k' & E' & W' & Sh' & H').
      exists k'. split; [rewrite run_snoc, E; exact E'|]. split; [exact W'|]. split; [exact Sh'|]. split; [exact H'|].
      exact (k_count_step A eqo w h d GS p k0 cs k c k' W H Hc' Ct E'). }
  destruct H as (k & E & _ & _ & _ & (_ & C2 & C3)). exists k0, k. auto.
Qed.
Print Assumptions C128_tree.

(** False of a running simulation: an object is placed and published, a second one joins it,
    both leave; the counter goes on saying one. *)
Definition counts (cs : list (fop FA (O := nat))) : option (N * nat * nat) :=
  option_map (fun p => (f_nagents (fst p), length (concat (f_read (fst p))), length (concat (f_write (fst p)))))
             (f_run FA Nat.eqb (fun _ => (z 0, z 0)) (f_new FA (z 10) (z 10) FieldProps.half true) cs).
Definition joined : list (fop FA (O := nat)) := [put 1%nat (z 5, z 5); publish; put 1%nat (z 5, z 5); put 2%nat (z 6, z 6); publish].
Theorem C128_agents_refuted :
  Forall (call_ok (z 10) (z 10)) (joined ++ [publish]) /\
  counts joined = Some (1%N, 2%nat, 0%nat) /\
  counts (joined ++ [publish]) = Some (1%N, 0%nat, 0%nat).
Proof.
  split; [repeat constructor; vm_compute; reflexivity|]. split; vm_compute; reflexivity.
Qed.
Print Assumptions C128_agents_refuted.

Example C128_concrete :
  let cs := [put 1%nat (z 5, z 5); put 2%nat (z 9, z 9); put 3%nat (z 5, z 5); take 1%nat (z 5, z 5)] in
  good_size FA (z 10) (z 10) FieldProps.half /\ Forall (f_in FA (z 10) (z 10) FieldProps.half) cs /\ ~ In (FLazyUpdate (A := FA)) cs /\
  counts cs = Some (2%N, 0%nat, 2%nat) /\ counts (cs ++ [publish]) = Some (2%N, 2%nat, 0%nat).
Proof.
  cbv zeta. split; [exact (usable_good _ _ _ usable_10)|]. split.
  - apply (calls_in (z 10) (z 10) FieldProps.half _ usable_10). repeat constructor; vm_compute; reflexivity.
  - split; [cbn; intros [H|[H|[H|[H|[]]]]]; discriminate|]. split; vm_compute; reflexivity.
Qed.
Definition k_counts (cs : list (kop FA (O := obj))) : option (N * N * nat) :=
  tree_run 4 0 (z 128) (z 64) (z 8) cs (fun k => (k_nagents k, k_density k, length (concat (k_read k)))).
Example C128_tree_concrete :
  let a n := at_ n 60 60 in
  let k_in_all n := KInsert (A := FA) (a n) (snd (a n)) in
  let cs := map k_in_all (seq 0 22) ++ [KRemove (A := FA) (a 3%nat) (snd (a 3%nat)); KInsertRead (A := FA) (a 30%nat) (snd (a 30%nat))] in
  k_counts cs = Some (22%N, 0%N, 1%nat) /\
  k_counts (cs ++ [KLazyUpdate]) = Some (22%N, 2%N, 21%nat) /\
  k_counts (cs ++ [KLazyUpdate; k_in_all 40%nat; KLazyUpdate]) = Some (22%N, 2%N, 1%nat).
Proof. cbv zeta. split; [vm_compute; reflexivity|]. split; vm_compute; reflexivity. Qed.
