(** * Property theorems: agents moving on an object grid, from [init] on (C124) *)
From Coq Require Import List Bool ZArith NArith Arith Lia Permutation.
From Verif Require Import F32 SchedModel SchedSpec SchedProofs SchedStep SchedHist SimModel Grid DashModel DashSpec NumSpec ObjModel ObjSpec ObjProofs ObjSparse
  OrderSpec OrderProofs FlockSpec StageModel StageSpec StageProofs StageGrid.
Import ListNotations.
Local Open Scope Z_scope.

(** ** C124: a simulation in which every agent is placed on a grid of bags and scheduled in
    [init], moves by looking at cells, and [update] calls [lazy_update], is a synchronous one.

    [in_step], [conserved], [dense_shows], [sparse_shows] and [identified] are in StageSpec.v. *)

(** What an agent sees in a grid, and its next version. *)
Definition dense_next {O} look (rule : O -> list (option (list O)) -> O) (g : odense O) (o : O) : O :=
  match mapM (od_get g) (look o) with Some v => rule o v | None => o end.
Definition sparse_next {O} look (rule : O -> list (option (list O)) -> O) (g : osparse O) (o : O) : O :=
  rule o (map (os_get g) (look o)).

(** The agent is on the grid, and so are the cells it looks at. *)
Definition on_grid {O} (location : O -> loc) (look : O -> list loc) (w h : Z) (o : O) : Prop :=
  in_range w h (location o) /\ Forall (in_range w h) (look o).

Theorem C124_dense :
  forall O K (eqo : O -> O -> bool) (location : O -> loc) look (key : O -> K) rule stops ends agents w h g,
  size_ok w h -> od_new w h = Some g ->
  identified eqo key rule agents ->
  Forall (on_grid location look w h) agents ->
  (forall o v, on_grid location look w h o -> on_grid location look w h (rule o v)) ->
  (N.of_nat (length agents) < 2 ^ 32)%N ->
  let u := dense_user eqo location look rule stops ends agents in
  in_step u g od_lazy_update (dense_shows eqo location w h) (dense_next look rule) stops agents /\
  conserved key u g (dense_shows eqo location w h) stops agents.
Proof.
  intros O K eqo location look key rule stops ends agents w h g Hs Hg [Eq Kept Un] Home Stays Few u.
  assert (Rd : ready (owf w h) (dwrites location key w h) (g, false)).
  { destruct (od_new_ok (O := O) w h Hs) as (g' & E & W & _ & _ & B). rewrite Hg in E. injection E as <-.
    split; [reflexivity|]. split; [exact W|]. intros l Hl. destruct (B l Hl) as [_ E]. exists []. split; [exact E|]. reflexivity. }
  split.
  - apply (stage_in_step (fun g o => od_set eqo g o (location o)) od_lazy_update (fun g o => mapM (od_get g) (look o))
      rule stops ends agents (dgood location look w h) (owf w h) (dreads location key w h) (dwrites location key w h) dsame
      Home Stays (fun _ => eq_refl) (fun _ _ _ A B => eq_trans A B)
      (dplace eqo location look key Eq w h Hs) (dpublish location key w h Hs) (dsee location look w h Hs)
      (dsee_same look w h) Few key Kept); try assumption.
    apply (dshows eqo location look key Eq w h Hs).
  - apply (stage_conserved (fun g o => od_set eqo g o (location o)) od_lazy_update (fun g o => mapM (od_get g) (look o))
      rule stops ends agents (dgood location look w h) (owf w h) (dreads location key w h) (dwrites location key w h) dsame
      Home Stays (fun _ => eq_refl) (fun _ _ _ A B => eq_trans A B)
      (dplace eqo location look key Eq w h Hs) (dpublish location key w h Hs) (dsee location look w h Hs)
      (dsee_same look w h) Few key Kept); try assumption.
    apply (dshows eqo location look key Eq w h Hs).
Qed.
Print Assumptions C124_dense.

(** On the sparse grid the agents may go, and look, anywhere. *)
Theorem C124_sparse :
  forall O K (eqo : O -> O -> bool) (location : O -> loc) look (key : O -> K) rule stops ends agents w h,
  identified eqo key rule agents ->
  (N.of_nat (length agents) < 2 ^ 32)%N ->
  let g := os_new w h in
  let u := sparse_user location look rule stops ends agents in
  in_step u g os_lazy_update (sparse_shows eqo location) (sparse_next look rule) stops agents /\
  conserved key u g (sparse_shows eqo location) stops agents.
Proof.
  intros O K eqo location look key rule stops ends agents w h [Eq Kept Un] Few g u.
  assert (Rd : ready oswf (swrites location) (g, false)).
  { split; [reflexivity|]. split; [apply oswf_new|]. intros l. reflexivity. }
  assert (Home : Forall (fun _ : O => True) agents) by (apply Forall_forall; auto).
  assert (Sm : forall (g1 g2 : osparse O) (o : O), oswf g1 -> oswf g2 -> ssame g2 g1 -> Some (map (os_get g2) (look o)) = Some (map (os_get g1) (look o))).
  { intros g1 g2 o _ _ E. unfold os_get. rewrite E. reflexivity. }
  split.
  - refine (stage_in_step (fun g o => Some (os_set g o (location o))) os_lazy_update (fun g o => Some (map (os_get g) (look o)))
      rule stops ends agents (fun _ => True) oswf (sreads location) (swrites location) ssame
      Home (fun _ _ _ => I) (fun _ => eq_refl) (fun _ _ _ A B => eq_trans A B)
      (fun g p o W H _ => splace location g p o W H) (spublish location) (fun g o _ _ => ex_intro _ _ eq_refl)
      Sm Few key Kept (sparse_shows eqo location) Un _ g Rd).
    intros g1 p W R _. apply (sshows eqo location key Eq); assumption.
  - refine (stage_conserved (fun g o => Some (os_set g o (location o))) os_lazy_update (fun g o => Some (map (os_get g) (look o)))
      rule stops ends agents (fun _ => True) oswf (sreads location) (swrites location) ssame
      Home (fun _ _ _ => I) (fun _ => eq_refl) (fun _ _ _ A B => eq_trans A B)
      (fun g p o W H _ => splace location g p o W H) (spublish location) (fun g o _ _ => ex_intro _ _ eq_refl)
      Sm Few key Kept (sparse_shows eqo location) Un _ g Rd).
    intros g1 p W R _. apply (sshows eqo location key Eq); assumption.
Qed.
Print Assumptions C124_sparse.

(** ** A simulation: agents in a corridor walk to the right when the next cell is free and
    not the end of the corridor. *)
Definition corridor_look (o : nat * loc) : list loc := [(Z.min (fst (snd o) + 1) 3, snd (snd o))].
Definition corridor_rule (o : nat * loc) (v : list (option (list (nat * loc)))) : nat * loc :=
  match v with [None] => (fst o, (Z.min (fst (snd o) + 1) 3, snd (snd o))) | _ => o end.
Definition by_id (a b : nat * loc) : bool := (fst a =? fst b)%nat.
Definition corridor : list (nat * loc) := [(1%nat, (0, 0)); (2%nat, (1, 0)); (3%nat, (1, 1))].
Definition corridor_grid : odense (nat * loc) := ODense (repeat [] 8) (repeat [] 8) 4 2.
Definition corridor_after (eqo : nat * loc -> nat * loc -> bool) (l : list (nat * loc)) (chs : list (nat -> nat)) :
    option (list (loc * (nat * loc))) * bool :=
  let c := played (dense_user eqo snd corridor_look corridor_rule (fun _ => false) (fun _ => false) l) corridor_grid chs in
  (od_iter (space_of c), panicked c).

Definition open_after (chs : list (nat -> nat)) : list (loc * (nat * loc)) * bool :=
  let c := played (sparse_user snd corridor_look corridor_rule (fun _ => false) (fun _ => false) corridor) (os_new 4 2) chs in
  (os_iter (fun m => m) (space_of c), panicked c).

Lemma corridor_in o v : on_grid snd corridor_look 4 2 o -> on_grid snd corridor_look 4 2 (corridor_rule o v).
Proof.
  intros [[Hx Hy] F]. unfold corridor_rule. destruct v as [|[b|] [|c v]]; try (split; [split; assumption|exact F]).
  unfold on_grid, corridor_look, in_range in *. cbn [fst snd]. split; [lia|]. repeat constructor; cbn [fst snd]; lia.
Qed.

Example C124_concrete :
  size_ok 4 2 /\ od_new 4 2 = Some corridor_grid /\
  identified by_id fst corridor_rule corridor /\
  Forall (on_grid snd corridor_look 4 2) corridor /\
  (forall o v, on_grid snd corridor_look 4 2 o -> on_grid snd corridor_look 4 2 (corridor_rule o v)) /\
  corridor_after by_id corridor [fun _ => 0%nat] =
    (Some [((0, 0), (1%nat, (0, 0))); ((2, 0), (2%nat, (2, 0))); ((2, 1), (3%nat, (2, 1)))], false) /\
  corridor_after by_id corridor [fun _ => 0%nat; fun _ => 1%nat; fun _ => 2%nat] =
    (Some [((2, 0), (1%nat, (2, 0))); ((3, 0), (2%nat, (3, 0))); ((3, 1), (3%nat, (3, 1)))], false) /\
  open_after [fun _ => 0%nat] =
    ([((0, 0), (1%nat, (0, 0))); ((2, 0), (2%nat, (2, 0))); ((2, 1), (3%nat, (2, 1)))], false).
Proof.
  split; [unfold size_ok; lia|]. split; [reflexivity|]. split.
  { split.
    - intros a b. apply Nat.eqb_eq.
    - intros o v. unfold corridor_rule. destruct v as [|[?|] [|? ?]]; reflexivity.
    - repeat constructor; cbn; intuition discriminate. }
  split; [repeat constructor; cbn; lia|]. split; [exact corridor_in|]. split; [|split]; vm_compute; reflexivity.
Qed.

(** Agents that [==] cannot tell apart are lost on the dense grid as soon as they meet. *)
Theorem C124_lookalikes_refuted :
  exists (l : list (nat * loc)) chs calls,
    NoDup (map fst l) /\ Forall (on_grid snd corridor_look 4 2) l /\
    corridor_after (fun a b => loc_eqb (snd a) (snd b)) l chs = (Some calls, false) /\
    length calls = 1%nat /\ length l = 2%nat.
Proof.
  exists [(1%nat, (0, 0)); (2%nat, (0, 0))], [fun _ => 0%nat], [((1, 0), (2%nat, (1, 0)))].
  split; [repeat constructor; cbn; intuition discriminate|]. split; [repeat constructor; cbn; lia|].
  split; [vm_compute; reflexivity|]. auto.
Qed.
Print Assumptions C124_lookalikes_refuted.

(** The flag tells a panic: agents whose look at the space panics. *)
Example C124_flag_concrete :
  panicked (played (stage_user (fun g (_ : nat) => Some g) (fun _ : unit => tt) (fun _ _ => @None unit) (fun o _ => o)
    (fun _ => false) (fun _ => false) [1; 2]%nat) tt (repeat (fun _ => 0%nat) 2)) = true /\
  panicked (played (stage_user (fun g (_ : nat) => @None unit) (fun _ : unit => tt) (fun _ _ => Some tt) (fun o _ => o)
    (fun _ => false) (fun _ => false) [1; 2]%nat) tt []) = true.
Proof. split; vm_compute; reflexivity. Qed.

(** After [init] the flag is set exactly if placing the agents one after the other panics, and
    once set it stays set. *)
Fixpoint places {O G} (place : G -> O -> option G) (g : G) (l : list O) : option G :=
  match l with
  | [] => Some g
  | o :: l' => match place g o with None => None | Some g' => places place g' l' end
  end.

Lemma init_flag {O G} (place : G -> O -> option G) : forall l (sc : sched O) g b,
  snd (snd (fst (run_hprog (stage_init place l (g, b)) sc))) = (b || match places place g l with None => true | Some _ => false end)%bool.
Proof.
  induction l as [|o l IH]; intros sc g b; [destruct b; reflexivity|]. cbn [stage_init run_hprog places].
  destruct (do_op sc (OpRepeating o f0 0)) as [sc1 r]. unfold stage_place. cbn [fst snd].
  destruct (place g o) as [g'|]; [specialize (IH sc1 g' b)|specialize (IH sc1 g true)];
    destruct (run_hprog _ sc1) as [[x y] lg]; cbn [fst snd] in *; rewrite IH; [reflexivity|destruct b; reflexivity].
Qed.

Theorem C124_flag :
  forall O G V (place : G -> O -> option G) publish (see : G -> O -> option V) rule stops ends agents g,
  let u := stage_user place publish see rule stops ends agents in
  (panicked (played u g []) = true <-> places place g agents = None) /\
  forall chs more, panicked (played u g chs) = true -> panicked (played u g (chs ++ more)) = true.
Proof.
  intros O G V place publish see rule stops ends agents g u. split.
  - unfold panicked, played. change (after_steps u [] ?a ?b) with (a, b). unfold call_init. cbn [fst snd stage_user u_init w_st u].
    pose proof (init_flag place agents sched_new g false) as X. destruct (run_hprog _ sched_new) as [[x y] lg]. cbn [fst snd w_st] in *. rewrite X. cbn [orb].
    destruct (places place g agents); split; congruence.
  - intros chs more. induction more as [|ch more IH] using rev_ind; [rewrite app_nil_r; auto|]. intros H. specialize (IH H).
    rewrite app_assoc. set (l := chs ++ more) in *.
    assert (E : played u g (l ++ [ch]) = step u ch (fst (played u g l)) (snd (played u g l))) by (unfold played; apply StageProofs.after_snoc).
    rewrite E. clear E.
    assert (U : unique_ids (s_events (fst (played u g l)))).
    { unfold played, after_steps. apply acts_unique. unfold call_init. destruct (run_hprog (u_init u _) sched_new) as [[a b] lg] eqn:E.
      apply run_hprog_unique in E; [exact E|constructor]. }
    unfold panicked in *. destruct (played u g l) as [sc wd]. cbn [fst snd] in *. destruct (step u ch sc wd) as [sc' w'] eqn:E. apply step_anatomy in E; [|exact U].
    destruct E as (sc1 & s1 & l1 & due & rest & backs & s2 & tr & now & sc3 & s3 & l3 & B1 & _ & _ & _ & _ & T & _ & _ & Af & _ & Ew' & _).
    cbn in B1. injection B1 as <- <- <-. cbn in Af. injection Af as <- <- <-. cbn [snd]. rewrite Ew'. cbn [stage_user u u_update snd].
    assert (S1 : snd (st0 u sc wd) = true) by (unfold st0; destruct (s_step sc =? 0)%N; exact IH).
    revert T S1. generalize (st0 u sc wd) as s1. clear. intros s1 T.
    induction T as [s|e l s s' bk s'' T1 T2 IH|e l bb s s' bk s'' T1 T2 IH]; intros S1; [exact S1| |]; apply IH; apply turn_life in T1; destruct T1 as [_ ->];
      unfold life; cbn [stage_user u a_before a_step a_after a_stopped]; unfold stage_step, stage_place;
      destruct (see (fst s) _); cbn [fst snd]; try destruct (place (fst s) _); destruct (ai_rep _); cbn; try reflexivity; exact S1.
Qed.
Print Assumptions C124_flag.
