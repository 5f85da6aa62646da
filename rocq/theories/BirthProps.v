(** * Property theorems: agents that are born and die on an object grid (C137) *)
From Coq Require Import List Bool ZArith NArith Arith Lia Permutation.
From Verif Require Import F32 SchedModel SimModel Grid DashModel DashSpec NumSpec ObjModel ObjSpec ObjProofs ObjSparse
  OrderSpec FlockSpec StageModel StageSpec StageProofs StageGrid StageProps BirthModel BirthSpec BirthProofs.
Import ListNotations.
Local Open Scope Z_scope.

(** ** C137: a simulation whose [after_step] makes new agents, places them and schedules them for
    the next step, and whose agents may stop, is a synchronous one in which nobody is lost.

    [grows_in_step] is in BirthSpec.v; [dense_shows] and [sparse_shows] are in StageSpec.v,
    [dense_next], [sparse_next] and [on_grid] in StageProps.v. *)

(** Agents carry a number that [==] compares, that moving does not change and that newborn
    agents are given. *)
Record numbering {O V B : Type} (eqo : O -> O -> bool) (key : O -> N) (rule : O -> V -> O) (newborn : N -> B -> O) (agents : list O) : Prop := {
  num_eq : forall a b, eqo a b = true <-> key a = key b;
  num_kept : forall o v, key (rule o v) = key o;
  num_born : forall n b, key (newborn n b) = n;
  num_first : map key agents = numbers (N.of_nat (length agents))
}.
(** The agents born in a step, by what is seen in the cells of [nursery]. *)
Definition dense_litter {O B} nursery (born : list (option (list O)) -> list B) (g : odense O) : list B :=
  match mapM (od_get g) nursery with Some v => born v | None => [] end.
Definition sparse_litter {O B} nursery (born : list (option (list O)) -> list B) (g : osparse O) : list B :=
  born (map (os_get g) nursery).

Theorem C137_dense :
  forall O B (eqo : O -> O -> bool) (location : O -> loc) look nursery (born : list (option (list O)) -> list B)
    (key : O -> N) rule stops ends newborn agents w h g,
  size_ok w h -> od_new w h = Some g ->
  numbering eqo key rule newborn agents ->
  Forall (on_grid location look w h) agents ->
  (forall o v, on_grid location look w h o -> on_grid location look w h (rule o v)) ->
  (forall n b, on_grid location look w h (newborn n b)) ->
  Forall (in_range w h) nursery ->
  (N.of_nat (length agents) < 2 ^ 32)%N ->
  grows_in_step key (dense_births eqo location look nursery born rule stops ends newborn agents) g (fun g => Some (od_lazy_update g))
    (dense_shows eqo location w h) (dense_next look rule) (dense_litter nursery born) newborn stops agents.
Proof.
  intros O B eqo location look nursery born key rule stops ends newborn agents w h g Hs Hg [Eq Kept Bk Fk] Home Stays Bg Nu Few.
  assert (Rd : BirthProofs.ready (owf w h) (dwrites location key w h) g).
  { destruct (od_new_ok (O := O) w h Hs) as (g' & E & W & _ & _ & Bb). rewrite Hg in E. injection E as <-.
    split; [exact W|]. intros l Hl. destruct (Bb l Hl) as [_ E]. exists []. split; [exact E|]. reflexivity. }
  assert (Bt : forall g1 : odense O, owf w h g1 -> exists v, mapM (od_get g1) nursery = Some v).
  { intros g1 W. apply mapM_total. intros l Hl. rewrite Forall_forall in Nu. destruct (rbag_total w h g1 l W Hs (Nu l Hl)) as [b Hb].
    unfold od_get. unfold rbag in Hb. rewrite Hb. cbn. eauto. }
  assert (Bs : forall g1 g2 : odense O, owf w h g1 -> owf w h g2 -> dsame g2 g1 -> mapM (od_get g2) nursery = mapM (od_get g1) nursery).
  { intros g1 g2 (Ew & Eh & _) (Ew' & Eh' & _) S. clear - Eh Eh' S. induction nursery as [|l ls IH]; [reflexivity|]. cbn [mapM]. rewrite IH.
    unfold od_get. rewrite Eh, Eh', S. reflexivity. }
  pose proof (birth_in_step (fun g o => od_set eqo g o (location o)) (fun g => Some (od_lazy_update g)) (fun g o => mapM (od_get g) (look o))
      rule stops ends (fun g => option_map born (mapM (od_get g) nursery)) newborn agents
      (dgood location look w h) (owf w h) (dreads location key w h) (dwrites location key w h) dsame key
      Home Stays (fun _ => eq_refl) (fun _ _ _ A B => eq_trans A B)
      (dplace eqo location look key Eq w h Hs) (fun g p W H => ex_intro _ _ (conj eq_refl (dpublish location key w h Hs g p W H))) (dsee location look w h Hs)
      (dsee_same look w h)) as X.
  assert (Y : grows_in_step key (dense_births eqo location look nursery born rule stops ends newborn agents) g (fun g => Some (od_lazy_update g))
    (dense_shows eqo location w h) (dense_next look rule) (litter (fun g => option_map born (mapM (od_get g) nursery))) newborn stops agents).
  { apply X; try assumption.
    - intros g1 W. destruct (Bt g1 W) as [v ->]. cbn. eauto.
    - intros g1 g2 W1 W2 S. rewrite (Bs g1 g2 W1 W2 S). reflexivity.
    - apply (dshows eqo location look key Eq w h Hs). }
  assert (Ez : forall g1, litter (fun g => option_map born (mapM (od_get g) nursery)) g1 = dense_litter nursery born g1).
  { intros g1. unfold litter, dense_litter. destruct (mapM (od_get g1) nursery); reflexivity. }
  destruct Y as [Y1 Y2]. split; [exact Y1|]. intros chs ch. specialize (Y2 chs ch). cbv zeta in *. rewrite <- Ez. exact Y2.
Qed.
Print Assumptions C137_dense.

(** On the sparse grid everything may be anywhere. *)
Theorem C137_sparse :
  forall O B (eqo : O -> O -> bool) (location : O -> loc) look nursery (born : list (option (list O)) -> list B)
    (key : O -> N) rule stops ends newborn agents w h,
  numbering eqo key rule newborn agents ->
  (N.of_nat (length agents) < 2 ^ 32)%N ->
  grows_in_step key (sparse_births location look nursery born rule stops ends newborn agents) (os_new w h) (fun g => Some (os_lazy_update g))
    (sparse_shows eqo location) (sparse_next look rule) (sparse_litter nursery born) newborn stops agents.
Proof.
  intros O B eqo location look nursery born key rule stops ends newborn agents w h [Eq Kept Bk Fk] Few.
  assert (Rd : BirthProofs.ready oswf (swrites location) (os_new w h)) by (split; [apply oswf_new|intros l; reflexivity]).
  assert (Home : Forall (fun _ : O => True) agents) by (apply Forall_forall; auto).
  refine (birth_in_step (fun g o => Some (os_set g o (location o))) (fun g => Some (os_lazy_update g)) (fun g o => Some (map (os_get g) (look o)))
    rule stops ends (fun g => Some (born (map (os_get g) nursery))) newborn agents (fun _ => True) oswf (sreads location) (swrites location) ssame key
    Home (fun _ _ _ => I) (fun _ => eq_refl) (fun _ _ _ A B => eq_trans A B)
    (fun g p o W H _ => splace location g p o W H) (fun g p W H => ex_intro _ _ (conj eq_refl (spublish location g p W H))) (fun g o _ _ => ex_intro _ _ eq_refl)
    _ (fun g _ => ex_intro _ _ eq_refl) _ (fun _ _ => I) Bk Kept Fk Few _ Rd (sparse_shows eqo location) _).
  - intros g1 g2 o _ _ E. unfold os_get. rewrite E. reflexivity.
  - intros g1 g2 _ _ E. unfold os_get. rewrite E. reflexivity.
  - intros g1 p W R _. apply (sshows eqo location key Eq); assumption.
Qed.
Print Assumptions C137_sparse.

(** ** A simulation: walkers in a corridor of four cells stop at its end; as long as the first
    cell is empty, a new one comes in there. *)
Definition walk_look (o : N * loc) : list loc := [].
Definition walk_rule (o : N * loc) (v : list (option (list (N * loc)))) : N * loc := (fst o, (Z.min (fst (snd o) + 1) 3, 0)).
Definition walk_stops (o : N * loc) : bool := 3 <=? fst (snd o).
Definition walk_born (v : list (option (list (N * loc)))) : list unit := match v with [None] => [tt] | _ => [] end.
Definition walk_in (n : N) (_ : unit) : N * loc := (n, (0, 0)).
Definition same_number (a b : N * loc) : bool := (fst a =? fst b)%N.
Definition first_walkers : list (N * loc) := [(0%N, (0, 0)); (1%N, (1, 0))].
Definition walk_grid : odense (N * loc) := ODense (repeat [] 4) (repeat [] 4) 4 1.
Definition walked (n : nat) : list (loc * (N * loc)) * list (N * loc) * N * bool :=
  let c := lived (dense_births same_number snd walk_look [(0, 0)] walk_born walk_rule walk_stops (fun _ => false) walk_in first_walkers)
             walk_grid (repeat (fun _ => 0%nat) n) in
  (match od_iter (land_of c) with Some l => l | None => [] end, queued (fst c), made c, failed c).
Definition wandered (n : nat) : list (loc * (N * loc)) * list (N * loc) * N * bool :=
  let c := lived (sparse_births snd walk_look [(0, 0)] walk_born walk_rule walk_stops (fun _ => false) walk_in first_walkers)
             (os_new 4 1) (repeat (fun _ => 0%nat) n) in
  (os_iter (fun m => m) (land_of c), queued (fst c), made c, failed c).

Lemma walk_on o v : on_grid snd walk_look 4 1 o -> on_grid snd walk_look 4 1 (walk_rule o v).
Proof. intros [[Hx Hy] _]. split; [|constructor]. unfold walk_rule, in_range in *. cbn [fst snd] in *. lia. Qed.

Example C137_concrete :
  size_ok 4 1 /\ od_new 4 1 = Some walk_grid /\
  numbering same_number fst walk_rule walk_in first_walkers /\
  Forall (on_grid snd walk_look 4 1) first_walkers /\
  (forall o v, on_grid snd walk_look 4 1 o -> on_grid snd walk_look 4 1 (walk_rule o v)) /\
  (forall n b, on_grid snd walk_look 4 1 (walk_in n b)) /\
  Forall (in_range 4 1) [(0, 0)] /\
  walked 2 = ([((0, 0), (2%N, (0, 0))); ((2, 0), (0%N, (2, 0))); ((3, 0), (1%N, (3, 0)))], [(0%N, (2, 0)); (2%N, (0, 0))], 3%N, false) /\
  walked 4 = ([((0, 0), (3%N, (0, 0))); ((2, 0), (2%N, (2, 0)))], [(2%N, (2, 0)); (3%N, (0, 0))], 4%N, false) /\
  wandered 4 = ([((2, 0), (2%N, (2, 0))); ((0, 0), (3%N, (0, 0)))], [(2%N, (2, 0)); (3%N, (0, 0))], 4%N, false).
Proof.
  split; [unfold size_ok; lia|]. split; [vm_compute; reflexivity|]. split.
  { split; [intros a b; apply N.eqb_eq|reflexivity|reflexivity|reflexivity]. }
  split; [repeat constructor; cbn; lia|]. split; [exact walk_on|]. split; [intros n b; repeat constructor; cbn; lia|].
  split; [repeat constructor; cbn; lia|].
  split; [|split]; vm_compute; reflexivity.
Qed.
