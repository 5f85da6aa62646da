(** * Property theorems: agents that are born and die in the field (C137) *)
From Coq Require Import List Bool ZArith NArith Arith Lia Permutation.
From Verif Require Import F32 SchedModel SimModel Grid DashModel DashSpec NumSpec ObjModel ObjSparse
  FieldModel FieldSpec FieldProofs FieldReal FieldF32 FieldProps OrderSpec OrderModels OrderProofs OrderInst FlockSpec FlockProofs StageModel StageSpec StageProofs StageGrid StageProps
  BirthModel BirthSpec BirthProofs BirthProps.
Import ListNotations.
Local Open Scope Z_scope.

(** ** C137 in the field of the sequential build, for every arithmetic; [shows] is in FlockSpec.v. *)
Definition field_next (A : arith) {O} (location : O -> num A * num A) (radius : O -> num A) (rule : O -> list O -> O)
    (f : @field2d A O) (o : O) : O :=
  match f_neighbors A location f (location o) (radius o) with Some v => rule o v | None => o end.
Definition field_litter (A : arith) {O B} nursery (born : list (list O) -> list B) (f : @field2d A O) : list B :=
  match mapM (f_get A f) nursery with Some v => born v | None => [] end.

Theorem C137_field :
  forall (A : arith) O B (eqo : O -> O -> bool) (location : O -> num A * num A) radius nursery (born : list (list O) -> list B)
    (key : O -> N) rule stops ends newborn agents w h d t,
  home A location rule agents w h d ->
  numbering eqo key rule newborn agents ->
  (forall n b, in_field A w h d (location (newborn n b))) ->
  Forall (in_field A w h d) nursery ->
  grows_in_step key (field_births A location radius nursery born rule stops ends newborn agents) (f_new A w h d t) (f_lazy_update A)
    (FlockSpec.shows A location w h d) (field_next A location radius rule) (field_litter A nursery born) newborn stops agents.
Proof.
  intros A O B eqo location radius nursery born key rule stops ends newborn agents w h d t (GS & Home & Stays & Few) [Eq Kept Bk Fk] Bg Nu.
  assert (Rd : BirthProofs.ready (fwf A w h d t) (FlockProofs.writes A location w h d) (f_new A w h d t)).
  { destruct (new_ready A location w h d t GS) as (_ & W & Z). split; assumption. }
  assert (Y : grows_in_step key (field_births A location radius nursery born rule stops ends newborn agents) (f_new A w h d t) (f_lazy_update A)
    (FlockSpec.shows A location w h d) (field_next A location radius rule) (litter (fun f => option_map born (mapM (f_get A f) nursery))) newborn stops agents).
  { refine (birth_in_step (fun f o => f_set A f o (location o)) (f_lazy_update A) (fun f o => f_neighbors A location f (location o) (radius o))
      rule stops ends (fun f => option_map born (mapM (f_get A f) nursery)) newborn agents
      (fun o => in_field A w h d (location o)) (fwf A w h d t) (FlockProofs.reads A location w h d) (FlockProofs.writes A location w h d)
      (fun f f' => f_read f = f_read f') key Home Stays (fun _ => eq_refl) (fun _ _ _ A B => eq_trans A B)
      (set_adds A location w h d t GS) _ (fun f o W _ => neighbors_total A location w h d t GS f (location o) (radius o) W) _ _ _
      Bg Bk Kept Fk Few _ Rd (FlockSpec.shows A location w h d) (fun f p W R F _ => reads_shows A location w h d t f p W R F)).
    - intros f p W H. destruct (update_publishes A location w h d t GS f p W H) as (f' & _ & E & X). eauto.
    - intros f f' o (W1 & W2 & W3 & W4 & W5 & _) (V1 & V2 & V3 & V4 & V5 & _) E.
      apply neighbors_geom; congruence.
    - intros f W. destruct (mapM_total (f_get A f) nursery) as [v ->]; [|cbn; eauto].
      intros l Hl. rewrite Forall_forall in Nu. destruct (FieldProofs.rbag_total A w h d t GS f _ W (Nu l Hl)) as [b Hb].
      unfold f_get. rewrite (index_eq A w h d t f l W), Hb. eauto.
    - intros f f' W W' E. f_equal. clear - W W' E. induction nursery as [|l ls IH]; [reflexivity|]. cbn [mapM]. rewrite IH.
      unfold f_get. rewrite (index_eq A w h d t f l W), (index_eq A w h d t f' l W'), E. reflexivity. }
  assert (Ez : forall f, litter (fun f => option_map born (mapM (f_get A f) nursery)) f = field_litter A nursery born f).
  { intros f. unfold litter, field_litter. destruct (mapM (f_get A f) nursery); reflexivity. }
  destruct Y as [Y1 Y2]. split; [exact Y1|]. intros chs ch. specialize (Y2 chs ch). cbv zeta in *. rewrite <- Ez. exact Y2.
Qed.
Print Assumptions C137_field.

(** ** Birds: those that see another go to (5, 5), where they stop; one hatches at (1, 1) in
    every step in which nobody is there. *)
Definition nest : f32 * f32 := (z 1, z 1).
Definition swallow := (N * (f32 * f32))%type.
Definition dart (o : swallow) (v : list swallow) : swallow := match v with [] | [_] => o | _ => (fst o, (z 5, z 5)) end.
Definition settles (o : swallow) : bool := feqb (fst (snd o)) (z 5).
Definition clutch (v : list (list swallow)) : list unit := match v with [[]] => [tt] | _ => [] end.
Definition chick (n : N) (_ : unit) : swallow := (n, nest).
Definition swallows : list swallow := [(0%N, (z 2, z 2)); (1%N, (z 2, z 3)); (2%N, (z 8, z 8))].
Definition same_swallow (a b : swallow) : bool := (fst a =? fst b)%N.
Definition summer (n : nat) : list (option (list N)) * list N * N * bool :=
  let c := lived (field_births FA snd (fun _ => z 2) [nest] clutch dart settles (fun _ => false) chick swallows)
             (f_new FA (z 10) (z 10) (z 1) false) (repeat (fun _ => 0%nat) n) in
  (map (fun l => option_map (map fst) (f_get FA (land_of c) l)) [nest; (z 5, z 5); (z 8, z 8)], map fst (queued (fst c)), made c, failed c).

Example C137_field_concrete :
  home FA snd dart swallows (z 10) (z 10) (z 1) /\
  numbering same_swallow fst dart chick swallows /\
  (forall n b, in_field FA (z 10) (z 10) (z 1) (snd (chick n b))) /\
  Forall (in_field FA (z 10) (z 10) (z 1)) [nest] /\
  summer 1 = ([Some [3]; Some [0; 1]; Some [2]]%N, [2; 3]%N, 4%N, false) /\
  summer 2 = ([Some [3]; Some []; Some [2]]%N, [2; 3]%N, 4%N, false).
Proof.
  assert (In1 : in_field FA (z 10) (z 10) (z 1) nest) by (vm_compute; repeat split; congruence).
  assert (In5 : in_field FA (z 10) (z 10) (z 1) (z 5, z 5)) by (vm_compute; repeat split; congruence).
  split.
  { split; [split; [|split; [|split]]; vm_compute; congruence|].
    split; [unfold swallows; do 3 (apply Forall_cons; [vm_compute; repeat split; congruence|]); apply Forall_nil|]. split; [|reflexivity].
    intros o v Ho. unfold dart. destruct v as [|? [|? ?]]; try exact Ho. exact In5. }
  split; [split; [intros a b; apply N.eqb_eq|intros o [|? [|? ?]]; reflexivity|reflexivity|reflexivity]|].
  split; [intros n b; exact In1|]. split; [apply Forall_cons; [exact In1|apply Forall_nil]|].
  split; vm_compute; reflexivity.
Qed.
