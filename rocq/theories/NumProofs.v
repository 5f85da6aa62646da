(** * Proofs about the number grids *)
From Coq Require Import List Bool ZArith NArith Arith Lia Permutation.
From Verif Require Import Grid DashModel DashSpec DashProofs DashRun NumModel NumSpec.
Import ListNotations.
Open Scope Z_scope.

Lemma loc_lawful : lawful loc_eqb (fun _ => 0%N).
Proof.
  split; intros.
  - apply loc_eqb_refl.
  - apply loc_eqb_eq. symmetry. apply loc_eqb_eq. assumption.
  - apply loc_eqb_eq. transitivity b; apply loc_eqb_eq; assumption.
  - reflexivity.
Qed.

Section Dense.
Context {T : Type}.
Variable eqv : T -> T -> bool.

Definition dwf (w h : Z) (g : dgrid T) : Prop :=
  dg_w g = w /\ dg_h g = h /\
  Z.of_nat (length (dg_read g)) = w * h /\ Z.of_nat (length (dg_write g)) = w * h.

Lemma dg_new_ok w h : size_ok w h ->
  exists g, dg_new w h = Some g /\ dwf w h g /\
    forall l, in_range w h l -> dg_get g l = Some None /\ dg_get_unbuffered g l = Some (@None T).
Proof.
  intros (Hw & Hh & Hw2 & Hh2 & Hs). assert (0 <= w * h) by nia. unfold dg_new.
  rewrite (wrap32_id (w * h)) by (unfold in_i32; lia). unfold as_index.
  destruct (Z.ltb_spec (w * h) 0); [lia|]. eexists. split; [reflexivity|].
  rewrite !Z.abs_eq, !wrap32_id by (unfold in_i32; lia).
  split; [unfold dwf; cbn; rewrite repeat_length; lia|].
  intros l Hl. unfold dg_get, dg_get_unbuffered. cbn. destruct (cell_index_range w h l Hl Hs) as [-> B].
  rewrite vget_repeat by lia. auto.
Qed.

Lemma dg_get_total w h g l : dwf w h g -> size_ok w h -> in_range w h l ->
  exists x, dg_get g l = Some x.
Proof.
  intros (Ew & Eh & Lr & Lw) (_ & _ & _ & _ & Hs) Hl. unfold dg_get. rewrite Eh.
  destruct (cell_index_range w h l Hl Hs) as [-> B]. apply vget_in. lia.
Qed.
Lemma dg_getu_total w h g l : dwf w h g -> size_ok w h -> in_range w h l ->
  exists x, dg_get_unbuffered g l = Some x.
Proof.
  intros (Ew & Eh & Lr & Lw) (_ & _ & _ & _ & Hs) Hl. unfold dg_get_unbuffered. rewrite Eh.
  destruct (cell_index_range w h l Hl Hs) as [-> B]. apply vget_in. lia.
Qed.

Lemma dg_put_ok w h g l x : dwf w h g -> size_ok w h -> in_range w h l ->
  exists g', dg_put g l x = Some g' /\ dwf w h g' /\
    forall l', in_range w h l' ->
      dg_get g' l' = dg_get g l' /\
      dg_get_unbuffered g' l' = if loc_eqb l' l then Some x else dg_get_unbuffered g l'.
Proof.
  intros (Ew & Eh & Lr & Lw) (Hw & Hh & _ & _ & Hs) Hl. unfold dg_put. rewrite Eh.
  destruct (cell_index_range w h l Hl Hs) as [E B].
  destruct (vset_in (dg_write g) (cell_index h l) x) as (b & -> & Lb & Hg & Ho); [lia|].
  cbn. eexists. split; [reflexivity|]. split; [unfold dwf; cbn; rewrite Lb; auto|].
  intros l' Hl'. unfold dg_get, dg_get_unbuffered. cbn. rewrite Eh. split; [reflexivity|].
  destruct (loc_eqb l' l) eqn:El.
  - apply loc_eqb_eq in El. subst. exact Hg.
  - apply loc_eqb_neq in El. apply Ho.
    + destruct (cell_index_range w h l' Hl' Hs). lia.
    + intros Ec. apply El. exact (cell_index_inj w h l' l Hl' Hl Hs Ec).
Qed.

Lemma dg_lazy_ok w h g : dwf w h g -> size_ok w h ->
  dwf w h (dg_lazy_update g) /\
  forall l, in_range w h l ->
    dg_get (dg_lazy_update g) l = dg_get_unbuffered g l /\
    dg_get_unbuffered (dg_lazy_update g) l = Some None.
Proof.
  intros (Ew & Eh & Lr & Lw) (_ & _ & _ & _ & Hs). unfold dg_lazy_update.
  split; [unfold dwf; cbn; rewrite map_length; auto|].
  intros l Hl. unfold dg_get, dg_get_unbuffered. cbn. split; [reflexivity|].
  rewrite vget_map, Eh. destruct (cell_index_range w h l Hl Hs) as [-> B].
  destruct (vget_in (dg_read g) (fst l * h + snd l)) as [x ->]; [lia|]. reflexivity.
Qed.

Lemma dg_update_ok w h g : dwf w h g -> size_ok w h ->
  exists g', dg_update g = Some g' /\ dwf w h g' /\
  forall l, in_range w h l ->
    dg_get g' l = dg_get_unbuffered g l /\ dg_get_unbuffered g' l = Some None.
Proof.
  intros (Ew & Eh & Lr & Lw) (_ & _ & _ & _ & Hs). unfold dg_update.
  destruct (Nat.leb_spec (length (dg_write g)) (length (dg_read g))); [|lia].
  eexists. split; [reflexivity|]. rewrite skipn_all2, app_nil_r by lia.
  split; [unfold dwf; cbn; rewrite map_length; auto|].
  intros l Hl. unfold dg_get, dg_get_unbuffered. cbn. split; [reflexivity|].
  rewrite vget_map, Eh. destruct (cell_index_range w h l Hl Hs) as [-> B].
  destruct (vget_in (dg_write g) (fst l * h + snd l)) as [x ->]; [lia|]. reflexivity.
Qed.

Lemma map2_length {A B C} (f : A -> B -> C) l : forall m, length l = length m -> length (map2 f l m) = length m.
Proof. induction l as [|x l IH]; intros [|y m] E; cbn in *; try discriminate; [reflexivity|]. rewrite IH; congruence. Qed.

Lemma vget_map2 {A B C} (f : A -> B -> C) l m z a b : length l = length m ->
  vget l z = Some a -> vget m z = Some b -> vget (map2 f l m) z = Some (f a b).
Proof.
  unfold vget, as_index. destruct (z <? 0); [discriminate|]. generalize (Z.to_nat z) as i.
  revert m. induction l as [|x l IH]; intros [|y m] [|i] E; cbn in *; try discriminate.
  - intros Ha Hb. inversion Ha; inversion Hb; reflexivity.
  - intros Ha Hb. apply IH; auto.
Qed.

(** What [apply_to_all_values] does to the two values of a cell. *)
Definition apply_read (o : grid_option) (f : T -> T) (r w : option T) : option T :=
  match o with READ => option_map f r | _ => r end.
Definition dense_apply_write (o : grid_option) (f : T -> T) (r w : option T) : option T :=
  match o with
  | READ => w
  | WRITE => match r with Some v => Some (f v) | None => w end
  | READWRITE => match w with Some v => Some (f v) | None => option_map f r end
  end.

Lemma dg_apply_ok w h g o f : dwf w h g -> size_ok w h ->
  exists g', dg_apply g o f = Some g' /\ dwf w h g' /\
  forall l r x, in_range w h l -> dg_get g l = Some r -> dg_get_unbuffered g l = Some x ->
    dg_get g' l = Some (apply_read o f r x) /\
    dg_get_unbuffered g' l = Some (dense_apply_write o f r x).
Proof.
  intros (Ew & Eh & Lr & Lw) (_ & _ & _ & _ & Hs).
  assert (EL : length (dg_read g) = length (dg_write g)) by lia.
  destruct o; unfold dg_apply.
  - eexists. split; [reflexivity|]. split; [unfold dwf; cbn; rewrite map_length; auto|].
    intros l r x Hl Hr Hx. unfold dg_get, dg_get_unbuffered in *. cbn. rewrite vget_map, Hr. auto.
  - destruct (Nat.leb_spec (length (dg_read g)) (length (dg_write g))); [|lia].
    eexists. split; [reflexivity|]. rewrite skipn_all2, app_nil_r by lia.
    split; [unfold dwf; cbn; rewrite map2_length; auto|].
    intros l r x Hl Hr Hx. unfold dg_get, dg_get_unbuffered in *. cbn. split; [exact Hr|].
    rewrite (vget_map2 _ _ _ _ _ _ EL Hr Hx). reflexivity.
  - destruct (Nat.leb_spec (length (dg_read g)) (length (dg_write g))); [|lia].
    eexists. split; [reflexivity|]. rewrite skipn_all2, app_nil_r by lia.
    split; [unfold dwf; cbn; rewrite map2_length; auto|].
    intros l r x Hl Hr Hx. unfold dg_get, dg_get_unbuffered in *. cbn. split; [exact Hr|].
    rewrite (vget_map2 _ _ _ _ _ _ EL Hr Hx). reflexivity.
Qed.

(** Searching. *)
Lemma dg_search_ok buf h v cs : (forall c, In c cs -> exists x, vget buf (cell_index h c) = Some x) ->
  ForallOrdPairs lex cs ->
  exists r, dg_search eqv buf h v cs = Some r /\
    match r with
    | Some l => In l cs /\ (exists x, vget buf (cell_index h l) = Some (Some x) /\ eqv x v = true) /\
        forall l' x, In l' cs -> lex l' l -> vget buf (cell_index h l') = Some (Some x) -> eqv x v = false
    | None => forall l' x, In l' cs -> vget buf (cell_index h l') = Some (Some x) -> eqv x v = false
    end.
Proof.
  induction cs as [|c cs IH]; intros Hin Hs; cbn.
  - exists None. split; [reflexivity|]. intros l' x [].
  - inversion Hs as [|? ? Hc Hcs]; subst. rewrite Forall_forall in Hc.
    destruct (Hin c) as [e He]; [cbn; auto|]. rewrite He.
    destruct (match e with Some x => eqv x v | None => false end) eqn:Em.
    + exists (Some c). split; [reflexivity|]. split; [cbn; auto|]. split.
      * destruct e as [x|]; [eauto|discriminate].
      * intros l' x [<-|Hl'] Hlex; [destruct (lex_irrefl _ Hlex)|].
        exfalso. specialize (Hc l' Hl'). unfold lex in *. lia.
    + destruct IH as (r & -> & Hr); [intros c' Hc'; apply Hin; cbn; auto|exact Hcs|].
      exists r. split; [reflexivity|]. destruct r as [l|].
      * destruct Hr as (A & B & C). split; [cbn; auto|]. split; [exact B|].
        intros l' x [<-|Hl'] Hlex Hv; [|eauto]. rewrite He in Hv. inversion Hv; subst. exact Em.
      * intros l' x [<-|Hl'] Hv; [|eauto]. rewrite He in Hv. inversion Hv; subst. exact Em.
Qed.

Lemma dg_collect_ok {X} buf h (f : loc -> option T -> list X) cs :
  (forall c, In c cs -> exists x, vget buf (cell_index h c) = Some x) ->
  dg_collect buf h f cs =
  Some (flat_map (fun c => match vget buf (cell_index h c) with Some e => f c e | None => [] end) cs).
Proof.
  induction cs as [|c cs IH]; intros Hin; cbn; [reflexivity|].
  destruct (Hin c) as [e He]; [cbn; auto|]. rewrite He, IH by (intros; apply Hin; cbn; auto). reflexivity.
Qed.

Lemma dg_empty_eq w h g : dwf w h g -> size_ok w h ->
  dg_empty_bags g = Some (filter (fun c => match dg_get g c with Some None => true | _ => false end) (cells w h)).
Proof.
  intros Hwf Hs. destruct (Hwf) as (Ew & Eh & Lr & Lw). unfold dg_empty_bags. rewrite Ew, Eh.
  rewrite dg_collect_ok.
  - f_equal. unfold dg_get. rewrite Eh. induction (cells w h) as [|c cs IH]; cbn; [reflexivity|].
    rewrite IH. destruct (vget (dg_read g) (cell_index h c)) as [[x|]|]; reflexivity.
  - intros c Hc. apply cells_In in Hc. destruct (dg_get_total w h g c Hwf Hs Hc) as [x Hx].
    unfold dg_get in Hx. rewrite Eh in Hx. eauto.
Qed.

(** Every call on in-range locations succeeds, keeps the shape and acts on the values as
    expected. *)
Definition after_read (o : gop T) (r w : option T) : option T :=
  match o with
  | GLazyUpdate | GUpdate => w
  | GApply op f => apply_read op f r w
  | _ => r
  end.
Definition after_write (o : gop T) (l : loc) (r w : option T) : option T :=
  match o with
  | GSet v l' => if loc_eqb l l' then Some v else w
  | GRemove l' => if loc_eqb l l' then None else w
  | GLazyUpdate | GUpdate => None
  | GApply op f => dense_apply_write op f r w
  | _ => w
  end.

Lemma dg_call_ok w h g o : dwf w h g -> size_ok w h -> call_in w h o ->
  exists g' res, dg_call eqv g o = Some (g', res) /\ dwf w h g' /\
    forall l r x, in_range w h l -> dg_get g l = Some r -> dg_get_unbuffered g l = Some x ->
      dg_get g' l = Some (after_read o r x) /\ dg_get_unbuffered g' l = Some (after_write o l r x).
Proof.
  intros Hwf Hs Hin. destruct o as [v l|l| | |op f|l|l|v|v| |draws| |]; cbn [call_in] in Hin; cbn [dg_call].
  - destruct (dg_put_ok w h g l (Some v) Hwf Hs Hin) as (g' & E & W & Hg). unfold dg_set. rewrite E. cbn.
    do 2 eexists. split; [reflexivity|]. split; [exact W|]. intros l' r x Hl' Hr Hx.
    destruct (Hg l' Hl') as [-> ->]. cbn. split; [exact Hr|]. destruct (loc_eqb l' l); congruence.
  - destruct (dg_put_ok w h g l None Hwf Hs Hin) as (g' & E & W & Hg). unfold dg_remove. rewrite E. cbn.
    do 2 eexists. split; [reflexivity|]. split; [exact W|]. intros l' r x Hl' Hr Hx.
    destruct (Hg l' Hl') as [-> ->]. cbn. split; [exact Hr|]. destruct (loc_eqb l' l); congruence.
  - destruct (dg_lazy_ok w h g Hwf Hs) as [W Hg]. cbn. do 2 eexists. split; [reflexivity|]. split; [exact W|].
    intros l' r x Hl' Hr Hx. destruct (Hg l' Hl') as [-> ->]. auto.
  - destruct (dg_update_ok w h g Hwf Hs) as (g' & E & W & Hg). rewrite E. cbn. do 2 eexists. split; [reflexivity|].
    split; [exact W|]. intros l' r x Hl' Hr Hx. destruct (Hg l' Hl') as [-> ->]. auto.
  - destruct (dg_apply_ok w h g op f Hwf Hs) as (g' & E & W & Hg). rewrite E. cbn. do 2 eexists.
    split; [reflexivity|]. split; [exact W|]. intros l' r x Hl' Hr Hx. exact (Hg l' r x Hl' Hr Hx).
  - destruct (dg_get_total w h g l Hwf Hs Hin) as [x ->]. cbn. do 2 eexists. split; [reflexivity|]. auto.
  - destruct (dg_getu_total w h g l Hwf Hs Hin) as [x ->]. cbn. do 2 eexists. split; [reflexivity|]. auto.
  - unfold dg_location. destruct (Hwf) as (Ew & Eh & _). rewrite Ew, Eh.
    destruct (dg_search_ok (dg_read g) h v (cells w h)) as (r & -> & _); [|apply cells_sorted|].
    + intros c Hc. apply cells_In in Hc. destruct (dg_get_total w h g c Hwf Hs Hc) as [x Hx].
      unfold dg_get in Hx. rewrite Eh in Hx. eauto.
    + cbn. do 2 eexists. split; [reflexivity|]. auto.
  - unfold dg_location_unbuffered. destruct (Hwf) as (Ew & Eh & _). rewrite Ew, Eh.
    destruct (dg_search_ok (dg_write g) h v (cells w h)) as (r & -> & _); [|apply cells_sorted|].
    + intros c Hc. apply cells_In in Hc. destruct (dg_getu_total w h g c Hwf Hs Hc) as [x Hx].
      unfold dg_get_unbuffered in Hx. rewrite Eh in Hx. eauto.
    + cbn. do 2 eexists. split; [reflexivity|]. auto.
  - rewrite (dg_empty_eq w h g Hwf Hs). cbn. do 2 eexists. split; [reflexivity|]. auto.
  - destruct Hin.
  - unfold dg_iter. destruct (Hwf) as (Ew & Eh & _). rewrite Ew, Eh, dg_collect_ok.
    + cbn. do 2 eexists. split; [reflexivity|]. auto.
    + intros c Hc. apply cells_In in Hc. destruct (dg_get_total w h g c Hwf Hs Hc) as [x Hx].
      unfold dg_get in Hx. rewrite Eh in Hx. eauto.
  - unfold dg_iter_unbuffered. destruct (Hwf) as (Ew & Eh & _). rewrite Ew, Eh, dg_collect_ok.
    + cbn. do 2 eexists. split; [reflexivity|]. auto.
    + intros c Hc. apply cells_In in Hc. destruct (dg_getu_total w h g c Hwf Hs Hc) as [x Hx].
      unfold dg_get_unbuffered in Hx. rewrite Eh in Hx. eauto.
Qed.

Lemma dg_run_app os1 : forall g os2, dg_run eqv g (os1 ++ os2) =
  match dg_run eqv g os1 with
  | None => None
  | Some (g1, r1) => option_map (fun p => (fst p, r1 ++ snd p)) (dg_run eqv g1 os2)
  end.
Proof.
  induction os1 as [|o os1 IH]; intros g os2; cbn.
  - destruct (dg_run eqv g os2) as [[g2 r2]|]; reflexivity.
  - destruct (dg_call eqv g o) as [[g1 r]|]; [|reflexivity]. rewrite IH.
    destruct (dg_run eqv g1 os1) as [[g2 r2]|]; cbn; [|reflexivity].
    destruct (dg_run eqv g2 os2) as [[g3 r3]|]; reflexivity.
Qed.

Lemma dg_run_ok w h : size_ok w h -> forall os g, dwf w h g -> Forall (call_in w h) os ->
  exists g' rs, dg_run eqv g os = Some (g', rs) /\ dwf w h g' /\ length rs = length os.
Proof.
  intros Hs. induction os as [|o os IH]; intros g Hwf Hos; cbn; [eauto 6|].
  inversion Hos as [|? ? Ho Hos']; subst.
  destruct (dg_call_ok w h g o Hwf Hs Ho) as (g1 & r & -> & W1 & _).
  destruct (IH g1 W1 Hos') as (g2 & rs & -> & W2 & Len). cbn. do 2 eexists. split; [reflexivity|].
  split; [exact W2|cbn; congruence].
Qed.

Lemma dg_reachable_wf w h g : size_ok w h -> dg_reachable eqv w h g -> dwf w h g.
Proof.
  intros Hs (g0 & os & rs & Hn & Hos & Hr). destruct (dg_new_ok w h Hs) as (g1 & E & W & _).
  rewrite Hn in E. inversion E; subst. destruct (dg_run_ok w h Hs os g1 W Hos) as (g2 & rs2 & E2 & W2 & _).
  rewrite Hr in E2. inversion E2; subst. exact W2.
Qed.

(** C16 *)
Lemma dg_history w h os : size_ok w h -> Forall (call_in w h) os -> Forall no_apply os ->
  exists g0 g rs, dg_new w h = Some g0 /\ dg_run eqv g0 os = Some (g, rs) /\ length rs = length os /\
    forall l, in_range w h l ->
      dg_get g l = Some (last_published l (rev os)) /\
      dg_get_unbuffered g l = Some (last_written l (rev os)).
Proof.
  intros Hs. induction os as [|o os IH] using rev_ind; intros Hin Hna.
  - destruct (dg_new_ok w h Hs) as (g & E & W & Hg). exists g, g, []. cbn. auto.
  - apply Forall_app in Hin. apply Forall_app in Hna. destruct Hin as [Hin1 Hin2], Hna as [Hna1 Hna2].
    inversion Hin2 as [|? ? Hio _]; inversion Hna2 as [|? ? Hno _]; subst.
    destruct (IH Hin1 Hna1) as (g0 & g & rs & Hn & Hr & Len & Hg).
    assert (W : dwf w h g) by (apply dg_reachable_wf; [exact Hs|exists g0, os, rs; auto]).
    destruct (dg_call_ok w h g o W Hs Hio) as (g' & res & Hc & W' & Hg').
    exists g0, g', (rs ++ [res]). split; [exact Hn|]. rewrite dg_run_app, Hr. cbn [dg_run]. rewrite Hc. cbn.
    split; [reflexivity|]. split; [rewrite !app_length; cbn; lia|].
    intros l Hl. rewrite rev_app_distr. cbn [rev app]. destruct (Hg l Hl) as [Hp Hw].
    destruct (Hg' l _ _ Hl Hp Hw) as [-> ->].
    destruct o; cbn [no_apply] in Hno; try destruct Hno; cbn; auto.
Qed.

(** C18 *)
Lemma dg_location_ok w h g v : size_ok w h -> dwf w h g ->
  exists r, dg_location eqv g v = Some r /\
    match r with
    | Some l => in_range w h l /\ (exists x, dg_get g l = Some (Some x) /\ eqv x v = true) /\
        forall l' x, in_range w h l' -> lex l' l -> dg_get g l' = Some (Some x) -> eqv x v = false
    | None => forall l' x, in_range w h l' -> dg_get g l' = Some (Some x) -> eqv x v = false
    end.
Proof.
  intros Hs Hwf. unfold dg_location. destruct (Hwf) as (Ew & Eh & _). rewrite Ew, Eh.
  destruct (dg_search_ok (dg_read g) h v (cells w h)) as (r & E & Hr); [|apply cells_sorted|].
  - intros c Hc. apply cells_In in Hc. destruct (dg_get_total w h g c Hwf Hs Hc) as [x Hx].
    unfold dg_get in Hx. rewrite Eh in Hx. eauto.
  - exists r. split; [exact E|]. unfold dg_get. rewrite Eh. destruct r as [l|].
    + destruct Hr as (A & B & C). split; [apply cells_In; exact A|]. split; [exact B|].
      intros l' x Hl'. apply C. apply cells_In. exact Hl'.
    + intros l' x Hl'. apply Hr. apply cells_In. exact Hl'.
Qed.
Lemma dg_locationu_ok w h g v : size_ok w h -> dwf w h g ->
  exists r, dg_location_unbuffered eqv g v = Some r /\
    match r with
    | Some l => in_range w h l /\ (exists x, dg_get_unbuffered g l = Some (Some x) /\ eqv x v = true) /\
        forall l' x, in_range w h l' -> lex l' l -> dg_get_unbuffered g l' = Some (Some x) -> eqv x v = false
    | None => forall l' x, in_range w h l' -> dg_get_unbuffered g l' = Some (Some x) -> eqv x v = false
    end.
Proof.
  intros Hs Hwf. unfold dg_location_unbuffered. destruct (Hwf) as (Ew & Eh & _). rewrite Ew, Eh.
  destruct (dg_search_ok (dg_write g) h v (cells w h)) as (r & E & Hr); [|apply cells_sorted|].
  - intros c Hc. apply cells_In in Hc. destruct (dg_getu_total w h g c Hwf Hs Hc) as [x Hx].
    unfold dg_get_unbuffered in Hx. rewrite Eh in Hx. eauto.
  - exists r. split; [exact E|]. unfold dg_get_unbuffered. rewrite Eh. destruct r as [l|].
    + destruct Hr as (A & B & C). split; [apply cells_In; exact A|]. split; [exact B|].
      intros l' x Hl'. apply C. apply cells_In. exact Hl'.
    + intros l' x Hl'. apply Hr. apply cells_In. exact Hl'.
Qed.

(** C19 *)
Lemma dg_empty_ok w h g : size_ok w h -> dwf w h g ->
  exists ls, dg_empty_bags g = Some ls /\ ForallOrdPairs lex ls /\ NoDup ls /\
    forall l, In l ls <-> in_range w h l /\ dg_get g l = Some None.
Proof.
  intros Hs Hwf. rewrite (dg_empty_eq w h g Hwf Hs). eexists. split; [reflexivity|].
  split; [apply FOP_filter, cells_sorted|]. split; [apply NoDup_filter, cells_NoDup|].
  intros l. rewrite filter_In, cells_In. destruct (dg_get g l) as [[x|]|]; split; intros [A B]; try discriminate; auto.
Qed.

Lemma dg_random_ok (g : dgrid T) r ls : dg_empty_bags g = Some ls -> (r < length ls)%nat \/ ls = [] ->
  exists x, dg_random_empty g r = Some x /\
    (x = None <-> ls = []) /\ (forall l, x = Some l -> In l ls).
Proof.
  intros E Hr. unfold dg_random_empty. rewrite E. destruct ls as [|a ls].
  - exists None. split; [reflexivity|]. split; [tauto|discriminate].
  - destruct Hr as [Hr|]; [|discriminate]. destruct (nth_error (a :: ls) r) as [l|] eqn:En.
    + cbn [option_map]. exists (Some l). split; [reflexivity|]. split; [split; discriminate|].
      intros l' H. inversion H; subst. exact (nth_error_In _ _ En).
    + apply nth_error_None in En. lia.
Qed.

(** Every location can be drawn. *)
Lemma dg_random_complete (g : dgrid T) ls l : dg_empty_bags g = Some ls -> In l ls ->
  exists r, (r < length ls)%nat /\ dg_random_empty g r = Some (Some l).
Proof.
  intros E Hin. apply In_nth_error in Hin. destruct Hin as [r Hr]. exists r.
  split; [apply nth_error_Some; congruence|]. unfold dg_random_empty. rewrite E.
  destruct ls as [|a ls]; [destruct r; discriminate|]. rewrite Hr. reflexivity.
Qed.

(** iter_values *)
Lemma dg_iter_ok w h g : size_ok w h -> dwf w h g ->
  exists es, dg_iter g = Some es /\ ForallOrdPairs (fun a b => lex (fst a) (fst b)) es /\
    forall l v, In (l, v) es <-> in_range w h l /\ dg_get g l = Some (Some v).
Proof.
  intros Hs Hwf. destruct (Hwf) as (Ew & Eh & _). unfold dg_iter. rewrite Ew, Eh, dg_collect_ok.
  2:{ intros c Hc. apply cells_In in Hc. destruct (dg_get_total w h g c Hwf Hs Hc) as [x Hx].
      unfold dg_get in Hx. rewrite Eh in Hx. eauto. }
  eexists. split; [reflexivity|]. split.
  - pose proof (cells_sorted w h) as Hc. induction (cells w h) as [|c cs IH]; cbn; [constructor|].
    inversion_clear Hc as [|? ? Hc1 Hc2]. rewrite Forall_forall in Hc1.
    apply FOP_app. split; [|split; [apply IH; exact Hc2|]].
    + destruct (vget _ _) as [[x|]|]; repeat constructor.
    + intros a b Ha Hb. apply in_flat_map in Hb. destruct Hb as (c' & Hc' & Hb).
      assert (fst a = c) by (destruct (vget (dg_read g) (cell_index h c)) as [[x|]|]; cbn in Ha; intuition; subst; reflexivity).
      assert (fst b = c') by (destruct (vget (dg_read g) (cell_index h c')) as [[x|]|]; cbn in Hb; intuition; subst; reflexivity).
      rewrite H, H0. auto.
  - intros l v. rewrite in_flat_map. unfold dg_get. rewrite Eh. split.
    + intros (c & Hc & Hin). destruct (vget (dg_read g) (cell_index h c)) as [[x|]|] eqn:E; cbn in Hin; try tauto. destruct Hin as [Hin|[]].
      inversion Hin; subst. split; [apply cells_In; exact Hc|exact E].
    + intros [Hl E]. exists l. split; [apply cells_In; exact Hl|]. rewrite E. cbn. auto.
Qed.

Lemma dg_iteru_ok w h g : size_ok w h -> dwf w h g ->
  exists es, dg_iter_unbuffered g = Some es /\ ForallOrdPairs (fun a b => lex (fst a) (fst b)) es /\
    forall l v, In (l, v) es <-> in_range w h l /\ dg_get_unbuffered g l = Some (Some v).
Proof.
  intros Hs (A & B & C & D).
  exact (dg_iter_ok w h (DGrid (dg_write g) (dg_write g) (dg_w g) (dg_h g)) Hs (conj A (conj B (conj D D)))).
Qed.

End Dense.

(** ** Sparse grid *)
Section Sparse.
Context {T : Type}.
Variable eqv : T -> T -> bool.

Notation uniq := (ForallOrdPairs (fun p q : loc * T => loc_eqb (fst p) (fst q) = false)).
Notation find1 := (hm_find loc_eqb).
Notation LL := loc_lawful.

Definition swf (g : sgrid T) : Prop := uniq (sg_read g) /\ uniq (sg_write g).

Lemma find1_key l (m : list (loc * T)) p : find1 l m = Some p -> fst p = l.
Proof. unfold hm_find. intros H. apply find_some in H. destruct H as [_ H]. apply loc_eqb_eq in H. congruence. Qed.

Lemma hm_insert_cases l v (m : list (loc * T)) : uniq m ->
  uniq (fst (hm_insert loc_eqb l v m)) /\
  (forall p, In p (fst (hm_insert loc_eqb l v m)) -> fst p = l \/ In p m) /\
  forall x, find1 x (fst (hm_insert loc_eqb l v m)) = if loc_eqb x l then Some (l, v) else find1 x m.
Proof.
  induction m as [|p m IH]; intros Hu; cbn [hm_insert].
  - cbn. split; [repeat constructor|]. split; [intros p [<-|[]]; auto|]. reflexivity.
  - inversion Hu as [|? ? Hp Hm]; subst. rewrite Forall_forall in Hp. destruct (loc_eqb l (fst p)) eqn:E.
    + apply loc_eqb_eq in E. subst l. cbn [fst]. split; [constructor; [apply Forall_forall; exact Hp|exact Hm]|].
      split; [intros q [<-|Hq]; cbn; auto|]. intros x. unfold hm_find. cbn. destruct (loc_eqb x (fst p)); reflexivity.
    + destruct (hm_insert loc_eqb l v m) as [m' r] eqn:Em. cbn [fst]. cbn [fst] in IH. destruct (IH Hm) as (U & I & F).
      split; [|split].
      * constructor; [|exact U]. apply Forall_forall. intros q Hq. destruct (I q Hq) as [->|Hq']; [|auto].
        apply loc_eqb_neq. apply loc_eqb_neq in E. congruence.
      * intros q [<-|Hq]; [cbn; auto|]. destruct (I q Hq); cbn; auto.
      * intros x. unfold hm_find in *. cbn. destruct (loc_eqb x (fst p)) eqn:Ex.
        -- apply loc_eqb_eq in Ex. subst. destruct (loc_eqb (fst p) l) eqn:E2; [|reflexivity].
           apply loc_eqb_eq in E2. apply loc_eqb_neq in E. congruence.
        -- apply F.
Qed.

Lemma hm_extend_ok (l : list (loc * T)) : forall m, uniq l -> uniq m ->
  uniq (hm_extend loc_eqb m l) /\
  forall x, find1 x (hm_extend loc_eqb m l) = match find1 x l with Some p => Some p | None => find1 x m end.
Proof.
  induction l as [|p l IH]; intros m Hl Hm; [cbn; auto|].
  change (hm_extend loc_eqb m (p :: l)) with (hm_extend loc_eqb (fst (hm_insert loc_eqb (fst p) (snd p) m)) l).
  inversion Hl as [|? ? Hp Hl']; subst. rewrite Forall_forall in Hp.
  destruct (hm_insert_cases (fst p) (snd p) m Hm) as (U & _ & F). destruct (IH _ Hl' U) as [U2 F2].
  split; [exact U2|]. intros x. rewrite (F2 x), (F x), (find1_cons loc_eqb x p l).
  destruct (loc_eqb x (fst p)) eqn:E; [|reflexivity].
  apply loc_eqb_eq in E. subst x. assert (Hn : find1 (fst p) l = None).
  { apply (find1_none loc_eqb). auto. }
  rewrite Hn. destruct p; reflexivity.
Qed.

Lemma sg_find_map (f : T -> T) (m : list (loc * T)) x :
  option_map snd (find1 x (map (fun p => (fst p, f (snd p))) m)) = option_map f (option_map snd (find1 x m)).
Proof.
  unfold hm_find. induction m as [|p m IH]; cbn; [reflexivity|]. destruct (loc_eqb x (fst p)); [reflexivity|exact IH].
Qed.

(** What [apply_to_all_values] does to the two values of a location. *)
Definition sparse_apply_write (o : grid_option) (f : T -> T) (r w : option T) : option T :=
  match o with
  | READ => w
  | WRITE => option_map f w
  | READWRITE => match r with
                 | None => w
                 | Some v => match w with Some x => Some (f x) | None => Some (f v) end
                 end
  end.
Definition sparse_after_write (o : gop T) (l : loc) (r w : option T) : option T :=
  match o with
  | GSet v l' => if loc_eqb l l' then Some v else w
  | GRemove l' => if loc_eqb l l' then None else w
  | GLazyUpdate | GUpdate => None
  | GApply op f => sparse_apply_write op f r w
  | _ => w
  end.

Lemma sg_apply_ok it g o f : swf g -> iteration it ->
  swf (sg_apply it g o f) /\
  forall l, sg_get (sg_apply it g o f) l = apply_read o f (sg_get g l) (sg_get_unbuffered g l) /\
            sg_get_unbuffered (sg_apply it g o f) l = sparse_apply_write o f (sg_get g l) (sg_get_unbuffered g l).
Proof.
  intros [Hr Hw] Hit. destruct o; unfold sg_apply, sg_get, sg_get_unbuffered, swf; cbn [sg_read sg_write apply_read sparse_apply_write].
  - split; [split; [apply uniq_map; [reflexivity|exact Hr]|exact Hw]|]. intros l. rewrite sg_find_map. auto.
  - split; [split; [exact Hr|apply uniq_map; [reflexivity|exact Hw]]|]. intros l. rewrite sg_find_map. auto.
  - assert (Hu : uniq (it (sg_read g))).
    { apply (uniq_perm loc_eqb _ LL) with (sg_read g); [symmetry; apply Hit|exact Hr]. }
    destruct (rw_fold loc_eqb _ LL f (it (sg_read g)) (sg_write g) Hu Hw) as (U & _ & F).
    split; [auto|]. intros l. split; [reflexivity|]. rewrite F.
    rewrite (find1_perm loc_eqb _ LL l (it (sg_read g)) (sg_read g) (Hit _) Hu).
    destruct (find1 l (sg_read g)) as [p|]; cbn; [|reflexivity]. destruct (find1 l (sg_write g)); reflexivity.
Qed.

Lemma sg_call_ok it g o : swf g -> iteration it ->
  match sg_call eqv it g o with
  | None => match o with GRandomEmpty _ => True | _ => False end
  | Some (g', res) => swf g' /\ sg_w g' = sg_w g /\ sg_h g' = sg_h g /\
      forall l, sg_get g' l = after_read o (sg_get g l) (sg_get_unbuffered g l) /\
                sg_get_unbuffered g' l = sparse_after_write o l (sg_get g l) (sg_get_unbuffered g l)
  end.
Proof.
  intros Hwf Hit. destruct (Hwf) as [Hr Hw].
  destruct o as [v l|l| | |op f|l|l|v|v| |draws| |]; cbn [sg_call];
    try (split; [exact Hwf|auto]; fail).
  - destruct (hm_insert_cases l v (sg_write g) Hw) as (U & _ & F). split; [split; assumption|].
    split; [reflexivity|]. split; [reflexivity|]. intros x. split; [reflexivity|].
    unfold sg_get_unbuffered. unfold sg_set, sg_remove; cbn [sg_set sg_remove sg_write sparse_after_write]. rewrite (F x). destruct (loc_eqb x l); reflexivity.
  - unfold sg_remove, swf; cbn [sg_read sg_write]. rewrite (proj1 (hm_remove_eq loc_eqb _ LL l (sg_write g) Hw)).
    split; [split; [exact Hr|apply uniq_filter; exact Hw]|]. split; [reflexivity|]. split; [reflexivity|].
    intros x. split; [reflexivity|]. unfold sg_get_unbuffered. unfold sg_set, sg_remove; cbn [sg_set sg_remove sg_write sparse_after_write]. rewrite (find1_filter loc_eqb _ LL).
    destruct (loc_eqb x l); reflexivity.
  - split; [split; [exact Hw|constructor]|]. auto.
  - assert (Hu : uniq (it (sg_write g))).
    { apply (uniq_perm loc_eqb _ LL) with (sg_write g); [symmetry; apply Hit|exact Hw]. }
    destruct (hm_extend_ok (it (sg_write g)) [] Hu ltac:(constructor)) as [U F].
    split; [split; [exact U|constructor]|]. split; [reflexivity|]. split; [reflexivity|].
    intros x. split; [|reflexivity]. unfold sg_get. unfold sg_update; cbn [sg_update sg_read after_read]. rewrite (F x).
    rewrite (find1_perm loc_eqb _ LL x (it (sg_write g)) (sg_write g) (Hit _) Hu).
    unfold sg_get_unbuffered. destruct (find1 x (sg_write g)); reflexivity.
  - destruct (sg_apply_ok it g op f Hwf Hit) as [W H]. split; [exact W|].
    split; [destruct op; reflexivity|]. split; [destruct op; reflexivity|]. exact H.
  - destruct (sg_random_empty g (map snd draws)) as [[r|]|]; auto.
Qed.

Lemma sg_run_ok os : forall g, swf g -> Forall (fun p => iteration (snd p)) os ->
  match sg_run eqv g os with
  | None => exists draws it, In (GRandomEmpty draws, it) os
  | Some (g', rs) => swf g' /\ sg_w g' = sg_w g /\ sg_h g' = sg_h g /\ length rs = length os
  end.
Proof.
  induction os as [|[o it] os IH]; intros g Hwf Hos; cbn [sg_run]; [auto|].
  inversion Hos as [|? ? Hit Hos']; subst. cbn in Hit. pose proof (sg_call_ok it g o Hwf Hit) as Hc.
  destruct (sg_call eqv it g o) as [[g1 r]|].
  - destruct Hc as (W1 & Ew & Eh & _). specialize (IH g1 W1 Hos').
    destruct (sg_run eqv g1 os) as [[g2 rs]|]; cbn.
    + destruct IH as (W2 & Ew2 & Eh2 & Len). repeat split; try apply W2; congruence.
    + destruct IH as (d & it' & Hin). exists d, it'. auto.
  - destruct o; try destruct Hc. exists draws, it. cbn. auto.
Qed.

Lemma sg_reachable_wf w h g : sg_reachable eqv w h g -> swf g /\ sg_w g = w /\ sg_h g = h.
Proof.
  intros (os & rs & Hit & Hr). pose proof (sg_run_ok os (sg_new w h)) as H. rewrite Hr in H.
  destruct H as (W & Ew & Eh & _); [split; constructor|exact Hit|]. cbn in *. auto.
Qed.

(** Searching. *)
Lemma sg_search_ok it (m : list (loc * T)) v : iteration it -> uniq m ->
  match sg_search eqv it m v with
  | Some l => exists x, option_map snd (find1 l m) = Some x /\ eqv x v = true
  | None => forall l x, option_map snd (find1 l m) = Some x -> eqv x v = false
  end.
Proof.
  intros Hit Hu. unfold sg_search.
  assert (Hu' : uniq (it m)) by (apply (uniq_perm loc_eqb _ LL) with m; [symmetry; apply Hit|exact Hu]).
  destruct (find (fun p => eqv (snd p) v) (it m)) as [p|] eqn:E; cbn.
  - apply find_some in E. destruct E as [Hin He]. exists (snd p). split; [|exact He].
    assert (H : find1 (fst p) m = Some p).
    { apply (find1_iff loc_eqb _ LL); [exact Hu|]. split; [apply loc_eqb_refl||idtac|]; [|apply loc_eqb_refl].
      eapply Permutation_in; [apply Hit|exact Hin]. }
    rewrite H. reflexivity.
  - intros l x Hx. destruct (find1 l m) as [p|] eqn:Hp; [|discriminate]. cbn in Hx. inversion Hx; subst.
    apply (find1_iff loc_eqb _ LL) in Hp; [|exact Hu]. destruct Hp as [Hin _].
    apply (find_none _ _ E p). eapply Permutation_in; [symmetry; apply Hit|exact Hin].
Qed.

Lemma sg_empty_ok w h (g : sgrid T) : sg_w g = w -> sg_h g = h ->
  ForallOrdPairs lex (sg_empty_bags g) /\ NoDup (sg_empty_bags g) /\
  forall l, In l (sg_empty_bags g) <-> in_range w h l /\ sg_get g l = None.
Proof.
  intros <- <-. unfold sg_empty_bags, sg_get. split; [apply FOP_filter, cells_sorted|].
  split; [apply NoDup_filter, cells_NoDup|]. intros l. rewrite filter_In, cells_In.
  destruct (find1 l (sg_read g)); cbn; split; intros [A B]; try discriminate; auto.
Qed.

Lemma sg_random_ok w h (g : sgrid T) draws : sg_w g = w -> sg_h g = h -> 0 < w -> 0 < h ->
  Forall (in_range w h) draws ->
  exists r, sg_random_empty g draws = Some r /\
    (forall x, r = Some x -> exists l, x = Some l /\ In l (sg_empty_bags g)) /\
    (r = None <-> forall l, In l draws -> ~ In l (sg_empty_bags g)).
Proof.
  intros Ew Eh Hw Hh Hd. unfold sg_random_empty. rewrite Ew, Eh.
  destruct (Z.leb_spec w 0); [lia|]. destruct (Z.leb_spec h 0); [lia|]. cbn [orb].
  eexists. split; [reflexivity|]. rewrite Forall_forall in Hd.
  pose proof (sg_empty_ok w h g Ew Eh) as (_ & _ & He).
  destruct (find _ draws) as [c|] eqn:E; cbn.
  - apply find_some in E. destruct E as [Hin Hc]. split.
    + intros x Hx. inversion Hx; subst. exists c. split; [reflexivity|]. apply He. split; [auto|].
      unfold sg_get. destruct (hm_find loc_eqb c (sg_read g)); [discriminate|reflexivity].
    + split; [discriminate|]. intros H1. exfalso. apply (H1 c Hin). apply He. split; [auto|].
      unfold sg_get. destruct (hm_find loc_eqb c (sg_read g)); [discriminate|reflexivity].
  - split; [discriminate|]. split; [|reflexivity]. intros _ l Hl Hc. apply He in Hc. destruct Hc as [_ Hc].
    pose proof (find_none _ _ E l Hl) as Hn. unfold sg_get in Hc. cbn beta in Hn; revert Hn Hc; destruct (hm_find loc_eqb l (sg_read g)); cbn; intros; discriminate.
Qed.

Lemma sg_iter_ok it (m : list (loc * T)) : iteration it -> uniq m ->
  NoDup (map fst (it m)) /\ forall l v, In (l, v) (it m) <-> option_map snd (find1 l m) = Some v.
Proof.
  intros Hit Hu. assert (Hu' : uniq (it m)) by (apply (uniq_perm loc_eqb _ LL) with m; [symmetry; apply Hit|exact Hu]).
  split.
  - clear -Hu'. induction Hu' as [|p l Hp Hl IH]; cbn; constructor; [|exact IH].
    intros Hin. apply in_map_iff in Hin. destruct Hin as (q & Eq & Hq). rewrite Forall_forall in Hp.
    specialize (Hp q Hq). apply loc_eqb_neq in Hp. congruence.
  - intros l v. split.
    + intros Hin. assert (H : find1 l m = Some (l, v)).
      { apply (find1_iff loc_eqb _ LL); [exact Hu|]. split; [|apply loc_eqb_refl].
        eapply Permutation_in; [apply Hit|exact Hin]. }
      rewrite H. reflexivity.
    + intros Hx. destruct (find1 l m) as [p|] eqn:Hp; [|discriminate]. pose proof (find1_key _ _ _ Hp) as <-.
      apply (find1_iff loc_eqb _ LL) in Hp; [|exact Hu]. destruct Hp as [Hin _]. cbn in Hx. inversion Hx; subst.
      eapply Permutation_in; [symmetry; apply Hit|]. destruct p; exact Hin.
Qed.

(** The history of a sparse grid, for all locations. *)
Lemma sg_run_app os1 : forall g os2, sg_run eqv g (os1 ++ os2) =
  match sg_run eqv g os1 with
  | None => None
  | Some (g1, r1) => option_map (fun p => (fst p, r1 ++ snd p)) (sg_run eqv g1 os2)
  end.
Proof.
  induction os1 as [|[o it] os1 IH]; intros g os2; cbn [sg_run app].
  - destruct (sg_run eqv g os2) as [[g2 r2]|]; reflexivity.
  - destruct (sg_call eqv it g o) as [[g1 r]|]; [|reflexivity]. rewrite IH.
    destruct (sg_run eqv g1 os1) as [[g2 r2]|]; cbn; [|reflexivity].
    destruct (sg_run eqv g2 os2) as [[g3 r3]|]; reflexivity.
Qed.

Lemma sg_history w h os g rs : Forall (fun p => iteration (snd p)) os -> Forall (fun p => no_apply (fst p)) os ->
  sg_run eqv (sg_new w h) os = Some (g, rs) ->
  forall l, sg_get g l = last_published l (rev (map fst os)) /\
            sg_get_unbuffered g l = last_written l (rev (map fst os)).
Proof.
  revert g rs. induction os as [|[o it] os IH] using rev_ind; intros g rs Hit Hna Hr l.
  - cbn in Hr. inversion Hr; subst. auto.
  - apply Forall_app in Hit. apply Forall_app in Hna. destruct Hit as [Hit1 Hit2], Hna as [Hna1 Hna2].
    inversion Hit2 as [|? ? Hi _]; inversion Hna2 as [|? ? Hn _]; subst. cbn in Hi, Hn.
    rewrite sg_run_app in Hr. destruct (sg_run eqv (sg_new w h) os) as [[g1 r1]|] eqn:E1; [|discriminate].
    cbn [sg_run] in Hr. destruct (IH g1 r1 Hit1 Hna1 eq_refl l) as [Hp Hw].
    pose proof (sg_run_ok os (sg_new w h)) as Hok. rewrite E1 in Hok.
    destruct Hok as (W1 & _); [split; constructor|exact Hit1|].
    pose proof (sg_call_ok it g1 o W1 Hi) as Hc. destruct (sg_call eqv it g1 o) as [[g2 r]|]; [|discriminate].
    cbn in Hr. inversion Hr; subst. destruct Hc as (_ & _ & _ & Hc). destruct (Hc l) as [-> ->].
    rewrite map_app, rev_app_distr. cbn [map fst rev app]. rewrite Hp, Hw.
    destruct o; cbn [no_apply] in Hn; try destruct Hn; cbn; auto.
Qed.

End Sparse.

(** ** C21: the two grids side by side *)
Section Both.
Context {T : Type}.
Variable eqv : T -> T -> bool.

Definition same (w h : Z) (d : dgrid T) (s : sgrid T) : Prop :=
  dwf w h d /\ swf s /\ sg_w s = w /\ sg_h s = h /\
  forall l, in_range w h l ->
    dg_get d l = Some (sg_get s l) /\ dg_get_unbuffered d l = Some (sg_get_unbuffered s l).

Lemma filter_ext_in' {X} (f g : X -> bool) l : (forall x, In x l -> f x = g x) -> filter f l = filter g l.
Proof.
  induction l as [|x l IH]; intros H; cbn; [reflexivity|]. rewrite (H x), IH; cbn; auto.
  intros; apply H; cbn; auto.
Qed.

Lemma same_call w h d s o it : size_ok w h -> same w h d s -> call_in w h o -> common o -> iteration it ->
  exists d' s' r, dg_call eqv d o = Some (d', r) /\ sg_call eqv it s o = Some (s', r) /\ same w h d' s'.
Proof.
  intros Hs (Wd & Ws & Ew & Eh & Hv) Hin Hc Hit.
  destruct (dg_call_ok eqv w h d o Wd Hs Hin) as (d' & r & Ed & Wd' & Hd).
  pose proof (sg_call_ok eqv it s o Ws Hit) as Hsc.
  destruct (sg_call eqv it s o) as [[s' r']|] eqn:Es.
  2:{ destruct o; try destruct Hsc. destruct Hin. }
  destruct Hsc as (Ws' & Ew' & Eh' & Hs').
  exists d', s', r. split; [exact Ed|]. split.
  - f_equal. f_equal.
    destruct o as [v l|l| | |op f|l|l|v|v| |draws| |]; cbn [common] in Hc; try destruct Hc; cbn in Ed, Es;
      unfold silent in Ed.
    + destruct (dg_set d v l); inversion Ed; inversion Es; reflexivity.
    + destruct (dg_remove d l); inversion Ed; inversion Es; reflexivity.
    + inversion Ed; inversion Es; reflexivity.
    + destruct (dg_update d); inversion Ed; inversion Es; reflexivity.
    + destruct (dg_apply d op f); inversion Ed; inversion Es; reflexivity.
    + destruct (Hv l Hin) as [Hg _]. rewrite Hg in Ed. inversion Ed; inversion Es; reflexivity.
    + destruct (Hv l Hin) as [_ Hg]. rewrite Hg in Ed. inversion Ed; inversion Es; reflexivity.
    + rewrite (dg_empty_eq w h d Wd Hs) in Ed. injection Ed as _ <-. injection Es as _ <-. f_equal.
      unfold sg_empty_bags. rewrite Ew, Eh. symmetry. apply filter_ext_in'. intros c Hc. apply cells_In in Hc.
      destruct (Hv c Hc) as [-> _]. unfold sg_get. destruct (hm_find loc_eqb c (sg_read s)); reflexivity.
  - split; [exact Wd'|]. split; [exact Ws'|]. split; [congruence|]. split; [congruence|].
    intros l Hl. destruct (Hv l Hl) as [H1 H2]. destruct (Hd l _ _ Hl H1 H2) as [-> ->].
    destruct (Hs' l) as [-> ->]. split; [reflexivity|].
    destruct o as [v l'|l'| | |op f|l'|l'|v|v| |draws| |]; try reflexivity.
    destruct op; cbn [common] in Hc; try destruct Hc. reflexivity.
Qed.

Lemma same_run w h os : size_ok w h -> forall d s, same w h d s ->
  Forall (fun p => call_in w h (fst p) /\ common (fst p) /\ iteration (snd p)) os ->
  exists d' s' rs, dg_run eqv d (map fst os) = Some (d', rs) /\ sg_run eqv s os = Some (s', rs).
Proof.
  intros Hs. induction os as [|[o it] os IH]; intros d s Hsame Hos; cbn [map fst dg_run sg_run]; [eauto 6|].
  inversion Hos as [|? ? (Hi & Hc & Hit) Hos']; subst. cbn in Hi, Hc, Hit.
  destruct (same_call w h d s o it Hs Hsame Hi Hc Hit) as (d1 & s1 & r & -> & -> & Hsame1).
  destruct (IH d1 s1 Hsame1 Hos') as (d2 & s2 & rs & -> & ->). cbn. eauto 6.
Qed.

Lemma dense_sparse_same w h os : size_ok w h ->
  Forall (fun p => call_in w h (fst p) /\ common (fst p) /\ iteration (snd p)) os ->
  exists d0 d s rs, dg_new w h = Some d0 /\ dg_run eqv d0 (map fst os) = Some (d, rs) /\
    sg_run eqv (sg_new w h) os = Some (s, rs) /\ length rs = length os.
Proof.
  intros Hs Hos. destruct (dg_new_ok (T := T) w h Hs) as (d0 & E & W & Hg).
  destruct (same_run w h os Hs d0 (sg_new w h)) as (d & s & rs & E1 & E2); [|exact Hos|].
  - split; [exact W|]. split; [split; constructor|]. split; [reflexivity|]. split; [reflexivity|].
    intros l Hl. exact (Hg l Hl).
  - exists d0, d, s, rs. split; [exact E|]. split; [exact E1|]. split; [exact E2|].
    pose proof (sg_run_ok eqv os (sg_new w h)) as H. rewrite E2 in H. apply H; [split; constructor|].
    eapply Forall_impl; [|exact Hos]. intros p Hp. apply Hp.
Qed.
End Both.

(** ** Publication and frame lemmas used in the property file *)
Section Extra.
Context {T : Type}.
Variable eqv : T -> T -> bool.

Definition keeps_read (o : gop T) : Prop :=
  match o with GLazyUpdate | GUpdate | GApply READ _ => False | _ => True end.
Definition publishes (o : gop T) : Prop :=
  match o with GLazyUpdate | GUpdate => True | _ => False end.

Lemma dg_run_keeps w h : size_ok w h -> forall os g, dwf w h g -> Forall (call_in w h) os ->
  Forall keeps_read os ->
  exists g' rs, dg_run eqv g os = Some (g', rs) /\ dwf w h g' /\
    forall l, in_range w h l -> dg_get g' l = dg_get g l.
Proof.
  intros Hs. induction os as [|o os IH]; intros g Hwf Hos Hk; cbn; [eauto 6|].
  inversion Hos as [|? ? Ho Hos']; inversion Hk as [|? ? Hko Hk']; subst.
  destruct (dg_call_ok eqv w h g o Hwf Hs Ho) as (g1 & r & -> & W1 & H1).
  destruct (IH g1 W1 Hos' Hk') as (g2 & rs & -> & W2 & H2). cbn. do 2 eexists. split; [reflexivity|].
  split; [exact W2|]. intros l Hl. rewrite (H2 l Hl).
  destruct (dg_get_total w h g l Hwf Hs Hl) as [x Hx]. destruct (dg_getu_total w h g l Hwf Hs Hl) as [y Hy].
  destruct (H1 l x y Hl Hx Hy) as [-> _]. rewrite Hx.
  destruct o as [v l'|l'| | |op f|l'|l'|v|v| |draws| |]; cbn in Hko |- *; try reflexivity; try destruct Hko.
  destruct op; try reflexivity. destruct Hko.
Qed.

Lemma dg_last_publication w h os1 pub os2 : size_ok w h -> Forall (call_in w h) (os1 ++ pub :: os2) ->
  publishes pub -> Forall keeps_read os2 ->
  exists g0 g1 g rs1 rs, dg_new w h = Some g0 /\ dg_run eqv g0 os1 = Some (g1, rs1) /\
    dg_run eqv g0 (os1 ++ pub :: os2) = Some (g, rs) /\
    forall l, in_range w h l -> dg_get g l = dg_get_unbuffered g1 l.
Proof.
  intros Hs Hin Hp Hk. apply Forall_app in Hin. destruct Hin as [Hin1 Hin2].
  inversion Hin2 as [|? ? Hip Hin3]; subst.
  destruct (dg_new_ok (T := T) w h Hs) as (g0 & E0 & W0 & _).
  destruct (dg_run_ok eqv w h Hs os1 g0 W0 Hin1) as (g1 & rs1 & E1 & W1 & _).
  destruct (dg_call_ok eqv w h g1 pub W1 Hs Hip) as (g2 & r & E2 & W2 & H2).
  destruct (dg_run_keeps w h Hs os2 g2 W2 Hin3 Hk) as (g3 & rs3 & E3 & W3 & H3).
  exists g0, g1, g3, rs1, (rs1 ++ r :: rs3). split; [exact E0|]. split; [exact E1|].
  split; [rewrite dg_run_app, E1; cbn [dg_run]; rewrite E2, E3; reflexivity|].
  intros l Hl. rewrite (H3 l Hl).
  destruct (dg_get_total w h g1 l W1 Hs Hl) as [x Hx]. destruct (dg_getu_total w h g1 l W1 Hs Hl) as [y Hy].
  destruct (H2 l x y Hl Hx Hy) as [-> _]. rewrite Hy. destruct pub; cbn in Hp |- *; try destruct Hp; reflexivity.
Qed.

Lemma dg_frame w h g l x : size_ok w h -> dg_reachable eqv w h g -> in_range w h l ->
  exists g', dg_put g l x = Some g' /\ dg_get_unbuffered g' l = Some x /\
    forall l', in_range w h l' -> dg_get g' l' = dg_get g l' /\
      (l' <> l -> dg_get_unbuffered g' l' = dg_get_unbuffered g l').
Proof.
  intros Hs Hr Hl. apply (dg_reachable_wf eqv) in Hr; [|exact Hs].
  destruct (dg_put_ok w h g l x Hr Hs Hl) as (g' & E & W & H). exists g'. split; [exact E|]. split.
  - destruct (H l Hl) as [_ ->]. rewrite loc_eqb_refl. reflexivity.
  - intros l' Hl'. destruct (H l' Hl') as [-> ->]. split; [reflexivity|]. intros Hne.
    apply loc_eqb_neq in Hne. rewrite Hne. reflexivity.
Qed.

Lemma sg_frame w h g v l : sg_reachable eqv w h g ->
  (sg_get_unbuffered (sg_set g v l) l = Some v /\ sg_get_unbuffered (sg_remove g l) l = None) /\
  forall l', sg_get (sg_set g v l) l' = sg_get g l' /\ sg_get (sg_remove g l) l' = sg_get g l' /\
    (l' <> l -> sg_get_unbuffered (sg_set g v l) l' = sg_get_unbuffered g l' /\
                sg_get_unbuffered (sg_remove g l) l' = sg_get_unbuffered g l').
Proof.
  intros Hr. apply (sg_reachable_wf eqv) in Hr. destruct Hr as [W _].
  assert (Hit : iteration (fun m : list (loc * T) => m)) by (intros m; apply Permutation_refl).
  pose proof (sg_call_ok eqv _ g (GSet v l) W Hit) as H1. pose proof (sg_call_ok eqv _ g (GRemove l) W Hit) as H2.
  cbn [sg_call] in H1, H2. destruct H1 as (_ & _ & _ & H1). destruct H2 as (_ & _ & _ & H2). split.
  - destruct (H1 l) as [_ ->]. destruct (H2 l) as [_ ->]. cbn. rewrite loc_eqb_refl. auto.
  - intros l'. destruct (H1 l') as [-> ->]. destruct (H2 l') as [-> ->]. cbn. split; [reflexivity|]. split; [reflexivity|].
    intros Hne. apply loc_eqb_neq in Hne. rewrite Hne. auto.
Qed.
End Extra.
