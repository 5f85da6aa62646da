(** * Proofs about closures that use the field *)
From Coq Require Import List Bool ZArith NArith Arith Lia.
From Verif Require Import Grid DashModel NumModel ObjModel FieldModel ReModel ReSpec.
Import ListNotations.
Local Open Scope nat_scope.

Lemma clash_look (h : hold) (b : cell) : clash (b, Look) h = false <-> h <> (b, Change).
Proof.
  destruct h as [c a]. unfold clash; cbn. destruct b, c, a; cbn; split; intros H;
    try discriminate; try congruence; try (intros E; discriminate); exfalso; apply H; reflexivity.
Qed.

Lemma free_cons a held h : free (a :: held) h = negb (clash a h) && free held h.
Proof. reflexivity. Qed.
Lemma free_In held h : free held h = true <-> forall a, In a held -> clash a h = false.
Proof.
  unfold free. rewrite forallb_forall. split; intros H a I; specialize (H a I); destruct (clash a h); easy.
Qed.
Local Opaque free clash.

Section Gen.
Context {St Call Res Item AItem Out Ora G : Type}.
Variable needs : Call -> St -> list hold.
Variable act : Call -> St -> option (St * Res).
Variable groups : cell -> St -> list G.
Variable items : Ora -> cell -> G -> St -> option (list Item).
Variable keeps : bool.
Variable ap_needs : grid_option -> list hold.
Variable ap_items : Ora -> grid_option -> St -> option (list AItem).
Variable ap_finish : Ora -> grid_option -> list Out -> St -> option St.
Local Notation prog := (prog Call Res Item AItem Out Ora).
Local Notation run := (run needs act groups items keeps ap_needs ap_items ap_finish).

Lemma for_each_ext {S' X} (f g : X -> S' -> option S') l s :
  (forall x s, f x s = g x s) -> for_each f l s = for_each g l s.
Proof.
  intros E. revert s. induction l as [|x l IH]; intros s; cbn; [reflexivity|].
  rewrite E. destruct (g x s); [apply IH|reflexivity].
Qed.
Lemma for_all_ext {S' X Y} (f g : X -> S' -> option (S' * Y)) l s :
  (forall x s, f x s = g x s) -> for_all f l s = for_all g l s.
Proof.
  intros E. revert s. induction l as [|x l IH]; intros s; cbn; [reflexivity|].
  rewrite E. destruct (g x s) as [[s' y]|]; [rewrite IH; reflexivity|reflexivity].
Qed.
Lemma for_each_app {S' X} (f : X -> S' -> option S') l m s :
  for_each f (l ++ m) s = match for_each f l s with None => None | Some s' => for_each f m s' end.
Proof.
  revert s. induction l as [|x l IH]; intros s; cbn; [reflexivity|].
  destruct (f x s); [apply IH|reflexivity].
Qed.

Lemma run_bind {X Y} (p : prog X) (k : X -> prog Y) held s :
  run (bind p k) held s = match run p held s with None => None | Some (s', x) => run (k x) held s' end.
Proof.
  revert held s. induction p; intros held s; cbn.
  - reflexivity.
  - destruct (all_free held (needs c s)); [|reflexivity].
    destruct (act c s) as [[s' r]|]; [|reflexivity]. apply H.
  - match goal with |- context [for_each ?b ?l ?s0] => destruct (for_each b l s0) end; [|reflexivity].
    apply IHp.
  - destruct (all_free held (ap_needs o)); [|reflexivity].
    destruct (ap_items r o s); [|reflexivity].
    match goal with |- context [for_all ?b ?l ?s0] => destruct (for_all b l s0) as [[s' outs]|] end; [|reflexivity].
    destruct (ap_finish r o outs s'); [|reflexivity]. apply IHp.
Qed.

Lemma run_each {X} xs (f : Item -> prog unit) (k : prog X) held s :
  run (each xs f k) held s =
  match for_each (fun x s => option_map fst (run (f x) held s)) xs s with
  | None => None
  | Some s' => run k held s'
  end.
Proof.
  revert s. induction xs as [|x xs IH]; intros s; cbn; [reflexivity|].
  rewrite run_bind. destruct (run (f x) held s) as [[s' u]|]; cbn; [apply IH|reflexivity].
Qed.

(** Borrows alive that nobody asks for do not matter. *)
Definition alike (P : hold -> Prop) (held held' : list hold) : Prop :=
  forall h, P h -> free held h = free held' h.
Lemma alike_cons P a held held' : alike P held held' -> alike P (a :: held) (a :: held').
Proof. intros E h Ph. rewrite !free_cons, (E h Ph). reflexivity. Qed.
Lemma alike_app P l held held' : alike P held held' -> alike P (l ++ held) (l ++ held').
Proof. intros E. induction l; [exact E|]. cbn. apply alike_cons. exact IHl. Qed.
Lemma alike_all (P : hold -> Prop) (hs : list hold) : (forall h, In h hs -> P h) -> forall held held', alike P held held' -> all_free held hs = all_free held' hs.
Proof.
  intros Q. induction hs as [|h hs IH]; intros held held' E; cbn; [reflexivity|].
  rewrite (E h) by (apply Q; left; reflexivity). f_equal.
  apply IH; [intros x Hx; apply Q; right; exact Hx|apply alike_cons; exact E].
Qed.

Lemma run_alike (P : hold -> Prop) {X} (p : prog X) : asks needs ap_needs P p ->
  forall held held' s, alike P held held' -> run p held s = run p held' s.
Proof.
  induction p; intros Q held held' s E; cbn in Q |- *.
  - reflexivity.
  - destruct Q as [Q1 Q2]. rewrite (alike_all P (needs c s) (Q1 s) held held' E).
    destruct (all_free held' (needs c s)); [|reflexivity].
    destruct (act c s) as [[s' r]|]; [|reflexivity]. apply H; [apply Q2|exact E].
  - destruct Q as (Q1 & Q2 & Q3).
    rewrite (for_each_ext _ (fun g s0 => if free held' (b, Look) then match items r b g s0 with
        | None => None
        | Some xs => for_each (fun x s1 => option_map fst (run (f x) (if keeps then (b, Look) :: held' else held') s1)) xs s0
        end else None)).
    + destruct (for_each _ (groups b s) s) as [s'|]; [|reflexivity]. apply IHp; assumption.
    + intros g s0. rewrite (E _ Q1). destruct (free held' (b, Look)); [|reflexivity].
      destruct (items r b g s0) as [xs|]; [|reflexivity]. apply for_each_ext. intros x s1. f_equal.
      apply H; [apply Q2|]. destruct keeps; [apply alike_cons|]; exact E.
  - destruct Q as (Q1 & Q2 & Q3). rewrite (alike_all P (ap_needs o) Q1 held held' E).
    destruct (all_free held' (ap_needs o)); [|reflexivity].
    destruct (ap_items r o s) as [xs|]; [|reflexivity].
    rewrite (for_all_ext _ (fun x s0 => run (f x) (ap_needs o ++ held') s0)).
    + destruct (for_all _ xs s) as [[s' outs]|]; [|reflexivity].
      destruct (ap_finish r o outs s'); [|reflexivity]. apply IHp; assumption.
    + intros x s0. apply H; [apply Q2|apply alike_app; exact E].
Qed.

Lemma asks_weaken (P Q : hold -> Prop) {X} (p : prog X) :
  (forall h, P h -> Q h) -> asks needs ap_needs P p -> asks needs ap_needs Q p.
Proof.
  intros I. induction p; cbn; intros A.
  - exact A.
  - destruct A as [A1 A2]. split; [intros s h Hh; apply I, (A1 s h Hh)|intros r; apply H, A2].
  - destruct A as (A1 & A2 & A3). repeat split; [apply I, A1|intros x; apply H, A2|apply IHp, A3].
  - destruct A as (A1 & A2 & A3). repeat split; [intros h Hh; apply I, A1, Hh|intros x; apply H, A2|apply IHp, A3].
Qed.

(** ** What a program that does not ask to change a buffer leaves alone *)
Variable same : cell -> St -> St -> Prop.
Hypothesis same_refl : forall b s, same b s s.
Hypothesis same_trans : forall b s s' s'', same b s s' -> same b s' s'' -> same b s s''.
Hypothesis act_same : forall b c s s' r, act c s = Some (s', r) -> ~ In (b, Change) (needs c s) -> same b s s'.
Hypothesis fin_same : forall b r o outs s s', ap_finish r o outs s = Some s' -> ~ In (b, Change) (ap_needs o) -> same b s s'.
Hypothesis same_groups : forall b s s', same b s s' -> groups b s' = groups b s.
Hypothesis same_items : forall b s s' r g, same b s s' -> items r b g s' = items r b g s.

Lemma for_each_same {X} b (body : X -> St -> option St) l :
  (forall x s s', In x l -> body x s = Some s' -> same b s s') ->
  forall s s', for_each body l s = Some s' -> same b s s'.
Proof.
  induction l as [|x l IH]; intros B s s' E; cbn in E.
  - injection E as <-. apply same_refl.
  - destruct (body x s) as [s1|] eqn:F; [|discriminate].
    apply same_trans with s1; [apply (B x); [left; reflexivity|exact F]|].
    apply IH; [|exact E]. intros y t t' Hy. apply B. right. exact Hy.
Qed.
Lemma for_all_same {X Y} b (body : X -> St -> option (St * Y)) l :
  (forall x s s' y, In x l -> body x s = Some (s', y) -> same b s s') ->
  forall s s' ys, for_all body l s = Some (s', ys) -> same b s s'.
Proof.
  induction l as [|x l IH]; intros B s s' ys E; cbn in E.
  - injection E as <- _. apply same_refl.
  - destruct (body x s) as [[s1 y]|] eqn:F; [|discriminate].
    destruct (for_all body l s1) as [[s2 zs]|] eqn:F2; [|discriminate]. cbn in E. injection E as <- _.
    apply same_trans with s1; [apply (B x _ _ y); [left; reflexivity|exact F]|].
    apply (IH (fun z t t' w Hz => B z t t' w (or_intror Hz)) _ _ _ F2).
Qed.

Lemma run_same b {X} (p : prog X) : asks needs ap_needs (fun h => h <> (b, Change)) p ->
  forall held s s' x, run p held s = Some (s', x) -> same b s s'.
Proof.
  induction p; intros Q held s s' x0 E; cbn in Q, E.
  - injection E as <- _. apply same_refl.
  - destruct Q as [Q1 Q2]. destruct (all_free held (needs c s)); [|discriminate].
    destruct (act c s) as [[s1 r]|] eqn:F; [|discriminate].
    apply same_trans with s1; [|apply (H r (Q2 r) held _ _ _ E)].
    apply (act_same b c s s1 r F). intros I. apply (Q1 s _ I). reflexivity.
  - destruct Q as (Q1 & Q2 & Q3).
    match type of E with match for_each ?b0 ?l ?s0 with _ => _ end = _ => destruct (for_each b0 l s0) as [s1|] eqn:F end; [|discriminate].
    apply same_trans with s1; [|apply (IHp Q3 held _ _ _ E)].
    apply (for_each_same b _ _) in F; [exact F|].
    intros g t t' _. cbn. destruct (free held (b0, Look)); [|discriminate].
    destruct (items r b0 g t) as [xs|]; [|discriminate]. intros F2.
    apply (for_each_same b _ _) in F2; [exact F2|].
    intros y u u' _ F3. destruct (run (f y) _ u) as [[u1 v]|] eqn:F4; [|discriminate]. cbn in F3. injection F3 as <-.
    apply (H y (Q2 y) _ _ _ _ F4).
  - destruct Q as (Q1 & Q2 & Q3). destruct (all_free held (ap_needs o)); [|discriminate].
    destruct (ap_items r o s) as [xs|]; [|discriminate].
    match type of E with match for_all ?b0 ?l ?s0 with _ => _ end = _ => destruct (for_all b0 l s0) as [[s1 outs]|] eqn:F end; [|discriminate].
    destruct (ap_finish r o outs s1) as [s2|] eqn:F2; [|discriminate].
    apply same_trans with s1; [|apply same_trans with s2].
    + apply (for_all_same b _ _) in F; [exact F|]. intros y u u' v _. apply (H y (Q2 y)).
    + apply (fin_same b r o outs s1 s2 F2). intros I. apply (Q1 _ I). reflexivity.
    + apply (IHp Q3 held _ _ _ E).
Qed.

(** All the items an iteration would visit if nothing changed meanwhile. *)
Definition contents (r : Ora) (b : cell) (s : St) : option (list Item) :=
  option_map (@concat Item) (mapM (fun g => items r b g s) (groups b s)).

(** A closure that does not ask to change the buffer iterated over. *)
Lemma run_iter {X} r b (f : Item -> prog unit) (k : prog X) held s :
  (forall x, asks needs ap_needs (fun h => h <> (b, Change)) (f x)) ->
  free held (b, Look) = true ->
  run (Iter r b f k) held s =
  match contents r b s with
  | None => None
  | Some xs => run (each xs f k) held s
  end.
Proof.
  intros Q Fr. cbn. rewrite Fr.
  set (held' := if keeps then (b, Look) :: held else held).
  set (go := fun x s => option_map fst (run (f x) held s)).
  assert (B : forall x s0, option_map fst (run (f x) held' s0) = go x s0).
  { intros x s0. unfold go. f_equal. apply (run_alike (fun h => h <> (b, Change))); [apply Q|].
    unfold held'. destruct keeps; [|intros h _; reflexivity].
    intros h Hh. apply clash_look in Hh. rewrite free_cons, Hh. reflexivity. }
  assert (Sg : forall x t t', go x t = Some t' -> same b t t').
  { intros x t t' E. unfold go in E. destruct (run (f x) held t) as [[t1 v]|] eqn:F; [|discriminate].
    cbn in E. injection E as <-. apply (run_same b (f x) (Q x) _ _ _ _ F). }
  assert (M : forall gs t, same b s t ->
    for_each (fun g s0 => match items r b g s0 with
                          | None => None
                          | Some xs => for_each (fun x s1 => option_map fst (run (f x) held' s1)) xs s0
                          end) gs t =
    match mapM (fun g => items r b g s) gs with
    | None => None
    | Some xss => for_each go (concat xss) t
    end).
  { induction gs as [|g gs IH]; intros t St0; cbn; [reflexivity|].
    rewrite (same_items b s t r g St0). destruct (items r b g s) as [xs|]; [|reflexivity].
    rewrite (for_each_ext _ go) by (intros; apply B).
    destruct (for_each go xs t) as [t'|] eqn:F.
    - rewrite IH.
      + destruct (mapM _ gs) as [xss|]; cbn; [|reflexivity]. rewrite for_each_app, F. reflexivity.
      + apply same_trans with t; [exact St0|]. apply (for_each_same b go xs); [intros x u u' _; apply Sg|exact F].
    - destruct (mapM _ gs) as [xss|]; cbn; [|reflexivity]. rewrite for_each_app, F. reflexivity. }
  rewrite M by apply same_refl. unfold contents.
  destruct (mapM _ (groups b s)) as [xss|]; cbn [option_map]; [|reflexivity].
  rewrite run_each. fold go. reflexivity.
Qed.

(** A closure of [apply_to_all_values] that asks only for what is still free. *)
Lemma run_apply {X} r o (f : AItem -> prog Out) (k : prog X) s :
  all_free [] (ap_needs o) = true ->
  (forall x, asks needs ap_needs (fun h => free (ap_needs o) h = true) (f x)) ->
  run (Apply r o f k) [] s =
  match ap_items r o s with
  | None => None
  | Some xs =>
      match for_all (fun x s => run (f x) [] s) xs s with
      | None => None
      | Some (s', outs) => match ap_finish r o outs s' with None => None | Some s'' => run k [] s'' end
      end
  end.
Proof.
  intros Fr Q. cbn. rewrite Fr. destruct (ap_items r o s) as [xs|]; [|reflexivity].
  rewrite (for_all_ext _ (fun x s0 => run (f x) [] s0)); [reflexivity|].
  intros x s0. apply (run_alike (fun h => free (ap_needs o) h = true)); [apply Q|].
  intros h Hh. rewrite app_nil_r. rewrite Hh. reflexivity.
Qed.

(** Outside of closures calls never clash. *)
Lemma run_plain {X} (p : prog X) s : (forall c s, all_free [] (needs c s) = true) -> plain p ->
  run p [] s = calls_only act p s.
Proof.
  intros N. revert s. induction p; intros s P; cbn in P |- *; try contradiction; [reflexivity|].
  rewrite N. destruct (act c s) as [[s' r]|]; [|reflexivity]. apply H. apply P.
Qed.
Lemma plain_asks (P : hold -> Prop) {X} (p : prog X) :
  (forall c s h, In h (needs c s) -> P h) -> plain p -> asks needs ap_needs P p.
Proof.
  intros N. induction p; cbn; intros Q; try contradiction; [exact I|].
  split; [intros s h; apply N|intros r; apply H, Q].
Qed.
Lemma run_each_plain xs (f : Item -> prog unit) s : (forall c s, all_free [] (needs c s) = true) ->
  (forall x, plain (f x)) ->
  run (each xs f (Ret tt)) [] s = option_map (fun s' => (s', tt)) (in_turn act f xs s).
Proof.
  intros N P. rewrite run_each. revert s. induction xs as [|x xs IH]; intros s; cbn; [reflexivity|].
  rewrite (run_plain (f x) s N (P x)). destruct (calls_only act (f x) s) as [[s' []]|]; cbn; [apply IH|reflexivity].
Qed.

(** A closure whose first call clashes with a borrow that is alive. *)
Lemma run_iter_clash {X} r b (f : Item -> prog unit) (k : prog X) s :
  keeps = true ->
  (forall x, exists c k', f x = Do c k' /\ In (b, Change) (needs c s)) ->
  (forall xs, contents r b s = Some xs -> xs <> []) ->
  run (Iter r b f k) [] s = None.
Proof.
  intros K Q NE. cbn. change (free [] (b, Look)) with true. cbv iota.
  match goal with |- context [if keeps then ?a else ?b] =>
    replace (if keeps then a else b) with a by (rewrite K; reflexivity) end.
  assert (C : forall x, run (f x) [(b, Look)] s = None).
  { intros x. destruct (Q x) as (c & k' & -> & I). cbn.
    assert (E : all_free [(b, Look)] (needs c s) = false).
    { revert I. generalize (needs c s). intros hs.
      enough (H : forall held, In (b, Look) held -> In (b, Change) hs -> all_free held hs = false)
        by (intros I; apply H; [left; reflexivity|exact I]).
      induction hs as [|h hs IH]; intros held L I; [destruct I|]. cbn.
      destruct I as [->|I].
      - assert (F : free held (b, Change) = false).
        { apply Bool.not_true_iff_false. rewrite free_In. intros F. specialize (F _ L).
          apply clash_look in F. apply F. reflexivity. }
        rewrite F. reflexivity.
      - rewrite (IH (h :: held)); [apply andb_false_r|right; exact L|exact I]. }
    rewrite E. reflexivity. }
  assert (M : forall gs xss, mapM (fun g => items r b g s) gs = Some xss -> concat xss <> [] ->
    for_each (fun g s0 => match items r b g s0 with
                          | None => None
                          | Some xs => for_each (fun x s1 => option_map fst (run (f x) [(b, Look)] s1)) xs s0
                          end) gs s = None).
  { induction gs as [|g gs IH]; intros xss E N; cbn in E |- *.
    - injection E as <-. exfalso. apply N. reflexivity.
    - destruct (items r b g s) as [xs|]; [|discriminate].
      destruct (mapM _ gs) as [yss|] eqn:F; [|discriminate]. cbn in E. injection E as <-.
      destruct xs as [|x xs]; cbn in N |- *.
      + apply (IH yss eq_refl N).
      + rewrite C. reflexivity. }
  unfold contents in NE. destruct (mapM (fun g => items r b g s) (groups b s)) as [xss|] eqn:F.
  - destruct (for_each _ (groups b s) s) as [s'|] eqn:Z; [exfalso|reflexivity].
    enough (W : Some s' = None) by discriminate W. rewrite <- Z.
    refine (M _ _ F _). apply (NE (concat xss)). reflexivity.
  - assert (M' : forall gs, mapM (fun g => items r b g s) gs = None ->
      for_each (fun g s0 => match items r b g s0 with
                          | None => None
                          | Some xs => for_each (fun x s1 => option_map fst (run (f x) [(b, Look)] s1)) xs s0
                          end) gs s = None).
    { induction gs as [|g gs IH]; intros E; cbn in E |- *; [discriminate|].
      destruct (items r b g s) as [xs|]; [|reflexivity].
      destruct xs as [|x xs]; cbn; [|rewrite C; reflexivity].
      apply IH. destruct (mapM _ gs); [discriminate|reflexivity]. }
    destruct (for_each _ (groups b s) s) as [s'|] eqn:Z; [exfalso|reflexivity].
    enough (W : Some s' = None) by discriminate W. rewrite <- Z.
    refine (M' _ F).
Qed.

Lemma run_apply_clash {X} r o (f : AItem -> prog Out) (k : prog X) s :
  all_free [] (ap_needs o) = true ->
  (forall x, exists c k' h, f x = Do c k' /\ In h (needs c s) /\ free (ap_needs o) h = false) ->
  (forall xs, ap_items r o s = Some xs -> xs <> []) ->
  run (Apply r o f k) [] s = None.
Proof.
  intros Fr Q NE. cbn. rewrite Fr. destruct (ap_items r o s) as [xs|]; [|reflexivity].
  destruct xs as [|x xs]; [exfalso; apply (NE [] eq_refl); reflexivity|]. cbn.
  destruct (Q x) as (c & k' & h & -> & I & F). cbn.
  assert (E : all_free (ap_needs o ++ []) (needs c s) = false).
  { rewrite app_nil_r. revert I. generalize (needs c s). intros hs I.
    assert (L : forall held, (forall y, In y (ap_needs o) -> In y held) -> all_free held hs = false).
    { induction hs as [|h' hs IH]; intros held Sub; [destruct I|]. cbn.
      destruct I as [->|I].
      - assert (F' : free held h = false).
        { apply Bool.not_true_iff_false. apply Bool.not_true_iff_false in F.
          rewrite free_In in F |- *. intros G0. apply F. intros y Hy. apply G0, Sub, Hy. }
        rewrite F'. reflexivity.
      - rewrite IH; [apply andb_false_r|exact I|]. intros y Hy. right. apply Sub, Hy. }
    apply L. auto. }
  rewrite E. reflexivity.
Qed.
End Gen.
