(** * Proofs about the plots *)
From Coq Require Import List Bool Arith ZArith String Lia.
From Verif Require Import F32 F32Facts OptModel F64 PlotModel PlotSpec.
Import ListNotations.
Local Open Scope nat_scope.

Lemma lookup_update_eq {V} k (v : V) m : lookup k (update k v m) = Some v.
Proof.
  induction m as [|[k' v'] m IH]; cbn; [rewrite String.eqb_refl; reflexivity|].
  destruct (String.eqb_spec k' k) as [->|N]; cbn.
  - rewrite String.eqb_refl. reflexivity.
  - destruct (String.eqb_spec k' k); [contradiction|]. exact IH.
Qed.
Lemma lookup_update_ne {V} k k2 (v : V) m : k <> k2 -> lookup k2 (update k v m) = lookup k2 m.
Proof.
  intros N. induction m as [|[k' v'] m IH]; cbn.
  - destruct (String.eqb_spec k k2); [contradiction|reflexivity].
  - destruct (String.eqb_spec k' k) as [->|N']; cbn.
    + destruct (String.eqb_spec k k2); [contradiction|reflexivity].
    + destruct (String.eqb k' k2); [reflexivity|exact IH].
Qed.

Lemma do_ops_app g a b : do_ops g (a ++ b) = match do_ops g a with None => None | Some g' => do_ops g' b end.
Proof.
  revert g. induction a as [|o a IH]; intros g; cbn; [reflexivity|]. destruct (do_op g o); [apply IH|reflexivity].
Qed.

Lemma first_add_snoc name h o : first_add name (h ++ [o]) =
  match first_add name h with
  | Some (xl, yl, st, rest) => Some (xl, yl, st, rest ++ [o])
  | None => first_add name [o]
  end.
Proof.
  induction h as [|a h IH]; cbn; [reflexivity|]. destruct a; try apply IH.
  destruct (String.eqb name0 name); [reflexivity|apply IH].
Qed.
Lemma since_clear_snoc h o : since_clear (h ++ [o]) = match o with OClear => [] | _ => since_clear h ++ [o] end.
Proof. unfold since_clear. rewrite fold_left_app. cbn. destruct o; reflexivity. Qed.
Lemma calls_to_app name a b : calls_to name (a ++ b) = calls_to name a ++ calls_to name b.
Proof. apply flat_map_app. Qed.

(** ** Least and greatest values *)
Definition fmin1 (m v : f64) : f64 := if dltb v m then v else m.
Definition fmax1 (m v : f64) : f64 := if dgtb v m then v else m.
Lemma dleb_refl x : dok x -> dleb x x = true.
Proof. intros [_ F]. apply fleb_iff. destruct x; try discriminate; cbn; repeat split; auto; discriminate. Qed.
Lemma nn x : dok x -> f32_is_nan x = false.
Proof. intros [_ F]. destruct x; try discriminate; reflexivity. Qed.
Lemma dleb_trans x y z : dleb x y = true -> dleb y z = true -> dleb x z = true.
Proof.
  intros A B. apply fleb_iff in A, B. apply fleb_iff.
  destruct A as (A1 & A2 & A3), B as (B1 & B2 & B3). split; [assumption|]. split; [assumption|].
  destruct A3 as [A3|A3], B3 as [B3|B3].
  - left. eapply klt_trans; eassumption.
  - left. rewrite <- B3. assumption.
  - left. rewrite A3. assumption.
  - right. congruence.
Qed.
Lemma dltb_dleb x y : dltb x y = true -> dleb x y = true.
Proof. intros A. apply fltb_iff in A. apply fleb_iff. destruct A as (A1 & A2 & A3). auto. Qed.
Lemma dltb_false x y : dok x -> dok y -> dltb x y = false -> dleb y x = true.
Proof.
  intros X Y A. apply nn in X, Y. apply (proj1 (fltb_false_iff x y X Y)) in A. apply fleb_iff. split; [assumption|]. split; [assumption|].
  destruct (klt_total (fkey x) (fkey y)) as [K|[K|K]]; [|auto..]. exfalso. apply A. assumption.
Qed.
Lemma digits_lt m : (Zpos m < 2 ^ Zpos (digits2_pos m))%Z.
Proof.
  induction m as [m IH|m IH|]; cbn [digits2_pos]; [| |reflexivity];
    rewrite Pos2Z.inj_succ, Z.pow_succ_r by lia; lia.
Qed.
Lemma mag64 s m e : f64_valid (S754_finite s m e) -> (Zpos m <= 9007199254740991)%Z /\ (e <= 971)%Z.
Proof.
  unfold f64_valid, valid_binary, bounded, canonical_mantissa. rewrite andb_true_iff, Z.leb_le.
  intros [H1 H2]. apply Zeq_bool_eq in H1. unfold SpecFloat.fexp, SpecFloat.emin in H1.
  pose proof (digits_lt m) as D. split; [|lia].
  assert (B : (2 ^ Zpos (digits2_pos m) <= 2 ^ 53)%Z) by (apply Z.pow_le_mono_r; lia).
  change (2 ^ 53)%Z with 9007199254740992%Z in B. lia.
Qed.
Lemma le_max x : dok x -> dleb x f64_max = true.
Proof.
  intros [V F]. apply fleb_iff. destruct x as [s|s| |s m e]; try discriminate; cbn.
  - split; [reflexivity|]. split; [reflexivity|]. left. lia.
  - apply mag64 in V. split; [reflexivity|]. split; [reflexivity|]. destruct s; cbn; [left; lia|].
    destruct (Z.eq_dec e 971) as [->|]; [|left; lia].
    destruct (Z.eq_dec (Zpos m) 9007199254740991) as [E|]; [right; f_equal; lia|left; lia].
Qed.
Lemma ge_min x : dok x -> dleb f64_min x = true.
Proof.
  intros [V F]. apply fleb_iff. destruct x as [s|s| |s m e]; try discriminate; cbn.
  - split; [reflexivity|]. split; [reflexivity|]. left. lia.
  - apply mag64 in V. split; [reflexivity|]. split; [reflexivity|]. destruct s; cbn; [|left; lia].
    destruct (Z.eq_dec e 971) as [->|]; [|left; lia].
    destruct (Z.eq_dec (Zpos m) 9007199254740991) as [E|]; [right; f_equal; lia|left; lia].
Qed.
Lemma ok_max : dok f64_max. Proof. split; reflexivity. Qed.
Lemma ok_min : dok f64_min. Proof. split; reflexivity. Qed.
(** Equal keys of non-zero finite values are equal values. *)
Lemma key_eq x y : dok x -> dok y -> fkey x = fkey y -> (forall s, y <> S754_zero s) -> x = y.
Proof.
  intros [_ F] [_ G] E N. destruct x as [s|s| |s m e], y as [s'|s'| |s' m' e']; try discriminate; try (exfalso; eapply N; reflexivity).
  - destruct s'; discriminate.
  - destruct s, s'; cbn in E; try discriminate; injection E; intros; subst; f_equal; lia.
Qed.

Lemma fold_min l : forall m, dok m -> Forall dok l ->
  let r := fold_left fmin1 l m in
  dok r /\ dleb r m = true /\ (forall v, In v l -> dleb r v = true) /\ (r = m \/ In r l).
Proof.
  induction l as [|v l IH]; intros m M L; cbn.
  - split; [exact M|]. split; [apply dleb_refl; exact M|]. split; [intros v []|left; reflexivity].
  - inversion_clear L as [|? ? V L']. replace (fmin1 m v) with (if dltb v m then v else m) by reflexivity. destruct (dltb v m) eqn:E.
    + destruct (IH v V L') as (A & B & C & D). split; [exact A|].
      split; [eapply dleb_trans; [exact B|apply dltb_dleb; exact E]|].
      split; [intros w [->|W]; [exact B|apply C; exact W]|]. right. destruct D as [->|D]; [left; reflexivity|right; exact D].
    + destruct (IH m M L') as (A & B & C & D). split; [exact A|]. split; [exact B|].
      split; [intros w [->|W]; [eapply dleb_trans; [exact B|apply dltb_false; assumption]|apply C; exact W]|].
      destruct D as [D|D]; [left; exact D|right; right; exact D].
Qed.
Lemma fold_max l : forall m, dok m -> Forall dok l ->
  let r := fold_left fmax1 l m in
  dok r /\ dleb m r = true /\ (forall v, In v l -> dleb v r = true) /\ (r = m \/ In r l).
Proof.
  induction l as [|v l IH]; intros m M L; cbn.
  - split; [exact M|]. split; [apply dleb_refl; exact M|]. split; [intros v []|left; reflexivity].
  - inversion_clear L as [|? ? V L']. replace (fmax1 m v) with (if dgtb v m then v else m) by reflexivity. destruct (dgtb v m) eqn:E.
    + destruct (IH v V L') as (A & B & C & D). split; [exact A|].
      split; [eapply dleb_trans; [apply dltb_dleb; exact E|exact B]|].
      split; [intros w [->|W]; [exact B|apply C; exact W]|]. right. destruct D as [->|D]; [left; reflexivity|right; exact D].
    + destruct (IH m M L') as (A & B & C & D). split; [exact A|]. split; [exact B|].
      split; [intros w [->|W]; [eapply dleb_trans; [apply dltb_false; [exact M|exact V|exact E]|exact B]|apply C; exact W]|].
      destruct D as [D|D]; [left; exact D|right; right; exact D].
Qed.
Lemma fold_least l : Forall dok l -> l <> [] -> least (fold_left fmin1 l f64_max) l.
Proof.
  intros L N. destruct (fold_min l f64_max ok_max L) as (A & B & C & D). split; [|exact C].
  destruct D as [D|D]; [|exact D]. destruct l as [|v l]; [contradiction|]. left.
  assert (V : dok v) by (inversion L; assumption).
  pose proof (C v (or_introl eq_refl)) as E. rewrite D in *. pose proof (le_max v V) as E2.
  apply key_eq; [exact V|exact ok_max| |intros s H; discriminate].
  apply fleb_iff in E, E2. destruct E as (_ & _ & [E|E]), E2 as (_ & _ & [E2|E2]); try congruence. destruct (klt_asym _ _ E E2).
Qed.
Lemma fold_greatest l : Forall dok l -> l <> [] -> greatest (fold_left fmax1 l f64_min) l.
Proof.
  intros L N. destruct (fold_max l f64_min ok_min L) as (A & B & C & D). split; [|exact C].
  destruct D as [D|D]; [|exact D]. destruct l as [|v l]; [contradiction|]. left.
  assert (V : dok v) by (inversion L; assumption).
  pose proof (C v (or_introl eq_refl)) as E. rewrite D in *. pose proof (ge_min v V) as E2.
  apply key_eq; [exact V|exact ok_min| |intros s H; discriminate].
  apply fleb_iff in E, E2. destruct E as (_ & _ & [E|E]), E2 as (_ & _ & [E2|E2]); try congruence. destruct (klt_asym _ _ E E2).
Qed.

(** ** The plots after any history *)
(** What [plot!] with value arguments computes. *)
Definition exact (name xl yl : string) (st : bool) (rest : list op) (p : plot_data) : Prop :=
  xlabel p = xl /\ ylabel p = yl /\ to_be_stored p = st /\
  (forall s, lookup s (series p) = match points_in name s rest with [] => None | l => Some l end) /\
  min_x p = fold_left fmin1 (map fst (points name rest)) f64_max /\
  max_x p = fold_left fmax1 (map fst (points name rest)) f64_min /\
  min_y p = fold_left fmin1 (map snd (points name rest)) f64_max /\
  max_y p = fold_left fmax1 (map snd (points name rest)) f64_min.
Definition describes (h : list op) (d : list (string * plot_data)) : Prop := forall name,
  match first_add name h with
  | None => lookup name d = None
  | Some (xl, yl, st, rest) => exists p, lookup name d = Some p /\ exact name xl yl st rest p
  end.

Definition channel_of (g : globals) (o : op) : channel :=
  match o with
  | OPlot n s ex ey true =>
      match lookup n (data g), csv g with
      | Some _, Open q => Open (q ++ [Plot n s (ex 0) (ey 0)])
      | _, c => c
      end
  | _ => csv g
  end.

Lemma bound_pure lt e k cur : (forall j, e j = e 0) -> bound lt e k cur = (if lt (e 0) cur then k + 2 else k + 1, if lt (e 0) cur then e 0 else cur).
Proof. intros E. unfold bound. rewrite !(E k), (E (k + 1)). destruct (lt (e 0) cur); reflexivity. Qed.

Lemma points_snoc name h o : points name (h ++ [o]) = points name h ++ points name [o].
Proof. unfold points. rewrite calls_to_app, map_app. reflexivity. Qed.
Lemma points_in_snoc name s h o : points_in name s (h ++ [o]) = points_in name s h ++ points_in name s [o].
Proof. unfold points_in. rewrite calls_to_app, filter_app, map_app. reflexivity. Qed.

Lemma plot_describes h g n s ex ey c : pure (OPlot n s ex ey c) -> (c = true -> exists q, csv g = Open q) ->
  describes h (data g) -> exists g', do_op g (OPlot n s ex ey c) = Some g' /\ describes (h ++ [OPlot n s ex ey c]) (data g') /\
    csv g' = channel_of g (OPlot n s ex ey c) /\ plot_names g' = plot_names g.
Proof.
  intros [PX PY] C D. cbn [do_op]. unfold plot. pose proof (D n) as Dn.
  assert (Other : forall name, name <> n -> points name [OPlot n s ex ey c] = [] /\ forall t, points_in name t [OPlot n s ex ey c] = []).
  { intros name N. unfold points, points_in, calls_to. cbn. destruct (String.eqb_spec n name); [congruence|]. cbn. auto. }
  destruct (lookup n (data g)) as [p|] eqn:L.
  - destruct (first_add n h) as [[[[xl yl] st] rest]|] eqn:FA; [|congruence].
    destruct Dn as (p' & Ep & X). injection Ep as <-. destruct X as (X1 & X2 & X3 & X4 & X5 & X6 & X7 & X8).
    rewrite !(bound_pure _ _ _ _ PX), !(bound_pure _ _ _ _ PY).
    set (p' := PlotData _ _ _ _ _ _ _ _).
    assert (Q : describes (h ++ [OPlot n s ex ey c]) (update n p' (data g))).
    { intros name. rewrite first_add_snoc. destruct (String.eqb_spec n name) as [<-|N].
      - rewrite FA. exists p'. split; [apply lookup_update_eq|]. unfold exact, p'; cbn [xlabel ylabel to_be_stored series min_x max_x min_y max_y].
        assert (Pn : points n [OPlot n s ex ey c] = [(ex 0, ey 0)]) by (unfold points, calls_to; cbn; rewrite String.eqb_refl; reflexivity).
        rewrite !points_snoc, !Pn, !map_app, !fold_left_app. cbn [map fold_left fst snd]. rewrite <- X5, <- X6, <- X7, <- X8.
        split; [exact X1|]. split; [exact X2|]. split; [exact X3|]. split; [|auto].
        intros t. rewrite points_in_snoc. destruct (String.eqb_spec s t) as [<-|T].
        + rewrite lookup_update_eq, (X4 s).
          assert (Pin : points_in n s [OPlot n s ex ey c] = [(ex 0, ey 0)]) by (unfold points_in, calls_to; cbn; rewrite String.eqb_refl; cbn; rewrite String.eqb_refl; reflexivity).
          rewrite Pin. destruct (points_in n s rest) as [|a l]; reflexivity.
        + rewrite lookup_update_ne by exact T. rewrite (X4 t).
          assert (Pin : points_in n t [OPlot n s ex ey c] = []) by (unfold points_in, calls_to; cbn; rewrite String.eqb_refl; cbn; destruct (String.eqb_spec s t); [contradiction|reflexivity]).
          rewrite Pin, app_nil_r. reflexivity.
      - rewrite lookup_update_ne by exact N. specialize (D name). destruct (first_add name h) as [[[[xl' yl'] st'] rest']|]; [|exact D].
        destruct (Other name) as [O1 O2]; [congruence|]. destruct D as (p0 & E0 & Y). exists p0. split; [exact E0|]. unfold exact in *.
        rewrite !points_snoc, !O1, !app_nil_r. destruct Y as (Y1 & Y2 & Y3 & Y4 & Y5). repeat (split; [assumption|]). split; [|exact Y5].
        intros t. rewrite points_in_snoc, O2, app_nil_r. apply Y4. }
    destruct c.
    + destruct (C eq_refl) as [q Eq]. rewrite Eq. cbn [send]. eexists. split; [reflexivity|]. split; [exact Q|]. split; [|reflexivity].
      cbn [csv]. unfold channel_of. rewrite L, Eq. f_equal. f_equal. f_equal. f_equal; [apply PX|apply PY].
    + eexists. split; [reflexivity|]. split; [exact Q|]. split; reflexivity.
  - exists g. split; [reflexivity|]. destruct (first_add n h) as [[[[xl yl] st] rest]|] eqn:FA.
    { destruct Dn as (p & E & _). discriminate. }
    split; [|split; [unfold channel_of; rewrite L; destruct c; destruct (csv g); reflexivity|reflexivity]].
    intros name. rewrite first_add_snoc. pose proof (D name) as Dm. destruct (String.eqb_spec n name) as [<-|N].
    + rewrite FA. exact L.
    + destruct (first_add name h) as [[[[xl' yl'] st'] rest']|]; [|exact Dm].
      destruct (Other name) as [O1 O2]; [congruence|]. destruct Dm as (p0 & E0 & Y). exists p0. split; [exact E0|]. unfold exact in *.
      rewrite !points_snoc, !O1, !app_nil_r. destruct Y as (Y1 & Y2 & Y3 & Y4 & Y5). repeat (split; [assumption|]). split; [|exact Y5].
      intros t. rewrite points_in_snoc, O2, app_nil_r. apply Y4.
Qed.

Lemma exact_add name xl yl st rest p n a b c e : exact name xl yl st rest p -> exact name xl yl st (rest ++ [OAdd n a b c e]) p.
Proof.
  unfold exact. intros (Y1 & Y2 & Y3 & Y4 & Y5). rewrite !points_snoc. cbn [points calls_to flat_map map app].
  change (points name [OAdd n a b c e]) with (@nil point). rewrite !app_nil_r. repeat (split; [assumption|]). split; [|exact Y5].
  intros t. rewrite points_in_snoc. change (points_in name t [OAdd n a b c e]) with (@nil point). rewrite app_nil_r. apply Y4.
Qed.
Lemma add_describes h g n xl yl sp sc : describes h (data g) -> describes (h ++ [OAdd n xl yl sp sc]) (data (addplot g n xl yl sp sc)).
Proof.
  intros D name. rewrite first_add_snoc. pose proof (D n) as Dn. pose proof (D name) as Dm. unfold addplot.
  assert (K : match first_add name h with
              | Some (xl0, yl0, st, rest) => exists p, lookup name (data g) = Some p /\ exact name xl0 yl0 st (rest ++ [OAdd n xl yl sp sc]) p
              | None => True end).
  { destruct (first_add name h) as [[[[xl' yl'] st'] rest']|]; [|exact I]. destruct Dm as (p & E & X). exists p. split; [exact E|]. apply exact_add. exact X. }
  destruct (lookup n (data g)) as [p|] eqn:L; cbn [data].
  - destruct (first_add name h) as [[[[xl' yl'] st'] rest']|] eqn:FA; [exact K|]. cbn.
    destruct (String.eqb_spec n name) as [->|N]; [congruence|exact Dm].
  - destruct (String.eqb_spec n name) as [<-|N].
    + destruct (first_add n h) as [[[[xl' yl'] st'] rest']|] eqn:FA; [destruct K as (p & E & _); congruence|].
      cbn. rewrite String.eqb_refl. exists (plot_new xl yl sp). split; [apply lookup_update_eq|]. unfold exact. cbn. auto 10.
    + rewrite lookup_update_ne by exact N. destruct (first_add name h) as [[[[xl' yl'] st'] rest']|]; [exact K|].
      cbn. destruct (String.eqb_spec n name); [contradiction|exact Dm].
Qed.

Lemma describes_run h : forall names c, Forall pure h -> (exists q, c = Open q) \/ Forall no_csv h ->
  exists g, do_ops (Globals [] names c) h = Some g /\ describes (since_clear h) (data g) /\
    ((exists q, c = Open q) -> exists q, csv g = Open q).
Proof.
  induction h as [|o h IH] using rev_ind; intros names c P C.
  - exists (Globals [] names c). split; [reflexivity|]. split; [intros name; reflexivity|auto].
  - apply Forall_app in P. destruct P as [P Po]. inversion_clear Po as [|? ? Po' _].
    assert (C1 : (exists q, c = Open q) \/ Forall no_csv h) by (destruct C as [C|C]; [auto|apply Forall_app in C; destruct C; auto]).
    destruct (IH names c P C1) as (g & E & D & Q). rewrite do_ops_app, E. cbn [do_ops]. rewrite since_clear_snoc. destruct o as [n xl yl sp sc|n s ex ey sc|].
    + exists (addplot g n xl yl sp sc). split; [reflexivity|]. split; [apply add_describes; exact D|].
      intros X. destruct (Q X) as [q Eq]. exists q. unfold addplot. destruct (lookup n (data g)); cbn; exact Eq.
    + assert (S : sc = true -> exists q, csv g = Open q).
      { intros ->. destruct C as [C|C]; [auto|]. apply Forall_app in C. destruct C as [_ C]. inversion_clear C. cbn in *. discriminate. }
      destruct (plot_describes (since_clear h) g n s ex ey sc Po' S D) as (g' & E' & D' & Cg & _). rewrite E'. exists g'. split; [reflexivity|]. split; [exact D'|].
      intros X. destruct (Q X) as [q Eq]. rewrite Cg. unfold channel_of. rewrite Eq. destruct sc; [|eexists; reflexivity]. destruct (lookup n (data g)); eexists; reflexivity.
    + eexists. split; [reflexivity|]. split; [intros name; reflexivity|]. intros X. destruct (Q X) as [q Eq]. exists q. exact Eq.
Qed.

Lemma first_add_sub name : forall h xl yl st rest, first_add name h = Some (xl, yl, st, rest) -> incl rest h.
Proof.
  induction h as [|o h IH]; intros xl yl st rest E; cbn in E; [discriminate|]. destruct o; try (apply IH in E; intros x X; right; apply E; exact X).
  destruct (String.eqb name0 name); [injection E; intros; subst; apply incl_tl, incl_refl|]. apply IH in E. intros x X; right; apply E; exact X.
Qed.
Lemma since_clear_sub h : incl (since_clear h) h.
Proof.
  induction h as [|o h IH] using rev_ind; [apply incl_refl|]. rewrite since_clear_snoc. intros x X. apply in_or_app.
  destruct o; try (apply in_app_or in X; destruct X as [X|X]; [left; apply IH; exact X|right; exact X]). destruct X.
Qed.
Lemma points_ok name h : Forall finite h -> Forall dok (map fst (points name h)) /\ Forall dok (map snd (points name h)).
Proof.
  induction 1 as [|o h F _ IH]; [split; constructor|]. destruct o as [n xl yl sp sc|n s ex ey sc|]; try exact IH.
  unfold points, calls_to. cbn. destruct (String.eqb n name); [|exact IH]. cbn. destruct F, IH. split; constructor; assumption.
Qed.
Lemma exact_shows name xl yl st rest p : Forall finite rest -> exact name xl yl st rest p -> shows name xl yl st rest p.
Proof.
  intros F (X1 & X2 & X3 & X4 & X5 & X6 & X7 & X8). unfold shows. rewrite X5, X6, X7, X8.
  split; [exact X1|]. split; [exact X2|]. split; [exact X3|]. split; [exact X4|]. intros N. destruct (points_ok name rest F) as [O1 O2].
  assert (N1 : map fst (points name rest) <> []) by (destruct (points name rest); [contradiction|discriminate]).
  assert (N2 : map snd (points name rest) <> []) by (destruct (points name rest); [contradiction|discriminate]).
  split; [apply fold_least; assumption|]. split; [apply fold_greatest; assumption|]. split; [apply fold_least; assumption|apply fold_greatest; assumption].
Qed.
