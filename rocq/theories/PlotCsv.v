(** * Proofs about the csv thread *)
From Coq Require Import List Bool Arith ZArith String Lia.
From Verif Require Import F32 F32Facts OptModel F64 PlotModel PlotSpec PlotProofs.
Import ListNotations.
Local Open Scope nat_scope.

Notation tagged := (message * names_t)%type.

(** The messages a program of the simulation thread sends, each with [PLOT_NAMES] when it
    is sent. *)
Fixpoint emit (d : list (string * plot_data)) (N : names_t) (es : list sim_event) : list tagged :=
  match es with
  | [] => []
  | Send m :: es' => (m, N) :: emit d N es'
  | Do o :: es' =>
      match do_op (Globals d N (Open [])) o with
      | Some g => map (fun m => (m, plot_names g)) (match csv g with Open ms => ms | _ => [] end) ++ emit (data g) (plot_names g) es'
      | None => []
      end
  end.

(** ** Calls do not depend on what is already queued *)
Lemma do_op_open d N o : exists d' N' ms, forall q, do_op (Globals d N (Open q)) o = Some (Globals d' N' (Open (q ++ ms))).
Proof.
  destruct o as [n xl yl sp sc|n s ex ey sc|]; cbn [do_op].
  - unfold addplot. cbn [data plot_names csv]. destruct (lookup n d).
    + exists d, N, []. intros q. rewrite app_nil_r. reflexivity.
    + eexists _, _, []. intros q. rewrite app_nil_r. reflexivity.
  - unfold plot. cbn [data plot_names csv]. destruct (lookup n d) as [p|].
    + destruct (bound dltb ex 1 (min_x p)) as [k1 mnx]. destruct (bound dgtb ex k1 (max_x p)) as [k2 mxx].
      destruct (bound dltb ey 1 (min_y p)) as [j1 mny]. destruct (bound dgtb ey j1 (max_y p)) as [j2 mxy].
      destruct sc; cbn [send].
      * eexists _, _, [_]. intros q. reflexivity.
      * eexists _, _, []. intros q. rewrite app_nil_r. reflexivity.
    + exists d, N, []. intros q. rewrite app_nil_r. reflexivity.
  - exists [], N, []. intros q. rewrite app_nil_r. reflexivity.
Qed.
Lemma do_ops_open h : forall d N, exists d' N' ms, forall q, do_ops (Globals d N (Open q)) h = Some (Globals d' N' (Open (q ++ ms))).
Proof.
  induction h as [|o h IH]; intros d N.
  - exists d, N, []. intros q. rewrite app_nil_r. reflexivity.
  - destruct (do_op_open d N o) as (d1 & N1 & ms1 & E1). destruct (IH d1 N1) as (d2 & N2 & ms2 & E2).
    exists d2, N2, (ms1 ++ ms2). intros q. cbn [do_ops]. rewrite E1, E2, app_assoc. reflexivity.
Qed.

(** ** Registered names *)
Lemma insert_name_in t n l : In t (insert_name n l) <-> In t l \/ t = n.
Proof.
  unfold insert_name. destruct (existsb (name_eqb n) l) eqn:E.
  - split; [auto|]. intros [H| ->]; [exact H|]. apply existsb_exists in E. destruct E as (x & X & Y).
    destruct n as [[n1 n2] n3], x as [[x1 x2] x3]. cbn in Y. rewrite !andb_true_iff, !String.eqb_eq in Y. destruct Y as [[-> ->] ->]. exact X.
  - rewrite in_app_iff. cbn. intuition.
Qed.
Lemma insert_name_nodup n l : NoDup l -> NoDup (insert_name n l).
Proof.
  intros H. unfold insert_name. destruct (existsb (name_eqb n) l) eqn:E; [exact H|].
  apply NoDup_Add with (a := n) (l := l).
  - rewrite <- (app_nil_r l) at 1. apply Add_app.
  - split; [exact H|]. intros X. assert (Y : existsb (name_eqb n) l = true).
    { apply existsb_exists. exists n. split; [exact X|]. destruct n as [[n1 n2] n3]. cbn. rewrite !String.eqb_refl. reflexivity. }
    congruence.
Qed.
Lemma do_op_names g o g' : do_op g o = Some g' -> incl (plot_names g) (plot_names g') /\ (NoDup (plot_names g) -> NoDup (plot_names g')).
Proof.
  destruct o as [n xl yl sp sc|n s ex ey sc|]; cbn [do_op]; intros E.
  - injection E as <-. unfold addplot. destruct (lookup n (data g)); cbn; [split; [apply incl_refl|auto]|].
    destruct sc; [|split; [apply incl_refl|auto]]. split; [intros t T; apply insert_name_in; auto|apply insert_name_nodup].
  - unfold plot in E. destruct (lookup n (data g)) as [p|]; [|injection E as <-; split; [apply incl_refl|auto]].
    destruct (bound dltb ex 1 (min_x p)) as [k1 mnx]. destruct (bound dgtb ex k1 (max_x p)) as [k2 mxx].
    destruct (bound dltb ey 1 (min_y p)) as [j1 mny]. destruct (bound dgtb ey j1 (max_y p)) as [j2 mxy].
    destruct sc; [destruct (send (csv g) _) as [c|]; [|discriminate]|]; injection E as <-; (split; [apply incl_refl|auto]).
  - injection E as <-. split; [apply incl_refl|auto].
Qed.

Definition keyed (seen : list string) (d : list (string * plot_data)) : Prop :=
  forall n, existsb (String.eqb n) seen = match lookup n d with Some _ => true | None => false end.
Lemma keyed_update seen d n p : keyed seen d -> keyed (n :: seen) (update n p d).
Proof.
  intros K m. cbn. destruct (String.eqb_spec m n) as [->|X].
  - rewrite lookup_update_eq. reflexivity.
  - rewrite lookup_update_ne by congruence. apply K.
Qed.
Lemma keyed_update_in seen d n p : keyed seen d -> lookup n d <> None -> keyed seen (update n p d).
Proof.
  intros K L m. destruct (String.eqb_spec m n) as [->|X].
  - rewrite lookup_update_eq, (K n). destruct (lookup n d); [reflexivity|congruence].
  - rewrite lookup_update_ne by congruence. apply K.
Qed.
Lemma registered_names h : forall seen g g', ~ In OClear h -> keyed seen (data g) -> do_ops g h = Some g' ->
  forall t, In t (plot_names g') <-> In t (plot_names g) \/ In t (registered seen h).
Proof.
  induction h as [|o h IH]; intros seen g g' C K E t; cbn [do_ops] in E.
  - injection E as <-. cbn. tauto.
  - assert (C' : ~ In OClear h) by (intros X; apply C; right; exact X).
    destruct (do_op g o) as [g1|] eqn:E1; [|discriminate].
    destruct o as [n xl yl sp sc|n s ex ey sc|]; [| |exfalso; apply C; left; reflexivity]; cbn [do_op registered] in *.
    + injection E1 as <-. rewrite (K n). unfold addplot in E. destruct (lookup n (data g)) as [p|] eqn:L.
      * apply (IH seen g g' C' K E).
      * pose proof (fun K' => IH (n :: seen) _ g' C' K' E t) as IH'. rewrite (IH' (keyed_update _ _ _ _ K)). cbn [plot_names].
        destruct sc; [rewrite insert_name_in, in_app_iff; cbn; intuition|cbn; tauto].
    + unfold plot in E1. destruct (lookup n (data g)) as [p|] eqn:L; [|injection E1 as <-; apply (IH seen g g' C' K E)].
      destruct (bound dltb ex 1 (min_x p)) as [k1 mnx]. destruct (bound dgtb ex k1 (max_x p)) as [k2 mxx].
      destruct (bound dltb ey 1 (min_y p)) as [j1 mny]. destruct (bound dgtb ey j1 (max_y p)) as [j2 mxy].
      destruct sc; [destruct (send (csv g) _) as [c|]; [|discriminate]|]; injection E1 as <-;
        (pose proof (fun K' => IH seen _ g' C' K' E t) as IH'; rewrite (IH' (keyed_update_in seen _ n _ K ltac:(congruence))); cbn; tauto).
Qed.

(** ** The rows a repetition sends *)
Definition rows_of (n : string) (ms : list message) : list row :=
  flat_map (fun m => match m with Plot n' s x y => if String.eqb n' n then [(s, x, y)] else [] | _ => [] end) ms.
Definition only_plots (S : list string) (ms : list message) : Prop :=
  Forall (fun m => match m with Plot n _ _ _ => In n S | _ => False end) ms.

Lemma since_clear_none h : ~ In OClear h -> since_clear h = h.
Proof.
  induction h as [|o h IH] using rev_ind; [reflexivity|]. intros C. rewrite since_clear_snoc, IH by (intros X; apply C, in_or_app; auto).
  destruct o; try reflexivity. exfalso. apply C, in_or_app. right. left. reflexivity.
Qed.
Definition csv_names (h : list op) : list string := flat_map (fun o => match o with OPlot n _ _ _ true => [n] | _ => [] end) h.

Lemma rows_run h : forall N, ~ In OClear h -> Forall pure h ->
  exists d' N' ms, do_ops (Globals [] N (Open [])) h = Some (Globals d' N' (Open ms)) /\ describes h d' /\
    only_plots (csv_names h) ms /\ (forall n, rows_of n ms = csv_rows n h) /\ (Forall no_csv h -> ms = []).
Proof.
  induction h as [|o h IH] using rev_ind; intros N C P.
  - exists [], N, []. split; [reflexivity|]. split; [intros n; reflexivity|]. split; [constructor|]. split; [intros n; reflexivity|auto].
  - assert (C' : ~ In OClear h) by (intros X; apply C, in_or_app; auto). apply Forall_app in P. destruct P as [P Po]. inversion_clear Po as [|? ? Po' _].
    destruct (IH N C' P) as (d1 & N1 & ms1 & E1 & D1 & O1 & R1 & Q1). rewrite do_ops_app, E1. cbn [do_ops].
    assert (CN : csv_names (h ++ [o]) = csv_names h ++ csv_names [o]) by apply flat_map_app.
    assert (O1' : only_plots (csv_names (h ++ [o])) ms1).
    { eapply Forall_impl; [|exact O1]. intros m M. cbn in M. destruct m; try exact M. rewrite CN. apply in_or_app. left. exact M. }
    assert (CR : forall n, csv_rows n (h ++ [o]) = csv_rows n h ++ match first_add n h with Some _ => map (fun c => (fst (fst c), fst (snd (fst c)), snd (snd (fst c)))) (filter snd (calls_to n [o])) | None => [] end).
    { intros n. unfold csv_rows. rewrite first_add_snoc. destruct (first_add n h) as [[[[xl yl] st] rest]|].
      - rewrite calls_to_app, filter_app, map_app. reflexivity.
      - cbn. destruct o as [n' a b c e| |]; try reflexivity. cbn. destruct (String.eqb n' n); reflexivity. }
    destruct o as [n xl yl sp sc|n s ex ey sc|]; [| |exfalso; apply C, in_or_app; right; left; reflexivity].
    + destruct (do_op_open d1 N1 (OAdd n xl yl sp sc)) as (d2 & N2 & ms2 & E2). pose proof (add_describes h (Globals d1 N1 (Open ms1)) n xl yl sp sc D1) as D2.
      assert (Ms : ms2 = []).
      { specialize (E2 []). cbn [do_op] in E2. injection E2 as E2. apply (f_equal csv) in E2. unfold addplot in E2. cbn in E2. destruct (lookup n d1); cbn in E2; congruence. }
      subst ms2. specialize (E2 ms1). rewrite app_nil_r in E2. rewrite E2. cbn [do_op] in E2. injection E2 as E2. rewrite E2 in D2. cbn [data] in D2.
      exists d2, N2, ms1. split; [reflexivity|]. split; [exact D2|]. split; [exact O1'|]. split; [|intros F; apply Q1; apply Forall_app in F; tauto].
      intros m. rewrite R1, CR. destruct (first_add m h); cbn; rewrite app_nil_r; reflexivity.
    + destruct (plot_describes h (Globals d1 N1 (Open ms1)) n s ex ey sc Po' (fun _ => ex_intro _ ms1 eq_refl) D1) as (g' & E2 & D2 & Cg & Ng).
      rewrite E2. destruct g' as [d2 N2 c2]. cbn [data csv plot_names] in *. subst N2.
      pose proof (D1 n) as Dn. unfold channel_of in Cg. cbn [data csv] in Cg.
      destruct sc.
      * destruct (first_add n h) as [[[[xl yl] st] rest]|] eqn:FA.
        -- destruct Dn as (p & L & _). rewrite L in Cg. subst c2. exists d2, N1, (ms1 ++ [Plot n s (ex 0) (ey 0)]). split; [reflexivity|]. split; [exact D2|].
           split; [apply Forall_app; split; [exact O1'|]; constructor; [|constructor]; rewrite CN; apply in_or_app; right; left; reflexivity|].
           split; [|intros F; apply Forall_app in F; destruct F as [_ F]; inversion_clear F; discriminate].
           intros m. unfold rows_of. rewrite flat_map_app. fold (rows_of m ms1). rewrite R1, CR. f_equal. cbn.
           destruct (String.eqb_spec n m) as [<-|X]; [rewrite FA; reflexivity|]. destruct (first_add m h); reflexivity.
        -- rewrite Dn in Cg. subst c2. exists d2, N1, ms1. split; [reflexivity|]. split; [exact D2|]. split; [exact O1'|].
           split; [|intros F; apply Q1; apply Forall_app in F; tauto].
           intros m. rewrite R1, CR. cbn. destruct (String.eqb_spec n m) as [<-|X]; [rewrite FA; rewrite app_nil_r; reflexivity|].
           destruct (first_add m h); cbn; rewrite app_nil_r; reflexivity.
      * subst c2. exists d2, N1, ms1. split; [reflexivity|]. split; [exact D2|]. split; [exact O1'|]. split; [|intros F; apply Q1; apply Forall_app in F; tauto].
        intros m. rewrite R1, CR. cbn. destruct (String.eqb n m); destruct (first_add m h); cbn; rewrite app_nil_r; reflexivity.
Qed.

(** ** What one repetition writes *)
Notation entry := (tagged * names_t)%type.
Definition cstep (tf : csv_thread * list file) (e : entry) : csv_thread * list file :=
  csv_step (snd e) (fst tf) (snd tf) (fst (fst e)).
Definition path (t : string * string * string) : string := replace (fst (fst t)).
Definition rows_at (p : string) (ms : list message) : list row :=
  flat_map (fun m => match m with Plot n s x y => if String.eqb (replace n) p then [(s, x, y)] else [] | _ => [] end) ms.
Definition mkfile (k : nat) (ms : list message) (t : string * string * string) : file :=
  File (path t) k (snd (fst t), snd t) (rows_at (path t) ms).

Lemma filter_all {A} (f : A -> bool) l : (forall x, In x l -> f x = true) -> filter f l = l.
Proof. induction l as [|a l IH]; intros H; cbn; [reflexivity|]. rewrite H by (left; reflexivity). rewrite IH; [reflexivity|]. intros x X. apply H. right. exact X. Qed.

Lemma open_fold k fs : Forall (fun f => f_rep f < k) fs -> forall S done, NoDup (map path (done ++ S)) ->
  fold_left (fun fs n => open_file fs k n) S (fs ++ map (mkfile k []) done) = fs ++ map (mkfile k []) (done ++ S).
Proof.
  intros F. induction S as [|t S IH]; intros done D; cbn [fold_left]; [rewrite app_nil_r; reflexivity|].
  assert (E : open_file (fs ++ map (mkfile k []) done) k t = fs ++ map (mkfile k []) (done ++ [t])).
  { unfold open_file. destruct t as [[n x] y]. rewrite filter_all.
    - rewrite map_app, app_assoc. reflexivity.
    - intros f I. apply negb_true_iff. unfold same_file. apply andb_false_iff. apply in_app_or in I. destruct I as [I|I].
      + right. apply Nat.eqb_neq. rewrite Forall_forall in F. specialize (F f I). lia.
      + left. apply in_map_iff in I. destruct I as (t' & <- & T). cbn. apply String.eqb_neq. intros X.
        rewrite map_app in D. cbn in D. apply NoDup_remove_2 in D. apply D. apply in_or_app. left.
        change (replace n) with (path (n, x, y)) in X. unfold path at 1 in X. cbn in X. change (replace (fst (fst t'))) with (path t') in X. unfold path at 1. cbn. rewrite <- X. apply in_map. exact T. }
  rewrite E, IH by (rewrite <- app_assoc; exact D). rewrite <- app_assoc. reflexivity.
Qed.

Definition add_row (r : row) (f : file) : file := File (f_name f) (f_rep f) (f_labels f) (f_rows f ++ [r]).
Lemma write_fold p r ws : NoDup (map fst ws) -> forall fs,
  fold_left (fun fs w => if String.eqb p (fst w) then write_row fs w r else fs) ws fs =
  map (fun f => if existsb (fun w => String.eqb p (fst w) && same_file (fst w) (snd w) f) ws then add_row r f else f) fs.
Proof.
  induction ws as [|w ws IH]; intros D fs; cbn [fold_left map existsb].
  - symmetry. apply map_id.
  - cbn in D. inversion_clear D as [|? ? D1 D2]. destruct (String.eqb_spec p (fst w)) as [E|E]; cbn [andb].
    + rewrite IH by exact D2. unfold write_row. rewrite map_map. apply map_ext. intros f.
      destruct (same_file (fst w) (snd w) f) eqn:SF; cbn [orb]; [|reflexivity].
      change (File (f_name f) (f_rep f) (f_labels f) (f_rows f ++ [r])) with (add_row r f).
      destruct (existsb _ ws) eqn:X; [|reflexivity]. apply existsb_exists in X. destruct X as (w' & W & Y). apply andb_true_iff in Y. destruct Y as [Y _].
      apply String.eqb_eq in Y. exfalso. apply D1. rewrite <- E, Y. apply in_map. exact W.
    + apply IH. exact D2.
Qed.

Lemma plot_step k ms S fs n s x y : Forall (fun f => f_rep f < k) fs -> NoDup (map path S) ->
  fold_left (fun fs w => if String.eqb (replace n) (fst w) then write_row fs w (s, x, y) else fs) (map (fun t => (path t, k)) S) (fs ++ map (mkfile k ms) S)
  = fs ++ map (mkfile k (ms ++ [Plot n s x y])) S.
Proof.
  intros F D. rewrite write_fold by (rewrite map_map; exact D). rewrite map_app, map_map. f_equal.
  - rewrite <- (map_id fs) at 2. apply map_ext_in. intros f I. destruct (existsb _ _) eqn:X; [|reflexivity].
    apply existsb_exists in X. destruct X as (w & W & Y). apply in_map_iff in W. destruct W as (t & <- & T). cbn in Y. unfold same_file in Y.
    rewrite !andb_true_iff, Nat.eqb_eq in Y. rewrite Forall_forall in F. specialize (F f I). lia.
  - apply map_ext_in. intros t T. 
    assert (R : mkfile k (ms ++ [Plot n s x y]) t = File (path t) k (snd (fst t), snd t) (rows_at (path t) ms ++ if String.eqb (replace n) (path t) then [(s, x, y)] else []))
      by (unfold mkfile, rows_at; rewrite flat_map_app; cbn; rewrite app_nil_r; reflexivity).
    rewrite R. clear R.
    destruct (String.eqb_spec (replace n) (path t)) as [E|E].
    + replace (existsb _ _) with true; [reflexivity|]. symmetry. apply existsb_exists. exists (path t, k). split; [apply in_map_iff; exists t; auto|].
      cbn. unfold same_file. cbn. rewrite E, !String.eqb_refl, Nat.eqb_refl. reflexivity.
    + rewrite app_nil_r. destruct (existsb _ _) eqn:X; [|reflexivity]. apply existsb_exists in X. destruct X as (w & W & Y).
      apply in_map_iff in W. destruct W as (t' & <- & T'). cbn in Y. unfold same_file in Y. cbn in Y. rewrite !andb_true_iff, !String.eqb_eq in Y.
      destruct Y as [Y1 [Y2 _]]. congruence.
Qed.

Lemma plots_fold k S fs es : Forall (fun f => f_rep f < k) fs -> NoDup (map path S) -> forall ms0,
  Forall (fun e : entry => match fst (fst e) with Plot _ _ _ _ => True | _ => False end) es ->
  fold_left cstep es (Running k (map (fun t => (path t, k)) S), fs ++ map (mkfile k ms0) S)
  = (Running k (map (fun t => (path t, k)) S), fs ++ map (mkfile k (ms0 ++ map (fun e => fst (fst e)) es)) S).
Proof.
  intros F D. induction es as [|e es IH]; intros ms0 P; cbn [fold_left map]; [rewrite app_nil_r; reflexivity|].
  inversion_clear P as [|? ? Pe P']. destruct e as [[m N] sn]. cbn in Pe. destruct m as [|n s x y| |]; try contradiction.
  unfold cstep at 2. cbn [csv_step fst snd]. rewrite plot_step by assumption. rewrite IH by assumption. rewrite <- app_assoc. reflexivity.
Qed.

Definition started (t : csv_thread) (k : nat) : Prop := (exists ws, t = Running k ws) \/ (t = Waiting /\ k = 0).
Lemma rep_fold t k fs e1 es e2 : started t k -> Forall (fun f => f_rep f < k) fs ->
  fst (fst e1) = Init -> NoDup (map path (snd e1)) ->
  Forall (fun e : entry => match fst (fst e) with Plot _ _ _ _ => True | _ => False end) es -> fst (fst e2) = EndOfSimulation ->
  exists ws, fold_left cstep (e1 :: es ++ [e2]) (t, fs) = (Running (k + 1) ws, fs ++ map (mkfile k (map (fun e => fst (fst e)) es)) (snd e1)).
Proof.
  intros T F E1 D P E2. cbn [fold_left]. rewrite fold_left_app.
  assert (O : cstep (t, fs) e1 = (Running k (map (fun t => (path t, k)) (snd e1)), fs ++ map (mkfile k []) (snd e1))).
  { pose proof (open_fold k fs F (snd e1) [] D) as Q. cbn in Q. rewrite app_nil_r in Q. change (cstep (t, fs) e1) with (csv_step (snd e1) t fs (fst (fst e1))). rewrite E1.
    destruct T as [[ws ->]|[-> ->]]; cbn [csv_step]; unfold open_files; rewrite Q; reflexivity. }
  rewrite O, plots_fold by assumption. cbn [fold_left]. unfold cstep at 1. rewrite E2. eexists. reflexivity.
Qed.

(** ** The messages of a whole simulation *)
Lemma do_op_plots g o g' : do_op g o = Some g' -> forall q, csv g = Open q ->
  exists ms, csv g' = Open (q ++ ms) /\ Forall (fun m => match m with Plot _ _ _ _ => True | _ => False end) ms.
Proof.
  destruct o as [n xl yl sp sc|n s ex ey sc|]; cbn [do_op]; intros E q Q.
  - injection E as <-. exists []. rewrite app_nil_r. split; [|constructor]. unfold addplot. destruct (lookup n (data g)); cbn; exact Q.
  - unfold plot in E. destruct (lookup n (data g)) as [p|]; [|injection E as <-; exists []; rewrite app_nil_r; split; [exact Q|constructor]].
    destruct (bound dltb ex 1 (min_x p)) as [k1 mnx]. destruct (bound dgtb ex k1 (max_x p)) as [k2 mxx].
    destruct (bound dltb ey 1 (min_y p)) as [j1 mny]. destruct (bound dgtb ey j1 (max_y p)) as [j2 mxy].
    destruct sc; [rewrite Q in E; cbn [send] in E|]; injection E as <-.
    + eexists. split; [reflexivity|]. constructor; [exact I|constructor].
    + exists []. rewrite app_nil_r. split; [exact Q|constructor].
  - injection E as <-. exists []. rewrite app_nil_r. split; [exact Q|constructor].
Qed.

Lemma emit_ops h es : forall d N d' N' ms, (forall q, do_ops (Globals d N (Open q)) h = Some (Globals d' N' (Open (q ++ ms)))) ->
  exists tags, emit d N (map Do h ++ es) = tags ++ emit d' N' es /\ map fst tags = ms.
Proof.
  induction h as [|o h IH]; intros d N d' N' ms E.
  - specialize (E []). cbn in E. injection E as <- <- <-. exists []. split; reflexivity.
  - destruct (do_op_open d N o) as (d1 & N1 & ms1 & E1). destruct (do_ops_open h d1 N1) as (d2 & N2 & ms2 & E2).
    assert (X : d2 = d' /\ N2 = N' /\ ms1 ++ ms2 = ms).
    { specialize (E []). cbn [do_ops] in E. rewrite E1, E2 in E. injection E as -> -> ->. auto. }
    destruct X as (-> & -> & <-). destruct (IH d1 N1 d' N' ms2 E2) as (tags & T1 & T2).
    exists (map (fun m => (m, N1)) ms1 ++ tags). split.
    + cbn [map app emit]. rewrite E1. cbn [csv data plot_names app]. rewrite T1, app_assoc. reflexivity.
    + rewrite map_app, T2, map_map. cbn. rewrite map_id. reflexivity.
Qed.

Lemma emit_rep d N rep es : good_rep rep -> exists d2 N1 N2 ms tags,
  emit d N (rep_events rep ++ es) = (Init, N1) :: tags ++ (EndOfSimulation, N2) :: emit d2 N2 es /\ map fst tags = ms /\
  only_plots (csv_names (fst rep ++ snd rep)) ms /\ (forall n, rows_of n ms = csv_rows n (fst rep ++ snd rep)) /\
  (forall t, In t N1 <-> In t N \/ In t (registered [] (fst rep))) /\ (forall t, In t N2 <-> In t N \/ In t (registered [] (fst rep ++ snd rep))).
Proof.
  intros (P & NC & C). assert (P' := P). apply Forall_app in P'. destruct P' as [P1 P2].
  assert (C1 : ~ In OClear (fst rep)) by (intros X; apply C, in_or_app; auto).
  destruct (rows_run (fst rep) N C1 P1) as (d1 & N1 & ms1 & E1 & _ & _ & _ & Q1). specialize (Q1 NC). subst ms1.
  destruct (rows_run (fst rep ++ snd rep) N C P) as (d2 & N2 & ms & E2 & _ & O & R & _).
  exists d2, N1, N2, ms. pose proof E2 as E3. rewrite do_ops_app, E1 in E3.
  assert (K : keyed [] []) by (intros m; reflexivity).
  destruct (do_ops_open (snd rep) d1 N1) as (d3 & N3 & ms3 & E4). pose proof (E4 []) as E5. rewrite E3 in E5. injection E5 as <- <- E5. cbn in E5. subst ms3.
  destruct (emit_ops (snd rep) (Send EndOfSimulation :: es) d1 N1 d2 N2 ms E4) as (tags & T1 & T2).
  exists tags. split; [|split; [exact T2|split; [exact O|split; [exact R|split]]]].
  - unfold rep_events. cbn [app emit do_op]. cbn [csv data plot_names map app].
    destruct (do_ops_open (fst rep) [] N) as (d4 & N4 & ms4 & E6). pose proof (E6 []) as E7. rewrite E1 in E7. injection E7 as <- <- E7. cbn in E7. subst ms4.
    rewrite <- app_assoc. cbn [app]. rewrite <- app_assoc. cbn [app].
    destruct (emit_ops (fst rep) (Send Init :: map Do (snd rep) ++ Send EndOfSimulation :: es) [] N d1 N1 [] E6) as (tags0 & U1 & U2).
    apply map_eq_nil in U2. subst tags0. rewrite U1. cbn [app emit]. rewrite T1. reflexivity.
  - intros t. apply (registered_names (fst rep) [] (Globals [] N (Open [])) _ C1 K E1 t).
  - intros t. apply (registered_names (fst rep ++ snd rep) [] (Globals [] N (Open [])) _ C K E2 t).
Qed.

(** ** The files of a whole simulation *)
Inductive produced (all : names_t) : nat -> names_t -> list (list op * list op) -> list file -> Prop :=
| P_nil k N : produced all k N [] []
| P_cons k N rep reps S N' ms new :
    (forall t, In t N \/ In t (registered [] (fst rep)) -> In t S) -> incl S all -> NoDup S ->
    only_plots (csv_names (fst rep ++ snd rep)) ms -> (forall n, rows_of n ms = csv_rows n (fst rep ++ snd rep)) ->
    (forall t, In t N' <-> In t N \/ In t (registered [] (fst rep ++ snd rep))) ->
    produced all (k + 1) N' reps new -> produced all k N (rep :: reps) (map (mkfile k ms) S ++ new).

Definition apart (all : names_t) : Prop := forall t t', In t all -> In t' all -> path t = path t' -> t = t'.
Lemma apart_nodup all S : apart all -> incl S all -> NoDup S -> NoDup (map path S).
Proof.
  intros A I D. induction D as [|t S X D IH]; cbn; [constructor|]. constructor.
  - intros H. apply in_map_iff in H. destruct H as (t' & E & T'). apply A in E; [subst; contradiction| |]; apply I; [right; exact T'|left; reflexivity].
  - apply IH. intros x X'. apply I. right. exact X'.
Qed.

Lemma csv_reps all : apart all -> forall reps d N k t fs (dn : list entry), Forall good_rep reps ->
  map fst dn = emit d N (sim_events reps) ->
  Forall (fun e : entry => incl (snd (fst e)) (snd e) /\ incl (snd e) all /\ NoDup (snd e)) dn ->
  started t k -> Forall (fun f => f_rep f < k) fs ->
  exists new, fold_left cstep dn (t, fs) = (Done, fs ++ new) /\ produced all k N reps new.
Proof.
  intros A. induction reps as [|rep reps IH]; intros d N k t fs dn G E Q T F.
  - cbn in E. destruct dn as [|e [|? ?]]; try discriminate. cbn in E. injection E as E. exists []. split; [|constructor].
    rewrite app_nil_r. cbn. unfold cstep. rewrite E. destruct T as [[ws ->]|[-> ->]]; reflexivity.
  - inversion_clear G as [|? ? G1 G2]. unfold sim_events in E. cbn [flat_map] in E. rewrite <- app_assoc in E. fold (sim_events reps) in E.
    destruct (emit_rep d N rep (sim_events reps) G1) as (d2 & N1 & N2 & ms & tags & Em & Tg & O & R & H1 & H2). rewrite Em in E.
    destruct dn as [|e1 dn]; [discriminate|]. cbn [map] in E. injection E as E1 E.
    apply map_eq_app in E. destruct E as (es & dn2 & -> & Es & E). destruct dn2 as [|e2 dn2]; [discriminate|]. cbn [map] in E. injection E as E2 E.
    inversion_clear Q as [|? ? Q1 Qr]. apply Forall_app in Qr. destruct Qr as [Q2 Qr]. inversion_clear Qr as [|? ? Q3 Q4]. destruct Q1 as (I1 & I2 & I3).
    assert (Pes : Forall (fun e : entry => match fst (fst e) with Plot _ _ _ _ => True | _ => False end) es).
    { apply Forall_forall. intros e X. unfold only_plots in O. rewrite Forall_forall in O. specialize (O (fst (fst e))). rewrite <- Tg, <- Es, map_map in O.
      specialize (O (in_map (fun e => fst (fst e)) es e X)). destruct (fst (fst e)); try contradiction. exact I. }
    destruct (rep_fold t k fs e1 es e2 T F) as (ws & W); [rewrite E1; reflexivity|apply (apart_nodup all); assumption|exact Pes|rewrite E2; reflexivity|].
    assert (Ms : map (fun e : entry => fst (fst e)) es = ms) by (rewrite <- Tg, <- Es, map_map; reflexivity). rewrite Ms in W.
    destruct (IH d2 N2 (k + 1) (Running (k + 1) ws) (fs ++ map (mkfile k ms) (snd e1)) dn2 G2 E Q4) as (new & Hn & Pn).
    + left. exists ws. reflexivity.
    + apply Forall_app. split; [eapply Forall_impl; [|exact F]; intros f Hf; cbn in *; lia|]. apply Forall_forall. intros f X. apply in_map_iff in X. destruct X as (t0 & <- & _). cbn. lia.
    + exists (map (mkfile k ms) (snd e1) ++ new). split.
      * replace (e1 :: es ++ e2 :: dn2) with ((e1 :: es ++ [e2]) ++ dn2) by (cbn; rewrite <- app_assoc; reflexivity).
        rewrite fold_left_app, W, Hn, <- app_assoc. reflexivity.
      * apply P_cons with (N' := N2); auto. intros t0 H. apply I1. rewrite E1. cbn. apply H1. exact H.
Qed.

(** ** Any interleaving of the two threads *)
Fixpoint final_names (d : list (string * plot_data)) (N : names_t) (es : list sim_event) : names_t :=
  match es with
  | [] => N
  | Send _ :: es' => final_names d N es'
  | Do o :: es' => match do_op (Globals d N (Open [])) o with Some g => final_names (data g) (plot_names g) es' | None => N end
  end.
Lemma final_incl es : forall d N, incl N (final_names d N es).
Proof.
  induction es as [|[o|m] es IH]; intros d N; cbn; [apply incl_refl| |apply IH].
  destruct (do_op_open d N o) as (d1 & N1 & ms & E). rewrite E. cbn. destruct (do_op_names _ _ _ (E [])) as [H _]. cbn in H.
  eapply incl_tran; [exact H|apply IH].
Qed.
Lemma final_ops h es : forall d N d' N' ms, do_ops (Globals d N (Open [])) h = Some (Globals d' N' (Open ms)) ->
  final_names d N (map Do h ++ es) = final_names d' N' es.
Proof.
  induction h as [|o h IH]; intros d N d' N' ms E.
  - cbn in E. injection E as <- <- <-. reflexivity.
  - cbn [map app final_names]. cbn [do_ops] in E. destruct (do_op_open d N o) as (d1 & N1 & ms1 & E1). rewrite E1 in *. cbn [data plot_names].
    destruct (do_ops_open h d1 N1) as (d2 & N2 & ms2 & E2). rewrite E2 in E. injection E as <- <- _. apply (IH _ _ _ _ ([] ++ ms2)). apply E2.
Qed.
Lemma final_all reps : forall d N, Forall good_rep reps -> forall t, In t (final_names d N (sim_events reps)) <-> In t (all_registered N reps).
Proof.
  induction reps as [|rep reps IH]; intros d N G t; [unfold all_registered; cbn [flat_map]; rewrite app_nil_r; reflexivity|]. inversion_clear G as [|? ? G1 G2].
  unfold sim_events. cbn [flat_map]. rewrite <- app_assoc. fold (sim_events reps). unfold rep_events. cbn [app final_names do_op]. cbn [data plot_names csv].
  rewrite <- app_assoc. cbn [app]. rewrite <- app_assoc. cbn [app].
  destruct G1 as (P & NC & C). assert (P' := P). apply Forall_app in P'. destruct P' as [P1 P2].
  destruct (do_ops_open (fst rep) [] N) as (d1 & N1 & ms1 & E1). destruct (do_ops_open (snd rep) d1 N1) as (d2 & N2 & ms2 & E2).
  rewrite (final_ops _ _ _ _ _ _ _ (E1 [])). cbn [final_names]. rewrite (final_ops _ _ _ _ _ _ _ (E2 [])). cbn [final_names]. rewrite IH by exact G2.
  unfold all_registered. cbn [flat_map]. rewrite !in_app_iff.
  assert (E : do_ops (Globals [] N (Open [])) (fst rep ++ snd rep) = Some (Globals d2 N2 (Open (([] ++ ms1) ++ ms2)))) by (rewrite do_ops_app, E1; apply E2).
  rewrite (registered_names (fst rep ++ snd rep) [] (Globals [] N (Open [])) _ C (fun n => eq_refl) E t). cbn [plot_names]. tauto.
Qed.

Lemma emit_quit es : forall d N, Forall (fun e => match e with Send Quit => False | _ => True end) es ->
  exists body T, emit d N (es ++ [Send Quit]) = body ++ [(Quit, T)] /\ Forall (fun t => fst t <> Quit) body.
Proof.
  induction es as [|e es IH]; intros d N F.
  - exists [], N. split; [reflexivity|constructor].
  - inversion_clear F as [|? ? Fe F']. destruct e as [o|m]; cbn [app emit].
    + destruct (do_op_open d N o) as (d1 & N1 & ms & E). rewrite E. cbn [csv data plot_names app].
      destruct (IH d1 N1 F') as (body & T & B1 & B2). exists (map (fun m => (m, N1)) ms ++ body), T. split; [rewrite B1, app_assoc; reflexivity|].
      apply Forall_app. split; [|exact B2]. apply Forall_forall. intros t X. apply in_map_iff in X. destruct X as (m & <- & M).
      destruct (do_op_plots _ _ _ (E []) [] eq_refl) as (ms' & C & Pl). cbn in C. injection C as <-. rewrite Forall_forall in Pl. specialize (Pl m M). destruct m; try contradiction; discriminate.
    + destruct (IH d N F') as (body & T & B1 & B2). exists ((m, N) :: body), T. split; [cbn; rewrite B1; reflexivity|]. constructor; [|exact B2]. cbn. intros ->. exact Fe.
Qed.
Lemma sim_events_quit reps : Forall (fun e => match e with Send Quit => False | _ => True end) (flat_map rep_events reps).
Proof.
  apply Forall_forall. intros e X. apply in_flat_map in X. destruct X as (rep & _ & X). unfold rep_events in X.
  cbn in X. rewrite in_app_iff in X. cbn in X. rewrite in_app_iff, !in_map_iff in X. cbn in X.
  repeat match goal with H : _ \/ _ |- _ => destruct H | H : exists _, _ |- _ => destruct H | H : _ /\ _ |- _ => destruct H end; subst; try exact I; contradiction.
Qed.

Definition Inv (full : list tagged) (F : names_t) (st : state) : Prop := exists (dn : list entry) (pend : list tagged),
  full = map fst dn ++ pend ++ emit (data (st_g st)) (plot_names (st_g st)) (todo st) /\
  (thread st, files st) = fold_left cstep dn (Waiting, []) /\
  Forall (fun e : entry => incl (snd (fst e)) (snd e) /\ incl (snd e) F /\ NoDup (snd e)) dn /\
  Forall (fun t : tagged => incl (snd t) (plot_names (st_g st))) pend /\ NoDup (plot_names (st_g st)) /\
  final_names (data (st_g st)) (plot_names (st_g st)) (todo st) = F /\
  (todo st = [] \/ exists es, todo st = es ++ [Send Quit]) /\
  match csv (st_g st) with
  | Open q => q = map fst pend /\ thread st <> Done
  | Dropped => thread st = Done /\ pend = [] /\ todo st = []
  | Unset => False
  end.

Lemma last_quit (body : list tagged) T a x b : body ++ [(Quit, T)] = a ++ (Quit, x) :: b -> Forall (fun t => fst t <> Quit) body -> b = [].
Proof.
  intros E F. destruct b as [|y b] using rev_ind; [reflexivity|]. clear IHb.
  rewrite app_comm_cons, app_assoc in E. apply app_inj_tail in E. destruct E as [-> _]. apply Forall_app in F. destruct F as [_ F]. inversion_clear F as [|? ? X _]. cbn in X. congruence.
Qed.

Lemma csv_step_done names t fs m : t <> Done -> fst (csv_step names t fs m) = Done <-> m = Quit.
Proof.
  intros D. destruct t as [|k ws|]; [| |contradiction]; destruct m; cbn; split; intros; (discriminate || reflexivity).
Qed.

Lemma inv_move full F body T st t st' : full = body ++ [(Quit, T)] -> Forall (fun t => fst t <> Quit) body ->
  Inv full F st -> move st t = Some st' -> Inv full F st'.
Proof.
  intros Fu NQ (dn & pend & H1 & H2 & H3 & H4 & H5 & H6 & H7 & H8) M. destruct st as [[d N c] td th fs]. cbn [st_g data plot_names csv todo thread files] in *.
  destruct t; cbn [move] in M; cbn [st_g data plot_names csv todo thread files] in M.
  - destruct td as [|e es]; [discriminate|].
    destruct c as [|q|]; [contradiction| |destruct H8 as (_ & _ & X); discriminate]. destruct H8 as [-> H8].
    assert (H7' : es = [] \/ exists es', es = es' ++ [Send Quit]).
    { destruct H7 as [X|[es' X]]; [discriminate|]. destruct es' as [|e' es']; cbn in X; injection X as <- ->; [left; reflexivity|right; eexists; reflexivity]. }
    destruct e as [o|m].
    + destruct (do_op_open d N o) as (d1 & N1 & ms & E). rewrite E in M. injection M as <-. cbn [emit final_names] in *. rewrite (E []) in *. cbn [csv data plot_names app] in *.
      destruct (do_op_names _ _ _ (E [])) as [I1 I2]. cbn in I1, I2.
      exists dn, (pend ++ map (fun m => (m, N1)) ms). cbn [st_g data plot_names csv todo thread files].
      split; [rewrite H1, <- !app_assoc; reflexivity|]. split; [exact H2|]. split; [exact H3|]. split.
      { apply Forall_app. split; [eapply Forall_impl; [|exact H4]; intros t Ht; exact (incl_tran Ht I1)|]. apply Forall_forall. intros t X. apply in_map_iff in X. destruct X as (m & <- & _). apply incl_refl. }
      split; [auto|]. split; [exact H6|]. split; [exact H7'|]. split; [|exact H8]. rewrite map_app, map_map. cbn. rewrite map_id. reflexivity.
    + cbn [send] in M. injection M as <-. cbn [emit final_names] in *. exists dn, (pend ++ [(m, N)]). cbn [st_g data plot_names csv todo thread files].
      split; [rewrite H1, <- !app_assoc; reflexivity|]. split; [exact H2|]. split; [exact H3|]. split; [apply Forall_app; split; [exact H4|]; constructor; [apply incl_refl|constructor]|].
      split; [exact H5|]. split; [exact H6|]. split; [exact H7'|]. split; [rewrite map_app; reflexivity|exact H8].
  - destruct c as [|[|m q]|]; try discriminate. destruct H8 as [Q D]. destruct pend as [|[m' T'] pend]; [discriminate|]. cbn in Q. injection Q as <- ->.
    destruct (csv_step N th fs m) as [th' fs'] eqn:CS. injection M as <-. inversion_clear H4 as [|? ? I1 H4']. cbn in I1.
    pose proof (csv_step_done N th fs m D) as DQ. rewrite CS in DQ. cbn in DQ.
    exists (dn ++ [((m, T'), N)]), pend. cbn [st_g data plot_names csv todo thread files].
    split; [rewrite H1, map_app, <- !app_assoc; reflexivity|]. split; [rewrite fold_left_app, <- H2; cbn; unfold cstep; cbn; symmetry; exact CS|].
    split; [apply Forall_app; split; [exact H3|]; constructor; [|constructor]; cbn; split; [exact I1|]; split; [rewrite <- H6; apply final_incl|exact H5]|].
    split; [exact H4'|]. split; [exact H5|]. split; [exact H6|]. split; [exact H7|].
    destruct th' as [|k ws|].
    + split; [reflexivity|discriminate].
    + split; [reflexivity|discriminate].
    + split; [reflexivity|]. destruct DQ as [DQ _]. specialize (DQ eq_refl). subst m.
      rewrite Fu in H1. cbn [app] in H1. apply last_quit in H1; [|exact NQ]. apply app_eq_nil in H1. destruct H1 as [-> H1]. split; [reflexivity|].
      destruct H7 as [X|[es X]]; [exact X|]. exfalso. subst td. clear -H1. revert d N H1. induction es as [|[o|m] es IH]; intros d N H1; cbn in H1; try discriminate.
      destruct (do_op_open d N o) as (d1 & N1 & ms & E). rewrite E in H1. cbn in H1. apply app_eq_nil in H1. destruct H1 as [_ H1]. eapply IH. exact H1.
Qed.

Lemma inv_moves full F body T ts : full = body ++ [(Quit, T)] -> Forall (fun t => fst t <> Quit) body ->
  forall st st', Inv full F st -> moves st ts = Some st' -> Inv full F st'.
Proof.
  intros Fu NQ. induction ts as [|t ts IH]; intros st st' I M; cbn in M; [injection M as <-; exact I|].
  destruct (move st t) as [st1|] eqn:E; [|discriminate]. apply (IH st1 st'); [|exact M]. eapply inv_move; eassumption.
Qed.

Lemma inv_start d N reps : NoDup N -> Inv (emit d N (sim_events reps)) (final_names d N (sim_events reps)) (start d N reps).
Proof.
  intros D. exists [], []. cbn. split; [reflexivity|]. split; [reflexivity|]. split; [constructor|]. split; [constructor|]. split; [exact D|]. split; [reflexivity|].
  split; [right; eexists; reflexivity|]. split; [reflexivity|discriminate].
Qed.

(** ** Reading the result *)
Lemma csv_final d N reps ts st : Forall good_rep reps -> NoDup N -> apart (all_registered N reps) ->
  moves (start d N reps) ts = Some st -> thread st = Done ->
  produced (all_registered N reps) 0 N reps (files st).
Proof.
  intros G D A M Th. destruct (emit_quit (flat_map rep_events reps) d N (sim_events_quit reps)) as (body & T & B1 & B2).
  pose proof (inv_moves _ _ body T ts B1 B2 _ _ (inv_start d N reps D) M) as (dn & pend & H1 & H2 & H3 & H4 & H5 & H6 & H7 & H8).
  destruct (csv (st_g st)) as [|q|]; [contradiction|destruct H8; contradiction|]. destruct H8 as (_ & -> & X). rewrite X in H1. cbn in H1. rewrite app_nil_r in H1.
  assert (H3' : Forall (fun e : entry => incl (snd (fst e)) (snd e) /\ incl (snd e) (all_registered N reps) /\ NoDup (snd e)) dn).
  { eapply Forall_impl; [|exact H3]. intros e (I1 & I2 & I3). split; [exact I1|]. split; [|exact I3]. intros t Ht. apply (final_all reps d N G). apply I2. exact Ht. }
  destruct (csv_reps (all_registered N reps) A reps d N 0 Waiting [] dn G (eq_sym H1) H3') as (new & Fd & Pd); [right; auto|constructor|].
  rewrite Fd in H2. cbn in H2. injection H2 as _ ->. exact Pd.
Qed.

Lemma rows_at_name all reps ms t rep : (forall t n, In t all -> In n (plotted reps) -> replace (fst (fst t)) = replace n -> fst (fst t) = n) ->
  In t all -> In rep reps -> only_plots (csv_names (fst rep ++ snd rep)) ms -> rows_at (path t) ms = rows_of (fst (fst t)) ms.
Proof.
  intros U T R O. unfold rows_at, rows_of. induction O as [|m ms M O IH]; [reflexivity|]. cbn [flat_map]. rewrite IH. f_equal. destruct m as [|n s x y| |]; try contradiction.
  destruct (String.eqb_spec n (fst (fst t))) as [->|X]; [unfold path; rewrite String.eqb_refl; reflexivity|].
  destruct (String.eqb_spec (replace n) (path t)) as [Y|Y]; [|reflexivity]. exfalso. apply X. symmetry. apply (U t n T); [|symmetry; exact Y].
  unfold plotted. apply in_flat_map. exists rep. split; [exact R|]. exact M.
Qed.
Lemma filter_none {A} (f : A -> bool) l : (forall x, In x l -> f x = false) -> filter f l = [].
Proof. induction l as [|a l IH]; intros H; cbn; [reflexivity|]. rewrite H by (left; reflexivity). apply IH. intros x X. apply H. right. exact X. Qed.
Lemma filter_one {A} (f : A -> bool) l x : In x l -> NoDup l -> f x = true -> (forall y, In y l -> f y = true -> y = x) -> filter f l = [x].
Proof.
  intros I D X U. induction D as [|a l Na D IH]; [destruct I|]. cbn. destruct I as [->|I].
  - rewrite X. f_equal. apply filter_none. intros y Y. destruct (f y) eqn:E; [|reflexivity]. rewrite (U y (or_intror Y) E) in Y. contradiction.
  - destruct (f a) eqn:E; [rewrite (U a (or_introl eq_refl) E) in Na; contradiction|]. apply IH; [exact I|]. intros y Y. apply U. right. exact Y.
Qed.
Lemma filter_map {A B} (f : B -> bool) (g : A -> B) l : filter f (map g l) = map g (filter (fun x => f (g x)) l).
Proof. induction l as [|a l IH]; cbn; [reflexivity|]. destruct (f (g a)); cbn; rewrite IH; reflexivity. Qed.

(** The files of repetition [k + r] are those of the [r]-th element. *)
Lemma produced_spec all : apart all -> forall reps0 k N reps new,
  (forall t n, In t all -> In n (plotted reps0) -> replace (fst (fst t)) = replace n -> fst (fst t) = n) -> incl reps reps0 ->
  produced all k N reps new ->
  (forall r rep n xl yl, nth_error reps r = Some rep ->
     In (n, xl, yl) (N ++ flat_map (fun rep => registered [] (fst rep ++ snd rep)) (firstn r reps) ++ registered [] (fst rep)) ->
     filter (same_file (replace n) (k + r)) new = [File (replace n) (k + r) (xl, yl) (csv_rows n (fst rep ++ snd rep))]) /\
  (forall f, In f new -> exists r rep n xl yl, nth_error reps r = Some rep /\ In (n, xl, yl) all /\
     f = File (replace n) (k + r) (xl, yl) (csv_rows n (fst rep ++ snd rep))).
Proof.
  intros A reps0 k N reps new U I P. induction P as [k N|k N rep reps S N' ms new HS IS DS O R HN P IH].
  - split; [intros [|r] rep n xl yl E; discriminate|intros f []].
  - destruct IH as [IH1 IH2]; [intros x X; apply I; right; exact X|].
    assert (RA : forall t, In t S -> mkfile k ms t = File (path t) k (snd (fst t), snd t) (csv_rows (fst (fst t)) (fst rep ++ snd rep))).
    { intros t T. unfold mkfile. rewrite (rows_at_name all reps0 ms t rep U (IS t T) (I rep (or_introl eq_refl)) O), R. reflexivity. }
    split.
    + intros r rep' n xl yl E H. destruct r as [|r].
      * cbn in E. injection E as <-. cbn [firstn flat_map app] in H. rewrite filter_app, Nat.add_0_r.
        assert (T : In (n, xl, yl) S) by (apply HS; apply in_app_or; exact H).
        rewrite filter_map, (filter_one _ S (n, xl, yl)).
        -- cbn [map]. rewrite (RA _ T). cbn. rewrite filter_none; [reflexivity|]. intros f F. destruct (IH2 f F) as (r & rep' & n' & xl' & yl' & _ & _ & ->).
           unfold same_file. cbn. destruct (Nat.eqb_spec (k + 1 + r) k); [lia|]. apply andb_false_r.
        -- exact T.
        -- exact DS.
        -- unfold same_file. cbn. unfold path. cbn. rewrite String.eqb_refl, Nat.eqb_refl. reflexivity.
        -- intros t Ht E. apply A; [apply IS; exact Ht|apply IS; exact T|]. unfold same_file in E. cbn in E. apply andb_true_iff in E. destruct E as [E _]. apply String.eqb_eq in E. exact E.
      * cbn [nth_error] in E. replace (k + Datatypes.S r) with (k + 1 + r) by lia. rewrite filter_app.
        rewrite (IH1 r rep' n xl yl E).
        -- rewrite filter_none; [reflexivity|]. intros f F. apply in_map_iff in F. destruct F as (t & <- & _). unfold same_file. cbn. destruct (Nat.eqb_spec k (k + 1 + r)); [lia|]. apply andb_false_r.
        -- cbn [firstn flat_map] in H. apply in_app_or in H. apply in_or_app. destruct H as [H|H]; [left; apply HN; left; exact H|].
           apply in_app_or in H. destruct H as [H|H]; [|right; apply in_or_app; right; exact H].
           apply in_app_or in H. destruct H as [H|H]; [left; apply HN; right; exact H|right; apply in_or_app; left; exact H].
    + intros f F. apply in_app_or in F. destruct F as [F|F].
      * apply in_map_iff in F. destruct F as (t & <- & T). exists 0, rep, (fst (fst t)), (snd (fst t)), (snd t). split; [reflexivity|].
        split; [destruct t as [[? ?] ?]; apply IS; exact T|]. rewrite (RA t T), Nat.add_0_r. reflexivity.
      * destruct (IH2 f F) as (r & rep' & n & xl & yl & E1 & E2 & ->). exists (Datatypes.S r), rep', n, xl, yl. split; [exact E1|]. split; [exact E2|]. f_equal. lia.
Qed.

(** ** Nothing gets stuck *)
Definition work (st : state) : nat := 2 * List.length (todo st) + match csv (st_g st) with Open q => List.length q | _ => 0 end.
Lemma do_op_one d N q o d' N' q' : do_op (Globals d N (Open q)) o = Some (Globals d' N' (Open q')) -> List.length q' <= List.length q + 1.
Proof.
  destruct o as [n xl yl sp sc|n s ex ey sc|]; cbn [do_op]; intros E.
  - unfold addplot in E. cbn in E. destruct (lookup n d); injection E as <- <- <-; lia.
  - unfold plot in E. cbn [data csv plot_names] in E. destruct (lookup n d) as [p|]; [|injection E as <- <- <-; lia].
    destruct (bound dltb ex 1 (min_x p)) as [k1 mnx]. destruct (bound dgtb ex k1 (max_x p)) as [k2 mxx].
    destruct (bound dltb ey 1 (min_y p)) as [j1 mny]. destruct (bound dgtb ey j1 (max_y p)) as [j2 mxy].
    destruct sc; cbn [send] in E; injection E as <- <- <-; [rewrite app_length; cbn; lia|lia].
  - injection E as <- <- <-. lia.
Qed.
Lemma can_move full F body T st : full = body ++ [(Quit, T)] -> Inv full F st -> thread st = Done \/ exists t st', move st t = Some st' /\ work st' < work st.
Proof.
  intros Fu (dn & pend & H1 & H2 & H3 & H4 & H5 & H6 & H7 & H8). destruct st as [[d N c] td th fs]. cbn [st_g data plot_names csv todo thread files] in *.
  destruct c as [|q|]; [contradiction| |left; tauto]. destruct H8 as [-> H8]. right. destruct td as [|[o|m] es].
  - destruct pend as [|[m T'] pend].
    + exfalso. cbn in H1. rewrite app_nil_r in H1. destruct dn as [|e dn _] using rev_ind; [rewrite Fu in H1; destruct body; discriminate|].
      rewrite map_app, Fu in H1. apply app_inj_tail in H1. destruct H1 as [_ H1]. rewrite fold_left_app in H2. cbn [fold_left] in H2.
      destruct (fold_left cstep dn (Waiting, [])) as [t0 f0]. unfold cstep in H2. rewrite <- H1 in H2. apply H8. destruct t0; cbn in H2; congruence.
    + exists CsvTurn. unfold move. cbn [st_g csv plot_names thread files todo data map fst]. destruct (csv_step N th fs m) as [th' fs']. eexists. split; [reflexivity|].
      unfold work. cbn. destruct th'; cbn; lia.
  - destruct (do_op_open d N o) as (d1 & N1 & ms & E). exists SimTurn. unfold move. cbn [st_g todo]. rewrite E. eexists. split; [reflexivity|].
    unfold work. cbn [todo st_g csv]. pose proof (do_op_one _ _ _ _ _ _ _ (E (map fst pend))). cbn [List.length]. lia.
  - exists SimTurn. unfold move. cbn [st_g todo csv send]. eexists. split; [reflexivity|]. unfold work. cbn [todo st_g csv]. rewrite app_length. cbn [List.length]. lia.
Qed.
Lemma completes full F body T : full = body ++ [(Quit, T)] -> Forall (fun t => fst t <> Quit) body ->
  forall n st, work st <= n -> Inv full F st -> exists ts st', moves st ts = Some st' /\ thread st' = Done /\ todo st' = [].
Proof.
  intros Fu NQ. induction n as [|n IH]; intros st W I.
  - destruct (can_move full F body T st Fu I) as [D|(t & st' & M & L)]; [|lia].
    exists [], st. split; [reflexivity|]. split; [exact D|]. destruct I as (dn & pend & H1 & H2 & H3 & H4 & H5 & H6 & H7 & H8). destruct (csv (st_g st)); tauto.
  - destruct (can_move full F body T st Fu I) as [D|(t & st' & M & L)].
    + exists [], st. split; [reflexivity|]. split; [exact D|]. destruct I as (dn & pend & H1 & H2 & H3 & H4 & H5 & H6 & H7 & H8). destruct (csv (st_g st)); tauto.
    + destruct (IH st' ltac:(lia) (inv_move full F body T st t st' Fu NQ I M)) as (ts & st2 & M2 & R). exists (t :: ts), st2. split; [cbn; rewrite M; exact M2|exact R].
Qed.
Lemma moves_app st a b : moves st (a ++ b) = match moves st a with Some st' => moves st' b | None => None end.
Proof. revert st. induction a as [|t a IH]; intros st; cbn; [reflexivity|]. destruct (move st t); [apply IH|reflexivity]. Qed.
