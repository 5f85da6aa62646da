(** * Proofs about the locks *)
From Coq Require Import List Bool Arith Lia.
From Verif Require Import LockModel LockSpec.
Import ListNotations.

(** ** Moves *)
Lemma holds_In m t : holds m t = true <-> In m (fst t).
Proof.
  unfold holds. rewrite existsb_exists. split.
  - intros (x & Hx & E). apply internal_mutex_dec_bl in E. now subst.
  - intros H. exists m. split; [exact H | now apply internal_mutex_dec_lb].
Qed.
Lemma holds_all m c : existsb (holds m) c = true <-> exists t, In t c /\ In m (fst t).
Proof. rewrite existsb_exists. split; intros (t & H & E); exists t; (split; [exact H|]); now apply holds_In. Qed.

Lemma set_nth_In X (l : list X) : forall i x y, In y (set_nth i x l) -> y = x \/ In y l.
Proof. induction l as [|a l IH]; intros [|i] x y H; cbn in *; try tauto; destruct H as [->|H]; try tauto. apply IH in H. tauto. Qed.
Lemma set_nth_same X (l : list X) : forall i x, i < length l -> nth_error (set_nth i x l) i = Some x.
Proof. induction l as [|a l IH]; intros [|i] x H; cbn in *; try lia; [reflexivity|]. apply IH. lia. Qed.
Lemma set_nth_other X (l : list X) : forall i j x, i <> j -> nth_error (set_nth i x l) j = nth_error l j.
Proof. induction l as [|a l IH]; intros [|i] [|j] x H; cbn in *; try reflexivity; try lia. apply IH. lia. Qed.
Lemma set_nth_length X (l : list X) : forall i x, length (set_nth i x l) = length l.
Proof. induction l as [|a l IH]; intros [|i] x; cbn; auto. Qed.

(** What is left to do. *)
Fixpoint left (c : list thread) : nat := match c with [] => 0 | t :: c' => length (snd t) + left c' end.
Lemma left_set c : forall i t t', nth_error c i = Some t -> length (snd t) = S (length (snd t')) -> left c = S (left (set_nth i t' c)).
Proof.
  induction c as [|a c IH]; intros [|i] t t' H E; cbn in *; try discriminate.
  - injection H as ->. lia.
  - rewrite (IH _ _ _ H E). lia.
Qed.
Lemma advance_left all t t' : advance all t = Some t' -> length (snd t) = S (length (snd t')).
Proof.
  unfold advance. destruct (snd t) as [|[m|m|] p]; try discriminate.
  - destruct (existsb _ _); [discriminate|]. now intros [= <-].
  - destruct (fst t) as [|h hs]; [discriminate|]. destruct (mutex_beq h m); [|discriminate]. now intros [= <-].
  - now intros [= <-].
Qed.
Lemma lmove_left i c c' : lmove i c = Some c' -> left c = S (left c').
Proof.
  unfold lmove. destruct (nth_error c i) as [t|] eqn:E; [|discriminate]. destruct (advance c t) as [t'|] eqn:A; [|discriminate].
  intros [= <-]. eapply left_set; eauto using advance_left.
Qed.
Lemma lmoves_left is : forall c c', lmoves is c = Some c' -> left c = length is + left c'.
Proof.
  induction is as [|i is IH]; intros c c' H; cbn in *; [injection H as <-; reflexivity|].
  destruct (lmove i c) as [c1|] eqn:M; [|discriminate]. apply lmove_left in M. apply IH in H. lia.
Qed.
Lemma left_starting ps : left (starting ps) = length (concat ps).
Proof. unfold starting. induction ps as [|p ps IH]; cbn; [reflexivity|]. rewrite app_length, IH. reflexivity. Qed.

(** An invariant of single threads that their moves keep. *)
Lemma invariant (P : nat -> thread -> Prop) :
  (forall i all t t', P i t -> advance all t = Some t' -> P i t') ->
  forall is c c', (forall i t, nth_error c i = Some t -> P i t) -> lmoves is c = Some c' -> forall i t, nth_error c' i = Some t -> P i t.
Proof.
  intros HP is. induction is as [|i is IH]; intros c c' H M; cbn in M; [injection M as <-; exact H|].
  destruct (lmove i c) as [c1|] eqn:M1; [|discriminate]. refine (IH c1 c' _ M).
  intros j t E. unfold lmove in M1. destruct (nth_error c i) as [ti|] eqn:Ei; [|discriminate].
  destruct (advance c ti) as [ti'|] eqn:A; [|discriminate]. injection M1 as <-.
  destruct (Nat.eq_dec i j) as [<-|N].
  - rewrite set_nth_same in E by (apply nth_error_Some; congruence). injection E as <-. eauto.
  - rewrite set_nth_other in E by exact N. eauto.
Qed.
Lemma starting_nth ps i t : nth_error (starting ps) i = Some t -> exists p, nth_error ps i = Some p /\ t = ([], p).
Proof. unfold starting. rewrite nth_error_map. destruct (nth_error ps i) as [p|]; cbn; [|discriminate]. intros [= <-]. eauto. Qed.

(** Somebody can move. *)
Definition moving (c : list thread) : Prop := exists i c', lmove i c = Some c'.
Lemma moving_by c i t t' : nth_error c i = Some t -> advance c t = Some t' -> moving c.
Proof. intros E A. exists i, (set_nth i t' c). unfold lmove. now rewrite E, A. Qed.

(** From progress and an end without locks to [always_finishes]. *)
Lemma finishes ps (P : nat -> thread -> Prop) :
  (forall i p, nth_error ps i = Some p -> P i ([], p)) ->
  (forall i all t t', P i t -> advance all t = Some t' -> P i t') ->
  (forall i h, P i (h, []) -> h = []) ->
  (forall c, (forall i t, nth_error c i = Some t -> P i t) -> all_done c \/ moving c) ->
  always_finishes ps.
Proof.
  intros H0 H1 H2 H3 is c M.
  assert (I : forall i t, nth_error c i = Some t -> P i t).
  { refine (invariant P H1 is (starting ps) c _ M). intros i t E. destruct (starting_nth ps i t E) as (p & Ep & ->). auto. }
  pose proof (lmoves_left is _ _ M) as L. rewrite left_starting in L. repeat split.
  - intros [D S]. destruct (H3 c I) as [?|(i & c' & ?)]; [tauto|]. rewrite S in H. discriminate.
  - lia.
  - intros E. assert (Z : left c = 0) by lia. clear - Z I H2.
    apply Forall_forall. intros [h p] Hin. apply In_nth_error in Hin. destruct Hin as [i Ei].
    assert (p = []) as ->.
    { clear - Z Ei. revert i Ei. induction c as [|[h' p'] c IH]; intros [|i] Ei; cbn in *; try discriminate.
      - injection Ei as -> ->. destruct p; [reflexivity | cbn in Z; lia].
      - apply (IH ltac:(lia) i Ei). }
    now rewrite (H2 i h (I _ _ Ei)).
Qed.

Lemma all_done_or (c : list thread) : all_done c \/ exists i t, nth_error c i = Some t /\ t <> ([], []).
Proof.
  induction c as [|[h p] c IH]; [left; constructor|].
  destruct h as [|x h]; [destruct p as [|a p]|].
  - destruct IH as [IH|(i & t & E & N)]; [left; now constructor | right; exists (S i), t; auto].
  - right. exists 0, ([], a :: p). split; [reflexivity | discriminate].
  - right. exists 0, (x :: h, p). split; [reflexivity | discriminate].
Qed.

(** ** Locks taken in order *)
Definition rank (m : mutex) : nat :=
  match m with
  | MState => 0 | MIds => 1 | MEvents => 2 | MData => 3 | MNames => 4 | MCsv => 5
  | MShard true _ _ => 6 | MShard false _ _ => 7
  | MLogs => 8 | MDescr => 9 | MOp => 10 | MReps => 11 | MMonitor => 12
  end.
Fixpoint ordered (held : list mutex) (p : list act) : Prop :=
  match p with
  | [] => held = []
  | Run :: p' => ordered held p'
  | Acq m :: p' => Forall (fun h => rank h < rank m) held /\ ordered (m :: held) p'
  | Rel m :: p' => match held with h :: hs => h = m /\ ordered hs p' | [] => False end
  end.
Definition tordered (t : thread) : Prop := ordered (fst t) (snd t).

Lemma ordered_advance all t t' : tordered t -> advance all t = Some t' -> tordered t'.
Proof.
  destruct t as [h p]. unfold tordered, advance. cbn. destruct p as [|[m|m|] p]; cbn; try discriminate.
  - intros [_ H]. destruct (existsb _ _); [discriminate|]. now intros [= <-].
  - destruct h as [|x h]; [tauto|]. intros [-> H]. destruct (mutex_beq m m); [|discriminate]. now intros [= <-].
  - intros H [= <-]. exact H.
Qed.

Lemma ordered_chain c : (forall i t, nth_error c i = Some t -> tordered t) ->
  forall k i h m p, nth_error c i = Some (h, Acq m :: p) -> 13 - rank m <= k -> moving c.
Proof.
  intros HO. induction k as [|k IH]; intros i h m p E K.
  - destruct m as [ | | | | | | | | | | |[|] ? ?]; cbn in K; lia.
  - destruct (existsb (holds m) c) eqn:B.
    + apply holds_all in B. destruct B as ([h' p'] & Hin & Hm). apply In_nth_error in Hin. destruct Hin as [j Ej].
      pose proof (HO _ _ Ej) as O. unfold tordered in O. cbn in O, Hm. destruct p' as [|[m'|m'|] p']; cbn in O.
      * subst h'. destruct Hm.
      * destruct O as [O _]. rewrite Forall_forall in O. pose proof (O m Hm) as L. cbv beta in L. refine (IH j h' m' p' Ej _). lia.
      * destruct h' as [|x h']; [destruct Hm|]. destruct O as [-> _].
        eapply (moving_by c j); [exact Ej|]. unfold advance. cbn. rewrite internal_mutex_dec_lb by reflexivity. reflexivity.
      * eapply (moving_by c j); [exact Ej|]. unfold advance. cbn. reflexivity.
    + eapply (moving_by c i); [exact E|]. unfold advance. cbn. rewrite B. reflexivity.
Qed.
Lemma ordered_progress c : (forall i t, nth_error c i = Some t -> tordered t) -> all_done c \/ moving c.
Proof.
  intros HO. destruct (all_done_or c) as [D|(i & [h p] & E & N)]; [tauto|]. right.
  pose proof (HO _ _ E) as O. unfold tordered in O. cbn in O. destruct p as [|[m|m|] p]; cbn in O.
  - now subst h.
  - exact (ordered_chain c HO _ i h m p E (le_n _)).
  - destruct h as [|x h]; [destruct O|]. destruct O as [-> _].
    eapply (moving_by c i); [exact E|]. unfold advance. cbn. rewrite internal_mutex_dec_lb by reflexivity. reflexivity.
  - eapply (moving_by c i); [exact E|]. unfold advance. cbn. reflexivity.
Qed.
Theorem ordered_finish ps : Forall (ordered []) ps -> always_finishes ps.
Proof.
  intros H. apply (finishes ps (fun _ t => tordered t)).
  - intros i p E. rewrite Forall_forall in H. apply H. eapply nth_error_In; exact E.
  - intros _. exact ordered_advance.
  - intros _ h O. exact O.
  - exact ordered_progress.
Qed.

(** Blocks that may stand in an ordered program. *)
Definition obl (held : list mutex) (a : list act) : Prop := forall p, ordered held p -> ordered held (a ++ p).
Lemma obl_nil h : obl h [].
Proof. intros p H. exact H. Qed.
Lemma obl_app h a b : obl h a -> obl h b -> obl h (a ++ b).
Proof. intros A B p H. rewrite <- app_assoc. auto. Qed.
Lemma obl_run h : obl h [Run].
Proof. intros p H. exact H. Qed.
Lemma obl_acq h m a : Forall (fun x => rank x < rank m) h -> obl (m :: h) a -> obl h ([Acq m] ++ a ++ [Rel m]).
Proof.
  intros F A p H. cbn. split; [exact F|]. rewrite <- app_assoc. apply A. cbn. auto.
Qed.
Lemma obl_flat X (f : X -> list act) h l : (forall x, In x l -> obl h (f x)) -> obl h (flat_map f l).
Proof. induction l as [|x l IH]; cbn; intros H; [apply obl_nil|]. apply obl_app; [apply H; now left | apply IH; intros y Hy; apply H; now right]. Qed.

Lemma shards_obl h ls : Forall (fun x => rank x < 6) h -> obl h (acts (CShards ls)).
Proof.
  intros R. cbn [acts]. apply obl_flat. intros [[b f] s] _. apply (obl_acq h (MShard b f s) [Run]); [|apply obl_run].
  eapply Forall_impl; [|exact R]. cbn. intros a Ha. destruct b; cbn; lia.
Qed.
Lemma unbuffered_obl h f s g t : Forall (fun x => rank x < 6) h -> obl h (acts (CUnbuffered f s g t)).
Proof.
  intros R. cbn [acts]. apply (obl_acq h (MShard true f s) ([Run] ++ ([Acq (MShard false g t)] ++ [Run] ++ [Rel (MShard false g t)]))); [exact R|].
  apply obl_app; [apply obl_run|]. apply obl_acq; [|apply obl_run]. constructor; [cbn; lia|]. eapply Forall_impl; [|exact R]. cbn. lia.
Qed.
Lemma log_obl h args : Forall plain_log args -> Forall (fun x => rank x < 8) h -> obl h (flat_map acts args).
Proof.
  intros F R. apply obl_flat. intros x Hx. rewrite Forall_forall in F. rewrite (F x Hx). cbn.
  apply (obl_acq h MLogs [Run]); [exact R | apply obl_run].
Qed.
Lemma plain_obl h args : Forall (fun a => plain_log a \/ field_call a) args -> Forall (fun x => rank x < 6) h -> obl h (flat_map acts args).
Proof.
  intros F R. apply obl_flat. intros x Hx. rewrite Forall_forall in F. destruct (F x Hx) as [->|Q].
  - cbn. apply (obl_acq h MLogs [Run]); [|apply obl_run]. eapply Forall_impl; [|exact R]. cbn. lia.
  - destruct x; try destruct Q; [apply shards_obl; exact R|apply unbuffered_obl; exact R].
Qed.
Ltac ranks := repeat constructor; cbn; lia.
Lemma tame_obl h c : tame c -> Forall (fun x => rank x < 1) h -> obl h (acts c).
Proof.
  intros T R.
  assert (W : forall m, rank m >= 1 -> Forall (fun x => rank x < rank m) h).
  { intros m Hm. eapply Forall_impl; [|exact R]. cbn. lia. }
  destruct c as [known csv args|new csv args|args|args| | |ls|f s g t|f s args]; cbn [tame] in T.
  7: apply shards_obl; apply (W (MShard true 0 0)); cbn; lia.
  7: apply unbuffered_obl; apply (W (MShard true 0 0)); cbn; lia.
  all: cbn [acts].
  - assert (P1 : obl (MData :: h) (flat_map acts args)).
    { apply plain_obl; [exact T|]. constructor; [cbn; lia | apply (W (MShard true 0 0)); cbn; lia]. }
    rewrite (app_assoc (flat_map acts args)). apply (obl_acq h MData); [apply W; cbn; lia|]. apply obl_app; [exact P1|].
    destruct known; [|apply obl_nil]. apply obl_app; [apply obl_run|]. destruct csv; [|apply obl_nil].
    change [Run; Rel MCsv] with ([Run] ++ [Rel MCsv]). rewrite (app_assoc (flat_map acts args)). apply obl_acq; [constructor; [cbn; lia | apply W; cbn; lia]|].
    apply obl_app; [|apply obl_run]. apply plain_obl; [exact T|]. constructor; [cbn; lia|]. constructor; [cbn; lia | apply (W (MShard true 0 0)); cbn; lia].
  - assert (P1 : obl (MData :: h) (flat_map acts args)).
    { apply plain_obl; [exact T|]. constructor; [cbn; lia | apply (W (MShard true 0 0)); cbn; lia]. }
    rewrite (app_assoc (flat_map acts args)). apply (obl_acq h MData); [apply W; cbn; lia|]. apply obl_app; [exact P1|].
    destruct new; [|apply obl_nil]. apply obl_app; [apply obl_run|]. destruct csv; [|apply obl_nil].
    change [Run; Rel MNames] with ([Run] ++ [Rel MNames]). rewrite (app_assoc (flat_map acts args)). apply obl_acq; [constructor; [cbn; lia | apply W; cbn; lia]|].
    apply obl_app; [|apply obl_run]. apply plain_obl; [exact T|]. constructor; [cbn; lia|]. constructor; [cbn; lia | apply (W (MShard true 0 0)); cbn; lia].
  - subst args. apply (obl_acq h MLogs [Run]); [apply W; cbn; lia | apply obl_run].
  - apply obl_app; [apply plain_obl; [exact T | apply (W (MShard true 0 0)); cbn; lia]|]. apply (obl_acq h MDescr [Run]); [apply W; cbn; lia | apply obl_run].
  - apply (obl_acq h MEvents [Run]); [apply W; cbn; lia | apply obl_run].
  - apply (obl_acq h MIds ([Run] ++ ([Acq MEvents] ++ [Run] ++ [Rel MEvents]))); [apply W; cbn; lia|].
    apply obl_app; [apply obl_run|]. apply obl_acq; [|apply obl_run]. constructor; [cbn; lia | apply W; cbn; lia].
  - change [Run; Rel (MShard false f s)] with ([Run] ++ [Rel (MShard false f s)]). rewrite (app_assoc (flat_map acts args)). apply obl_acq; [apply W; cbn; lia|].
    apply obl_app; [|apply obl_run]. apply log_obl; [exact T|]. constructor; [cbn; lia | apply (W MLogs); cbn; lia].
Qed.
Lemma work_obl w : tame_work w -> obl [] (work_acts w).
Proof.
  destruct w as [m|c|cs|cs again]; cbn [tame_work work_acts]; intros T.
  - apply (obl_acq [] m [Run]); [constructor | apply obl_run].
  - apply tame_obl; [exact T | constructor].
  - rewrite Forall_forall in T. apply obl_acq; [constructor|]. apply obl_flat. intros c Hc. apply tame_obl; [auto | ranks].
  - rewrite Forall_forall in T. rewrite (app_assoc (flat_map acts cs)). apply obl_acq; [constructor|]. apply obl_app.
    + apply obl_flat. intros c Hc. apply tame_obl; [auto | ranks].
    + destruct again; [|apply obl_nil]. apply (obl_acq [MState] MEvents [Run]); [ranks | apply obl_run].
Qed.
Lemma program_ordered ws : Forall tame_work ws -> ordered [] (program ws).
Proof.
  intros H. rewrite Forall_forall in H. rewrite <- (app_nil_r (program ws)). apply (obl_flat _ work_acts [] ws); [|reflexivity].
  intros w Hw. apply work_obl. auto.
Qed.

(** ** One thread that nests locks among threads that do not *)
Fixpoint flat (held : list mutex) (p : list act) : Prop :=
  match p with
  | [] => held = []
  | Run :: p' => flat held p'
  | Acq m :: p' => held = [] /\ flat [m] p'
  | Rel m :: p' => held = [m] /\ flat [] p'
  end.
Fixpoint norep (held : list mutex) (p : list act) : Prop :=
  match p with
  | [] => held = []
  | Run :: p' => norep held p'
  | Acq m :: p' => ~ In m held /\ norep (m :: held) p'
  | Rel m :: p' => match held with h :: hs => h = m /\ norep hs p' | [] => False end
  end.
Definition one_nests (i : nat) (t : thread) : Prop := match i with 0 => norep (fst t) (snd t) | S _ => flat (fst t) (snd t) end.
Lemma one_nests_advance i all t t' : one_nests i t -> advance all t = Some t' -> one_nests i t'.
Proof.
  destruct t as [h p]. unfold one_nests, advance. cbn. destruct p as [|[m|m|] p]; cbn; try discriminate.
  - destruct (existsb _ _); [discriminate|]. intros H [= <-]. destruct i; cbn; [tauto|]. destruct H as [-> H]. exact H.
  - destruct h as [|x h]; [discriminate|]. destruct (mutex_beq x m) eqn:B; [|discriminate]. intros H [= <-]. destruct i; cbn; [tauto|].
    destruct H as [[= -> ->] H]. exact H.
  - intros H [= <-]. exact H.
Qed.
(** A thread that does not nest can move when it holds something. *)
Lemma flat_moves c i h p m : nth_error c (S i) = Some (h, p) -> flat h p -> In m h -> moving c.
Proof.
  intros E F Hm. destruct p as [|[m'|m'|] p]; cbn in F.
  - subst h. destruct Hm.
  - destruct F as [-> _]. destruct Hm.
  - destruct F as [-> _]. eapply moving_by; [exact E|]. unfold advance. cbn. rewrite internal_mutex_dec_lb by reflexivity. reflexivity.
  - eapply moving_by; [exact E|]. unfold advance. cbn. reflexivity.
Qed.
Lemma norep_moves c h p : (forall i t, nth_error c i = Some t -> one_nests i t) -> nth_error c 0 = Some (h, p) -> p <> [] -> moving c.
Proof.
  intros HO E N. pose proof (HO _ _ E) as O. cbn in O. destruct p as [|[m|m|] p]; cbn in O; [easy| | |].
  - destruct (existsb (holds m) c) eqn:B.
    + apply holds_all in B. destruct B as ([h' p'] & Hin & Hm). apply In_nth_error in Hin. destruct Hin as [[|j] Ej].
      * rewrite E in Ej. injection Ej as <- <-. cbn in Hm. tauto.
      * exact (flat_moves c j h' p' m Ej (HO _ _ Ej) Hm).
    + eapply moving_by; [exact E|]. unfold advance. cbn. rewrite B. reflexivity.
  - destruct h as [|x h]; [destruct O|]. destruct O as [-> _]. eapply moving_by; [exact E|]. unfold advance. cbn. rewrite internal_mutex_dec_lb by reflexivity. reflexivity.
  - eapply moving_by; [exact E|]. unfold advance. cbn. reflexivity.
Qed.
Lemma one_nests_progress c : (forall i t, nth_error c i = Some t -> one_nests i t) -> all_done c \/ moving c.
Proof.
  intros HO. destruct (all_done_or c) as [D|(i & [h p] & E & N)]; [tauto|]. right.
  pose proof (HO _ _ E) as O. destruct i as [|i].
  - apply (norep_moves c h p HO E). intros ->. cbn in O. now subst h.
  - cbn in O. destruct p as [|[m|m|] p]; cbn in O.
    + now subst h.
    + destruct O as [-> _]. destruct (existsb (holds m) c) eqn:B.
      * apply holds_all in B. destruct B as ([h' p'] & Hin & Hm). apply In_nth_error in Hin. destruct Hin as [[|j] Ej].
        -- apply (norep_moves c h' p' HO Ej). intros ->. pose proof (HO _ _ Ej) as O'. cbn in O', Hm. subst h'. destruct Hm.
        -- exact (flat_moves c j h' p' m Ej (HO _ _ Ej) Hm).
      * eapply moving_by; [exact E|]. unfold advance. cbn. rewrite B. reflexivity.
    + destruct O as [-> _]. apply (flat_moves c i [m] (Rel m :: p) m E); [exact (HO _ _ E) | now left].
    + eapply moving_by; [exact E|]. unfold advance. cbn. reflexivity.
Qed.
Theorem one_nests_finish u ps : norep [] u -> Forall (flat []) ps -> always_finishes (u :: ps).
Proof.
  intros U H. apply (finishes _ one_nests).
  - intros [|i] p E; cbn in E; [injection E as <-; exact U|]. rewrite Forall_forall in H. apply H. eapply nth_error_In; exact E.
  - exact one_nests_advance.
  - intros [|i] h O; exact O.
  - exact one_nests_progress.
Qed.

Lemma flat_chores ms : flat [] (flat_map chore ms).
Proof. induction ms as [|m ms IH]; cbn; auto. Qed.

Definition nbl (held : list mutex) (a : list act) : Prop := forall p, norep held p -> norep held (a ++ p).
Lemma nbl_nil h : nbl h [].
Proof. intros p H. exact H. Qed.
Lemma nbl_app h a b : nbl h a -> nbl h b -> nbl h (a ++ b).
Proof. intros A B p H. rewrite <- app_assoc. auto. Qed.
Lemma nbl_run h : nbl h [Run].
Proof. intros p H. exact H. Qed.
Lemma nbl_acq h m a : ~ In m h -> nbl (m :: h) a -> nbl h ([Acq m] ++ a ++ [Rel m]).
Proof. intros F A p H. cbn. split; [exact F|]. rewrite <- app_assoc. apply A. cbn. auto. Qed.
Lemma nbl_flat X (f : X -> list act) h l : (forall x, In x l -> nbl h (f x)) -> nbl h (flat_map f l).
Proof. induction l as [|x l IH]; cbn; intros H; [apply nbl_nil|]. apply nbl_app; [apply H; now left | apply IH; intros y Hy; apply H; now right]. Qed.

(** Induction on calls through their arguments. *)
Lemma call_ind' (P : call -> Prop) :
  (forall a b l, Forall P l -> P (CPlot a b l)) -> (forall a b l, Forall P l -> P (CAddPlot a b l)) ->
  (forall l, Forall P l -> P (CLog l)) -> (forall l, Forall P l -> P (CDescr l)) -> P COnce -> P CRepeating ->
  (forall ls, P (CShards ls)) -> (forall f s g t, P (CUnbuffered f s g t)) -> (forall f s l, Forall P l -> P (CApply f s l)) -> forall c, P c.
Proof.
  intros H1 H2 H3 H4 H5 H6 H7 H8 H9. fix F 1. intros [a b l|a b l|l|l| | |ls|f s g t|f s l];
    [apply H1|apply H2|apply H3|apply H4|exact H5|exact H6|apply H7|apply H8|apply H9];
    (induction l as [|x l IH]; [constructor | constructor; [apply F | exact IH]]).
Qed.
Lemma fresh_nbl c : forall h, fresh h c -> nbl h (acts c).
Proof.
  induction c as [known csv args IH|new csv args IH|args IH|args IH| | |ls|f s g t|f s args IH] using call_ind'; intros h T; cbn [fresh] in T; cbn [acts]; try (destruct T; fail).
  - destruct T as (N1 & N2 & A).
    assert (P : nbl (MData :: h) (flat_map acts args) /\ nbl (MCsv :: MData :: h) (flat_map acts args)).
    { clear N1 N2. induction IH as [|x l Hx _ IHl]; cbn; [split; apply nbl_nil|]. destruct A as (A1 & A2 & A). specialize (IHl A). split; apply nbl_app; try tauto; auto. }
    destruct P as [P1 P2].
    rewrite (app_assoc (flat_map acts args)). apply (nbl_acq h MData); [exact N1|]. apply nbl_app; [exact P1|].
    destruct known; [|apply nbl_nil]. apply nbl_app; [apply nbl_run|]. destruct csv; [|apply nbl_nil].
    change [Run; Rel MCsv] with ([Run] ++ [Rel MCsv]). rewrite (app_assoc (flat_map acts args)). apply nbl_acq; [intros [?|?]; [discriminate | tauto]|].
    apply nbl_app; [exact P2 | apply nbl_run].
  - destruct T as (N1 & N2 & A).
    assert (P : nbl (MData :: h) (flat_map acts args) /\ nbl (MNames :: MData :: h) (flat_map acts args)).
    { clear N1 N2. induction IH as [|x l Hx _ IHl]; cbn; [split; apply nbl_nil|]. destruct A as (A1 & A2 & A). specialize (IHl A). split; apply nbl_app; try tauto; auto. }
    destruct P as [P1 P2].
    rewrite (app_assoc (flat_map acts args)). apply (nbl_acq h MData); [exact N1|]. apply nbl_app; [exact P1|].
    destruct new; [|apply nbl_nil]. apply nbl_app; [apply nbl_run|]. destruct csv; [|apply nbl_nil].
    change [Run; Rel MNames] with ([Run] ++ [Rel MNames]). rewrite (app_assoc (flat_map acts args)). apply nbl_acq; [intros [?|?]; [discriminate | tauto]|].
    apply nbl_app; [exact P2 | apply nbl_run].
  - destruct T as (N1 & A).
    assert (P1 : nbl (MLogs :: h) (flat_map acts args)).
    { clear N1. induction IH as [|x l Hx _ IHl]; cbn; [apply nbl_nil|]. destruct A as (A1 & A). apply nbl_app; auto. }
    change [Run; Rel MLogs] with ([Run] ++ [Rel MLogs]). rewrite (app_assoc (flat_map acts args)). apply nbl_acq; [exact N1|]. apply nbl_app; [exact P1 | apply nbl_run].
  - destruct T as (N1 & A).
    assert (P1 : nbl h (flat_map acts args)).
    { clear N1. induction IH as [|x l Hx _ IHl]; cbn; [apply nbl_nil|]. destruct A as (A1 & A). apply nbl_app; auto. }
    apply nbl_app; [exact P1|]. apply (nbl_acq h MDescr [Run]); [exact N1 | apply nbl_run].
Qed.
Lemma program_norep ws : Forall user_work ws -> norep [] (program ws).
Proof.
  intros H. rewrite Forall_forall in H. rewrite <- (app_nil_r (program ws)). apply (nbl_flat _ work_acts [] ws); [|reflexivity].
  intros w Hw. specialize (H w Hw). destruct w as [m|c|cs|cs again]; cbn in H |- *; try tauto.
  - apply (nbl_acq [] m [Run]); [tauto | apply nbl_run].
  - apply fresh_nbl. exact H.
Qed.

(** ** A deadlock is for ever *)
Lemma deadlocked_stays c is c' : deadlocked c -> lmoves is c = Some c' -> is = [] /\ c' = c.
Proof. intros [_ D]. destruct is as [|i is]; cbn; [now intros [= <-]|]. now rewrite D. Qed.
