(** * Proofs about csv files *)
From Coq Require Import List Bool Arith Ascii Lia.
From Verif Require Import CsvModel CsvSpec.
Import ListNotations.

Lemma eqb_neq c d : c <> d -> Ascii.eqb c d = false.
Proof. intros N. destruct (Ascii.eqb_spec c d); congruence. Qed.

(** ** The reader *)
Lemma scan_quoted f t : quoted_text f t -> forall fld rec k, scan InQuoted fld rec (t ++ k) = scan InQuoted (fld ++ f) rec k.
Proof.
  intros Q. induction Q as [|f t Q IH|c f t N Q IH]; intros fld rec k.
  - rewrite app_nil_r. reflexivity.
  - cbn [app]. change (scan InQuoted fld rec (quote :: quote :: t ++ k)) with (scan InQuoted (fld ++ [quote]) rec (t ++ k)). rewrite IH, <- app_assoc. reflexivity.
  - cbn [app]. cbn [scan]. rewrite (eqb_neq _ _ N), IH, <- app_assoc. reflexivity.
Qed.
Lemma scan_plain f : (forall c, In c f -> c <> comma /\ c <> quote /\ c <> lf /\ c <> cr) ->
  forall fld rec k, scan InField fld rec (f ++ k) = scan InField (fld ++ f) rec k.
Proof.
  induction f as [|c f IH]; intros N fld rec k; [rewrite app_nil_r; reflexivity|]. destruct (N c (or_introl eq_refl)) as (N1 & N2 & N3 & N4).
  cbn [app scan]. rewrite (eqb_neq _ _ N1), (eqb_neq _ _ N3), (eqb_neq _ _ N4), IH by (intros d D; apply N; right; exact D). rewrite <- app_assoc. reflexivity.
Qed.
(** After a field the next character ends it: *)
Definition ends (k : bytes) : Prop := k = [] \/ exists c k', k = c :: k' /\ (c = comma \/ line_end c).
Definition after (rec : list bytes) (k : bytes) : list (list bytes) :=
  match k with
  | [] => [rec]
  | c :: k' => if Ascii.eqb c comma then scan StartField [] rec k'
               else if Ascii.eqb c lf then rec :: scan StartRecord [] [] k' else rec :: scan AfterCr [] [] k'
  end.
Lemma scan_end st fld rec k : (st = InField \/ st = AfterQuote \/ st = StartField) -> ends k -> scan st fld rec k = after (rec ++ [fld]) k.
Proof.
  intros S [-> |(c & k' & -> & C)]; [destruct S as [-> |[-> | ->]]; reflexivity|].
  destruct C as [-> |[-> | ->]]; destruct S as [-> |[-> | ->]]; reflexivity.
Qed.
Lemma scan_field f t rec k : field_text f t -> ends k -> scan StartField [] rec (t ++ k) = after (rec ++ [f]) k.
Proof.
  intros F E. destruct F as [f N|f t Q].
  - destruct f as [|c f]; [apply scan_end; auto|]. destruct (N c (or_introl eq_refl)) as (N1 & N2 & N3 & N4).
    cbn [app scan]. rewrite (eqb_neq _ _ N1), (eqb_neq _ _ N2), (eqb_neq _ _ N3), (eqb_neq _ _ N4), scan_plain by (intros d D; apply N; right; exact D).
    apply scan_end; auto.
  - cbn [app]. rewrite <- app_assoc. change (scan StartField [] rec (quote :: t ++ [quote] ++ k)) with (scan InQuoted [] rec (t ++ quote :: k)).
    rewrite (scan_quoted f t Q). cbn [app]. change (scan InQuoted f rec (quote :: k)) with (scan AfterQuote f rec k). apply scan_end; auto.
Qed.
Lemma scan_fields fs t : fields_text fs t -> forall rec k, k = [] \/ (exists c k', k = c :: k' /\ line_end c) -> scan StartField [] rec (t ++ k) = after (rec ++ fs) k.
Proof.
  intros F. induction F as [f t F|f t fs ts F1 F2 IH]; intros rec k K.
  - apply scan_field; [exact F|]. destruct K as [-> |(c & k' & -> & L)]; [left; reflexivity|right; exists c, k'; auto].
  - rewrite <- app_assoc. rewrite (scan_field f t rec _ F1) by (right; exists comma, (ts ++ k); cbn; auto). cbn [app after]. change (Ascii.eqb comma comma) with true. cbn iota.
    rewrite IH by exact K. rewrite <- app_assoc. reflexivity.
Qed.
Lemma fields_head fs t : fields_text fs t -> t <> [] -> exists c t', t = c :: t' /\ c <> lf /\ c <> cr.
Proof.
  intros F. induction F as [f t F|f t fs ts F1 F2 IH]; intros N.
  - destruct F as [f NN|f t Q].
    + destruct f as [|c f]; [congruence|]. destruct (NN c (or_introl eq_refl)) as (_ & _ & N3 & N4). exists c, f. auto.
    + eexists _, _. split; [reflexivity|]. split; discriminate.
  - destruct F1 as [f NN|f t Q].
    + destruct f as [|c f]; [exists comma, ts; repeat split; discriminate|]. destruct (NN c (or_introl eq_refl)) as (_ & _ & N3 & N4). exists c, (f ++ comma :: ts). auto.
    + eexists _, _. split; [reflexivity|]. split; discriminate.
Qed.
Definition start (st : rst) := st = StartRecord \/ st = AfterCr.
Lemma scan_start st c t : start st -> c <> lf -> c <> cr -> scan st [] [] (c :: t) = scan StartField [] [] (c :: t).
Proof. intros [-> | ->] N1 N2; cbn [scan]; rewrite (eqb_neq _ _ N1), (eqb_neq _ _ N2); reflexivity. Qed.
Lemma scan_file rs t : file_text rs t -> forall st, start st -> scan st [] [] t = rs.
Proof.
  intros F. induction F as [|c rs t L F IH|fs t [R N]|fs t c rs t' [R N] L F IH]; intros st S.
  - destruct S as [-> | ->]; reflexivity.
  - assert (E : scan st [] [] (c :: t) = scan StartRecord [] [] t) by (destruct S as [-> | ->], L as [-> | ->]; reflexivity). rewrite E. apply IH. left; reflexivity.
  - destruct (fields_head _ _ R N) as (c & t' & -> & N1 & N2). rewrite (scan_start st c t' S N1 N2), <- (app_nil_r (c :: t')). rewrite (scan_fields _ _ R) by (left; reflexivity). reflexivity.
  - destruct (fields_head _ _ R N) as (d & t2 & -> & N1 & N2). cbn [app]. rewrite (scan_start st d _ S N1 N2). change (d :: t2 ++ c :: t') with ((d :: t2) ++ c :: t').
    rewrite (scan_fields _ _ R) by (right; exists c, t'; auto). cbn [app after]. destruct L as [-> | ->].
    + change (Ascii.eqb lf comma) with false. change (Ascii.eqb lf lf) with true. cbn iota. rewrite IH by (left; reflexivity). reflexivity.
    + change (Ascii.eqb cr comma) with false. change (Ascii.eqb cr lf) with false. cbn iota. rewrite IH by (right; reflexivity). reflexivity.
Qed.

(** ** The writer *)
Section Writer.
Variable extra : bytes -> bool.
Lemma double_text f : quoted_text f (double f).
Proof.
  induction f as [|c f IH]; [constructor|]. cbn [double flat_map]. fold (double f). destruct (Ascii.eqb_spec c quote) as [-> |N]; cbn [app]; constructor; assumption.
Qed.
Lemma field_written f : field_text f (write_field extra f).
Proof.
  unfold write_field. destruct (existsb special f) eqn:E; cbn [orb]; [cbn [app]; constructor; apply double_text|]. destruct (extra f); [cbn [app]; constructor; apply double_text|].
  constructor. intros c IN. assert (S : special c = false) by (destruct (special c) eqn:SC; [|reflexivity]; rewrite <- E; symmetry; apply existsb_exists; exists c; auto).
  unfold special in S. repeat (apply orb_false_elim in S; destruct S as [S ?]). repeat split; apply Ascii.eqb_neq; assumption.
Qed.
Lemma fields_written fs : fs <> [] -> fields_text fs (write_fields extra fs).
Proof.
  induction fs as [|f fs IH]; intros N; [congruence|]. destruct fs as [|g fs]; [constructor; apply field_written|].
  change (write_fields extra (f :: g :: fs)) with (write_field extra f ++ comma :: write_fields extra (g :: fs)). constructor; [apply field_written|apply IH; discriminate].
Qed.
Lemma row_written fs : fs <> [] -> exists t, record_text fs t /\ end_row (write_fields extra fs) = t ++ [lf].
Proof.
  intros N. pose proof (fields_written fs N) as F. unfold end_row. destruct (write_fields extra fs) as [|c t] eqn:E.
  - exists [quote; quote]. split; [|reflexivity]. split; [|discriminate]. inversion F as [f t FT| f t fs' ts FT FS HH]; subst.
    + inversion FT; subst. constructor. apply (Quoted [] []). constructor.
    + destruct t; discriminate.
  - exists (c :: t). split; [|reflexivity]. split; [exact F|discriminate].
Qed.
Lemma rows_written n rows : n <> 0 -> Forall (fun r => length r = n) rows -> exists t, write_rows extra n rows = (t, true) /\ file_text rows t.
Proof.
  intros N F. induction F as [|r rows L F (t & E & T)]; [exists []; split; [reflexivity|constructor]|].
  cbn [write_rows]. rewrite L, Nat.eqb_refl, E. eexists. split; [reflexivity|]. destruct (row_written r) as (t1 & R1 & ->); [intros ->; apply N; rewrite <- L; reflexivity|].
  rewrite <- app_assoc. apply Record; [exact R1|left; reflexivity|exact T].
Qed.
Lemma all_written names rows : names <> [] -> Forall (fun r => length r = length names) rows ->
  exists t, write_all extra names rows = (t, true) /\ file_text (names :: rows) t.
Proof.
  intros N F. destruct (rows_written (length names) rows) as (t & E & T); [destruct names; [congruence|discriminate]|exact F|]. unfold write_all. rewrite E. eexists. split; [reflexivity|].
  destruct (row_written names N) as (t1 & R1 & ->). rewrite <- app_assoc. apply Record; [exact R1|left; reflexivity|exact T].
Qed.
Lemma rows_ok n rows : snd (write_rows extra n rows) = true <-> Forall (fun r => length r = n) rows.
Proof.
  induction rows as [|r rows IH]; [split; [constructor|reflexivity]|]. cbn [write_rows]. destruct (Nat.eqb_spec (length r) n) as [E|E].
  - destruct (write_rows extra n rows) as [t ok]. cbn [snd] in *. rewrite IH. split; [intros F; constructor; assumption|intros F; inversion F; assumption].
  - cbn. split; [discriminate|intros F; inversion F; congruence].
Qed.

(** *** The buffer *)
Variable cap : nat.
Hypothesis CAP : cap <> 0.
Definition got (k : sink) : bytes := k_file k ++ k_buf k.
Lemma put_got c k k' ok : put cap c k = (k', ok) -> length (k_buf k) <= cap ->
  length (k_buf k') <= cap /\ k_room k' + length (k_file k') = k_room k + length (k_file k) /\
  if ok then got k' = got k ++ [c] else k_room k' = 0 /\ k_room k < length (k_buf k) /\ exists n, k_file k' = firstn n (got k).
Proof.
  unfold put, flush. intros E L. destruct (Nat.ltb_spec (length (k_buf k)) cap) as [LT|GE].
  - injection E as <- <-. cbn. rewrite app_length. cbn. split; [lia|]. split; [reflexivity|]. unfold got. cbn. apply app_assoc.
  - destruct (Nat.leb_spec (length (k_buf k)) (k_room k)) as [R|R]; injection E as <- <-; cbn.
    + split; [lia|]. rewrite app_length. split; [lia|]. unfold got. cbn. reflexivity.
    + split; [exact L|]. rewrite app_length, firstn_length. split; [lia|]. split; [reflexivity|]. split; [exact R|].
      exists (length (k_file k) + k_room k). unfold got. rewrite firstn_app. rewrite (firstn_all2 (k_file k)) by lia. f_equal. f_equal. lia.
Qed.
Lemma puts_got t : forall k k' ok, puts cap t k = (k', ok) -> length (k_buf k) <= cap ->
  length (k_buf k') <= cap /\ k_room k' + length (k_file k') = k_room k + length (k_file k) /\
  if ok then got k' = got k ++ t
  else k_room k' = 0 /\ k_room k + length (k_file k) < length (got k) + length t /\ exists n, k_file k' = firstn n (got k ++ t).
Proof.
  induction t as [|c t IH]; intros k k' ok E L; cbn [puts] in E.
  - injection E as <- <-. rewrite app_nil_r. auto.
  - destruct (put cap c k) as [k1 ok1] eqn:P. destruct (put_got _ _ _ _ P L) as (L1 & R1 & G1). destruct ok1.
    + destruct (IH _ _ _ E L1) as (L2 & R2 & G2). split; [exact L2|]. split; [lia|]. destruct ok.
      * rewrite G2, G1, <- app_assoc. reflexivity.
      * destruct G2 as (G2 & G3 & n & G4). split; [exact G2|]. split; [rewrite R1, G1, app_length in G3; cbn [length] in *; lia|]. exists n. rewrite G4, G1, <- app_assoc. reflexivity.
    + injection E as <- <-. destruct G1 as (G1 & G2 & n & G3). split; [exact L1|]. split; [exact R1|]. split; [exact G1|]. split; [unfold got; rewrite app_length; cbn [length]; lia|].
      exists (Nat.min n (length (got k))). rewrite G3. rewrite firstn_app. rewrite <- (firstn_all2 (got k) (Nat.le_refl _)) at 1. rewrite firstn_firstn.
      replace (Nat.min n (length (got k)) - length (got k)) with 0 by lia. cbn [firstn]. rewrite app_nil_r. reflexivity.
Qed.
End Writer.

(** ** Loading *)
Lemma nth_error_ext {X} (l : list X) : forall l', (forall j, nth_error l j = nth_error l' j) -> l = l'.
Proof.
  induction l as [|x l IH]; intros [|y l'] E; [reflexivity|specialize (E 0); discriminate|specialize (E 0); discriminate|].
  pose proof (E 0) as E0. cbn in E0. injection E0 as ->. f_equal. apply IH. intros j. exact (E (Datatypes.S j)).
Qed.
Section Load.
Context {V : Type}.
Variable valid : list bytes -> bool.
Implicit Types ps : list (bytes -> option V).
Lemma load_record_spec ps : forall r vs, load_record ps r = Some vs <-> (length vs = length ps /\ forall j p, nth_error ps j = Some p -> exists f v, nth_error r j = Some f /\ nth_error vs j = Some v /\ p f = Some v).
Proof.
  induction ps as [|p ps IH]; intros r vs.
  - cbn. split; [intros E; injection E as <-; split; [reflexivity|intros [|j] q Q; discriminate]|intros [L _]; destruct vs; [reflexivity|discriminate]].
  - cbn [load_record]. destruct r as [|f r].
    + split; [discriminate|]. intros [_ A]. destruct (A 0 p eq_refl) as (f & v & F & _). discriminate.
    + split.
      * destruct (p f) as [v|] eqn:P; [|discriminate]. destruct (load_record ps r) as [vs'|] eqn:E; [|discriminate]. intros E'. injection E' as <-. apply IH in E. destruct E as [L A].
        split; [cbn; congruence|]. intros [|j] q Q; cbn in *; [injection Q as <-; exists f, v; auto|apply A; exact Q].
      * intros [L A]. destruct vs as [|v vs]; [discriminate|]. destruct (A 0 p eq_refl) as (f' & v' & F & W & P). cbn in F, W. injection F as <-. injection W as <-. rewrite P.
        assert (E : load_record ps r = Some vs). { apply IH. split; [cbn in L; congruence|]. intros j q Q. exact (A (Datatypes.S j) q Q). } rewrite E. reflexivity.
Qed.
Lemma push_length : forall (cols : list (list V)) vs, length (push cols vs) = length cols.
Proof. induction cols as [|c cols IH]; intros vs; [destruct vs; reflexivity|]. destruct vs; [reflexivity|]. cbn. congruence. Qed.
Lemma push_nth : forall (cols : list (list V)) vs j c v, nth_error cols j = Some c -> nth_error vs j = Some v -> nth_error (push cols vs) j = Some (c ++ [v]).
Proof.
  induction cols as [|c0 cols IH]; intros vs j c v C W; [destruct j; discriminate|]. destruct vs as [|v0 vs]; [destruct j; discriminate|].
  destruct j as [|j]; cbn in *; [congruence|]. apply IH; assumption.
Qed.
(** The columns loaded, on top of those there. *)
Lemma load_rows_spec ps n : forall rows cols cols', length cols = length ps ->
  (load_rows valid ps n rows cols = Some cols' <->
   (Forall (fun r => length r = n /\ valid r = true) rows /\ length cols' = length ps /\
    forall j p, nth_error ps j = Some p -> exists c c', nth_error cols j = Some c /\ nth_error cols' j = Some (c ++ c') /\ column p j rows c')).
Proof.
  induction rows as [|r rows IH]; intros cols cols' L.
  - cbn [load_rows]. split.
    + intros E. injection E as <-. split; [constructor|]. split; [exact L|]. intros j p P. destruct (nth_error cols j) as [c|] eqn:C.
      * exists c, []. rewrite app_nil_r. repeat split; constructor.
      * apply nth_error_None in C. assert (j < length ps) by (apply nth_error_Some; congruence). lia.
    + intros (_ & L' & A). f_equal. apply nth_error_ext. intros j. destruct (nth_error ps j) as [p|] eqn:P.
      * destruct (A j p P) as (c & c' & C & C' & CO). inversion CO; subst. rewrite app_nil_r in C'. congruence.
      * apply nth_error_None in P. assert (X : nth_error cols j = None) by (apply nth_error_None; lia). assert (Y : nth_error cols' j = None) by (apply nth_error_None; lia). congruence.
  - cbn [load_rows]. destruct (Nat.eqb_spec (length r) n) as [E|E]; cbn [andb].
    2:{ split; [discriminate|]. intros (F & _). inversion F; subst. tauto. }
    destruct (valid r) eqn:VR.
    2:{ split; [discriminate|]. intros (F & _). inversion F; subst. destruct H1; congruence. }
    split.
    + destruct (load_record ps r) as [vs|] eqn:LR; [|discriminate]. intros LL. apply load_record_spec in LR. destruct LR as [LV A]. apply IH in LL; [|rewrite push_length; exact L].
      destruct LL as (F & L' & B). split; [constructor; auto|]. split; [exact L'|]. intros j p P. destruct (A j p P) as (f & v & RF & VV & PF). destruct (B j p P) as (c & c' & C & C' & CO).
      destruct (nth_error cols j) as [c0|] eqn:C0.
      * rewrite (push_nth _ _ _ _ _ C0 VV) in C. injection C as <-. exists c0, (v :: c'). split; [reflexivity|]. rewrite <- app_assoc in C'. split; [exact C'|]. constructor; [exists f; auto|exact CO].
      * apply nth_error_None in C0. assert (j < length ps) by (apply nth_error_Some; congruence). lia.
    + intros (F & L' & A). inversion F as [|? ? _ F']; subst. 
      assert (G : exists vs, load_record ps r = Some vs).
      { clear - A. revert A. assert (X : forall (qs : list (bytes -> option V)) r', (forall j p, nth_error qs j = Some p -> exists f v, nth_error r' j = Some f /\ p f = Some v) -> exists vs, load_record qs r' = Some vs).
        { induction qs as [|q qs IH]; intros r' A; [exists []; reflexivity|]. destruct (A 0 q eq_refl) as (f & v & RF & QF). destruct r' as [|f' r']; [discriminate|]. cbn in RF. injection RF as ->.
          destruct (IH r') as [vs E]; [intros j p P; exact (A (Datatypes.S j) p P)|]. exists (v :: vs). cbn. rewrite QF, E. reflexivity. }
        intros A. apply X. intros j p P. destruct (A j p P) as (c & c' & _ & _ & CO). inversion CO as [|? v ? ? (f & F1 & F2) ?]; subst. exists f, v. auto. }
      destruct G as [vs LR]. rewrite LR. apply load_record_spec in LR. destruct LR as [LV B]. apply IH; [rewrite push_length; exact L|]. split; [exact F'|]. split; [exact L'|].
      intros j p P. destruct (B j p P) as (f & v & RF & VV & PF). destruct (A j p P) as (c & c' & C & C' & CO). inversion CO as [|? v2 ? c2 (f2 & F1 & F2) CO']; subst.
      assert (v2 = v) by congruence. subst v2. exists (c ++ [v]), c2. split; [apply push_nth; assumption|]. rewrite <- app_assoc. split; [exact C'|exact CO'].
Qed.
End Load.
