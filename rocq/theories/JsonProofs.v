(** * Proofs: the JSON reader accepts exactly the JSON texts *)
From Coq Require Import List Bool Arith NArith ZArith Lia String Ascii DecimalString.
From Verif Require Import AwsModel JsonSpec.
Import ListNotations.
Local Open Scope string_scope.

(** ** Strings *)
Lemma app_a (a b c : string) : (a ++ b) ++ c = a ++ (b ++ c).
Proof. induction a as [|x a IH]; [reflexivity|]. cbn. rewrite IH. reflexivity. Qed.
Lemma app_n (a : string) : a ++ "" = a.
Proof. induction a as [|x a IH]; [reflexivity|]. cbn. rewrite IH. reflexivity. Qed.
Lemma app_len (a b : string) : String.length (a ++ b) = String.length a + String.length b.
Proof. induction a as [|x a IH]; [reflexivity|]. cbn. rewrite IH. reflexivity. Qed.
Lemma one_of_cons l c s : one_of l (String c s) <-> In c l /\ one_of l s.
Proof.
  unfold one_of. cbn. split.
  - intros H. split; [apply H; auto|intros x Hx; apply H; auto].
  - intros [H1 H2] x [<-|Hx]; auto.
Qed.
Lemma one_of_nil l : one_of l "".
Proof. intros c []. Qed.
Lemma one_of_app l a b : one_of l (a ++ b) <-> one_of l a /\ one_of l b.
Proof.
  induction a as [|c a IH]; cbn [append]; [split; [intros H; split; [apply one_of_nil|exact H]|tauto]|]. rewrite !one_of_cons, IH. tauto.
Qed.

Lemma is_ws_spec c : is_ws c = true <-> In c [" "; "009"; "010"; "013"]%char.
Proof.
  unfold is_ws. rewrite !orb_true_iff, !Ascii.eqb_eq. cbn. intuition.
Qed.
Lemma is_digit_spec c : is_digit c = true <-> In c ["0"; "1"; "2"; "3"; "4"; "5"; "6"; "7"; "8"; "9"]%char.
Proof.
  split.
  - destruct c as [[] [] [] [] [] [] [] []]; vm_compute; intros H; try discriminate; tauto.
  - cbn. intuition (subst; reflexivity).
Qed.
Lemma is_plain_spec c : is_plain c = true <-> 32 <= nat_of_ascii c /\ c <> "034"%char /\ c <> "\"%char.
Proof.
  unfold is_plain, quote. rewrite !andb_true_iff, !negb_true_iff, Nat.leb_le, !Ascii.eqb_neq. tauto.
Qed.
Lemma escape_spec e x : escape e = Some x <-> escapes e x.
Proof.
  split.
  - unfold escape, quote. intros H.
    repeat match type of H with context [Ascii.eqb e ?c] => destruct (Ascii.eqb_spec e c); [subst e; cbn [orb] in H; injection H as <-; constructor|cbn [orb] in H] end. discriminate.
  - intros []; reflexivity.
Qed.

(** ** Blanks *)
Lemma skip_blank w s : blank w -> skip (w ++ s) = skip s.
Proof.
  induction w as [|c w IH]; [reflexivity|]. intros H. apply one_of_cons in H. destruct H as [H1 H2]. cbn [append skip]. apply is_ws_spec in H1. rewrite H1. apply IH. exact H2.
Qed.
Lemma skip_split s : exists w, blank w /\ s = w ++ skip s.
Proof.
  induction s as [|c s (w & B & E)]; [exists ""; split; [apply one_of_nil|reflexivity]|]. cbn [skip]. destruct (is_ws c) eqn:W.
  - exists (String c w). split; [apply one_of_cons; split; [apply is_ws_spec; exact W|exact B]|]. cbn. congruence.
  - exists "". split; [apply one_of_nil|reflexivity].
Qed.
Definition solid (s : string) : Prop := match s with String c _ => is_ws c = false | "" => True end.
Lemma skip_solid s : solid s -> skip s = s.
Proof. destruct s as [|c s]; [reflexivity|]. cbn. intros ->. reflexivity. Qed.
Lemma skip_is_solid s : solid (skip s).
Proof. induction s as [|c s IH]; [exact I|]. cbn. destruct (is_ws c) eqn:W; [exact IH|exact W]. Qed.

(** ** Escapes with four digits *)
Lemma hex_spec c x : hexv c = Some x <-> hex c x.
Proof.
  split.
  - destruct c as [[] [] [] [] [] [] [] []]; vm_compute; intros H; try discriminate; injection H as <-;
      first [apply (HDigit _ 0 eq_refl)|apply (HDigit _ 1 eq_refl)|apply (HDigit _ 2 eq_refl)|apply (HDigit _ 3 eq_refl)|apply (HDigit _ 4 eq_refl)
            |apply (HDigit _ 5 eq_refl)|apply (HDigit _ 6 eq_refl)|apply (HDigit _ 7 eq_refl)|apply (HDigit _ 8 eq_refl)|apply (HDigit _ 9 eq_refl)
            |apply (HUpper _ 0 eq_refl)|apply (HUpper _ 1 eq_refl)|apply (HUpper _ 2 eq_refl)|apply (HUpper _ 3 eq_refl)|apply (HUpper _ 4 eq_refl)|apply (HUpper _ 5 eq_refl)
            |apply (HLower _ 0 eq_refl)|apply (HLower _ 1 eq_refl)|apply (HLower _ 2 eq_refl)|apply (HLower _ 3 eq_refl)|apply (HLower _ 4 eq_refl)|apply (HLower _ 5 eq_refl)].
  - intros [c' n H|c' n H|c' n H].
    + do 10 (destruct n as [|n]; [injection H as <-; reflexivity|]). destruct n; discriminate.
    + do 6 (destruct n as [|n]; [injection H as <-; reflexivity|]). destruct n; discriminate.
    + do 6 (destruct n as [|n]; [injection H as <-; reflexivity|]). destruct n; discriminate.
Qed.
Lemma hex4_sound a b c d n : hex4 a b c d = Some n -> four (String a (String b (String c (String d "")))) n.
Proof.
  unfold hex4. destruct (hexv a) as [x|] eqn:A; [|discriminate]. destruct (hexv b) as [y|] eqn:B; [|discriminate]. destruct (hexv c) as [z|] eqn:C; [|discriminate].
  destruct (hexv d) as [w|] eqn:D; [|discriminate]. intros H. injection H as <-. apply hex_spec in A, B, C, D.
  replace (((x * 16 + y) * 16 + z) * 16 + w)%N with (4096 * x + 256 * y + 16 * z + w)%N by lia. constructor; assumption.
Qed.
Lemma hex4_complete f n : four f n -> exists a b c d, f = String a (String b (String c (String d ""))) /\ hex4 a b c d = Some n.
Proof.
  intros [a b c d x y z w A B C D]. exists a, b, c, d. split; [reflexivity|]. apply hex_spec in A, B, C, D. unfold hex4. rewrite A, B, C, D. f_equal. lia.
Qed.
Lemma div_of a b : (b < 64 -> (64 * a + b) / 64 = a /\ (64 * a + b) mod 64 = b)%N.
Proof. intros L. split; [symmetry; apply (N.div_unique _ 64 a b)|symmetry; apply (N.mod_unique _ 64 a b)]; lia. Qed.
Lemma utf8_spec n x : encodes n x <-> x = utf8 n.
Proof.
  split.
  - intros [m L|a b L R|a b c L1 L2 R|a b c d L1 L2 L3 R]; unfold utf8.
    + rewrite (proj2 (N.ltb_lt m 128) L). reflexivity.
    + rewrite (proj2 (N.ltb_ge _ 128)) by lia. rewrite (proj2 (N.ltb_lt _ 2048)) by lia. destruct (div_of a b L) as [-> ->]. reflexivity.
    + rewrite (proj2 (N.ltb_ge _ 128)) by lia. rewrite (proj2 (N.ltb_ge _ 2048)) by lia. rewrite (proj2 (N.ltb_lt _ 65536)) by lia.
      replace (4096 * a + 64 * b + c)%N with (64 * (64 * a + b) + c)%N by lia. change 4096%N with (64 * 64)%N. rewrite <- N.div_div by lia.
      destruct (div_of (64 * a + b) c L2) as [-> ->]. destruct (div_of a b L1) as [-> ->]. reflexivity.
    + rewrite (proj2 (N.ltb_ge _ 128)) by lia. rewrite (proj2 (N.ltb_ge _ 2048)) by lia. rewrite (proj2 (N.ltb_ge _ 65536)) by lia.
      replace (262144 * a + 4096 * b + 64 * c + d)%N with (64 * (64 * (64 * a + b) + c) + d)%N by lia. change 262144%N with (64 * 64 * 64)%N. change 4096%N with (64 * 64)%N. rewrite <- !N.div_div by lia.
      destruct (div_of (64 * (64 * a + b) + c) d L3) as [-> ->]. destruct (div_of (64 * a + b) c L2) as [-> ->]. destruct (div_of a b L1) as [-> ->]. reflexivity.
  - intros ->. unfold utf8. pose proof (N.div_mod n 64 ltac:(lia)) as E1. pose proof (N.mod_lt n 64 ltac:(lia)) as M1.
    destruct (N.ltb_spec n 128); [constructor; assumption|]. destruct (N.ltb_spec n 2048).
    { rewrite E1 at 1. apply (U2 (n / 64) (n mod 64)); [exact M1|lia]. }
    change 262144%N with (64 * 64 * 64)%N. change 4096%N with (64 * 64)%N. rewrite <- !N.div_div by lia. set (q := (n / 64)%N) in *.
    pose proof (N.div_mod q 64 ltac:(lia)) as E2. pose proof (N.mod_lt q 64 ltac:(lia)) as M2. destruct (N.ltb_spec n 65536).
    { replace n with (4096 * (q / 64) + 64 * (q mod 64) + n mod 64)%N at 1 by lia. apply (U3 (q / 64) (q mod 64) (n mod 64)); [exact M2|exact M1|lia]. }
    set (p := (q / 64)%N) in *. pose proof (N.div_mod p 64 ltac:(lia)) as E3. pose proof (N.mod_lt p 64 ltac:(lia)) as M3.
    replace n with (262144 * (p / 64) + 4096 * (p mod 64) + 64 * (q mod 64) + n mod 64)%N at 1 by lia.
    apply (U4 (p / 64) (p mod 64) (q mod 64) (n mod 64)); [exact M3|exact M2|exact M1|lia].
Qed.
Lemma leads_spec n : leads n = true <-> (55296 <= n < 56320)%N.
Proof. unfold leads. rewrite andb_true_iff, !N.leb_le. lia. Qed.
Lemma trails_spec n : trails n = true <-> (56320 <= n < 57344)%N.
Proof. unfold trails. rewrite andb_true_iff, !N.leb_le. lia. Qed.

(** ** Strings in quotes *)
Lemma p_str_sound s : forall m r, p_str s = Some (m, r) -> exists t, chars t m /\ s = t ++ String "034" r.
Proof.
  assert (G : forall n s, String.length s <= n -> forall m r, p_str s = Some (m, r) -> exists t, chars t m /\ s = t ++ String "034" r).
  { clear s. induction n as [|n IH]; intros s L m r H; destruct s as [|c s]; try discriminate; [cbn in L; lia|]. cbn [p_str] in H. cbn in L. unfold quote in H.
    destruct (Ascii.eqb_spec c "034") as [->|N1]; [injection H as <- <-; exists ""; split; [constructor|reflexivity]|].
    destruct (Ascii.eqb_spec c "\") as [->|N2].
    - destruct s as [|e s]; [discriminate|]. destruct (Ascii.eqb_spec e "u") as [->|NU].
      { destruct s as [|a [|b [|c [|d s]]]]; try discriminate. destruct (hex4 a b c d) as [k|] eqn:X; [|discriminate]. apply hex4_sound in X. destruct (leads k) eqn:LD.
        - destruct s as [|x [|y [|a' [|b' [|c' [|d' s]]]]]]; try discriminate. destruct ((x =? "\")%char && (y =? "u")%char) eqn:XY; [|discriminate].
          apply andb_true_iff in XY. rewrite !Ascii.eqb_eq in XY. destruct XY as [-> ->]. destruct (hex4 a' b' c' d') as [k'|] eqn:X'; [|discriminate]. apply hex4_sound in X'.
          destruct (trails k') eqn:TR; [|discriminate]. apply leads_spec in LD. apply trails_spec in TR. destruct (p_str s) as [[m' r']|] eqn:P; [|discriminate].
          cbn [option_map fst snd] in H. injection H as <- <-. destruct (IH s) with (m := m') (r := r') as (t & C & ->); [cbn in L; lia|exact P|].
          eexists. split; [eapply (CPair _ _ (k - 55296) (k' - 56320) _ t m')|].
          + replace (55296 + (k - 55296))%N with k by lia. exact X.
          + replace (56320 + (k' - 56320))%N with k' by lia. exact X'.
          + lia.
          + lia.
          + apply utf8_spec. apply (f_equal utf8). unfold code_of. lia.
          + exact C.
          + reflexivity.
        - destruct (trails k) eqn:TR; [discriminate|]. destruct (p_str s) as [[m' r']|] eqn:P; [|discriminate].
          cbn [option_map fst snd] in H. injection H as <- <-. destruct (IH s) with (m := m') (r := r') as (t & C & ->); [cbn in L; lia|exact P|].
          assert (N1' : ~ (55296 <= k < 56320)%N) by (rewrite <- leads_spec; congruence). assert (N2' : ~ (56320 <= k < 57344)%N) by (rewrite <- trails_spec; congruence).
          eexists. split; [eapply (CCode _ k _ t m')|].
          + exact X.
          + lia.
          + apply utf8_spec. reflexivity.
          + exact C.
          + reflexivity. }
      destruct (escape e) as [x|] eqn:E; [|discriminate]. destruct (p_str s) as [[m' r']|] eqn:P; [|discriminate].
      cbn [option_map fst snd] in H. injection H as <- <-. destruct (IH s) with (m := m') (r := r') as (t & C & ->); [cbn in L; lia|exact P|].
      exists (String "\" (String e t)). split; [constructor; [apply escape_spec; exact E|exact C]|reflexivity].
    - destruct (is_plain c) eqn:PL; [|discriminate]. destruct (p_str s) as [[m' r']|] eqn:P; [|discriminate].
      cbn [option_map fst snd] in H. injection H as <- <-. destruct (IH s) with (m := m') (r := r') as (t & C & ->); [lia|exact P|].
      apply is_plain_spec in PL. exists (String c t). split; [constructor; tauto|reflexivity]. }
  exact (G _ s (le_n _)).
Qed.
Lemma p_str_complete t m r : chars t m -> p_str (t ++ String "034" r) = Some (m, r).
Proof.
  induction 1 as [|c t m H1 H2 H3 C IH|e x t m E C IH|f n x t m F N E C IH|f g hi lo x t m F G LH LL E C IH]; [reflexivity| | | |].
  - cbn [append p_str]. unfold quote. destruct (Ascii.eqb_spec c "034"); [contradiction|]. destruct (Ascii.eqb_spec c "\"); [contradiction|].
    assert (P : is_plain c = true) by (apply is_plain_spec; auto). rewrite P, IH. reflexivity.
  - cbn [append p_str]. apply escape_spec in E. change ("\" =? quote)%char with false. change ("\" =? "\")%char with true. cbv iota.
    destruct (Ascii.eqb_spec e "u") as [->|_]; [discriminate E|]. rewrite E, IH. reflexivity.
  - destruct (hex4_complete f n F) as (a & b & c & d & -> & X). cbn [append p_str]. change ("\" =? quote)%char with false. change ("\" =? "\")%char with true. cbv iota. change ("u" =? "u")%char with true. cbv iota.
    rewrite X. destruct (leads n) eqn:LD; [apply leads_spec in LD; lia|]. destruct (trails n) eqn:TR; [apply trails_spec in TR; lia|]. rewrite IH. apply utf8_spec in E. subst x. reflexivity.
  - destruct (hex4_complete f _ F) as (a & b & c & d & -> & X). destruct (hex4_complete g _ G) as (a' & b' & c' & d' & -> & X').
    cbn [append p_str]. change ("\" =? quote)%char with false. change ("\" =? "\")%char with true. cbv iota. change ("u" =? "u")%char with true. cbn [andb]. cbv iota.
    rewrite X. assert (LD : leads (55296 + hi) = true) by (apply leads_spec; lia). rewrite LD, X'. assert (TR : trails (56320 + lo) = true) by (apply trails_spec; lia). rewrite TR, IH.
    apply utf8_spec in E. subst x. cbn [option_map fst snd]. replace (code_of (55296 + hi) (56320 + lo)) with (65536 + 1024 * hi + lo)%N by (unfold code_of; lia). reflexivity.
Qed.

(** ** Numbers *)
Lemma span_spec f s : let (a, b) := span f s in
  s = a ++ b /\ (forall c, In c (list_ascii_of_string a) -> f c = true) /\ match b with String c _ => f c = false | "" => True end.
Proof.
  induction s as [|c s IH]; cbn [span]; [split; [reflexivity|split; [intros c []|exact I]]|]. destruct (f c) eqn:F.
  - destruct (span f s) as [a b]. destruct IH as (-> & IH1 & IH2). split; [reflexivity|]. split; [|exact IH2]. cbn. intros x [<-|Hx]; auto.
  - split; [reflexivity|]. split; [intros x []|exact F].
Qed.
Lemma span_app f a b : (forall c, In c (list_ascii_of_string a) -> f c = true) -> match b with String c _ => f c = false | "" => True end -> span f (a ++ b) = (a, b).
Proof.
  induction a as [|c a IH]; intros H1 H2.
  - destruct b as [|c b]; [reflexivity|]. cbn [append span]. rewrite H2. reflexivity.
  - cbn [append span]. rewrite H1 by (left; reflexivity). rewrite IH; [reflexivity|intros x Hx; apply H1; right; exact Hx|exact H2].
Qed.
Lemma digits_all s : digits s <-> forall c, In c (list_ascii_of_string s) -> is_digit c = true.
Proof. unfold digits, one_of. split; intros H c Hc; apply is_digit_spec; auto. Qed.
Lemma span_digits a b : digits a -> match b with String c _ => is_digit c = false | "" => True end -> span is_digit (a ++ b) = (a, b).
Proof. intros D. apply span_app. apply digits_all. exact D. Qed.

Definition exp_part (exp : string) : Prop :=
  exp = "" \/ exists e sg ds, exp = e ++ sg ++ ds /\ (e = "e" \/ e = "E") /\ (sg = "" \/ sg = "+" \/ sg = "-") /\ ds <> "" /\ digits ds.
Definition frac_part (frac : string) : Prop := frac = "" \/ exists ds, frac = "." ++ ds /\ ds <> "" /\ digits ds.
Lemma span_all r : (match span is_digit r with (String _ _, EmptyString) => true | _ => false end) = true <-> r <> "" /\ digits r.
Proof.
  split.
  - pose proof (span_spec is_digit r) as S. destruct (span is_digit r) as [a b]. destruct S as (-> & H & _). destruct a; [discriminate|]. destruct b; [|discriminate]. intros _.
    rewrite app_n. split; [discriminate|]. apply digits_all. exact H.
  - intros [N D]. rewrite <- (app_n r). rewrite span_digits by (try exact D; exact I). destruct r; [contradiction|reflexivity].
Qed.
Lemma digit_not c : In c ["0"; "1"; "2"; "3"; "4"; "5"; "6"; "7"; "8"; "9"]%char -> c <> "+"%char /\ c <> "-"%char /\ c <> "e"%char /\ c <> "E"%char /\ c <> "."%char.
Proof. cbn. intros H. repeat (destruct H as [<-|H]; [repeat split; discriminate|]). destruct H. Qed.
Lemma exp_ok_spec s : exp_ok s = true <-> exp_part s.
Proof.
  destruct s as [|c r]; [split; [intros _; left; reflexivity|reflexivity]|]. unfold exp_ok. split.
  - destruct ((c =? "e")%char || (c =? "E")%char)%bool eqn:EC; [|discriminate]. intros H. right.
    apply orb_true_iff in EC. rewrite !Ascii.eqb_eq in EC.
    assert (EE : String c "" = "e" \/ String c "" = "E") by (destruct EC as [->| ->]; auto).
    destruct r as [|d r']; [discriminate|]. destruct ((d =? "+")%char || (d =? "-")%char)%bool eqn:ED.
    + apply span_all in H. apply orb_true_iff in ED. rewrite !Ascii.eqb_eq in ED. exists (String c ""), (String d ""), r'. split; [reflexivity|]. split; [exact EE|].
      split; [destruct ED as [->| ->]; auto|exact H].
    + apply span_all in H. exists (String c ""), "", (String d r'). split; [reflexivity|]. split; [exact EE|]. split; [auto|exact H].
  - intros [E|(e & sg & ds & E & HE & HS & N & D)]; [discriminate|].
    assert (EC : ((c =? "e")%char || (c =? "E")%char)%bool = true /\ r = sg ++ ds).
    { destruct HE as [->| ->]; cbn in E; injection E as -> ->; auto. }
    destruct EC as [-> ->]. destruct HS as [->|[->| ->]]; cbn [append].
    + destruct ds as [|d ds]; [contradiction|]. pose proof (proj1 (proj1 (one_of_cons _ _ _) D)) as Hd. apply digit_not in Hd.
      destruct (Ascii.eqb_spec d "+"); [tauto|]. destruct (Ascii.eqb_spec d "-"); [tauto|]. cbn [orb]. apply span_all. auto.
    + cbn. apply span_all. auto.
    + cbn. apply span_all. auto.
Qed.
Lemma exp_start s : exp_part s -> match s with String c _ => is_digit c = false /\ c <> "."%char | "" => True end.
Proof. intros [->|(e & sg & ds & -> & [->| ->] & _)]; [exact I| |]; cbn; split; try reflexivity; discriminate. Qed.
Lemma frac_ok_spec s : frac_ok s = true <-> exists f e, s = f ++ e /\ frac_part f /\ exp_part e.
Proof.
  destruct s as [|c r].
  - split; [intros _; exists "", ""; split; [reflexivity|split; left; reflexivity]|reflexivity].
  - unfold frac_ok. split.
    + destruct (Ascii.eqb_spec c ".") as [->|N].
      * pose proof (span_spec is_digit r) as S. destruct (span is_digit r) as [a b]. destruct S as (-> & H & _). destruct a as [|x a]; [discriminate|]. intros E.
        apply exp_ok_spec in E. exists ("." ++ String x a), b. split; [reflexivity|]. split; [|exact E]. right. exists (String x a). split; [reflexivity|]. split; [discriminate|]. apply digits_all. exact H.
      * intros E. apply exp_ok_spec in E. exists "", (String c r). split; [reflexivity|]. split; [left; reflexivity|exact E].
    + intros (f & e & E & [->|(ds & -> & N & D)] & X).
      * cbn [append] in E. subst e. pose proof (exp_start _ X) as [_ S]. destruct (Ascii.eqb_spec c "."); [contradiction|]. apply exp_ok_spec. exact X.
      * cbn in E. injection E as -> ->. change ("." =? ".")%char with true. cbv iota. rewrite span_digits; [|exact D|].
        -- destruct ds; [contradiction|]. apply exp_ok_spec. exact X.
        -- pose proof (exp_start _ X) as S. destruct e; [exact I|tauto].
Qed.
Lemma frac_start s : (exists f e, s = f ++ e /\ frac_part f /\ exp_part e) -> match s with String c _ => is_digit c = false | "" => True end.
Proof.
  intros (f & e & -> & [->|(ds & -> & _)] & X); [|reflexivity]. cbn. pose proof (exp_start _ X) as S. destruct e; [exact I|tauto].
Qed.
Lemma json_number_spec t : json_number t = true <-> number t.
Proof.
  assert (U : forall s, (match s with EmptyString => false | String c r => if (c =? "0")%char then frac_ok r else if is_digit c then frac_ok (snd (span is_digit r)) else false end) = true <->
     exists int rest, s = int ++ rest /\ (int = "0" \/ exists c ds, int = String c ds /\ digits int /\ c <> "0"%char) /\ exists f e, rest = f ++ e /\ frac_part f /\ exp_part e).
  { intros s. split.
    - destruct s as [|c r]; [discriminate|]. destruct (Ascii.eqb_spec c "0") as [->|N].
      + intros H. apply frac_ok_spec in H. exists "0", r. split; [reflexivity|]. split; [auto|exact H].
      + destruct (is_digit c) eqn:DC; [|discriminate]. pose proof (span_spec is_digit r) as S. destruct (span is_digit r) as [a b]. destruct S as (-> & H & _). cbn [snd]. intros F.
        apply frac_ok_spec in F. exists (String c a), b. split; [reflexivity|]. split; [|exact F]. right. exists c, a. split; [reflexivity|]. split; [|exact N].
        apply one_of_cons. split; [apply is_digit_spec; exact DC|apply digits_all; exact H].
    - intros (int & rest & -> & [->|(c & ds & -> & D & N)] & F).
      + cbn. apply frac_ok_spec. exact F.
      + cbn [append]. destruct (Ascii.eqb_spec c "0"); [contradiction|]. apply one_of_cons in D. destruct D as [D1 D2]. apply is_digit_spec in D1. rewrite D1.
        rewrite span_digits; [|exact D2|apply frac_start; exact F]. cbn [snd]. apply frac_ok_spec. exact F. }
  unfold json_number, number. split.
  - intros H.
    assert (SP : exists sign s, t = sign ++ s /\ (sign = "" \/ sign = "-") /\ (match s with EmptyString => false | String c r => if (c =? "0")%char then frac_ok r else if is_digit c then frac_ok (snd (span is_digit r)) else false end) = true).
    { destruct t as [|c r]; [discriminate|]. destruct (Ascii.eqb_spec c "-") as [->|N].
      - exists "-", r. split; [reflexivity|]. split; [auto|exact H].
      - exists "", (String c r). split; [reflexivity|]. split; [auto|exact H]. }
    destruct SP as (sign & s & -> & HS & HU). apply U in HU. destruct HU as (int & rest & -> & HI & f & e & -> & HF & HE).
    exists sign, int, f, e. split; [reflexivity|]. auto.
  - intros (sign & int & f & e & -> & HS & HI & HF & HE).
    assert (X : exists c r, int ++ f ++ e = String c r /\ c <> "-"%char).
    { destruct HI as [->|(c & ds & -> & D & N)]; [exists "0"%char, (f ++ e); split; [reflexivity|discriminate]|]. exists c, (ds ++ f ++ e). split; [reflexivity|].
      apply one_of_cons in D. destruct D as [D _]. apply digit_not in D. tauto. }
    assert (Y : (match int ++ f ++ e with EmptyString => false | String c r => if (c =? "0")%char then frac_ok r else if is_digit c then frac_ok (snd (span is_digit r)) else false end) = true).
    { apply U. exists int, (f ++ e). split; [reflexivity|]. split; [exact HI|]. exists f, e. auto. }
    destruct HS as [->| ->]; cbn [append].
    + destruct X as (c & r & EX & N). rewrite EX in *. destruct (Ascii.eqb_spec c "-"); [contradiction|]. exact Y.
    + change ("-" =? "-")%char with true. cbv iota. exact Y.
Qed.
Lemma number_chars t : number t -> forall c, In c (list_ascii_of_string t) -> num_char c = true.
Proof.
  intros (sign & int & f & e & -> & HS & HI & HF & HE).
  set (L := ["0"; "1"; "2"; "3"; "4"; "5"; "6"; "7"; "8"; "9"; "+"; "-"; "."; "e"; "E"]%char).
  assert (W : forall s, digits s -> one_of L s) by (intros s D c Hc; specialize (D c Hc); unfold L; cbn in D |- *; tauto).
  assert (O : one_of L (sign ++ int ++ f ++ e)).
  { rewrite !one_of_app. repeat split.
    - destruct HS as [->| ->]; intros c; cbn; [tauto|]. intros [<-|[]]. tauto.
    - destruct HI as [->|(c & ds & -> & D & _)]; [apply W; intros c; cbn; tauto|apply W; exact D].
    - destruct HF as [->|(ds & -> & _ & D)]; [apply one_of_nil|]. apply one_of_cons. split; [cbn; tauto|apply W; exact D].
    - destruct HE as [->|(x & sg & ds & -> & X & SG & _ & D)]; [apply one_of_nil|]. rewrite !one_of_app. split; [|split; [|apply W; exact D]].
      + destruct X as [->| ->]; intros c; cbn; intros [<-|[]]; tauto.
      + destruct SG as [->|[->| ->]]; intros c; cbn; try tauto; intros [<-|[]]; tauto. }
  intros c Hc. specialize (O c Hc). unfold L in O. cbn in O. repeat (destruct O as [<-|O]; [reflexivity|]). destruct O.
Qed.
Lemma number_first t : number t -> exists c r, t = String c r /\ (is_digit c = true \/ c = "-"%char).
Proof.
  intros (sign & int & f & e & -> & [->| ->] & HI & _); [|eexists _, _; split; [reflexivity|auto]].
  destruct HI as [->|(c & ds & -> & D & _)]; [eexists _, _; split; [reflexivity|left; reflexivity]|]. eexists _, _. split; [reflexivity|]. left.
  apply one_of_cons in D. apply is_digit_spec. tauto.
Qed.

(** ** Reading the next sign *)
Lemma match_close {X} (A : string -> X) (B : string -> X) d s :
  match s with String "," r => A r | String "]" r => B r | _ => d end =
  match s with String c r => if (c =? ",")%char then A r else if (c =? "]")%char then B r else d | "" => d end.
Proof. destruct s as [|c r]; [reflexivity|]. destruct c as [[] [] [] [] [] [] [] []]; reflexivity. Qed.
Lemma match_brace {X} (A : string -> X) (B : string -> X) d s :
  match s with String "," r => A r | String "}" r => B r | _ => d end =
  match s with String c r => if (c =? ",")%char then A r else if (c =? "}")%char then B r else d | "" => d end.
Proof. destruct s as [|c r]; [reflexivity|]. destruct c as [[] [] [] [] [] [] [] []]; reflexivity. Qed.
Lemma match_colon {X} (A : string -> X) d s :
  match s with String ":" r => A r | _ => d end = match s with String c r => if (c =? ":")%char then A r else d | "" => d end.
Proof. destruct s as [|c r]; [reflexivity|]. destruct c as [[] [] [] [] [] [] [] []]; reflexivity. Qed.
Lemma match_noelem {X} (A : string -> X) d s :
  match s with String "]" r => A r | _ => d end = match s with String c r => if (c =? "]")%char then A r else d | "" => d end.
Proof. destruct s as [|c r]; [reflexivity|]. destruct c as [[] [] [] [] [] [] [] []]; reflexivity. Qed.
Lemma match_nomem {X} (A : string -> X) d s :
  match s with String "}" r => A r | _ => d end = match s with String c r => if (c =? "}")%char then A r else d | "" => d end.
Proof. destruct s as [|c r]; [reflexivity|]. destruct c as [[] [] [] [] [] [] [] []]; reflexivity. Qed.

(** ** Literals *)
Lemma strip_spec p : forall s r, strip p s = Some r <-> s = p ++ r.
Proof.
  induction p as [|a p IH]; intros s r; cbn [strip append]; [split; [intros H; injection H as ->; reflexivity|intros ->; reflexivity]|].
  destruct s as [|b s]; [split; discriminate|]. destruct (Ascii.eqb_spec a b) as [->|N]; [|split; [discriminate|intros H; injection H as -> _; contradiction]].
  rewrite IH. split; [intros ->; reflexivity|intros H; injection H as ->; reflexivity].
Qed.
Lemma literal_sound s t r : literal s = Some (t, r) -> s = t ++ r /\ In t ["true"; "false"; "null"].
Proof.
  unfold literal. destruct (strip "true" s) as [u|] eqn:A; [intros H; injection H as <- <-; split; [apply strip_spec; exact A|cbn; auto]|].
  destruct (strip "false" s) as [u|] eqn:B; [intros H; injection H as <- <-; split; [apply strip_spec; exact B|cbn; auto]|].
  destruct (strip "null" s) as [u|] eqn:C; [|discriminate]. intros H; injection H as <- <-; split; [apply strip_spec; exact C|cbn; auto].
Qed.
Lemma literal_complete t r : In t ["true"; "false"; "null"] -> literal (t ++ r) = Some (t, r).
Proof. cbn [In]. intros [<-|[<-|[<-|[]]]]; reflexivity. Qed.
Lemma literal_num c s : num_char c = true -> literal (String c s) = None.
Proof.
  intros H. unfold literal. cbn [strip]. destruct (Ascii.eqb_spec "t" c) as [<-|_]; [discriminate H|]. destruct (Ascii.eqb_spec "f" c) as [<-|_]; [discriminate H|].
  destruct (Ascii.eqb_spec "n" c) as [<-|_]; [discriminate H|]. reflexivity.
Qed.

(** ** Soundness *)
Lemma p_sound fuel :
  (forall s v r, p_val fuel s = Some (v, r) -> exists w t, s = w ++ t ++ r /\ blank w /\ value v t) /\
  (forall s l r, p_elem fuel s = Some (l, r) -> exists t, s = t ++ "]" ++ r /\ elements l t) /\
  (forall s l r, p_mem fuel s = Some (l, r) -> exists t, s = t ++ "}" ++ r /\ members l t).
Proof.
  induction fuel as [|n (IV & IE & IM)]; [repeat split; discriminate|]. split; [|split].
  - intros s v r H. cbn [p_val] in H. destruct (skip_split s) as (w & B & Es). destruct (skip s) as [|c u]; [discriminate|]. exists w. unfold quote in H.
    destruct (Ascii.eqb_spec c "034") as [->|N1].
    { destruct (p_str u) as [[m q]|] eqn:P; [|discriminate]. injection H as <- <-. apply p_str_sound in P. destruct P as (t & C & ->). exists (quoted t).
      split; [|split; [exact B|constructor; exact C]]. rewrite Es. unfold quoted. cbn. rewrite app_a. reflexivity. }
    destruct (Ascii.eqb_spec c "{") as [->|N2].
    { rewrite match_nomem in H. destruct (skip_split u) as (w2 & B2 & Eu).
      assert (K : forall q, option_map (fun q => (JObj (fst q), snd q)) (p_mem n u) = Some q -> exists t, s = w ++ t ++ snd q /\ blank w /\ value (fst q) t).
      { intros q Q. destruct (p_mem n u) as [[l q']|] eqn:P; [|discriminate]. injection Q as <-. cbn [fst snd]. apply IM in P. destruct P as (t & -> & M).
        exists ("{" ++ t ++ "}"). split; [|split; [exact B|constructor; exact M]]. rewrite Es. cbn. rewrite app_a. reflexivity. }
      destruct (skip u) as [|c2 u2]; [apply (K (v, r) H)|]. destruct (Ascii.eqb_spec c2 "}") as [->|]; [|apply (K (v, r) H)].
      injection H as <- <-. exists ("{" ++ w2 ++ "}"). split; [|split; [exact B|constructor; exact B2]]. rewrite Es, Eu. cbn. rewrite app_a. reflexivity. }
    destruct (Ascii.eqb_spec c "[") as [->|N3].
    { rewrite match_noelem in H. destruct (skip_split u) as (w2 & B2 & Eu).
      assert (K : forall q, option_map (fun q => (JArr (fst q), snd q)) (p_elem n u) = Some q -> exists t, s = w ++ t ++ snd q /\ blank w /\ value (fst q) t).
      { intros q Q. destruct (p_elem n u) as [[l q']|] eqn:P; [|discriminate]. injection Q as <-. cbn [fst snd]. apply IE in P. destruct P as (t & -> & M).
        exists ("[" ++ t ++ "]"). split; [|split; [exact B|constructor; exact M]]. rewrite Es. cbn. rewrite app_a. reflexivity. }
      destruct (skip u) as [|c2 u2]; [apply (K (v, r) H)|]. destruct (Ascii.eqb_spec c2 "]") as [->|]; [|apply (K (v, r) H)].
      injection H as <- <-. exists ("[" ++ w2 ++ "]"). split; [|split; [exact B|constructor; exact B2]]. rewrite Es, Eu. cbn. rewrite app_a. reflexivity. }
    destruct (literal (String c u)) as [[t r']|] eqn:LT.
    { injection H as <- <-. apply literal_sound in LT. destruct LT as [E I]. exists t. split; [rewrite Es, E; reflexivity|]. split; [exact B|constructor; exact I]. }
    pose proof (span_spec num_char (String c u)) as S. destruct (span num_char (String c u)) as [t r']. destruct S as (S & _). destruct (json_number t) eqn:J; [|discriminate].
    injection H as <- <-. exists t. split; [rewrite Es, S; reflexivity|]. split; [exact B|]. constructor. apply json_number_spec. exact J.
  - intros s l r H. cbn [p_elem] in H. destruct (p_val n s) as [[v u]|] eqn:P; [|discriminate]. apply IV in P. destruct P as (w & t & -> & B & V).
    destruct (skip_split u) as (w2 & B2 & Eu). rewrite match_close in H. destruct (skip u) as [|c u2]; [discriminate|]. destruct (Ascii.eqb_spec c ",") as [->|N1].
    + destruct (p_elem n u2) as [[l' r']|] eqn:P; [|discriminate]. injection H as <- <-. apply IE in P. destruct P as (t2 & -> & E).
      exists (w ++ t ++ w2 ++ "," ++ t2). split; [|constructor; assumption]. rewrite Eu. rewrite !app_a. reflexivity.
    + destruct (Ascii.eqb_spec c "]") as [->|]; [|discriminate]. injection H as <- <-. exists (w ++ t ++ w2). split; [|constructor; assumption]. rewrite Eu, !app_a. reflexivity.
  - intros s l r H. cbn [p_mem] in H. destruct (skip_split s) as (w & B & Es). destruct (skip s) as [|c u]; [discriminate|]. unfold quote in H.
    destruct (Ascii.eqb_spec c "034") as [->|]; [|discriminate]. destruct (p_str u) as [[k u1]|] eqn:P; [|discriminate]. apply p_str_sound in P. destruct P as (tk & C & ->).
    destruct (skip_split u1) as (w1 & B1 & E1). rewrite match_colon in H. destruct (skip u1) as [|c1 u2]; [discriminate|]. destruct (Ascii.eqb_spec c1 ":") as [->|]; [|discriminate].
    destruct (p_val n u2) as [[v u3]|] eqn:P; [|discriminate]. apply IV in P. destruct P as (w2 & t & -> & B2 & V).
    destruct (skip_split u3) as (w3 & B3 & E3). rewrite match_brace in H. destruct (skip u3) as [|c3 u4]; [discriminate|]. destruct (Ascii.eqb_spec c3 ",") as [->|N1].
    + destruct (p_mem n u4) as [[l' r']|] eqn:P; [|discriminate]. injection H as <- <-. apply IM in P. destruct P as (t2 & -> & E).
      exists (w ++ quoted tk ++ w1 ++ ":" ++ w2 ++ t ++ w3 ++ "," ++ t2). split; [|constructor; assumption]. rewrite Es, E1, E3. unfold quoted. repeat (progress (rewrite ?app_a; cbn [append])). reflexivity.
    + destruct (Ascii.eqb_spec c3 "}") as [->|]; [|discriminate]. injection H as <- <-. exists (w ++ quoted tk ++ w1 ++ ":" ++ w2 ++ t ++ w3). split; [|constructor; assumption].
      rewrite Es, E1, E3. unfold quoted. repeat (progress (rewrite ?app_a; cbn [append])). reflexivity.
Qed.

(** ** Completeness *)
Definition stops (r : string) : Prop := match r with String c _ => num_char c = false | "" => True end.
Lemma value_first v t : value v t -> exists c r, t = String c r /\ is_ws c = false /\ c <> "]"%char /\ c <> "}"%char.
Proof.
  intros V. destruct V; try (eexists _, _; split; [reflexivity|repeat split; try reflexivity; discriminate]).
  2: { cbn [In] in H. destruct H as [<-|[<-|[<-|[]]]]; (eexists _, _; split; [reflexivity|repeat split; try reflexivity; discriminate]). }
  destruct (number_first _ H) as (c & r & -> & [D| ->]); [|eexists _, _; split; [reflexivity|repeat split; try reflexivity; discriminate]].
  exists c, r. split; [reflexivity|]. apply is_digit_spec in D. cbn in D. repeat (destruct D as [<-|D]; [repeat split; try reflexivity; discriminate|]). destruct D.
Qed.
Lemma elements_first l t : elements l t -> exists c r, (forall s, skip (t ++ s) = String c (r ++ s)) /\ c <> "]"%char.
Proof.
  intros E. destruct E as [w v t w' B V B'|w v t w' l u B V B' E]; destruct (value_first v t V) as (c & r & -> & W & N1 & N2).
  - exists c, (r ++ w'). split; [|exact N1]. intros s. rewrite !app_a, skip_blank by exact B. cbn [append skip]. rewrite W, ?app_a. reflexivity.
  - exists c, (r ++ w' ++ "," ++ u). split; [|exact N1]. intros s. rewrite !app_a, skip_blank by exact B. cbn [append skip]. rewrite W, ?app_a. reflexivity.
Qed.
Lemma members_first l t : members l t -> exists r, forall s, skip (t ++ s) = String "034" (r ++ s).
Proof.
  intros E. destruct E.
  - eexists. intros s. rewrite app_a, skip_blank by assumption. unfold quoted at 1. cbn. reflexivity.
  - eexists. intros s. rewrite app_a, skip_blank by assumption. unfold quoted at 1. cbn. reflexivity.
Qed.
Lemma blank_stops w c s : blank w -> num_char c = false -> stops (w ++ String c s).
Proof.
  destruct w as [|x w]; [intros _ H; exact H|]. intros B _. apply one_of_cons in B. destruct B as [B _]. cbn in B. cbn.
  repeat (destruct B as [<-|B]; [reflexivity|]). destruct B.
Qed.

Scheme value_ind' := Induction for value Sort Prop
with elements_ind' := Induction for elements Sort Prop
with members_ind' := Induction for members Sort Prop.
Combined Scheme json_ind from value_ind', elements_ind', members_ind'.

Lemma p_complete :
  (forall v t, value v t -> forall fuel w r, blank w -> stops r -> 2 * String.length t <= fuel -> p_val fuel (w ++ t ++ r) = Some (v, r)) /\
  (forall l t, elements l t -> forall fuel r, 2 * String.length t + 1 <= fuel -> p_elem fuel (t ++ "]" ++ r) = Some (l, r)) /\
  (forall l t, members l t -> forall fuel r, 2 * String.length t + 1 <= fuel -> p_mem fuel (t ++ "}" ++ r) = Some (l, r)).
Proof.
  apply json_ind.
  - intros t m C fuel w r B _ L. unfold quoted in *. destruct fuel as [|n]; [cbn in L; lia|]. cbn [p_val]. rewrite skip_blank by exact B. cbn [append skip].
    change (is_ws "034") with false. cbv iota. change ("034" =? quote)%char with true. cbv iota. rewrite app_a. cbn [append]. rewrite (p_str_complete t m r C). reflexivity.
  - intros t N fuel w r B S L. destruct (number_first t N) as (c & u & E & D). rewrite E in L. destruct fuel as [|n]; [cbn in L; lia|]. cbn [p_val]. rewrite skip_blank by exact B.
    assert (HC : is_ws c = false /\ (c =? quote)%char = false /\ (c =? "{")%char = false /\ (c =? "[")%char = false).
    { destruct D as [D| ->]; [|repeat split; reflexivity]. apply is_digit_spec in D. cbn in D. repeat (destruct D as [<-|D]; [repeat split; reflexivity|]). destruct D. }
    destruct HC as (H1 & H2 & H3 & H4). rewrite E. cbn [append skip]. rewrite H1, H2, H3, H4.
    rewrite literal_num by (apply (number_chars t N); rewrite E; left; reflexivity). change (String c (u ++ r)) with (String c u ++ r). rewrite <- E.
    rewrite (span_app num_char t r (number_chars t N) S). apply json_number_spec in N. rewrite N. reflexivity.
  - intros t I fuel w r B _ L. assert (HC : exists c u, t = String c u /\ is_ws c = false /\ (c =? quote)%char = false /\ (c =? "{")%char = false /\ (c =? "[")%char = false).
    { cbn [In] in I. destruct I as [<-|[<-|[<-|[]]]]; (eexists _, _; repeat split). }
    destruct HC as (c & u & E & H1 & H2 & H3 & H4). destruct fuel as [|n]; [rewrite E in L; cbn in L; lia|]. cbn [p_val]. rewrite skip_blank by exact B.
    pose proof (literal_complete t r I) as LC. rewrite E in *. cbn [append skip] in *. rewrite H1, H2, H3, H4, LC. reflexivity.
  - intros w0 B0 fuel w r B _ L. destruct fuel as [|n]; [cbn in L; lia|]. cbn [p_val]. rewrite skip_blank by exact B. cbn [append skip].
    change (is_ws "[") with false. cbv iota. change ("[" =? quote)%char with false. change ("[" =? "{")%char with false. change ("[" =? "[")%char with true. cbv iota.
    rewrite app_a, skip_blank by exact B0. reflexivity.
  - intros l t E IH fuel w r B _ L. destruct fuel as [|n]; [cbn in L; lia|]. cbn [p_val]. rewrite skip_blank by exact B. cbn [append skip].
    change (is_ws "[") with false. cbv iota. change ("[" =? quote)%char with false. change ("[" =? "{")%char with false. change ("[" =? "[")%char with true. cbv iota.
    rewrite match_noelem. destruct (elements_first l t E) as (c & u & F & N). rewrite app_a, F. destruct (Ascii.eqb_spec c "]"); [contradiction|].
    cbn in L. rewrite app_len in L. cbn in L. rewrite IH by lia. reflexivity.
  - intros w0 B0 fuel w r B _ L. destruct fuel as [|n]; [cbn in L; lia|]. cbn [p_val]. rewrite skip_blank by exact B. cbn [append skip].
    change (is_ws "{") with false. cbv iota. change ("{" =? quote)%char with false. change ("{" =? "{")%char with true. cbv iota.
    rewrite app_a, skip_blank by exact B0. reflexivity.
  - intros l t E IH fuel w r B _ L. destruct fuel as [|n]; [cbn in L; lia|]. cbn [p_val]. rewrite skip_blank by exact B. cbn [append skip].
    change (is_ws "{") with false. cbv iota. change ("{" =? quote)%char with false. change ("{" =? "{")%char with true. cbv iota.
    rewrite match_nomem. destruct (members_first l t E) as (u & F). rewrite app_a, F. change ("034" =? "}")%char with false. cbv iota.
    cbn in L. rewrite app_len in L. cbn in L. rewrite IH by lia. reflexivity.
  - intros w v t w' B V IV B' fuel r L. rewrite !app_len in L. destruct fuel as [|n]; [lia|]. cbn [p_elem]. rewrite !app_a.
    rewrite IV; [|exact B|apply blank_stops; [exact B'|reflexivity]|lia]. rewrite skip_blank by exact B'. reflexivity.
  - intros w v t w' l u B V IV B' E IE fuel r L. rewrite !app_len in L. cbn in L. destruct fuel as [|n]; [lia|]. cbn [p_elem]. rewrite !app_a.
    rewrite IV; [|exact B|apply blank_stops; [exact B'|reflexivity]|lia]. rewrite skip_blank by exact B'. cbn [append skip].
    change (is_ws ",") with false. cbv iota. change (String "]" r) with ("]" ++ r). rewrite IE by lia. reflexivity.
  - intros w k m w1 w2 v t w' B C B1 B2 V IV B' fuel r L. unfold quoted in *. rewrite !app_len in L. cbn in L. rewrite ?app_len in L. cbn in L. destruct fuel as [|n]; [lia|]. cbn [p_mem].
    rewrite !app_a, skip_blank by exact B. cbn [append skip]. change (is_ws "034") with false. cbv iota. change ("034" =? quote)%char with true. cbv iota.
    rewrite ?app_a. cbn [append]. rewrite (p_str_complete k m _ C). rewrite skip_blank by exact B1. cbn [skip]. change (is_ws ":") with false. cbv iota.
    rewrite IV; [|exact B2|apply blank_stops; [exact B'|reflexivity]|lia]. rewrite skip_blank by exact B'. reflexivity.
  - intros w k m w1 w2 v t w' l u B C B1 B2 V IV B' E IE fuel r L. unfold quoted in *. rewrite !app_len in L. cbn in L. rewrite ?app_len in L. cbn in L. destruct fuel as [|n]; [lia|]. cbn [p_mem].
    rewrite !app_a, skip_blank by exact B. cbn [append skip]. change (is_ws "034") with false. cbv iota. change ("034" =? quote)%char with true. cbv iota.
    rewrite ?app_a. cbn [append]. rewrite (p_str_complete k m _ C). rewrite skip_blank by exact B1. cbn [skip]. change (is_ws ":") with false. cbv iota.
    rewrite ?app_a. cbn [append]. rewrite IV; [|exact B2|apply blank_stops; [exact B'|reflexivity]|lia]. rewrite skip_blank by exact B'. cbn [skip]. change (is_ws ",") with false. cbv iota.
    change (String "}" r) with ("}" ++ r). rewrite IE by lia. reflexivity.
Qed.

Theorem from_str_spec s v : from_str s = Some v <-> document v s.
Proof.
  unfold from_str. split.
  - destruct (p_val _ s) as [[v' r]|] eqn:P; [|discriminate]. intros H. destruct (skip_split r) as (w' & B' & E). destruct (skip r) as [|c u]; [|discriminate]. injection H as <-.
    destruct (p_sound (2 * String.length s + 2)) as [S _]. apply S in P. destruct P as (w & t & -> & B & V). exists w, t, w'. rewrite app_n in E. subst r. auto.
  - intros (w & t & w' & -> & B & V & B'). destruct p_complete as [C _]. rewrite (C v t V); [|exact B| |rewrite !app_len; lia].
    + rewrite <- (app_n w'), skip_blank by exact B'. reflexivity.
    + rewrite <- (app_n w'). destruct w' as [|x w']; [exact I|]. apply one_of_cons in B'. destruct B' as [B' _]. cbn in B' |- *. repeat (destruct B' as [<-|B']; [reflexivity|]). destruct B'.
Qed.

(** ** Integers *)
Definition value_from (v : Z) (s : string) : Z := fold_left (fun v c => 10 * v + digit_value c)%Z (list_ascii_of_string s) v.
Lemma uint_digit c s u : NilEmpty.uint_of_string (String c s) = Some u ->
  In c ["0"; "1"; "2"; "3"; "4"; "5"; "6"; "7"; "8"; "9"]%char /\
  exists u', NilEmpty.uint_of_string s = Some u' /\
    (forall p, Z.pos (Pos.of_uint_acc u p) = Z.pos (Pos.of_uint_acc u' (Z.to_pos (10 * Z.pos p + digit_value c)))) /\
    Z.of_N (Pos.of_uint u) = match Z.to_N (digit_value c) with N0 => Z.of_N (Pos.of_uint u') | N.pos p => Z.pos (Pos.of_uint_acc u' p) end.
Proof.
  cbn [NilEmpty.uint_of_string]. destruct (NilEmpty.uint_of_string s) as [u'|].
  2: { intros H. exfalso. destruct c as [[] [] [] [] [] [] [] []]; discriminate H. }
  intros H. assert (In c ["0"; "1"; "2"; "3"; "4"; "5"; "6"; "7"; "8"; "9"]%char) as I.
  { destruct c as [[] [] [] [] [] [] [] []]; try discriminate H; cbn; tauto. }
  split; [exact I|]. exists u'. split; [reflexivity|]. cbn [In] in I.
  repeat (destruct I as [<-|I]; [cbn in H; injection H as <-; split; [intros p; cbn [Pos.of_uint_acc]; apply f_equal; apply f_equal; match goal with |- context [digit_value ?c] => let v := eval vm_compute in (digit_value c) in change (digit_value c) with v end; lia|reflexivity]|]). destruct I.
Qed.
Lemma digit_nonneg c : In c ["0"; "1"; "2"; "3"; "4"; "5"; "6"; "7"; "8"; "9"]%char -> (0 <= digit_value c)%Z.
Proof. cbn [In]. intros I. repeat (destruct I as [<-|I]; [vm_compute; discriminate|]). destruct I. Qed.
Lemma uint_acc s : forall u p, NilEmpty.uint_of_string s = Some u -> Z.pos (Pos.of_uint_acc u p) = value_from (Z.pos p) s /\ digits s.
Proof.
  induction s as [|c s IH]; intros u p H; [injection H as <-; split; [reflexivity|apply one_of_nil]|].
  destruct (uint_digit c s u H) as (I & u' & E & A & _). destruct (IH u' (Z.to_pos (10 * Z.pos p + digit_value c)) E) as [V D].
  split; [|apply one_of_cons; auto]. rewrite A, V. unfold value_from. cbn [list_ascii_of_string fold_left]. rewrite Z2Pos.id; [reflexivity|].
  pose proof (digit_nonneg c I). lia.
Qed.
Lemma uint_value s : forall u, NilEmpty.uint_of_string s = Some u -> Z.of_N (Pos.of_uint u) = decimal s /\ digits s.
Proof.
  induction s as [|c s IH]; intros u H; [injection H as <-; split; [reflexivity|apply one_of_nil]|].
  destruct (uint_digit c s u H) as (I & u' & E & _ & A). split; [|apply one_of_cons; split; [exact I|apply (IH u' E)]]. rewrite A.
  change (decimal (String c s)) with (value_from (digit_value c) s).
  assert (NN : (0 <= digit_value c)%Z) by (apply digit_nonneg; exact I).
  destruct (digit_value c) as [|p|p]; cbn [Z.to_N]; [apply (IH u' E)|apply (uint_acc s u' p E)|lia].
Qed.
Lemma digits_uint s : digits s -> exists u, NilEmpty.uint_of_string s = Some u.
Proof.
  induction s as [|c s IH]; intros D; [eexists; reflexivity|]. apply one_of_cons in D. destruct D as [I D]. destruct (IH D) as [u E].
  cbn [NilEmpty.uint_of_string]. rewrite E. cbn [In] in I. repeat (destruct I as [<-|I]; [eexists; reflexivity|]). destruct I.
Qed.
Lemma as_i64_spec t z : as_i64 t = Some z <-> integer t z.
Proof.
  assert (U : forall s u, NilZero.uint_of_string s = Some u <-> s <> "" /\ NilEmpty.uint_of_string s = Some u).
  { intros s u. unfold NilZero.uint_of_string. destruct s; [split; [discriminate|intros [N _]; contradiction]|]. split; [intros H; split; [discriminate|exact H]|tauto]. }
  unfold as_i64, integer. destruct (String.eqb_spec t "-0") as [->|NZ]; [split; [discriminate|intros [N _]; contradiction]|].
  unfold NilZero.int_of_string. split.
  - intros H. split; [exact NZ|]. destruct t as [|c t]; [discriminate|]. destruct (Ascii.eqb_spec c "-") as [->|NM].
    + destruct (NilZero.uint_of_string t) as [u|] eqn:E; [|discriminate]. injection H as <-. apply U in E. destruct E as [NE E]. destruct (uint_value t u E) as [V D].
      exists t. split; [exact NE|]. split; [exact D|]. right. split; [reflexivity|]. rewrite <- V. reflexivity.
    + destruct (NilZero.uint_of_string (String c t)) as [u|] eqn:E; [|discriminate]. injection H as <-. apply U in E. destruct E as [NE E]. destruct (uint_value _ u E) as [V D].
      exists (String c t). split; [exact NE|]. split; [exact D|]. left. split; [reflexivity|]. rewrite <- V. reflexivity.
  - intros [_ (ds & NE & D & [[-> ->]|[-> ->]])]; destruct (digits_uint ds D) as [u E]; destruct (uint_value ds u E) as [V _].
    + destruct ds as [|c ds]; [contradiction|]. pose proof D as D'. apply one_of_cons in D'. destruct D' as [I _]. destruct (digit_not c I) as (_ & NM & _).
      destruct (Ascii.eqb_spec c "-"); [contradiction|]. rewrite (proj2 (U _ u) (conj NE E)). cbn [option_map]. rewrite <- V. reflexivity.
    + cbn [append]. change ("-" =? "-")%char with true. cbv iota. rewrite (proj2 (U _ u) (conj NE E)). cbn [option_map]. rewrite <- V. reflexivity.
Qed.
