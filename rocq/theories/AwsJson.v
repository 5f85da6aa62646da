(** * The messages of the AWS search survive printing and parsing *)
From Coq Require Import List Bool Arith NArith ZArith Lia String Ascii DecimalString DecimalFacts DecimalN.
From Verif Require Import ExpModel GaModel AwsModel AwsSpec.
Import ListNotations.
Local Open Scope string_scope.

Lemma append_assoc (a b c : string) : (a ++ b) ++ c = a ++ (b ++ c).
Proof. induction a as [|x a IH]; [reflexivity|]. cbn. rewrite IH. reflexivity. Qed.
Lemma append_nil (a : string) : a ++ "" = a.
Proof. induction a as [|x a IH]; [reflexivity|]. cbn. rewrite IH. reflexivity. Qed.

(** Text all of whose characters satisfy [f]. *)
Fixpoint all_of (f : ascii -> bool) (s : string) : bool :=
  match s with EmptyString => true | String c s' => f c && all_of f s' end.
Lemma all_of_app f a b : all_of f (a ++ b) = all_of f a && all_of f b.
Proof. induction a as [|x a IH]; [reflexivity|]. cbn. rewrite IH. apply andb_assoc. Qed.
Lemma all_of_mono (f g : ascii -> bool) s : (forall c, f c = true -> g c = true) -> all_of f s = true -> all_of g s = true.
Proof. intros H. induction s as [|c s IH]; [reflexivity|]. cbn. intros E. apply andb_prop in E. destruct E as [E1 E2]. rewrite (H c E1), (IH E2). reflexivity. Qed.
Lemma span_spec f s : forall a b, span f s = (a, b) -> s = a ++ b /\ all_of f a = true.
Proof.
  induction s as [|c s IH]; intros a b E; cbn in E; [injection E as <- <-; split; reflexivity|].
  destruct (f c) eqn:C.
  - destruct (span f s) as [a' b'] eqn:S. injection E as <- <-. destruct (IH a' b' eq_refl) as [-> A]. cbn. rewrite C, A. split; reflexivity.
  - injection E as <- <-. split; reflexivity.
Qed.
Definition starts (f : ascii -> bool) (s : string) : bool := match s with String c _ => f c | EmptyString => false end.
Lemma span_app f a b : all_of f a = true -> starts f b = false -> span f (a ++ b) = (a, b).
Proof.
  intros A B. induction a as [|c a IH]; cbn [append].
  - destruct b as [|c b]; [reflexivity|]. cbn in *. rewrite B. reflexivity.
  - cbn in A. apply andb_prop in A. destruct A as [A1 A2]. cbn [span]. rewrite A1, (IH A2). reflexivity.
Qed.
Lemma skip_app w s : all_of is_ws w = true -> skip (w ++ s) = skip s.
Proof. induction w as [|c w IH]; [reflexivity|]. cbn. intros E. apply andb_prop in E. destruct E as [-> E]. apply IH. exact E. Qed.
Lemma skip_starts s : starts is_ws s = false -> skip s = s.
Proof. destruct s as [|c s]; [reflexivity|]. cbn. intros ->. reflexivity. Qed.

(** ** Strings *)
Lemma plain_cons c s : plain (String c s) <-> is_plain c = true /\ plain s.
Proof.
  unfold plain. cbn [list_ascii_of_string In]. split.
  - intros H. split; [|intros x Hx; apply H; right; exact Hx]. destruct (H c (or_introl eq_refl)) as (H1 & H2 & H3). unfold is_plain.
    apply Nat.leb_le in H1. rewrite H1. unfold quote. apply Ascii.eqb_neq in H2, H3. rewrite H2, H3. reflexivity.
  - intros [H1 H2] x [<-|Hx]; [|apply H2; exact Hx]. unfold is_plain in H1. apply andb_prop in H1. destruct H1 as [H1 H4]. apply andb_prop in H1. destruct H1 as [H1 H3].
    apply Nat.leb_le in H1. apply negb_true_iff in H3, H4. apply Ascii.eqb_neq in H3, H4. auto.
Qed.
Lemma p_str_plain x rest : plain x -> p_str (x ++ String quote rest) = Some (x, rest).
Proof.
  induction x as [|c x IH]; intros P; [reflexivity|]. apply plain_cons in P. destruct P as [P1 P2]. cbn [append p_str]. pose proof P1 as P1'.
  unfold is_plain in P1. apply andb_prop in P1. destruct P1 as [P1 P4]. apply andb_prop in P1. destruct P1 as [P1 P3]. apply negb_true_iff in P3, P4.
  rewrite P3, P4, P1', (IH P2). reflexivity.
Qed.

(** ** Numbers *)
Lemma digit_num c : is_digit c = true -> num_char c = true.
Proof. unfold num_char. intros ->. reflexivity. Qed.
Lemma exp_chars s : exp_ok s = true -> all_of num_char s = true.
Proof.
  destruct s as [|c r]; [reflexivity|]. unfold exp_ok. destruct ((c =? "e")%char || (c =? "E")%char)%bool eqn:E; [|discriminate].
  assert (C : num_char c = true) by (unfold num_char; apply orb_prop in E; destruct E as [-> | ->]; rewrite ?orb_true_r; reflexivity).
  intros H. cbn [all_of]. rewrite C. cbn [andb].
  assert (D : forall r0, match span is_digit r0 with (String _ _, EmptyString) => true | _ => false end = true -> all_of num_char r0 = true).
  { intros r0 H0. destruct (span is_digit r0) as [a b] eqn:S. apply span_spec in S. destruct S as [-> A]. destruct a, b; try discriminate.
    rewrite append_nil. apply (all_of_mono is_digit); [exact digit_num|exact A]. }
  destruct r as [|d r]; [apply D; exact H|]. destruct ((d =? "+")%char || (d =? "-")%char)%bool eqn:E2; [|apply D; exact H].
  cbn [all_of]. rewrite (D _ H), andb_true_r. unfold num_char. apply orb_prop in E2. destruct E2 as [-> | ->]; rewrite ?orb_true_r; reflexivity.
Qed.
Lemma frac_chars s : frac_ok s = true -> all_of num_char s = true.
Proof.
  destruct s as [|c r]; [reflexivity|]. unfold frac_ok. destruct (c =? ".")%char eqn:E; [|apply exp_chars].
  intros H. destruct (span is_digit r) as [a b] eqn:S. apply span_spec in S. destruct S as [-> A]. destruct a as [|x a]; [discriminate|].
  cbn [all_of]. rewrite all_of_app, (exp_chars _ H), (all_of_mono is_digit num_char _ digit_num A), andb_true_r. unfold num_char. rewrite E, !orb_true_r. reflexivity.
Qed.
Lemma number_chars s : json_number s = true -> all_of num_char s = true /\ starts (fun c => num_char c && negb (is_ws c) && negb (c =? quote)%char && negb (c =? "{")%char && negb (c =? "[")%char) s = true.
Proof.
  assert (DG : forall c, is_digit c = true -> num_char c && negb (is_ws c) && negb (c =? quote)%char && negb (c =? "{")%char && negb (c =? "[")%char = true).
  { intros c H. rewrite (digit_num c H). destruct c as [[] [] [] [] [] [] [] []]; try reflexivity; discriminate H. }
  assert (K : forall s0, match s0 with EmptyString => false | String c r => if (c =? "0")%char then frac_ok r else if is_digit c then frac_ok (snd (span is_digit r)) else false end = true ->
    all_of num_char s0 = true /\ starts is_digit s0 = true).
  { intros [|c r] H; [discriminate|]. destruct (c =? "0")%char eqn:Z.
    - apply Ascii.eqb_eq in Z. subst c. split; [cbn [all_of]; rewrite (frac_chars _ H); reflexivity|reflexivity].
    - destruct (is_digit c) eqn:D; [|discriminate]. destruct (span is_digit r) as [a b] eqn:S. apply span_spec in S. destruct S as [-> A]. cbn [snd] in H.
      split; [|exact D]. cbn [all_of]. rewrite all_of_app, (frac_chars _ H), (all_of_mono is_digit num_char _ digit_num A), (digit_num c D). reflexivity. }
  unfold json_number. destruct s as [|c r]; [discriminate|]. destruct (c =? "-")%char eqn:M.
  - apply Ascii.eqb_eq in M. subst c. intros H. destruct (K r H) as [K1 _]. split; [cbn [all_of]; rewrite K1; reflexivity|reflexivity].
  - intros H. destruct (K (String c r) H) as [K1 K2]. split; [exact K1|]. cbn [starts] in *. apply DG. exact K2.
Qed.
Lemma literal_num c s : num_char c = true -> literal (String c s) = None.
Proof.
  intros H. unfold literal. cbn [strip]. destruct (Ascii.eqb_spec "t" c) as [<-|_]; [discriminate H|]. destruct (Ascii.eqb_spec "f" c) as [<-|_]; [discriminate H|].
  destruct (Ascii.eqb_spec "n" c) as [<-|_]; [discriminate H|]. reflexivity.
Qed.
Lemma p_val_num n t rest : json_number t = true -> starts num_char rest = false -> p_val (S n) (String " " (t ++ rest)) = Some (JNum t, rest).
Proof.
  intros J R. destruct (number_chars t J) as [A S]. destruct t as [|c t]; [discriminate|]. cbn [starts] in S.
  repeat (apply andb_prop in S; destruct S as [S ?]). repeat match goal with H : negb _ = true |- _ => apply negb_true_iff in H end.
  cbn [p_val]. change (skip (String " " (String c t ++ rest))) with (skip (String c (t ++ rest))). cbn [skip].
  repeat match goal with H : _ = false |- _ => rewrite H end.
  rewrite literal_num by assumption.
  change (String c (t ++ rest)) with (String c t ++ rest). rewrite (span_app num_char (String c t) rest A R), J. reflexivity.
Qed.

(** ** Decimals *)
Lemma uint_digits d : all_of is_digit (NilEmpty.string_of_uint d) = true.
Proof. induction d; cbn; try rewrite IHd; reflexivity. Qed.
Lemma dec_number n : json_number (dec n) = true.
Proof.
  unfold dec. rewrite <- (Unsigned.of_to n) at 1. rewrite Unsigned.to_of. unfold Decimal.unorm. pose proof (nzhead_nonzero (N.to_uint n)) as NZ.
  destruct (Decimal.nzhead (N.to_uint n)) as [|d|d|d|d|d|d|d|d|d|d] eqn:E; [reflexivity|exfalso; exact (NZ d eq_refl)|..]; clear;
    unfold json_number; cbn [NilEmpty.string_of_uint]; cbn;
    rewrite <- (append_nil (NilEmpty.string_of_uint d)), (span_app is_digit _ "" (uint_digits d) eq_refl); reflexivity.
Qed.
Lemma as_i64_dec n : as_i64 (dec n) = Some (Z.of_N n).
Proof.
  unfold as_i64, dec.
  assert (E : NilZero.int_of_string (NilEmpty.string_of_uint (N.to_uint n)) = Some (Decimal.Pos (N.to_uint n))).
  { assert (NE : N.to_uint n <> Decimal.Nil) by (destruct n; [discriminate|apply DecimalPos.Unsigned.to_uint_nonnil]).
    clear - NE. destruct (N.to_uint n) as [|u|u|u|u|u|u|u|u|u|u]; [contradiction|..]; match goal with |- _ = Some (Decimal.Pos ?d) => apply (NilZero.isi (Decimal.Pos d)); discriminate end. }
  destruct (String.eqb_spec (NilEmpty.string_of_uint (N.to_uint n)) "-0") as [Z0|_]; [rewrite Z0 in E; discriminate E|].
  rewrite <- (Unsigned.of_to n) at 2. rewrite E. cbn [option_map Z.of_int]. f_equal.
Qed.

(** ** Objects and messages *)
Lemma p_mem_key n w k r : all_of is_ws w = true -> plain k ->
  p_mem (S n) (w ++ String quote (k ++ String quote (String ":" r))) =
  match p_val n r with
  | None => None
  | Some (v, r3) =>
      match skip r3 with
      | String "," r4 => option_map (fun q => ((k, v) :: fst q, snd q)) (p_mem n r4)
      | String "}" r4 => Some ([(k, v)], r4)
      | _ => None
      end
  end.
Proof. intros W P. cbn [p_mem]. rewrite (skip_app w _ W). change (skip (String quote ?s)) with (String quote s). cbn [skip]. change (is_ws quote) with false. cbv iota. change (quote =? quote)%char with true. cbv iota. rewrite (p_str_plain k _ P). reflexivity. Qed.

Ltac pl := repeat (apply plain_cons; split; [reflexivity|]); intros ? [].
Section Msg.
Context {F : Type}.
Variable show : F -> string.
Variable num : string -> F.
Definition row_json (j : nat) (f : F) (x : string) : json :=
  JObj [("Index", JNum (dec (N.of_nat j))); ("Fitness", JNum (show f)); ("Individual", JStr x)].
Lemma p_val_row n j f x rest : printable show num f -> plain x ->
  p_val (S (S (S (S (S n))))) (msg_row show j f x ++ rest) = Some (row_json j f x, rest).
Proof.
  intros [J _] P. unfold msg_row, nl, tab. rewrite !append_assoc.
  set (t1 := dec (N.of_nat j)). set (t2 := show f).
  remember (S (S (S (S n)))) as m eqn:Hm. cbn [p_val].
  match goal with |- context [skip (String "010" "" ++ ?s)] => change (skip (String "010" "" ++ s)) with (String "{" (String "010" (String "009" (String "009" (String quote ("Index" ++ String quote (String ":" (String " " (t1 ++ String "," (String " " (String "010" (String "009" (String "009" (String quote ("Fitness" ++ String quote (String ":" (String " " (t2 ++ String "," (String " " (String "010" (String "009" (String "009" (String quote ("Individual" ++ String quote (String ":" (String " " (String quote (x ++ String quote (String "010" (String "009" (String "}" rest))))))))))))))))))))))))))))))) end.
  cbv beta iota. change ("{" =? quote)%char with false. change ("{" =? "{")%char with true. cbv beta iota.
  match goal with |- context [skip (String "010" ?s)] => set (body := String "010" s) end.
  assert (SK : exists s', skip body = String quote s') by (eexists; reflexivity). destruct SK as (s' & SK). rewrite SK. unfold quote at 1. cbv beta iota.
  subst m body.
  match goal with |- context [p_mem _ (String "010" (String "009" (String "009" ?s)))] => change (String "010" (String "009" (String "009" s))) with ((String "010" (String "009" (String "009" ""))) ++ s) end.
  rewrite p_mem_key; [|reflexivity|pl].
  rewrite p_val_num; [|apply dec_number|reflexivity]. cbn [skip]. change (is_ws ",") with false. cbv iota.
  match goal with |- context [p_mem _ (String " " (String "010" (String "009" (String "009" ?s))))] => change (String " " (String "010" (String "009" (String "009" s)))) with ((String " " (String "010" (String "009" (String "009" "")))) ++ s) end.
  rewrite p_mem_key; [|reflexivity|pl].
  rewrite p_val_num; [|exact J|reflexivity]. cbn [skip]. change (is_ws ",") with false. cbv iota.
  match goal with |- context [p_mem _ (String " " (String "010" (String "009" (String "009" ?s))))] => change (String " " (String "010" (String "009" (String "009" s)))) with ((String " " (String "010" (String "009" (String "009" "")))) ++ s) end.
  rewrite p_mem_key; [|reflexivity|pl].
  cbn [p_val]. match goal with |- context [skip (String " " (String quote ?s))] => change (skip (String " " (String quote s))) with (String quote s) end.
  cbv beta iota. change (quote =? quote)%char with true. cbv iota. rewrite (p_str_plain x _ P). cbn [option_map fst snd].
  change (skip (String "010" (String "009" (String "}" rest)))) with (String "}" rest). cbv beta iota. reflexivity.
Qed.

Variable eval : nat -> nat -> nat -> string -> F.
(** The rows without the final comma. *)
Fixpoint joined (g i j : nat) (xs : list string) : string :=
  match xs with
  | [] => ""
  | [x] => msg_row show j (eval g i j x) x
  | x :: xs' => msg_row show j (eval g i j x) x ++ "," ++ joined g i (S j) xs'
  end.
Lemma chop_app a s : s <> "" -> chop (a ++ s) = a ++ chop s.
Proof.
  intros H. induction a as [|c a IH]; [reflexivity|]. cbn [append chop]. rewrite IH. destruct (a ++ s) eqn:E; [|reflexivity].
  destruct a; [cbn in E; contradiction|discriminate].
Qed.
Lemma row_cons j f x : exists s, msg_row show j f x = String "010" (String "009" (String "{" s)).
Proof. eexists. reflexivity. Qed.
Lemma rows_cons g i j x xs : exists s, msg_rows show eval g i j (x :: xs) = String "010" (String "009" (String "{" s)).
Proof. eexists. reflexivity. Qed.
Lemma joined_cons g i j x xs : exists s, joined g i j (x :: xs) = String "010" (String "009" (String "{" s)).
Proof. destruct xs; eexists; reflexivity. Qed.
Lemma chop_rows g i xs : forall j, xs <> [] -> chop (msg_rows show eval g i j xs) = joined g i j xs.
Proof.
  induction xs as [|x xs IH]; intros j H; [contradiction|]. destruct xs as [|y xs].
  - cbn [msg_rows joined]. rewrite chop_app by discriminate. change (chop ("," ++ "")) with "". apply append_nil.
  - change (msg_rows show eval g i j (x :: y :: xs)) with (msg_row show j (eval g i j x) x ++ "," ++ msg_rows show eval g i (S j) (y :: xs)).
    change (joined g i j (x :: y :: xs)) with (msg_row show j (eval g i j x) x ++ "," ++ joined g i (S j) (y :: xs)).
    rewrite chop_app by discriminate. rewrite chop_app; [rewrite IH by discriminate; reflexivity|].
    destruct (rows_cons g i (S j) y xs) as (s & ->). discriminate.
Qed.
Fixpoint rows_json (g i j : nat) (xs : list string) : list json :=
  match xs with [] => [] | x :: xs' => row_json j (eval g i j x) x :: rows_json g i (S j) xs' end.
Lemma p_elem_rows g i rest xs : forall j n, xs <> [] -> Forall plain xs -> (forall g i j x, printable show num (eval g i j x)) ->
  List.length xs + 5 <= n ->
  p_elem n (joined g i j xs ++ String "010" (String "009" (String "]" rest))) = Some (rows_json g i j xs, rest).
Proof.
  induction xs as [|x xs IH]; intros j n H P Q L; [contradiction|]. inversion P as [|? ? P1 P2]; subst. cbn [List.length] in L.
  destruct n as [|[|[|[|[|[|n]]]]]]; try (exfalso; lia). destruct xs as [|y xs].
  - cbn [joined rows_json p_elem]. rewrite (p_val_row n j _ x _ (Q g i j x) P1). cbn [skip]. change (is_ws "010") with true. change (is_ws "009") with true. change (is_ws "]") with false. cbv iota. reflexivity.
  - change (joined g i j (x :: y :: xs)) with (msg_row show j (eval g i j x) x ++ "," ++ joined g i (S j) (y :: xs)). rewrite !append_assoc.
    remember (S (S (S (S (S n))))) as m eqn:Hm. cbn [p_elem]. rewrite Hm at 1. rewrite (p_val_row n j _ x _ (Q g i j x) P1).
    change (skip ("," ++ ?s)) with (String "," s). cbv beta iota. rewrite IH; [reflexivity|discriminate|exact P2|exact Q|cbn [List.length] in *; lia].
Qed.
Lemma length_app_s a b : String.length (a ++ b) = String.length a + String.length b.
Proof. induction a as [|c a IH]; [reflexivity|]. cbn. rewrite IH. reflexivity. Qed.
Lemma joined_length g i xs : forall j, List.length xs <= String.length (joined g i j xs).
Proof.
  induction xs as [|x xs IH]; intros j; [cbn; lia|]. destruct xs as [|y xs].
  - destruct (joined_cons g i j x []) as (s & ->). cbn. lia.
  - change (joined g i j (x :: y :: xs)) with (msg_row show j (eval g i j x) x ++ "," ++ joined g i (S j) (y :: xs)). rewrite !length_app_s. specialize (IH (S j)).
    destruct (row_cons j (eval g i j x) x) as (s & ->). cbn [String.length List.length] in *. lia.
Qed.
Definition row_of (g i j : nat) (x : string) : aws_row F := AwsRow (as_u32 g) (as_i32 (Z.of_nat j)) (eval g i j x) x.
Fixpoint rows_of (g i j : nat) (xs : list string) : list (aws_row F) :=
  match xs with [] => [] | x :: xs' => row_of g i j x :: rows_of g i (S j) xs' end.
Lemma results_rows g i xs : (forall g i j x, printable show num (eval g i j x)) -> forall j, all_some (map (aws_result num g) (rows_json g i j xs)) = Some (rows_of g i j xs).
Proof.
  intros Q. induction xs as [|x xs IH]; intros j; [reflexivity|]. cbn [rows_json map rows_of].
  assert (R : aws_result num g (row_json j (eval g i j x) x) = Some (row_of g i j x)).
  { unfold aws_result, row_json. cbn [field lookup String.eqb Ascii.eqb Bool.eqb]. rewrite as_i64_dec. cbn [option_map]. rewrite (proj2 (Q g i j x)). unfold row_of. rewrite nat_N_Z. reflexivity. }
  rewrite R. cbn [all_some]. rewrite IH. reflexivity.
Qed.
Definition text (g i : nat) (xs : list string) : string :=
  String "{" (String "010" (String "009" "") ++ String quote ("function" ++ String quote (String ":" (String "[" (joined g i 0 xs ++ String "010" (String "009" (String "]" (String "010" (String "}" ""))))))))).
Lemma msg_text g i xs : xs <> [] -> msg show eval g i xs = text g i xs.
Proof.
  intros H. unfold msg. rewrite chop_app by (destruct xs as [|x xs]; [contradiction|]; destruct (rows_cons g i 0 x xs) as (s & ->); discriminate).
  rewrite chop_rows by exact H. rewrite append_assoc. reflexivity.
Qed.
Lemma p_val_text g i xs n : xs <> [] -> Forall plain xs -> (forall g i j x, printable show num (eval g i j x)) -> List.length xs + 8 <= n ->
  p_val n (text g i xs) = Some (JObj [("function", JArr (rows_json g i 0 xs))], "").
Proof.
  intros H P Q L. destruct n as [|[|[|n]]]; try (exfalso; lia). unfold text.
  remember (S (S n)) as m eqn:Hm. cbn [p_val]. change (skip (String "{" ?s)) with (String "{" s). cbv beta iota.
  change ("{" =? quote)%char with false. change ("{" =? "{")%char with true. cbv beta iota.
  match goal with |- context [skip ?b] => set (body := b) end.
  assert (SK : exists s', skip body = String quote s') by (eexists; reflexivity). destruct SK as (s' & SK). rewrite SK. unfold quote at 1. cbv beta iota. subst m body.
  rewrite p_mem_key; [|reflexivity|pl].
  remember n as m eqn:Hm in |- *. cbn [p_val].
  match goal with |- context [skip (String "[" ?s)] => change (skip (String "[" s)) with (String "[" s) end. cbv beta iota.
  change ("[" =? quote)%char with false. change ("[" =? "{")%char with false. change ("[" =? "[")%char with true. cbv beta iota.
  destruct xs as [|x xs]; [contradiction|].
  match goal with |- context [skip ?b] => assert (SK2 : exists s2, skip b = String "{" s2) by (destruct (joined_cons g i 0 x xs) as (s2 & ->); eexists; reflexivity) end.
  destruct SK2 as (s2 & SK2). rewrite SK2. cbv beta iota. rewrite (p_elem_rows g i _ (x :: xs) 0 m H P Q) by lia. cbn [option_map fst snd].
  change (skip (String "010" (String "}" ""))) with "}". cbv beta iota. reflexivity.
Qed.
Theorem decode_msg g i xs : xs <> [] -> Forall plain xs -> (forall g i j x, printable show num (eval g i j x)) ->
  aws_decode num g (msg show eval g i xs) = Some (rows_of g i 0 xs).
Proof.
  intros H P Q. unfold aws_decode, from_str. rewrite (msg_text g i xs H), (p_val_text g i xs _ H P Q).
  - cbn [skip field lookup String.eqb Ascii.eqb Bool.eqb]. apply results_rows. exact Q.
  - pose proof (joined_length g i xs 0) as JL. unfold text. cbn [append String.length]. rewrite length_app_s. cbn [String.length]. lia.
Qed.
(** A function without individuals sends text that cannot be parsed. *)
Lemma decode_empty g i : aws_decode num g (msg show eval g i []) = None.
Proof. reflexivity. Qed.
End Msg.
