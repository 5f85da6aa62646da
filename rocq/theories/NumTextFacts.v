(** * Facts about integers as text *)
From Coq Require Import List Bool ZArith NArith Arith Lia Ascii String Decimal DecimalString DecimalN DecimalZ DecimalFacts DecimalPos.
From Verif Require Import AwsModel NumText.
Import ListNotations.
Local Open Scope N_scope.

Fixpoint value (acc : N) (u : uint) : N :=
  match u with
  | Nil => acc
  | D0 l => value (acc * 10) l | D1 l => value (acc * 10 + 1) l | D2 l => value (acc * 10 + 2) l | D3 l => value (acc * 10 + 3) l
  | D4 l => value (acc * 10 + 4) l | D5 l => value (acc * 10 + 5) l | D6 l => value (acc * 10 + 6) l | D7 l => value (acc * 10 + 7) l
  | D8 l => value (acc * 10 + 8) l | D9 l => value (acc * 10 + 9) l
  end.
Lemma value_acc u : forall p, N.pos (Pos.of_uint_acc u p) = value (N.pos p) u.
Proof.
  induction u; intros p; cbn [Pos.of_uint_acc value]; [reflexivity| ..]; rewrite IHu; f_equal; lia.
Qed.
Lemma value_of u : N.of_uint u = value 0 u.
Proof.
  unfold N.of_uint. induction u; cbn [Pos.of_uint value]; try exact IHu; try reflexivity; rewrite value_acc; f_equal; lia.
Qed.
Lemma value_ge u : forall acc, acc <= value acc u.
Proof. induction u; intros acc; cbn [value]; [lia| ..]; (etransitivity; [|apply IHu]); lia. Qed.

Lemma parse_value most u : forall acc, acc <= most ->
  parse_digits most acc (NilEmpty.string_of_uint u) = if value acc u <=? most then Some (value acc u) else None.
Proof.
  assert (STEP : forall acc d u, (forall acc, acc <= most -> parse_digits most acc (NilEmpty.string_of_uint u) =
      if value acc u <=? most then Some (value acc u) else None) ->
    (if acc * 10 + d <=? most then parse_digits most (acc * 10 + d) (NilEmpty.string_of_uint u) else None) =
    if value (acc * 10 + d) u <=? most then Some (value (acc * 10 + d) u) else None).
  { intros acc d v IH. destruct (N.leb_spec (acc * 10 + d) most) as [L|L]; [apply IH; exact L|].
    pose proof (value_ge v (acc * 10 + d)). destruct (N.leb_spec (value (acc * 10 + d) v) most); [lia|reflexivity]. }
  induction u; intros acc L.
  { cbn [NilEmpty.string_of_uint parse_digits value]. destruct (N.leb_spec acc most); [reflexivity|lia]. }
  all: cbn [NilEmpty.string_of_uint parse_digits]; match goal with |- context [is_digit ?c] => change (is_digit c) with true end;
       cbv iota zeta; match goal with |- context [digit_value ?c] => let d := eval vm_compute in (digit_value c) in change (digit_value c) with d end;
       rewrite STEP by exact IHu; cbn [value]; rewrite ?N.add_0_r; reflexivity.
Qed.

Lemma digit_cases c : is_digit c = true -> In c ["0"; "1"; "2"; "3"; "4"; "5"; "6"; "7"; "8"; "9"]%char.
Proof.
  intros H. destruct c as [[] [] [] [] [] [] [] []]; vm_compute in H; try discriminate; cbn; tauto.
Qed.
Lemma parse_only most s : forall acc n, parse_digits most acc s = Some n -> exists u, s = NilEmpty.string_of_uint u.
Proof.
  induction s as [|c s IH]; intros acc n E; cbn [parse_digits] in E; [exists Nil; reflexivity|].
  destruct (is_digit c) eqn:D; [|discriminate]. cbv zeta in E. destruct (_ <=? _); [|discriminate].
  destruct (IH _ _ E) as [u ->]. pose proof (digit_cases c D) as K. cbn in K.
  decompose [or] K; subst; try contradiction;
    [exists (D0 u)|exists (D1 u)|exists (D2 u)|exists (D3 u)|exists (D4 u)|exists (D5 u)|exists (D6 u)|exists (D7 u)|exists (D8 u)|exists (D9 u)]; reflexivity.
Qed.

Lemma parse_some_of most u : u <> Nil -> parse_some most (NilEmpty.string_of_uint u) = if N.of_uint u <=? most then Some (N.of_uint u) else None.
Proof.
  intros N. rewrite value_of, <- parse_value by lia. destruct u; [congruence| ..]; reflexivity.
Qed.
Lemma parse_some_inv most s n : parse_some most s = Some n -> exists u, u <> Nil /\ s = NilEmpty.string_of_uint u /\ n = N.of_uint u /\ n <= most.
Proof.
  intros E. assert (s <> EmptyString) by (intros ->; discriminate). assert (P : parse_digits most 0 s = Some n) by (destruct s; [discriminate|exact E]).
  destruct (parse_only _ _ _ _ P) as [u ->]. assert (N : u <> Nil) by (intros ->; elim H; reflexivity).
  exists u. split; [exact N|]. split; [reflexivity|]. rewrite parse_some_of in E by exact N.
  destruct (N.leb_spec (N.of_uint u) most); [|discriminate]. injection E as <-. auto.
Qed.

(** A text that starts with no sign. *)
Lemma parse_int_digits t u : u <> Nil -> parse_int t (NilEmpty.string_of_uint u) = option_map Z.of_N (parse_some (t_limit t - 1) (NilEmpty.string_of_uint u)).
Proof. intros N. destruct u; [congruence| ..]; reflexivity. Qed.

(** Which texts are read, and as what. *)
Lemma parse_int_iff t s z : t_limit t <> 0 -> (parse_int t s = Some z <->
  exists u, u <> Nil /\ in_type t z = true /\
    ((z = Z.of_N (N.of_uint u) /\ (s = NilEmpty.string_of_uint u \/ s = String "+" (NilEmpty.string_of_uint u))) \/
     (t_signed t = true /\ z = (- Z.of_N (N.of_uint u))%Z /\ s = String "-" (NilEmpty.string_of_uint u)))).
Proof.
  intros L0. unfold in_type.
  assert (POS : forall n u, n = N.of_uint u -> n <= t_limit t - 1 ->
     (((if t_signed t then - Z.of_N (t_limit t) else 0) <=? Z.of_N n)%Z && (Z.of_N n <? Z.of_N (t_limit t))%Z) = true).
  { intros n u _ Le. apply andb_true_iff. split; [apply Z.leb_le; destruct (t_signed t); lia|apply Z.ltb_lt; lia]. }
  split.
  - intros E. assert (C : (exists r, s = String "+" r) \/ (exists r, s = String "-" r) \/ parse_int t s = option_map Z.of_N (parse_some (t_limit t - 1) s)).
    { destruct s as [|c s]; [right; right; reflexivity|]. destruct (ascii_dec c "+") as [->|N1]; [left; eauto|].
      destruct (ascii_dec c "-") as [->|N2]; [right; left; eauto|]. right. right.
      clear E. destruct c as [[] [] [] [] [] [] [] []]; try reflexivity; [elim N1; reflexivity|elim N2; reflexivity]. }
    destruct C as [(r & ->)|[(r & ->)|C]].
    + cbn [parse_int] in E. destruct (parse_some (t_limit t - 1) r) as [n|] eqn:P; [|discriminate]. injection E as <-.
      destruct (parse_some_inv _ _ _ P) as (u & N & -> & -> & Le). exists u. split; [exact N|]. split; [apply (POS _ u); auto|]. left. auto.
    + cbn [parse_int] in E. destruct (t_signed t) eqn:Sg; [|discriminate].
      destruct (parse_some (t_limit t) r) as [n|] eqn:P; [|discriminate]. injection E as <-.
      destruct (parse_some_inv _ _ _ P) as (u & N & -> & -> & Le). exists u. split; [exact N|].
      split; [apply andb_true_iff; split; [apply Z.leb_le; lia|apply Z.ltb_lt; lia]|]. right. auto.
    + rewrite C in E. destruct (parse_some (t_limit t - 1) s) as [n|] eqn:P; [|discriminate]. injection E as <-.
      destruct (parse_some_inv _ _ _ P) as (u & N & -> & -> & Le). exists u. split; [exact N|]. split; [apply (POS _ u); auto|]. left. auto.
  - intros (u & N & R & [(-> & S)|(Sg & -> & ->)]); apply andb_true_iff in R; destruct R as [R1 R2]; apply Z.leb_le in R1; apply Z.ltb_lt in R2.
    + assert (Q : option_map Z.of_N (parse_some (t_limit t - 1) (NilEmpty.string_of_uint u)) = Some (Z.of_N (N.of_uint u))).
      { rewrite parse_some_of by exact N. destruct (N.leb_spec (N.of_uint u) (t_limit t - 1)); [reflexivity|lia]. }
      destruct S as [-> | ->]; [rewrite parse_int_digits by exact N|cbn [parse_int]]; exact Q.
    + cbn [parse_int]. rewrite Sg, parse_some_of by exact N. rewrite Sg in R1.
      destruct (N.leb_spec (N.of_uint u) (t_limit t)); [reflexivity|lia].
Qed.

Lemma to_uint_some p : Pos.to_uint p <> Nil.
Proof. intros E. pose proof (DecimalPos.Unsigned.of_to p) as K. rewrite E in K. discriminate. Qed.
Lemma nz_string u : u <> Nil -> NilZero.string_of_uint u = NilEmpty.string_of_uint u.
Proof. destruct u; [congruence|reflexivity ..]. Qed.

Lemma print_parse t z : t_limit t <> 0 -> in_type t z = true -> parse_int t (print_int z) = Some z.
Proof.
  intros L R. apply parse_int_iff; [exact L|]. unfold print_int, Z.to_int. destruct z as [|p|p].
  - exists (D0 Nil). split; [discriminate|]. split; [exact R|]. left. split; [reflexivity|left; reflexivity].
  - exists (Pos.to_uint p). split; [apply to_uint_some|]. split; [exact R|]. left. cbn [NilZero.string_of_int].
    rewrite (nz_string _ (to_uint_some p)). split; [|left; reflexivity]. unfold N.of_uint. rewrite DecimalPos.Unsigned.of_to. reflexivity.
  - exists (Pos.to_uint p). split; [apply to_uint_some|]. split; [exact R|]. right.
    assert (Sg : t_signed t = true). { unfold in_type in R. destruct (t_signed t); [reflexivity|]. apply andb_true_iff in R. destruct R as [R _]. apply Z.leb_le in R. lia. }
    split; [exact Sg|]. cbn [NilZero.string_of_int]. rewrite (nz_string _ (to_uint_some p)).
    split; [unfold N.of_uint; rewrite DecimalPos.Unsigned.of_to; reflexivity|reflexivity].
Qed.

(** Printed integers are ASCII and have no comma, quote or line end. *)
Definition int_char (c : ascii) : bool := is_digit c || (c =? "-")%char.
Lemma uint_chars u : forallb int_char (list_ascii_of_string (NilEmpty.string_of_uint u)) = true.
Proof. induction u; cbn [NilEmpty.string_of_uint list_ascii_of_string forallb]; [reflexivity| ..]; rewrite IHu; reflexivity. Qed.
Lemma print_chars z : forallb int_char (list_ascii_of_string (print_int z)) = true.
Proof.
  unfold print_int, Z.to_int. destruct z as [|p|p]; [reflexivity| |]; cbn [NilZero.string_of_int list_ascii_of_string forallb];
    rewrite ?(nz_string _ (to_uint_some p)), uint_chars; reflexivity.
Qed.
