(** * Specification of JSON texts (RFC 8259) *)
From Coq Require Import List NArith ZArith String Ascii.
From Verif Require Import AwsModel.
Import ListNotations.
Local Open Scope string_scope.

Definition one_of (l : list ascii) (s : string) : Prop := forall c, In c (list_ascii_of_string s) -> In c l.
(** Space, tab, line feed, carriage return. *)
Definition blank (w : string) : Prop := one_of [" "; "009"; "010"; "013"]%char w.
Definition digits (s : string) : Prop := one_of ["0"; "1"; "2"; "3"; "4"; "5"; "6"; "7"; "8"; "9"]%char s.

(** A string between its quotes, and what it stands for. *)
Inductive escapes : ascii -> ascii -> Prop :=
| EQuote : escapes "034" "034"
| EBackslash : escapes "\" "\"
| ESlash : escapes "/" "/"
| ELine : escapes "n" "010"
| ETab : escapes "t" "009"
| EReturn : escapes "r" "013"
| EBackspace : escapes "b" "008"
| EForm : escapes "f" "012".
(** Hexadecimal digits and their values; a number of four digits. *)
Inductive hex : ascii -> N -> Prop :=
| HDigit c n : nth_error ["0"; "1"; "2"; "3"; "4"; "5"; "6"; "7"; "8"; "9"]%char n = Some c -> hex c (N.of_nat n)
| HUpper c n : nth_error ["A"; "B"; "C"; "D"; "E"; "F"]%char n = Some c -> hex c (10 + N.of_nat n)
| HLower c n : nth_error ["a"; "b"; "c"; "d"; "e"; "f"]%char n = Some c -> hex c (10 + N.of_nat n).
Inductive four : string -> N -> Prop :=
| Four a b c d x y z w : hex a x -> hex b y -> hex c z -> hex d w ->
    four (String a (String b (String c (String d "")))) (4096 * x + 256 * y + 16 * z + w).
(** UTF-8 (RFC 3629): 7, 11, 16 or 21 bits in groups of six. *)
Definition bytes (l : list N) : string := string_of_list_ascii (map ascii_of_N l).
Inductive encodes : N -> string -> Prop :=
| U1 n : (n < 128)%N -> encodes n (bytes [n])
| U2 a b : (b < 64)%N -> (128 <= 64 * a + b < 2048)%N -> encodes (64 * a + b) (bytes [192 + a; 128 + b]%N)
| U3 a b c : (b < 64)%N -> (c < 64)%N -> (2048 <= 4096 * a + 64 * b + c < 65536)%N ->
    encodes (4096 * a + 64 * b + c) (bytes [224 + a; 128 + b; 128 + c]%N)
| U4 a b c d : (b < 64)%N -> (c < 64)%N -> (d < 64)%N -> (65536 <= 262144 * a + 4096 * b + 64 * c + d)%N ->
    encodes (262144 * a + 4096 * b + 64 * c + d) (bytes [240 + a; 128 + b; 128 + c; 128 + d]%N).
(** A code point below 65536 is written with one number, any other with two, of which the
    first is 55296 (D800) and the upper ten bits, the second 56320 (DC00) and the lower. *)
Inductive chars : string -> string -> Prop :=
| CNil : chars "" ""
| CPlain c t m : 32 <= nat_of_ascii c -> c <> "034"%char -> c <> "\"%char -> chars t m -> chars (String c t) (String c m)
| CEscape e x t m : escapes e x -> chars t m -> chars (String "\" (String e t)) (String x m)
| CCode f n x t m : four f n -> ~ (55296 <= n < 57344)%N -> encodes n x -> chars t m -> chars ("\u" ++ f ++ t) (x ++ m)
| CPair f g hi lo x t m : four f (55296 + hi) -> four g (56320 + lo) -> (hi < 1024)%N -> (lo < 1024)%N ->
    encodes (65536 + 1024 * hi + lo) x -> chars t m -> chars ("\u" ++ f ++ "\u" ++ g ++ t) (x ++ m).

(** Numbers: an optional sign, digits without leading zeros, optional fraction and exponent. *)
Definition number (t : string) : Prop :=
  exists sign int frac exp, t = sign ++ int ++ frac ++ exp /\
    (sign = "" \/ sign = "-") /\
    (int = "0" \/ exists c ds, int = String c ds /\ digits int /\ c <> "0"%char) /\
    (frac = "" \/ exists ds, frac = "." ++ ds /\ ds <> "" /\ digits ds) /\
    (exp = "" \/ exists e sg ds, exp = e ++ sg ++ ds /\ (e = "e" \/ e = "E") /\ (sg = "" \/ sg = "+" \/ sg = "-") /\ ds <> "" /\ digits ds).

Definition quoted (t : string) : string := String "034" t ++ String "034" "".

(** Values; the elements of an array and the members of an object, at least one. *)
Inductive value : json -> string -> Prop :=
| VStr t m : chars t m -> value (JStr m) (quoted t)
| VNum t : number t -> value (JNum t) t
| VLit t : In t ["true"; "false"; "null"] -> value (JLit t) t
| VNoElem w : blank w -> value (JArr []) ("[" ++ w ++ "]")
| VArr l t : elements l t -> value (JArr l) ("[" ++ t ++ "]")
| VNoMem w : blank w -> value (JObj []) ("{" ++ w ++ "}")
| VObj l t : members l t -> value (JObj l) ("{" ++ t ++ "}")
with elements : list json -> string -> Prop :=
| ELast w v t w' : blank w -> value v t -> blank w' -> elements [v] (w ++ t ++ w')
| EMore w v t w' l u : blank w -> value v t -> blank w' -> elements l u -> elements (v :: l) (w ++ t ++ w' ++ "," ++ u)
with members : list (string * json) -> string -> Prop :=
| MLast w k m w1 w2 v t w' : blank w -> chars k m -> blank w1 -> blank w2 -> value v t -> blank w' ->
    members [(m, v)] (w ++ quoted k ++ w1 ++ ":" ++ w2 ++ t ++ w')
| MMore w k m w1 w2 v t w' l u : blank w -> chars k m -> blank w1 -> blank w2 -> value v t -> blank w' -> members l u ->
    members ((m, v) :: l) (w ++ quoted k ++ w1 ++ ":" ++ w2 ++ t ++ w' ++ "," ++ u).
Definition document (v : json) (s : string) : Prop :=
  exists w t w', s = w ++ t ++ w' /\ blank w /\ value v t /\ blank w'.

(** The text of an integer, [-0] excepted, and its value. *)
Definition digit_value (c : ascii) : Z := Z.of_nat (nat_of_ascii c) - 48.
Definition decimal (ds : string) : Z := fold_left (fun v c => 10 * v + digit_value c)%Z (list_ascii_of_string ds) 0%Z.
Definition integer (t : string) (z : Z) : Prop :=
  t <> "-0" /\ exists ds, ds <> "" /\ digits ds /\
    ((t = ds /\ z = decimal ds) \/ (t = "-" ++ ds /\ z = (- decimal ds)%Z)).
