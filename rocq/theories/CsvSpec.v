(** * Specification: csv files

    Which texts represent a list of records, whatever choices their author made: a field may
    be quoted, and must be if it has a comma, a quote or a line end; records end with CR, LF
    or both, the last one need not; blank lines mean nothing. *)
From Coq Require Import List Bool Arith Ascii.
From Verif Require Import CsvModel.
Import ListNotations.

Inductive quoted_text : bytes -> bytes -> Prop :=
| QNil : quoted_text [] []
| QQuote f t : quoted_text f t -> quoted_text (quote :: f) (quote :: quote :: t)
| QOther c f t : c <> quote -> quoted_text f t -> quoted_text (c :: f) (c :: t).
Inductive field_text : bytes -> bytes -> Prop :=
| Plain f : (forall c, In c f -> c <> comma /\ c <> quote /\ c <> lf /\ c <> cr) -> field_text f f
| Quoted f t : quoted_text f t -> field_text f (quote :: t ++ [quote]).
Inductive fields_text : list bytes -> bytes -> Prop :=
| FOne f t : field_text f t -> fields_text [f] t
| FMore f t fs ts : field_text f t -> fields_text fs ts -> fields_text (f :: fs) (t ++ comma :: ts).
(** A record's line is not blank. *)
Definition record_text (fs : list bytes) (t : bytes) : Prop := fields_text fs t /\ t <> [].
Definition line_end (c : ascii) : Prop := c = lf \/ c = cr.
Inductive file_text : list (list bytes) -> bytes -> Prop :=
| EndOfFile : file_text [] []
| Blank c rs t : line_end c -> file_text rs t -> file_text rs (c :: t)
| LastRecord fs t : record_text fs t -> file_text [fs] t
| Record fs t c rs t' : record_text fs t -> line_end c -> file_text rs t' -> file_text (fs :: rs) (t ++ c :: t').

(** Column [j] of the rows, read with [p], is [col]. *)
Definition column {V} (p : bytes -> option V) (j : nat) (rows : list (list bytes)) (col : list V) : Prop :=
  Forall2 (fun row v => exists f, nth_error row j = Some f /\ p f = Some v) rows col.
