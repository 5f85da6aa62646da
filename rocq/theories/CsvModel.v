(** * Model of write_csv and load_csv!

    src/lib.rs L1776-1796 and L1872-1893, and the rows of the dataframes
    (src/explore/model_exploration.rs L462-497, src/explore/genetic.rs L24-52).  The crate
    [csv] (external) is modelled by its documented default behaviour: comma-separated,
    double quotes around fields that need them and doubled inside, rows written with [\n] and read with [\r], [\n] or
    [\r\n], blank lines skipped, the first row read is the header, and rows whose number of
    fields differs from that of the first row are an error.  Characters are bytes. *)
From Coq Require Import List Bool Arith Ascii String.
Import ListNotations.
Local Open Scope list_scope.
Local Notation length := List.length.

Definition bytes := list ascii.
Definition comma : ascii := ","%char.
Definition quote : ascii := """"%char.
Definition lf : ascii := "010"%char.
Definition cr : ascii := "013"%char.
Definition special (c : ascii) : bool := Ascii.eqb c comma || Ascii.eqb c quote || Ascii.eqb c lf || Ascii.eqb c cr.

(** ** The writer *)
Section Writer.
(** Fields the writer quotes although it need not. *)
Variable extra : bytes -> bool.
Definition double (f : bytes) : bytes := flat_map (fun c => if Ascii.eqb c quote then [quote; quote] else [c]) f.
Definition write_field (f : bytes) : bytes :=
  if existsb special f || extra f then [quote] ++ double f ++ [quote] else f.
Fixpoint write_fields (fs : list bytes) : bytes :=
  match fs with
  | [] => []
  | [f] => write_field f
  | f :: fs' => write_field f ++ [comma] ++ write_fields fs'
  end.
(** The end of a row; a row without any byte is written as an empty quoted field. *)
Definition end_row (row : bytes) : bytes := (match row with [] => [quote; quote] | _ => row end) ++ [lf].

(** What is handed to the writer's buffer, and whether a row has the wrong length (its
    fields are written before this is noticed). *)
Fixpoint write_rows (n : nat) (rows : list (list bytes)) : bytes * bool :=
  match rows with
  | [] => ([], true)
  | r :: rows' =>
      if Nat.eqb (length r) n
      then let (b, ok) := write_rows n rows' in (end_row (write_fields r) ++ b, ok)
      else (write_fields r, false)
  end.
Definition write_all (names : list bytes) (rows : list (list bytes)) : bytes * bool :=
  let (b, ok) := write_rows (length names) rows in (end_row (write_fields names) ++ b, ok).

(** The buffer, of [cap] bytes, is written to the file when it is full and more is to come;
    [room]: how many bytes the file system still takes. *)
Variable cap : nat.
Record sink := Sink { k_buf : bytes; k_file : bytes; k_room : nat }.
Definition flush (k : sink) : sink * bool :=
  let n := length (k_buf k) in
  if Nat.leb n (k_room k) then (Sink [] (k_file k ++ k_buf k) (k_room k - n), true)
  else (Sink (k_buf k) (k_file k ++ firstn (k_room k) (k_buf k)) 0, false).
Definition put (c : ascii) (k : sink) : sink * bool :=
  if Nat.ltb (length (k_buf k)) cap then (Sink (k_buf k ++ [c]) (k_file k) (k_room k), true)
  else let (k', ok) := flush k in if ok then (Sink (k_buf k' ++ [c]) (k_file k') (k_room k'), true) else (k', false).
Fixpoint puts (b : bytes) (k : sink) : sink * bool :=
  match b with
  | [] => (k, true)
  | c :: b' => let (k', ok) := put c k in if ok then puts b' k' else (k', false)
  end.

Inductive wres := WOk | WUnequal | WIo.
(** [write_csv], L1776-1787, when the file can be created (otherwise L1778 panics): the file
    afterwards and the result.  The writer is dropped at L1787 and then flushes its buffer;
    an error of that flush is ignored. *)
Definition write_csv (room : nat) (names : list bytes) (rows : list (list bytes)) : bytes * wres :=
  let (b, ok) := write_all names rows in
  let (k, io) := puts b (Sink [] [] room) in
  let (k', _) := flush k in
  (k_file k', if io then (if ok then WOk else WUnequal) else WIo).
End Writer.

(** ** The reader *)
Inductive rst := StartRecord | StartField | InField | InQuoted | AfterQuote | AfterCr.
(** [fld]: the bytes of the current field, [rec]: the fields before it, both in order. *)
Fixpoint scan (st : rst) (fld : bytes) (rec : list bytes) (t : bytes) : list (list bytes) :=
  match t with
  | [] => match st with StartRecord | AfterCr => [] | _ => [rec ++ [fld]] end
  | c :: t' =>
      let outside (copy : bytes) :=
        if Ascii.eqb c comma then scan StartField [] (rec ++ [fld]) t'
        else if Ascii.eqb c lf then (rec ++ [fld]) :: scan StartRecord [] [] t'
        else if Ascii.eqb c cr then (rec ++ [fld]) :: scan AfterCr [] [] t'
        else scan InField copy rec t' in
      match st with
      | StartRecord | AfterCr =>
          if Ascii.eqb c lf || Ascii.eqb c cr then scan StartRecord [] [] t'
          else if Ascii.eqb c quote then scan InQuoted [] [] t'
          else outside [c]
      | StartField => if Ascii.eqb c quote then scan InQuoted [] rec t' else outside [c]
      | InField => outside (fld ++ [c])
      | InQuoted => if Ascii.eqb c quote then scan AfterQuote fld rec t' else scan InQuoted (fld ++ [c]) rec t'
      | AfterQuote => if Ascii.eqb c quote then scan InQuoted (fld ++ [quote]) rec t' else outside (fld ++ [c])
      end
  end.
(** A byte order mark at the start is skipped. *)
Definition bom : bytes := ["239"%char; "187"%char; "191"%char].
Definition strip (t : bytes) : bytes := if list_eq_dec ascii_dec (firstn 3 t) bom then skipn 3 t else t.
Definition read_rows (t : bytes) : list (list bytes) := scan StartRecord [] [] (strip t).

Section Load.
Context {V : Type}.
(** Whether a row is valid UTF-8. *)
Variable valid : list bytes -> bool.
(** One record: [record[i].parse()] for each column (L1884-1888); [None]: a panic. *)
Fixpoint load_record (ps : list (bytes -> option V)) (r : list bytes) : option (list V) :=
  match ps, r with
  | [], _ => Some []
  | p :: ps', f :: r' =>
      match p f, load_record ps' r' with
      | Some v, Some vs => Some (v :: vs)
      | _, _ => None
      end
  | _ :: _, [] => None
  end.
(** The rows after the header: each is pushed to the columns. *)
Fixpoint push (cols : list (list V)) (vs : list V) : list (list V) :=
  match cols, vs with
  | c :: cols', v :: vs' => (c ++ [v]) :: push cols' vs'
  | _, _ => cols
  end.
Fixpoint load_rows (ps : list (bytes -> option V)) (n : nat) (rows : list (list bytes)) (cols : list (list V)) : option (list (list V)) :=
  match rows with
  | [] => Some cols
  | r :: rows' =>
      if Nat.eqb (length r) n && valid r
      then match load_record ps r with Some vs => load_rows ps n rows' (push cols vs) | None => None end
      else None
  end.
(** [load_csv!], L1872-1893; [ps]: the parsers of the columns asked for. *)
Definition load_csv (ps : list (bytes -> option V)) (t : bytes) : option (list (list V)) :=
  let cols := map (fun _ => []) ps in
  match read_rows t with
  | [] => Some cols
  | h :: rows => load_rows ps (length h) rows cols
  end.
End Load.

(** ** Rows of a dataframe *)
(** [build_dataframe!], model_exploration.rs L462-497: inputs, vectors and outputs with their
    names and their values as printed by [{:?}]. *)
Record frame := Frame { d_conf : bytes; d_rep : bytes; d_inputs : list (bytes * bytes); d_vecs : list (bytes * bytes); d_outputs : list (bytes * bytes); d_duration : bytes; d_rate : bytes }.
Definition txt (s : string) : bytes := list_ascii_of_string s.
(** [field_names], L474-478. *)
Definition field_names (r : frame) : list bytes :=
  [txt "Simulation"; txt "Run"] ++ map fst (d_inputs r) ++ map fst (d_vecs r) ++ map fst (d_outputs r) ++ [txt "Run Duration"; txt "Step per sec"].
(** [to_string], L480-497. *)
Definition to_string (r : frame) : list bytes :=
  [d_conf r; d_rep r] ++ map snd (d_inputs r) ++ map snd (d_vecs r) ++ map snd (d_outputs r) ++ [d_duration r; d_rate r].
(** [{:?}] of a string of letters and digits. *)
Definition debug (s : bytes) : bytes := [quote] ++ s ++ [quote].
