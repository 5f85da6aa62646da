(** * Property theorems: csv files (C111-C113) *)
From Coq Require Import List Bool Arith Ascii String Lia NArith ZArith.
From Verif Require Import NumText NumTextFacts CsvModel CsvSpec CsvProofs.
Import ListNotations.
Local Open Scope nat_scope.
Local Open Scope list_scope.
Local Notation length := List.length.

(** ** C111: what write_csv writes is read back *)
Definition starts_bom (t : bytes) : Prop := firstn 3 t = bom.
Lemma strip_id t : ~ starts_bom t -> strip t = t.
Proof. unfold strip, starts_bom. destruct (list_eq_dec _ _ _); tauto. Qed.
Lemma bom_app n d t : ~ In d bom -> starts_bom (n ++ d :: t) -> starts_bom n.
Proof.
  unfold starts_bom. intros N E. assert (I : forall x, In x (firstn 3 (n ++ d :: t)) -> In x bom) by (intros x X; rewrite E in X; exact X).
  destruct n as [|a [|a2 [|a3 n]]]; try (exfalso; apply N, I; cbn; auto; fail). exact E.
Qed.
Lemma written_bom extra (names : list bytes) rows t : ~ starts_bom (hd [] names) -> names <> [] -> write_all extra names rows = (t, true) -> ~ starts_bom t.
Proof.
  intros B N W. unfold write_all in W. destruct (write_rows extra (length names) rows) as [t2 ok]. injection W as <- _. destruct names as [|n names]; [congruence|]. cbn [hd] in B.
  assert (H : write_fields extra (n :: names) = write_field extra n ++ match names with [] => [] | _ => comma :: write_fields extra names end) by (destruct names; cbn; [rewrite app_nil_r|]; reflexivity).
  assert (Q : forall t', ~ starts_bom (quote :: t')) by (intros t' E; discriminate).
  unfold end_row. rewrite H. unfold write_field. destruct (existsb special n || extra n); [cbn [app]; apply Q|].
  destruct names as [|m names].
  - rewrite app_nil_r. destruct n as [|c n]; [apply Q|]. intros S. apply B. rewrite <- app_assoc in S. cbn [app] in *. refine (bom_app (c :: n) lf t2 _ S). intros [E|[E|[E|[]]]]; discriminate.
  - intros S. apply B. assert (E : match n ++ comma :: write_fields extra (m :: names) with [] => [quote; quote] | _ => n ++ comma :: write_fields extra (m :: names) end = n ++ comma :: write_fields extra (m :: names)) by (destruct n; reflexivity).
    rewrite E, <- !app_assoc in S. cbn [app] in S. refine (bom_app n comma _ _ S). intros [F|[F|[F|[]]]]; discriminate.
Qed.
(** If the disk has room and the rows have as many fields as there are names, then the file
    is read back as the names and the rows, byte for byte, whichever fields the writer
    chooses to quote, and [write_csv] returns [Ok]. *)
Theorem C111_round_trip :
  forall extra cap room (names : list bytes) rows,
    cap <> 0 -> names <> [] -> ~ starts_bom (hd [] names) -> Forall (fun r => length r = length names) rows ->
    length (fst (write_all extra names rows)) <= room ->
    snd (write_csv extra cap room names rows) = WOk /\
    read_rows (fst (write_csv extra cap room names rows)) = names :: rows.
Proof.
  intros extra cap room names rows CAP N B F R. destruct (all_written extra names rows N F) as (t & W & FT). unfold write_csv. rewrite W in *. cbn [fst] in R.
  destruct (puts cap t (Sink [] [] room)) as [k io] eqn:P. destruct (puts_got cap CAP t _ _ _ P) as (L & RM & G); [cbn; lia|]. cbn in RM, G. destruct io; [|lia].
  unfold flush. assert (LE : length (k_buf k) <= k_room k) by (assert (X : length (got k) = length t) by (rewrite G; reflexivity); unfold got in X; rewrite app_length in X; lia).
  apply Nat.leb_le in LE. rewrite LE. cbn [fst snd k_file]. split; [reflexivity|]. change (k_file k ++ k_buf k) with (got k). rewrite G. cbn [app].
  unfold read_rows. rewrite (strip_id _ (written_bom extra names rows t B N W)). apply scan_file with (st := StartRecord); [exact FT|left; reflexivity].
Qed.
Print Assumptions C111_round_trip.
(** So [load_csv!] gives the columns back, for values that are read as they are printed. *)
Theorem C111_load :
  forall V (valid : list bytes -> bool) (ps : list (bytes -> option V)) extra cap room (names : list bytes) rows cols,
    cap <> 0 -> names <> [] -> ~ starts_bom (hd [] names) -> Forall (fun r => length r = length names /\ valid r = true) rows ->
    length (fst (write_all extra names rows)) <= room ->
    length cols = length ps ->
    (forall j p, nth_error ps j = Some p -> exists col, nth_error cols j = Some col /\ column p j rows col) ->
    load_csv valid ps (fst (write_csv extra cap room names rows)) = Some cols.
Proof.
  intros V valid ps extra cap room names rows cols CAP N B F R L C.
  destruct (C111_round_trip extra cap room names rows CAP N B) as [_ RR]; [eapply Forall_impl; [|exact F]; cbn; tauto|exact R|].
  unfold load_csv. rewrite RR. apply load_rows_spec; [apply map_length|]. split; [exact F|]. split; [exact L|]. intros j p P. destruct (C j p P) as (col & C1 & C2). exists [], col.
  split; [|split; [exact C1|exact C2]]. rewrite nth_error_map, P. reflexivity.
Qed.
Print Assumptions C111_load.
(** In particular for integers of any of the integer types: every table of them comes back,
    column by column, whatever the columns' types. *)
Theorem C111_integers :
  forall (valid : list bytes -> bool) (types : list int_type) extra cap room (names : list bytes) (table : list (list Z)),
    (forall r, Forall (Forall (fun c => N_of_ascii c < 128)%N) r -> valid r = true) ->
    cap <> 0 -> names <> [] -> ~ starts_bom (hd [] names) -> Forall (fun t => t_limit t <> 0%N) types ->
    length types = length names -> Forall (Forall2 (fun t z => in_type t z = true) types) table ->
    let rows := map (map (fun z => txt (print_int z))) table in
    length (fst (write_all extra names rows)) <= room ->
    load_csv valid (map (fun t f => parse_int t (string_of_list_ascii f)) types) (fst (write_csv extra cap room names rows)) =
      Some (map (fun j => map (fun r => nth j r 0%Z) table) (seq 0 (length types))).
Proof.
  intros valid types extra cap room names table V CAP N B T L F rows R.
  apply C111_load; try assumption.
  - apply Forall_forall. intros r Hr. apply in_map_iff in Hr. destruct Hr as (zs & <- & Hz). rewrite map_length.
    rewrite Forall_forall in F. pose proof (F zs Hz) as F2. split; [rewrite <- L; clear -F2; induction F2; cbn; congruence|].
    apply V. apply Forall_forall. intros f Hf. apply in_map_iff in Hf. destruct Hf as (z & <- & _). unfold txt.
    pose proof (print_chars z) as P. rewrite forallb_forall in P. apply Forall_forall. intros c Hc. specialize (P c Hc).
    destruct c as [[] [] [] [] [] [] [] []]; vm_compute in P; try discriminate; vm_compute; reflexivity.
  - rewrite !map_length, seq_length. reflexivity.
  - intros j p P. rewrite nth_error_map in P. destruct (nth_error types j) as [t|] eqn:Tj; [|discriminate]. injection P as <-.
    exists (map (fun r => nth j r 0%Z) table). assert (J : j < length types) by (apply nth_error_Some; congruence). split.
    + rewrite nth_error_map. rewrite (nth_error_nth' _ 0) by (rewrite seq_length; exact J). rewrite seq_nth by exact J. reflexivity.
    + unfold column, rows. rewrite Forall_forall in T. pose proof (T t (nth_error_In _ _ Tj)) as Lt. clear -F Tj Lt.
      induction F as [|zs table F2 F IH]; [constructor|]. cbn [map]. constructor; [|exact IH]. clear IH F.
      revert j Tj. induction F2 as [|t' z ts zs R F2 IH]; intros j Tj; [destruct j; discriminate|].
      destruct j as [|j]; [|cbn [map nth nth_error] in *; apply (IH j Tj)]. injection Tj as ->. cbn [map nth nth_error].
      exists (txt (print_int z)). split; [reflexivity|]. unfold txt. rewrite string_of_list_ascii_of_string. apply print_parse; assumption.
Qed.
Print Assumptions C111_integers.
Example C111_integers_concrete :
  let types := [i32_type; u32_type] in let table := [[-2147483648; 0]; [5; 4294967295]]%Z in
  Forall (Forall2 (fun t z => in_type t z = true) types) table /\
  fst (write_csv (fun _ => false) 7 60 [txt "a"; txt "b"] (map (map (fun z => txt (print_int z))) table)) = txt "a,b
-2147483648,0
5,4294967295
" /\
  load_csv (fun _ => true) (map (fun t f => parse_int t (string_of_list_ascii f)) types) (txt "a,b
+5,2147483648
") = Some [[5]; [2147483648]]%Z.
Proof. split; [repeat constructor|]. split; vm_compute; reflexivity. Qed.
(** The rows of a dataframe: the field under each name is the value of that name. *)
Theorem C111_dataframe :
  forall r, length (to_string r) = length (field_names r) /\
    combine (field_names r) (to_string r) =
      [(txt "Simulation", d_conf r); (txt "Run", d_rep r)] ++ d_inputs r ++ d_vecs r ++ d_outputs r ++ [(txt "Run Duration", d_duration r); (txt "Step per sec", d_rate r)].
Proof.
  intros r. unfold to_string, field_names. rewrite !app_length, !map_length. split; [reflexivity|].
  assert (G : forall (l : list (bytes * bytes)) a c, combine (map fst l ++ a) (map snd l ++ c) = l ++ combine a c).
  { induction l as [|[x y] l IH]; intros a c; [reflexivity|]. cbn. f_equal. apply IH. }
  cbn [app combine]. rewrite !G. reflexivity.
Qed.
Print Assumptions C111_dataframe.
(** A string of the input is written as Rust's Debug prints it, and so comes back with
    quotes around it. *)
Theorem C111_strings_refuted :
  let r := Frame (txt "0") (txt "0") [(txt "name", debug (txt "crab"))] [] [] (txt "1") (txt "2") in
  load_csv (fun _ => true) [Some; Some; Some] (fst (write_csv (fun _ => false) 64 1000 (field_names r) [to_string r])) =
    Some [[txt "0"]; [txt "0"]; [txt """crab"""]].
Proof. vm_compute. reflexivity. Qed.
Print Assumptions C111_strings_refuted.
Example C111_concrete :
  let names := [txt "a,b"; txt "c"] in let rows := [[txt "1"; txt ""]; [txt "say ""hi"""; txt "x"]] in
  ~ starts_bom (hd [] names) /\ length (fst (write_all (fun _ => false) names rows)) <= 60 /\
  fst (write_csv (fun _ => false) 7 60 names rows) = txt """a,b"",c
1,
""say """"hi"""""",x
" /\
  load_csv (fun _ => true) [Some; Some] (fst (write_csv (fun _ => false) 7 60 names rows)) = Some [[txt "1"; txt "say ""hi"""]; [txt ""; txt "x"]].
Proof. split; [intros E; discriminate|]. split; [vm_compute; lia|]. split; vm_compute; reflexivity. Qed.

(** ** C112: load_csv! reads every csv file *)
(** For every text that represents records: the columns asked for of all records but the
    first, which is taken as the header, or a panic if a record has another number of
    fields than the header, is not UTF-8, has too few fields or one that does not parse. *)
Theorem C112_load :
  forall V (valid : list bytes -> bool) (ps : list (bytes -> option V)) header rows t cols,
    file_text (header :: rows) t -> ~ starts_bom t ->
    (load_csv valid ps t = Some cols <->
     Forall (fun r => length r = length header /\ valid r = true) rows /\ length cols = length ps /\
     forall j p, nth_error ps j = Some p -> exists col, nth_error cols j = Some col /\ column p j rows col).
Proof.
  intros V valid ps header rows t cols F B. unfold load_csv, read_rows. rewrite (strip_id _ B), (scan_file _ _ F StartRecord (or_introl eq_refl)).
  rewrite load_rows_spec by apply map_length. split; intros (A1 & A2 & A3); (split; [exact A1|]; split; [exact A2|]); intros j p P; destruct (A3 j p P) as (c & H).
  - destruct H as (c' & C & C' & CO). rewrite nth_error_map, P in C. injection C as <-. exists c'. auto.
  - exists [], c. rewrite nth_error_map, P. tauto.
Qed.
Print Assumptions C112_load.
(** A byte order mark before the text changes nothing. *)
Theorem C112_bom :
  forall V (valid : list bytes -> bool) (ps : list (bytes -> option V)) t,
    ~ starts_bom t -> load_csv valid ps (["239"; "187"; "191"]%char ++ t) = load_csv valid ps t.
Proof.
  intros V valid ps t B. unfold load_csv, read_rows. rewrite (strip_id _ B). unfold strip. cbn [app firstn skipn].
  destruct (list_eq_dec _ _ _) as [_|N]; [reflexivity|destruct N; reflexivity].
Qed.
Print Assumptions C112_bom.
(** A file without a header loses its first record. *)
Theorem C112_header_refuted :
  load_csv (fun _ => true) [Some] (txt "1
2
3") = Some [[txt "2"; txt "3"]].
Proof. vm_compute. reflexivity. Qed.
Print Assumptions C112_header_refuted.
Example C112_concrete :
  let t := (txt "x,y" ++ [cr; lf] ++ [cr] ++ txt "1,""a""""b""" ++ [cr; lf; lf] ++ txt ",") in
  file_text [[txt "x"; txt "y"]; [txt "1"; txt "a""b"]; [txt ""; txt ""]] t /\ ~ starts_bom t /\
  load_csv (fun _ => true) [Some; Some] t = Some [[txt "1"; txt ""]; [txt "a""b"; txt ""]] /\
  load_csv (fun _ => true) [Some; Some; Some] t = None.
Proof.
  assert (PL : forall f, existsb special f = false -> field_text f f).
  { intros f E. pose proof (field_written (fun _ => false) f) as W. unfold write_field in W. rewrite E in W. exact W. }
  split; [|split; [intros E; discriminate|split; vm_compute; reflexivity]].
  apply (Record [txt "x"; txt "y"] (txt "x,y")).
  { split; [|discriminate]. apply (FMore (txt "x") (txt "x") [txt "y"] (txt "y")); [apply PL; reflexivity|constructor; apply PL; reflexivity]. }
  { right; reflexivity. }
  apply Blank; [left; reflexivity|]. apply Blank; [right; reflexivity|].
  apply (Record [txt "1"; txt "a""b"] (txt "1,""a""""b""")).
  { split; [|discriminate]. apply (FMore (txt "1") (txt "1") [txt "a""b"] (txt """a""""b""")); [apply PL; reflexivity|]. constructor. apply (Quoted (txt "a""b") (txt "a""""b")).
    apply QOther; [discriminate|]. apply QQuote. apply QOther; [discriminate|]. constructor. }
  { right; reflexivity. }
  apply Blank; [left; reflexivity|]. apply Blank; [left; reflexivity|]. apply LastRecord. split; [|discriminate]. apply (FMore [] [] [[]] []); [apply PL; reflexivity|constructor; apply PL; reflexivity].
Qed.

(** ** C113: what write_csv's result says *)
(** [Err] is returned for rows of a wrong length and when the file cannot be written while
    rows are being added; in any case the file starts as it should. *)
Theorem C113_result_partial :
  forall extra cap room (names : list bytes) rows,
    cap <> 0 ->
    let b := fst (write_all extra names rows) in
    let (file, res) := write_csv extra cap room names rows in
    (res = WOk -> Forall (fun r => length r = length names) rows) /\
    (res = WUnequal -> ~ Forall (fun r => length r = length names) rows) /\
    (res = WIo -> room < length b) /\
    (exists n, file = firstn n b) /\
    (* what an [Ok] may hide is less than what the buffer holds *)
    (res <> WIo -> file = b \/ length b <= length file + cap).
Proof.
  intros extra cap room names rows CAP b. unfold write_csv. unfold b. unfold write_all. pose proof (rows_ok extra (length names) rows) as OK.
  destruct (write_rows extra (length names) rows) as [t ok]. cbn [fst snd] in *. set (bb := end_row (write_fields extra names) ++ t).
  destruct (puts cap bb (Sink [] [] room)) as [k io] eqn:P. destruct (puts_got cap CAP bb _ _ _ P) as (L & RM & G); [cbn; lia|]. cbn in RM, G. unfold flush. destruct io.
  - assert (X : got k = bb) by exact G. assert (RES : forall P Q : Prop, (ok = true -> P) -> (ok = false -> Q) -> ((if ok then WOk else WUnequal) = WOk -> P) /\ ((if ok then WOk else WUnequal) = WUnequal -> Q)) by (intros; destruct ok; split; intros; try discriminate; auto).
    assert (C1 : ok = true -> Forall (fun r => length r = length names) rows) by apply OK.
    assert (C2 : ok = false -> ~ Forall (fun r => length r = length names) rows) by (intros -> F; apply OK in F; discriminate).
    destruct (RES _ _ C1 C2) as [R1 R2]. destruct (Nat.leb_spec (length (k_buf k)) (k_room k)) as [LE|LT]; (split; [exact R1|]; split; [exact R2|]; split; [destruct ok; discriminate|]).
    + cbn [k_file]. change (k_file k ++ k_buf k) with (got k). rewrite X. split; [exists (length bb); symmetry; apply firstn_all|]. left. reflexivity.
    + cbn [k_file]. rewrite <- X. unfold got. split.
      * exists (length (k_file k) + k_room k). rewrite firstn_app, (firstn_all2 (k_file k)) by lia. do 2 f_equal. lia.
      * intros _. right. rewrite !app_length. lia.
  - destruct G as (G1 & G2 & n & G3).
    destruct (Nat.leb_spec (length (k_buf k)) (k_room k)) as [LE|LT]; cbn [k_file]; (split; [discriminate|]; split; [discriminate|]; split; [intros _; lia|]; split; [|congruence]).
    + rewrite G1 in LE. destruct (k_buf k); [|cbn in LE; lia]. rewrite app_nil_r. exists n. exact G3.
    + rewrite G1. cbn [firstn]. rewrite app_nil_r. exists n. exact G3.
Qed.
Print Assumptions C113_result_partial.
(** But [Ok] does not mean that the rows are in the file: errors of the last write, made
    when the writer is dropped, are ignored. *)
Theorem C113_ok_refuted :
  forall extra cap (names : list bytes) rows,
    Forall (fun r => length r = length names) rows -> length (fst (write_all extra names rows)) <= cap -> fst (write_all extra names rows) <> [] ->
    write_csv extra cap 0 names rows = ([], WOk).
Proof.
  intros extra cap names rows F L N. unfold write_csv. unfold write_all in *. apply (rows_ok extra) in F. destruct (write_rows extra (length names) rows) as [t ok]. cbn [fst snd] in *. subst ok.
  set (b := end_row (write_fields extra names) ++ t) in *.
  assert (G : forall x k, length (k_buf k) + length x <= cap -> puts cap x k = (Sink (k_buf k ++ x) (k_file k) (k_room k), true)).
  { induction x as [|c x IH]; intros k H; cbn [puts]; [rewrite app_nil_r; destruct k; reflexivity|]. unfold put. cbn [length] in H. destruct (Nat.ltb_spec (length (k_buf k)) cap); [|lia].
    rewrite IH by (cbn; rewrite app_length; cbn; lia). cbn. rewrite <- app_assoc. reflexivity. }
  rewrite G by (cbn; lia). cbn. destruct b; [congruence|]. reflexivity.
Qed.
Print Assumptions C113_ok_refuted.
Example C113_concrete :
  write_csv (fun _ => false) 64 0 [txt "x"] [[txt "1"]] = ([], WOk) /\
  write_csv (fun _ => false) 2 3 [txt "x"] [[txt "1"]; [txt "2"]] = (txt "x
1", WIo) /\
  write_csv (fun _ => false) 64 100 [txt "x"] [[txt "1"]; [txt "2"; txt "3"]; [txt "4"]] = (txt "x
1
2,3", WUnequal).
Proof. repeat split; vm_compute; reflexivity. Qed.
