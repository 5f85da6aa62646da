(** * Property theorems: plots and their csv files (C54, C81) *)
From Coq Require Import List Bool Arith ZArith String.
From Verif Require Import F32 OptModel F64 PlotModel PlotSpec PlotProofs PlotCsv.
Import ListNotations.
Local Open Scope nat_scope.

(** ** C54: what [DATA] holds after any calls of [addplot!] and [plot!]. *)

(** Partial: the bounds are right for finite numbers given as values, and [plot!] with
    csv needs the csv channel of a [simulate!] with the terminal. *)
Theorem C54_plots_partial : forall names c h,
  Forall pure h -> Forall finite h -> (exists q, c = Open q) \/ Forall no_csv h ->
  exists g, do_ops (Globals [] names c) h = Some g /\
    forall name, match first_add name (since_clear h) with
                 | None => lookup name (data g) = None
                 | Some (xl, yl, st, rest) => exists p, lookup name (data g) = Some p /\ shows name xl yl st rest p
                 end.
Proof.
  intros names c h P F C. destruct (describes_run h names c P C) as (g & E & D & _). exists g. split; [exact E|].
  intros name. specialize (D name). destruct (first_add name (since_clear h)) as [[[[xl yl] st] rest]|] eqn:FA; [|exact D].
  destruct D as (p & L & X). exists p. split; [exact L|]. apply exact_shows; [|exact X].
  apply first_add_sub in FA. rewrite Forall_forall in *. intros o O. apply F. apply since_clear_sub. apply FA. exact O.
Qed.
Print Assumptions C54_plots_partial.

(** A point at infinity: the least x is not the stored minimum (it stays [f64::MAX]). *)
Theorem C54_infinite_refuted : exists h g p, Forall pure h /\ Forall no_csv h /\
  do_ops (Globals [] [] Unset) h = Some g /\ lookup "p" (data g) = Some p /\
  points "p" h = [(S754_infinity false, d0)] /\ ~ least (min_x p) (map fst (points "p" h)).
Proof.
  set (h := [OAdd "p" "x" "y" false false; OPlot "p" "s" (fun _ => S754_infinity false) (fun _ => d0) false]).
  exists h. eexists. eexists. split; [|split; [|split; [|split; [|split]]]].
  - constructor; [exact I|]. constructor; [split; intros; reflexivity|constructor].
  - constructor; [exact I|]. constructor; [reflexivity|constructor].
  - cbv. reflexivity.
  - cbv. reflexivity.
  - reflexivity.
  - intros [H _]. cbv in H. destruct H as [H|[]]. discriminate.
Qed.
Print Assumptions C54_infinite_refuted.

(** The argument expressions are evaluated several times: with one that counts its
    evaluations (0, 1, 2, ...) the point stored has x = 0 and the stored minimum is 2. *)
Theorem C54_expression_refuted : exists h g p, Forall finite h /\ Forall no_csv h /\
  do_ops (Globals [] [] Unset) h = Some g /\ lookup "p" (data g) = Some p /\
  points "p" h = [(d0, d0)] /\ min_x p = d_of_Z 2 /\ ~ least (min_x p) (map fst (points "p" h)).
Proof.
  set (h := [OAdd "p" "x" "y" false false; OPlot "p" "s" (fun k => d_of_Z (Z.of_nat k)) (fun _ => d0) false]).
  exists h. eexists. eexists. split; [|split; [|split; [|split; [|split; [|split]]]]].
  - constructor; [exact I|]. constructor; [split; split; reflexivity|constructor].
  - constructor; [exact I|]. constructor; [reflexivity|constructor].
  - cbv. reflexivity.
  - cbv. reflexivity.
  - reflexivity.
  - reflexivity.
  - intros [H _]. cbv in H. destruct H as [H|[]]. discriminate.
Qed.
Print Assumptions C54_expression_refuted.

(** [plot!(.., csv: true)] on an existing plot panics when no [simulate!] with the
    terminal is running. *)
Theorem C54_csv_refuted : forall names c, c = Unset \/ c = Dropped -> forall s x y,
  do_ops (Globals [] names c) [OAdd "p" "x" "y" false true; OPlot "p" s (fun _ => x) (fun _ => y) true] = None.
Proof.
  intros names c C s x y. cbn. destruct (bound _ _ _ _) as [k1 mnx]. destruct (bound _ _ _ _) as [k2 mxx].
  destruct (bound _ _ _ _) as [j1 mny]. destruct (bound _ _ _ _) as [j2 mxy]. destruct C as [-> | ->]; reflexivity.
Qed.
Print Assumptions C54_csv_refuted.

(** Two plots, one added twice, a plot that does not exist, and a clear before. *)
Definition demo_history : list op :=
  [OAdd "a" "x" "y" true false; OPlot "a" "s" (fun _ => d1) (fun _ => d1) false; OClear;
   OPlot "a" "s" (fun _ => d1) (fun _ => d1) false;
   OAdd "a" "t" "n" false false; OPlot "a" "s" (fun _ => d_of_Z 3) (fun _ => d_of_Z (-2)) false;
   OAdd "a" "other" "other" true true; OPlot "a" "u" (fun _ => d0) (fun _ => d_of_Z 5) false;
   OPlot "a" "s" (fun _ => d_of_Z 7) (fun _ => d0) false].
Example C54_concrete : Forall pure demo_history /\ Forall finite demo_history /\ Forall no_csv demo_history /\
  exists p, option_map data (do_ops (Globals [] [] Unset) demo_history) = Some [("a"%string, p)] /\
    xlabel p = "t"%string /\ to_be_stored p = false /\ lookup "s" (series p) = Some [(d_of_Z 3, d_of_Z (-2)); (d_of_Z 7, d0)] /\
    (min_x p, max_x p, min_y p, max_y p) = (d0, d_of_Z 7, d_of_Z (-2), d_of_Z 5).
Proof.
  split; [repeat (constructor; [first [exact I|split; intros; reflexivity]|]); constructor|].
  split; [repeat (constructor; [first [exact I|split; split; reflexivity]|]); constructor|].
  split; [repeat (constructor; [first [exact I|reflexivity]|]); constructor|].
  eexists. split; [cbv; reflexivity|]. repeat split.
Qed.

(** ** C81: the csv file of a plot holds exactly the rows plotted in that repetition.

    Partial: no csv row during [init], and file names that do not collide. *)
Theorem C81_csv_partial : forall before d reps ts st,
  Forall good_rep reps -> NoDup before -> unambiguous before reps ->
  moves (start d before reps) ts = Some st -> thread st = Done ->
  (forall r rep n xl yl, nth_error reps r = Some rep ->
     In (n, xl, yl) (before ++ flat_map (fun rep => registered [] (fst rep ++ snd rep)) (firstn r reps) ++ registered [] (fst rep)) ->
     filter (same_file (replace n) r) (files st) = [File (replace n) r (xl, yl) (csv_rows n (fst rep ++ snd rep))]) /\
  (forall f, In f (files st) -> exists r rep n xl yl, nth_error reps r = Some rep /\ In (n, xl, yl) (all_registered before reps) /\
     f = File (replace n) r (xl, yl) (csv_rows n (fst rep ++ snd rep))).
Proof.
  intros before d reps ts st G D [U1 U2] M T. pose proof (csv_final d before reps ts st G D U1 M T) as P.
  exact (produced_spec (all_registered before reps) U1 reps 0 before reps (files st) U2 (incl_refl reps) P).
Qed.
Print Assumptions C81_csv_partial.

(** Whatever the two threads have done so far, neither is stuck: both can run to the end,
    so waiting for the csv thread ends (and no call panicked on the way). *)
Theorem C81_completes : forall before d reps ts st, NoDup before ->
  moves (start d before reps) ts = Some st -> exists ts' st', moves st ts' = Some st' /\ thread st' = Done /\ todo st' = [].
Proof.
  intros before d reps ts st D M. destruct (emit_quit (flat_map rep_events reps) d before (sim_events_quit reps)) as (body & T & B1 & B2).
  pose proof (inv_moves _ _ body T ts B1 B2 _ _ (inv_start d before reps D) M) as J. exact (completes _ _ body T B1 B2 (work st) st (le_n _) J).
Qed.
Print Assumptions C81_completes.

(** Rows plotted during [init] go to the file of the repetition before, and those of the
    first repetition are lost. *)
Definition init_reps : list (list op * list op) :=
  let row v := OPlot "p" "s" (fun _ => d_of_Z v) (fun _ => d0) true in
  [([OAdd "p" "x" "y" false true; row 1%Z], [row 2%Z]); ([OAdd "p" "x" "y" false true; row 3%Z], [row 4%Z])].
Theorem C81_init_refuted : exists ts st, moves (start [] [] init_reps) ts = Some st /\ thread st = Done /\
  unambiguous [] init_reps /\
  files st = [File "p" 0 ("x", "y")%string [("s"%string, d_of_Z 2, d0); ("s"%string, d_of_Z 3, d0)]; File "p" 1 ("x", "y")%string [("s"%string, d_of_Z 4, d0)]].
Proof.
  exists (repeat SimTurn 13 ++ repeat CsvTurn 9). eexists. split; [vm_compute; reflexivity|]. split; [reflexivity|]. split; [|reflexivity].
  split.
  - intros t t' [<-|[<-|[]]] [<-|[<-|[]]] _; reflexivity.
  - intros t n [<-|[<-|[]]] N _; cbn in N; repeat (destruct N as [<-|N]; [reflexivity|]); destruct N.
Qed.
Print Assumptions C81_init_refuted.

(** Two plots whose names differ only in "/" and "-" share a file. *)
Definition slash_reps : list (list op * list op) :=
  [([OAdd "a/b" "x" "y" false true; OAdd "a-b" "x" "y" false true],
    [OPlot "a/b" "s" (fun _ => d1) (fun _ => d0) true; OPlot "a-b" "s" (fun _ => d_of_Z 2) (fun _ => d0) true])].
Theorem C81_names_refuted : exists ts st f, moves (start [] [] slash_reps) ts = Some st /\ thread st = Done /\
  Forall good_rep slash_reps /\ files st = [f] /\ f_name f = replace "a/b" /\ f_name f = replace "a-b" /\
  csv_rows "a/b" (fst (hd ([], []) slash_reps) ++ snd (hd ([], []) slash_reps)) = [("s"%string, d1, d0)] /\
  In ("s"%string, d_of_Z 2, d0) (f_rows f).
Proof.
  exists (repeat SimTurn 8 ++ repeat CsvTurn 5). eexists. eexists. split; [vm_compute; reflexivity|]. split; [reflexivity|].
  split.
  { constructor; [|constructor]. split; [|split].
    - repeat (constructor; [first [exact I|split; intros; reflexivity]|]); constructor.
    - repeat (constructor; [exact I|]); constructor.
    - cbn. intuition discriminate. }
  split; [reflexivity|]. split; [reflexivity|]. split; [reflexivity|]. split; [reflexivity|]. cbn. tauto.
Qed.
Print Assumptions C81_names_refuted.

(** Two repetitions with two csv plots, one registered only in the second; the csv thread
    lags behind. *)
Definition demo_reps : list (list op * list op) :=
  [([OAdd "p/q" "x" "y" false true], [OPlot "p/q" "s" (fun _ => d1) (fun _ => d0) true; OPlot "r" "s" (fun _ => d1) (fun _ => d0) true]);
   ([OAdd "p/q" "x" "y" false true; OAdd "r" "t" "n" true true], [OPlot "r" "u" (fun _ => d0) (fun _ => d1) true])].
Example C81_concrete : Forall good_rep demo_reps /\ unambiguous [] demo_reps /\
  exists st, moves (start [] [] demo_reps) (repeat SimTurn 7 ++ [CsvTurn; CsvTurn] ++ repeat SimTurn 6 ++ repeat CsvTurn 5) = Some st /\ thread st = Done /\
    files st = [File "p-q" 0 ("x", "y")%string [("s"%string, d1, d0)]; File "p-q" 1 ("x", "y")%string []; File "r" 1 ("t", "n")%string [("u"%string, d0, d1)]].
Proof.
  split.
  { repeat (constructor; [split; [|split]|]); try constructor;
      try (repeat (constructor; [first [exact I|split; intros; reflexivity|reflexivity]|]); constructor); cbn; try (intuition discriminate).
    all: split; reflexivity. }
  split.
  { split.
    - intros t t' T T' E. cbn in T, T'. repeat destruct T as [<-|T]; repeat destruct T' as [<-|T']; try contradiction; try reflexivity; discriminate.
    - intros t n T N E. cbn in T, N. repeat destruct T as [<-|T]; repeat destruct N as [<-|N]; try contradiction; try reflexivity; discriminate. }
  eexists. split; [vm_compute; reflexivity|]. split; reflexivity.
Qed.
