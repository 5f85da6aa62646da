(** * Model of the plots and of the csv thread

    [PlotData::new] (src/lib.rs L513-525), [plot!] (L1241-1280), [addplot!] (L1356-1390)
    and the csv thread of [simulate!] (L949-1003) with the messages the simulation thread
    sends it (L1006-1126).

    Not modelled: the PNG files ([store_plot], plotters crate), the text of a number in a
    csv file ([to_string]), quoting (csv crate) and I/O errors. *)
From Coq Require Import List Bool Arith ZArith String Ascii.
From Verif Require Import F32 OptModel F64.
Import ListNotations.
Local Open Scope nat_scope.

Notation point := (f64 * f64)%type (only parsing).

(** A [HashMap<String, V>]; the order of its entries is never observed here. *)
Fixpoint lookup {V} (k : string) (m : list (string * V)) : option V :=
  match m with
  | [] => None
  | (k', v) :: m' => if String.eqb k' k then Some v else lookup k m'
  end.
Fixpoint update {V} (k : string) (v : V) (m : list (string * V)) : list (string * V) :=
  match m with
  | [] => [(k, v)]
  | (k', v') :: m' => if String.eqb k' k then (k', v) :: m' else (k', v') :: update k v m'
  end.

(** [struct PlotData], lib.rs L489-508 (the name is the key of the map). *)
Record plot_data := PlotData {
  series : list (string * list point);
  min_x : f64; max_x : f64; min_y : f64; max_y : f64;
  xlabel : string; ylabel : string; to_be_stored : bool }.
(** [PlotData::new], L513-525. *)
Definition plot_new (xl yl : string) (st : bool) : plot_data :=
  PlotData [] f64_max f64_min f64_max f64_min xl yl st.

(** [MessageType], the variants sent to the csv thread. *)
Inductive message :=
| Init
| Plot (name serie : string) (x y : f64)
| EndOfSimulation
| Quit.

(** [CSV_SENDER]: [None] until a [simulate!] with the terminal runs (L941-947); the
    receiver is dropped when the csv thread returns. *)
Inductive channel := Unset | Open (queue : list message) | Dropped.
(** [CSV_SENDER.lock().unwrap().as_ref().unwrap().send(m).expect(..)]. *)
Definition send (c : channel) (m : message) : option channel :=
  match c with Open q => Some (Open (q ++ [m])) | _ => None end.

(** The global variables [DATA], [PLOT_NAMES] (a [HashSet] of name and labels) and
    [CSV_SENDER]. *)
Record globals := Globals {
  data : list (string * plot_data);
  plot_names : list (string * string * string);
  csv : channel }.

(** [names.insert((name, xlabel, ylabel))]. *)
Definition name_eqb (a b : string * string * string) : bool :=
  let '(n, x, y) := a in let '(n', x', y') := b in
  String.eqb n n' && String.eqb x x' && String.eqb y y'.
Definition insert_name (n : string * string * string) (l : list (string * string * string)) :=
  if existsb (name_eqb n) l then l else l ++ [n].

(** [if $e < min { min = $e }] (L1252-1263): the macro pastes the argument expression,
    so it is evaluated again by the comparison and once more by the assignment.  [e k] is
    the value of its [k]-th evaluation; the pair returned is the number of evaluations so
    far and the bound. *)
Definition bound (lt : f64 -> f64 -> bool) (e : nat -> f64) (k : nat) (cur : f64) : nat * f64 :=
  if lt (e k) cur then (k + 2, e (k + 1)) else (k + 1, cur).

(** [plot!], L1241-1280: [None] is a panic.  The names are plain values. *)
Definition plot (g : globals) (name serie : string) (ex ey : nat -> f64) (save_csv : bool) : option globals :=
  match lookup name (data g) with
  | None => Some g                                                     (* L1244 *)
  | Some p =>
      let old := match lookup serie (series p) with None => [] | Some l => l end in
      let ss := update serie (old ++ [(ex 0, ey 0)]) (series p) in      (* L1245-1250 *)
      let '(k1, mnx) := bound dltb ex 1 (min_x p) in                    (* L1252-1254 *)
      let '(k2, mxx) := bound dgtb ex k1 (max_x p) in                   (* L1255-1257 *)
      let '(j1, mny) := bound dltb ey 1 (min_y p) in                    (* L1258-1260 *)
      let '(j2, mxy) := bound dgtb ey j1 (max_y p) in                   (* L1261-1263 *)
      let p' := PlotData ss mnx mxx mny mxy (xlabel p) (ylabel p) (to_be_stored p) in
      let d := update name p' (data g) in
      if save_csv then                                                 (* L1265-1276 *)
        match send (csv g) (Plot name serie (ex k2) (ey j2)) with
        | None => None
        | Some c => Some (Globals d (plot_names g) c)
        end
      else Some (Globals d (plot_names g) (csv g))
  end.

(** [addplot!], L1356-1390. *)
Definition addplot (g : globals) (name xl yl : string) (save_plot save_csv : bool) : globals :=
  match lookup name (data g) with
  | Some _ => g
  | None =>
      Globals (update name (plot_new xl yl save_plot) (data g))
              (if save_csv then insert_name (name, xl, yl) (plot_names g) else plot_names g)
              (csv g)
  end.

Inductive op :=
| OAdd (name xl yl : string) (save_plot save_csv : bool)
| OPlot (name serie : string) (ex ey : nat -> f64) (save_csv : bool)
| OClear.                                   (* [DATA.lock().unwrap().clear()], L1017 *)
Definition do_op (g : globals) (o : op) : option globals :=
  match o with
  | OAdd n xl yl sp sc => Some (addplot g n xl yl sp sc)
  | OPlot n s ex ey sc => plot g n s ex ey sc
  | OClear => Some (Globals [] (plot_names g) (csv g))
  end.
Fixpoint do_ops (g : globals) (ops : list op) : option globals :=
  match ops with
  | [] => Some g
  | o :: ops' => match do_op g o with None => None | Some g' => do_ops g' ops' end
  end.

(** ** The csv thread, lib.rs L949-1003 *)

(** [name.replace("/", "-")]. *)
Fixpoint replace (s : string) : string :=
  match s with
  | EmptyString => EmptyString
  | String c s' => String (if Ascii.eqb c "/" then "-" else c)%char (replace s')
  end.

Definition row : Type := string * f64 * f64.
(** One csv file: its name without the repetition, the repetition, the labels in the
    header, the rows below it. *)
Record file := File { f_name : string; f_rep : nat; f_labels : string * string; f_rows : list row }.
Definition same_file (n : string) (r : nat) (f : file) : bool := String.eqb (f_name f) n && (f_rep f =? r).

(** [Writer::from_path] truncates or creates the file; the header is written. *)
Definition open_file (fs : list file) (rep : nat) (n : string * string * string) : list file :=
  let '(name, x, y) := n in
  filter (fun f => negb (same_file (replace name) rep f)) fs ++ [File (replace name) rep (x, y) []].
(** [open_files], L951-966: one writer per entry of [PLOT_NAMES] (the list's order stands
    for the set's).  A writer is the name and repetition of its file. *)
Definition open_files (names : list (string * string * string)) (rep : nat) (fs : list file)
  : list (string * nat) * list file :=
  (map (fun n => (replace (fst (fst n)), rep)) names, fold_left (fun fs n => open_file fs rep n) names fs).
(** One [write_record].  Two writers of one file each append here; in the program they
    overwrite each other's bytes. *)
Definition write_row (fs : list file) (w : string * nat) (r : row) : list file :=
  map (fun f => if same_file (fst w) (snd w) f then File (f_name f) (f_rep f) (f_labels f) (f_rows f ++ [r]) else f) fs.

Inductive csv_thread :=
| Waiting                                                 (* the first [recv], L971 *)
| Running (rep_counter : nat) (writers : list (string * nat))
| Done.

(** One received message.  [names] is [PLOT_NAMES] when the message is handled. *)
Definition csv_step (names : list (string * string * string)) (t : csv_thread) (fs : list file) (m : message)
  : csv_thread * list file :=
  match t, m with
  | Waiting, Quit => (Done, fs)                                                    (* L972-974 *)
  | Waiting, _ => let (ws, fs') := open_files names 0 fs in (Running 0 ws, fs')     (* L975 *)
  | Running k _, Init => let (ws, fs') := open_files names k fs in (Running k ws, fs')   (* L982-984 *)
  | Running k ws, Plot n s x y =>                                                  (* L985-992 *)
      (Running k ws, fold_left (fun fs w => if String.eqb (replace n) (fst w) then write_row fs w (s, x, y) else fs) ws fs)
  | Running k ws, EndOfSimulation => (Running (k + 1) ws, fs)                      (* L993-995 *)
  | Running _ _, Quit => (Done, fs)                                                (* L996 *)
  | Done, _ => (Done, fs)
  end.

(** ** The simulation thread and the csv thread together *)

(** What the simulation thread does with plots and csv messages. *)
Inductive sim_event := Do (o : op) | Send (m : message).
(** One repetition, L1011-1120: [DATA] is cleared, [init] runs, [Init] is sent, the steps
    run, [EndOfSimulation] is sent.  [fst rep] and [snd rep] are the plot calls [init]
    and the steps make. *)
Definition rep_events (rep : list op * list op) : list sim_event :=
  Do OClear :: map Do (fst rep) ++ Send Init :: map Do (snd rep) ++ [Send EndOfSimulation].
Definition sim_events (reps : list (list op * list op)) : list sim_event :=
  flat_map rep_events reps ++ [Send Quit].

Record state := State { st_g : globals; todo : list sim_event; thread : csv_thread; files : list file }.

(** One move of either thread; [None]: it cannot move or the simulation panics. *)
Inductive turn := SimTurn | CsvTurn.
Definition move (st : state) (t : turn) : option state :=
  match t with
  | SimTurn =>
      match todo st with
      | [] => None
      | Do o :: es =>
          match do_op (st_g st) o with
          | None => None
          | Some g => Some (State g es (thread st) (files st))
          end
      | Send m :: es =>
          match send (csv (st_g st)) m with
          | None => None
          | Some c => Some (State (Globals (data (st_g st)) (plot_names (st_g st)) c) es (thread st) (files st))
          end
      end
  | CsvTurn =>
      match csv (st_g st) with
      | Open (m :: q) =>
          let (t', fs) := csv_step (plot_names (st_g st)) (thread st) (files st) m in
          let c := match t' with Done => Dropped | _ => Open q end in
          Some (State (Globals (data (st_g st)) (plot_names (st_g st)) c) (todo st) t' fs)
      | _ => None
      end
  end.
Fixpoint moves (st : state) (ts : list turn) : option state :=
  match ts with
  | [] => Some st
  | t :: ts' => match move st t with None => None | Some st' => moves st' ts' end
  end.
(** [names]: [PLOT_NAMES] when [simulate!] starts (it is never cleared). *)
Definition start (d : list (string * plot_data)) (names : list (string * string * string)) (reps : list (list op * list op)) : state :=
  State (Globals d names (Open [])) (sim_events reps) Waiting [].
