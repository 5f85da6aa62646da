(** * What the plots and the csv files are meant to hold *)
From Coq Require Import List Bool Arith String.
From Verif Require Import F32 OptModel F64 PlotModel.
Import ListNotations.

(** The calls since [DATA] was last cleared. *)
Definition since_clear (h : list op) : list op :=
  fold_left (fun acc o => match o with OClear => [] | _ => acc ++ [o] end) h [].

(** The first [addplot!] of [name]: its labels, whether the plot is stored, and the calls
    after it. *)
Fixpoint first_add (name : string) (h : list op) : option (string * string * bool * list op) :=
  match h with
  | [] => None
  | OAdd n xl yl st _ :: h' => if String.eqb n name then Some (xl, yl, st, h') else first_add name h'
  | _ :: h' => first_add name h'
  end.

(** The [plot!] calls to [name], in order: series, point, and whether the point goes to
    the csv file too. *)
Definition calls_to (name : string) (h : list op) : list (string * point * bool) :=
  flat_map (fun o => match o with
                     | OPlot n s ex ey c => if String.eqb n name then [(s, (ex 0, ey 0), c)] else []
                     | _ => []
                     end) h.
Definition points (name : string) (h : list op) : list point := map (fun c => snd (fst c)) (calls_to name h).
Definition points_in (name serie : string) (h : list op) : list point :=
  map (fun c => snd (fst c)) (filter (fun c => String.eqb (fst (fst c)) serie) (calls_to name h)).

(** The arguments of every [plot!] are values, not expressions with side effects. *)
Definition pure (o : op) : Prop :=
  match o with OPlot _ _ ex ey _ => (forall k, ex k = ex 0) /\ (forall k, ey k = ey 0) | _ => True end.
(** ... and they are finite numbers. *)
Definition finite (o : op) : Prop :=
  match o with OPlot _ _ ex ey _ => dok (ex 0) /\ dok (ey 0) | _ => True end.
Definition no_csv (o : op) : Prop := match o with OPlot _ _ _ _ c => c = false | _ => True end.

(** [m] is a least / greatest element of [l]. *)
Definition least (m : f64) (l : list f64) : Prop := In m l /\ forall v, In v l -> dleb m v = true.
Definition greatest (m : f64) (l : list f64) : Prop := In m l /\ forall v, In v l -> dleb v m = true.

(** The plot [p] after the calls [rest] made since it was created. *)
Definition shows (name : string) (xl yl : string) (st : bool) (rest : list op) (p : plot_data) : Prop :=
  xlabel p = xl /\ ylabel p = yl /\ to_be_stored p = st /\
  (forall s, lookup s (series p) = match points_in name s rest with [] => None | l => Some l end) /\
  (points name rest <> [] ->
     least (min_x p) (map fst (points name rest)) /\ greatest (max_x p) (map fst (points name rest)) /\
     least (min_y p) (map snd (points name rest)) /\ greatest (max_y p) (map snd (points name rest))).

(** The plots registered for csv by the calls [h], made with an empty [DATA]: the first
    [addplot!] of the name in [h] asks for csv. *)
Fixpoint registered (seen : list string) (h : list op) : list (string * string * string) :=
  match h with
  | [] => []
  | OAdd n xl yl _ c :: h' =>
      if existsb (String.eqb n) seen then registered seen h'
      else (if c then [(n, xl, yl)] else []) ++ registered (n :: seen) h'
  | _ :: h' => registered seen h'
  end.

(** The rows [plot!] sends to the csv file of [name] in the calls [h], made with an empty
    [DATA]: those after the plot was added. *)
Definition csv_rows (name : string) (h : list op) : list row :=
  match first_add name h with
  | None => []
  | Some (_, _, _, rest) =>
      map (fun c => (fst (fst c), fst (snd (fst c)), snd (snd (fst c)))) (filter snd (calls_to name rest))
  end.

(** ** The csv files *)
Notation names_t := (list (string * string * string)) (only parsing).
(** Everything ever registered: [before] the simulation and by each repetition. *)
Definition all_registered (before : names_t) (reps : list (list op * list op)) : names_t :=
  before ++ flat_map (fun rep => registered [] (fst rep ++ snd rep)) reps.
(** The plots a repetition sends csv rows to. *)
Definition plotted (reps : list (list op * list op)) : list string :=
  flat_map (fun rep => flat_map (fun o => match o with OPlot n _ _ _ true => [n] | _ => [] end) (fst rep ++ snd rep)) reps.
(** Different plots have different file names, and no plot is registered with two pairs
    of labels. *)
Definition unambiguous (before : names_t) (reps : list (list op * list op)) : Prop :=
  (forall t t', In t (all_registered before reps) -> In t' (all_registered before reps) ->
     replace (fst (fst t)) = replace (fst (fst t')) -> t = t') /\
  (forall t n, In t (all_registered before reps) -> In n (plotted reps) -> replace (fst (fst t)) = replace n -> fst (fst t) = n).
(** What the code of one repetition may do: value arguments, no csv row during [init], and
    only the engine clears [DATA]. *)
Definition good_rep (rep : list op * list op) : Prop :=
  Forall pure (fst rep ++ snd rep) /\ Forall no_csv (fst rep) /\ ~ In OClear (fst rep ++ snd rep).
