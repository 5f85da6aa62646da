(** * Model of the terminal user interface

    Models src/utils/monitoring/ui.rs: [TabsState] (L29-53), [UI] (L82-222), [draw] and
    what it reads and changes (L278-634), and one turn of the loop of the terminal thread
    in [simulate!] (src/lib.rs L848-936).

    Not modelled: layout, colours and the other contents of the screen (tui crate), the
    elapsed time, the popup. *)
From Coq Require Import List Bool Arith ZArith NArith String Ascii.
From Verif Require Import F32 OptModel F64.
Import ListNotations.
Local Open Scope nat_scope.

(** [struct UI], ui.rs L82-99; [u_titles] and [u_index] are the fields of [tabs].  An entry
    of [u_reps] is the number printed as label and the value. *)
Record ui := UI {
  u_titles : list string; u_index : nat;
  u_quit : bool; u_chart : bool; u_descr : bool;
  u_selected : option N;
  u_cpu : list (f64 * f64); u_mem : list (f64 * f64);
  u_window : N; u_progress : f64; u_reps : list (N * N);
  u_step : N; u_rep : N; u_tot_reps : N; u_tot_steps : N; u_tot_logs : N }.

(** [UI::new], L101-120. *)
Definition ui_new (tsteps treps : N) : ui :=
  UI ["Home"%string] 0 false true false None [] [] 0 d0 [] 0 0 treps tsteps 0.

(** [TabsState::next] and [previous], L41-53. *)
Definition next_tab (u : ui) : nat := (u_index u + 1) mod List.length (u_titles u).
Definition prev_tab (u : ui) : nat := if 0 <? u_index u then u_index u - 1 else List.length (u_titles u) - 1.

Definition set_index (u : ui) (i : nat) : ui :=
  UI (u_titles u) i (u_quit u) (u_chart u) (u_descr u) (u_selected u) (u_cpu u) (u_mem u) (u_window u) (u_progress u) (u_reps u) (u_step u) (u_rep u) (u_tot_reps u) (u_tot_steps u) (u_tot_logs u).
Definition select (u : ui) (s : option N) : ui :=
  UI (u_titles u) (u_index u) (u_quit u) (u_chart u) (u_descr u) s (u_cpu u) (u_mem u) (u_window u) (u_progress u) (u_reps u) (u_step u) (u_rep u) (u_tot_reps u) (u_tot_steps u) (u_tot_logs u).
Definition set_flags (u : ui) (q c d : bool) : ui :=
  UI (u_titles u) (u_index u) q c d (u_selected u) (u_cpu u) (u_mem u) (u_window u) (u_progress u) (u_reps u) (u_step u) (u_rep u) (u_tot_reps u) (u_tot_steps u) (u_tot_logs u).
Definition set_titles (u : ui) (t : list string) : ui :=
  UI t (u_index u) (u_quit u) (u_chart u) (u_descr u) (u_selected u) (u_cpu u) (u_mem u) (u_window u) (u_progress u) (u_reps u) (u_step u) (u_rep u) (u_tot_reps u) (u_tot_steps u) (u_tot_logs u).
Definition set_logs (u : ui) (n : N) : ui :=
  UI (u_titles u) (u_index u) (u_quit u) (u_chart u) (u_descr u) (u_selected u) (u_cpu u) (u_mem u) (u_window u) (u_progress u) (u_reps u) (u_step u) (u_rep u) (u_tot_reps u) (u_tot_steps u) n.

(** [a - b] on [usize]: with overflow checks (debug build) it panics below 0, without
    (release build) it wraps. *)
Definition usize_sub (checks : bool) (a b : N) : option N :=
  if (b <=? a)%N then Some (a - b)%N else if checks then None else Some (a + 18446744073709551616 - b)%N.

(** [on_up], L121-133, and [on_down], L135-148. *)
Definition on_up (checks : bool) (u : ui) : option ui :=
  match u_selected u with
  | None => Some (select u (Some 0%N))
  | Some i =>
      if (i =? 0)%N then option_map (fun j => select u (Some j)) (usize_sub checks (u_tot_logs u) 1)
      else Some (select u (Some (i - 1)%N))
  end.
Definition on_down (checks : bool) (u : ui) : option ui :=
  match u_selected u with
  | None => Some (select u (Some 0%N))
  | Some i =>
      match usize_sub checks (u_tot_logs u) 1 with
      | None => None
      | Some last => Some (select u (Some (if (last <=? i)%N then 0%N else (i + 1)%N)))
      end
  end.

(** [on_key], L158-182; other characters only write a log. *)
Definition on_char (u : ui) (c : ascii) : ui :=
  (if (c =? "q") || (c =? "Q") then set_flags u true (u_chart u) (u_descr u)
   else if (c =? "c") || (c =? "C") then set_flags u (u_quit u) (negb (u_chart u)) (u_descr u)
   else if (c =? "s") || (c =? "S") then set_flags u (u_quit u) (u_chart u) (negb (u_descr u))
   else u)%char.

Inductive key := KUp | KDown | KLeft | KRight | KChar (c : ascii) | KOther.
(** lib.rs L858-867. *)
Definition on_key (checks : bool) (u : ui) (k : key) : option ui :=
  match k with
  | KUp => on_up checks u
  | KDown => on_down checks u
  | KLeft => Some (set_index u (prev_tab u))
  | KRight => Some (set_index u (next_tab u))
  | KChar c => Some (on_char u c)
  | KOther => Some u
  end.

(** [on_tick], L184-215.  [cpu] and [mem] are the monitor's last values (-1 if none). *)
Definition push_sample (l : list (f64 * f64)) (position value : f64) : list (f64 * f64) :=
  (if 100 <? List.length l then tl l else l) ++ [(dadd position d1, value)].
Definition on_tick (u : ui) (step : N) (progress cpu mem : f64) : ui :=
  let w := if 100 <? List.length (u_cpu u) then (u_window u + 1)%N else u_window u in
  let l := if 100 <? List.length (u_cpu u) then tl (u_cpu u) else u_cpu u in
  let position := fst (List.last l (d0, d0)) in
  UI (u_titles u) (u_index u) (u_quit u) (u_chart u) (u_descr u) (u_selected u)
     (push_sample (u_cpu u) position cpu) (push_sample (u_mem u) position mem) w progress
     (u_reps u) step (u_rep u) (u_tot_reps u) (u_tot_steps u) (u_tot_logs u).
(** [on_rep], L217-222. *)
Definition on_rep (u : ui) (rep value : N) : ui :=
  UI (u_titles u) (u_index u) (u_quit u) (u_chart u) (u_descr u) (u_selected u) (u_cpu u) (u_mem u) (u_window u) (u_progress u)
     (((rep + 1)%N, value) :: u_reps u) (u_step u) rep (u_tot_reps u) (u_tot_steps u) (u_tot_logs u).

(** What a drawn screen shows: the Home tab (the chart's x axis and its samples, if it is
    shown), a plot, or an empty tab. *)
Inductive screen :=
| Home (chart : option (f64 * f64 * list (f64 * f64) * list (f64 * f64)))
| PlotTab (name : string)
| Empty.

(** [LineGauge::ratio] and [Gauge::ratio] (tui crate) assert that the ratio is in [0,1]. *)
Definition ratio_ok (r : f64) : bool := dleb d0 r && dleb r d1.
(** The title of a tab for each name of [DATA] (in the map's unspecified order) that has
    none, L283-287. *)
Definition add_titles (titles names : list string) : list string :=
  fold_left (fun ts n => if existsb (String.eqb n) ts then ts else ts ++ [n]) names titles.
(** [draw], L278-316, with [draw_gauges] (L436-476), [draw_charts] (L478-634) and
    [draw_tab] (L318-414).  [names]: the keys of [DATA]; [nlogs]: the number of logs. *)
Definition draw (u : ui) (names : list string) (nlogs : N) : option (ui * screen) :=
  let u := set_titles u (add_titles (u_titles u) names) in
  match u_index u with
  | O =>
      if ratio_ok (ddiv (d_of_Z (Z.of_N (u_rep u + 1))) (d_of_Z (Z.of_N (u_tot_reps u)))) && ratio_ok (u_progress u) then
        Some (set_logs u nlogs,
              Home (if u_chart u then Some (d_of_Z (Z.of_N (u_window u)), d_of_Z (Z.of_N (u_window u + 100)), u_cpu u, u_mem u) else None))
      else None
  | id =>
      match nth_error (u_titles u) id with
      | None => None
      | Some name => Some (u, if existsb (String.eqb name) names then PlotTab name else Empty)
      end
  end.

(** The messages of the simulation thread, lib.rs L889-932: after a step, after a
    repetition, or none pending. *)
Inductive message := AfterStep (step : N) (progress cpu mem : f64) | AfterRep (rep value : N).
Definition on_message (u : ui) (m : message) : ui :=
  match m with
  | AfterStep s p c m => on_tick u s p c m
  | AfterRep r v => on_rep u r v
  end.

(** One turn of the loop, lib.rs L848-936: draw, at most one key, and unless it was the
    quit key the messages. *)
Record turn := Turn { t_names : list string; t_logs : N; t_key : option key; t_msgs : list message }.
Definition do_turn (checks : bool) (u : ui) (t : turn) : option (ui * screen) :=
  match draw u (t_names t) (t_logs t) with
  | None => None
  | Some (u1, s) =>
      match (match t_key t with None => Some u1 | Some k => on_key checks u1 k end) with
      | None => None
      | Some u2 => Some (if u_quit u2 then u2 else fold_left on_message (t_msgs t) u2, s)
      end
  end.
(** The loop: the screens drawn and the last state; [None] is a panic.  [u_quit] leaves
    the loop. *)
Fixpoint session (checks : bool) (u : ui) (ts : list turn) : option (ui * list screen) :=
  match ts with
  | [] => Some (u, [])
  | t :: ts' =>
      match do_turn checks u t with
      | None => None
      | Some (u1, s) =>
          if u_quit u1 then Some (u1, [s])
          else match session checks u1 ts' with None => None | Some (u2, ss) => Some (u2, s :: ss) end
      end
  end.

(** The progress the simulation thread sends, lib.rs L1049-1055. *)
Definition progress_of (i n : N) : f64 := ddiv (d_of_Z (Z.of_N (i + 1))) (d_of_Z (Z.of_N n)).

(** The axes of a plot's tab, ui.rs L374-408: [SCALE_X] is 10, [SCALE_Y] is 0.2 (L10-11). *)
Definition scale_x : f64 := d_of_Z 10.
Definition scale_y : f64 := S754_finite false 7205759403792794 (-55).
Definition x_axis (min_x max_x : f64) : f64 * f64 := (min_x, dadd max_x scale_x).
Definition y_axis (min_y max_y : f64) : f64 * f64 := (min_y, dadd max_y (dmul max_y scale_y)).
