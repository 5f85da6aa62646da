(** * Model of the logs

    Models [log!] (src/lib.rs L1418-1441), [Log] and its [Display] (L637-672), what
    [simulate!] does with [LOGS] (L1012-1015 and L1133-1149), and the list of logs in the
    Home tab (ui.rs L498-524).  Every access holds the lock of [LOGS], so it is one
    step.  Not modelled: a message expression that itself logs (it would wait for the
    lock it holds). *)
From Coq Require Import List Bool String.
Import ListNotations.

Inductive log_type := Info | Warning | Error | Critical.
Record log := Log { l_type : log_type; l_body : string; l_stored : bool }.

(** L646-655 and L668-672: two spaces between type and body. *)
Definition type_name (t : log_type) : string :=
  match t with Info => "Info: " | Warning => "Warning: " | Error => "Error: " | Critical => "Critical: " end.
Definition display (l : log) : string := type_name (l_type l) ++ " " ++ l_body l.

(** [log!] and the start of a repetition. *)
Inductive log_op := LLog (l : log) | LNewRep.
Definition log_step (logs : list (list log)) (o : log_op) : list (list log) :=
  match o with
  | LLog l => match logs with [] => [[l]] | d :: ds => (l :: d) :: ds end
  | LNewRep => [] :: logs
  end.
Definition log_run (logs : list (list log)) (ops : list log_op) : list (list log) := fold_left log_step ops logs.

(** The lines of the log file, L1143-1147. *)
Definition log_file (logs : list (list log)) : list string := map display (filter l_stored (List.concat logs)).
(** The logs listed in the Home tab; their number is [tot_logs]. *)
Definition log_list (logs : list (list log)) : list log := List.concat logs.
