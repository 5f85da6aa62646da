(** * Model of the locks of a running simulation

    Which mutexes the threads of [simulate!] (src/lib.rs L768-1174), the macros that user
    code calls ([description!] L1191-1195, [plot!] L1241-1281, [addplot!] L1356-1392,
    [log!] L1418-1441), the terminal (src/utils/monitoring/ui.rs L184-222, L278-524) and,
    in a parallel build, [Schedule::step] (src/engine/schedule.rs L92-223) and the fields
    (their maps: src/utils/dbdashmap.rs) take, in which order, and until when.  Everything between taking and giving back a lock that waits
    for nobody (sending on an unbounded channel, writing files, drawing) is one [Run].

    Simplifications: an argument expression of a macro that is evaluated several times in
    a row under the same locks is evaluated once; the threads are all there from the start
    (in the program some are started later: fewer interleavings); waiting for another
    thread to end, for a message or for a key is left out, since a thread holds no lock
    then; panics are left out. *)
From Coq Require Import List Bool Arith.
Import ListNotations.

(** The state and the queue and id counter of the schedule (parallel build), the globals
    [DATA], [PLOT_NAMES], [CSV_SENDER], [LOGS], [DESCR] (lib.rs L675-692), the mailboxes
    [tui_operation] and [tui_reps] (L834-835) and [MONITOR] (L734-738).
    [MShard keyed f s]: shard [s] of the write buffer (dbdashmap.rs L23) of map [f] of a
    parallel field; [keyed]: the keys of the map are objects ([floc], [findex] of Field2D,
    [obj2loc] of the object grids). *)
Inductive mutex := MState | MIds | MEvents | MData | MNames | MCsv | MLogs | MDescr | MOp | MReps | MMonitor
| MShard (keyed : bool) (f s : nat).
Scheme Equality for mutex.

Inductive act := Acq (m : mutex) | Rel (m : mutex) | Run.

(** ** What user code calls *)
Inductive call :=
| CPlot (known csv : bool) (args : list call)
| CAddPlot (new csv : bool) (args : list call)
| CLog (args : list call)
| CDescr (args : list call)
| COnce
| CRepeating
(** Methods of parallel fields.  [CShards]: those that take the locks of some shards, one
    after the other: [insert], [remove], [get_write] for the length of a statement or of a
    [match] that takes no other lock, [len], [clear], [w_keys] (dbdashmap.rs L92-111,
    L133-147, L170-175, L201-205, L282-291), and so [set_value_location], [get_value_unbuffered],
    [set_object_location], [remove_object], [remove_object_location],
    [get_objects_unbuffered], [get_location_unbuffered] (dense_number_grid_2d.rs L58-L67,
    dense_object_grid_2d.rs L75-L157, sparse_object_grid_2d.rs L87-L186,
    field_2d.rs L194-L197, L236-L252), and [add_edge], [remove_edge] (network.rs L102-142,
    L423-460).  [apply_to_all_values] with READ calls the closure before it locks
    (dbdashmap.rs L227-236): a closure's calls, then [CShards]. *)
| CShards (ls : list (bool * nat * nat))
(** [get_unbuffered]: the guard of the object's location lives while its bag is locked
    (field_2d.rs L202-217, sparse_object_grid_2d.rs L114-129). *)
| CUnbuffered (f s g t : nat)
(** [apply_to_all_values] with WRITE or READWRITE on a number grid: the closure runs with a
    shard locked (dbdashmap.rs L237-265). *)
| CApply (f s : nat) (args : list call).

(** [args]: the calls made by the argument expressions. *)
Fixpoint acts (c : call) : list act :=
  match c with
  (* the guard [data] lives to the end of the macro, the guard of [CSV_SENDER] to the end
     of the statement that sends, L1243-1276 *)
  | CPlot known csv args =>
      [Acq MData] ++ flat_map acts args ++
      (if known then
         [Run] ++ (if csv then [Acq MCsv] ++ flat_map acts args ++ [Run; Rel MCsv] else [])
       else []) ++ [Rel MData]
  (* L1358-1366, L1384-1387 *)
  | CAddPlot new csv args =>
      [Acq MData] ++ flat_map acts args ++
      (if new then
         [Run] ++ (if csv then [Acq MNames] ++ flat_map acts args ++ [Run; Rel MNames] else [])
       else []) ++ [Rel MData]
  (* the message is made while the logs are locked, L1429-1438 *)
  | CLog args => [Acq MLogs] ++ flat_map acts args ++ [Run; Rel MLogs]
  (* the value of an assignment is computed before its place, L1193 *)
  | CDescr args => flat_map acts args ++ [Acq MDescr; Run; Rel MDescr]
  (* [schedule_once] and [schedule_repeating] of a parallel build, schedule.rs L100-117 *)
  | COnce => [Acq MEvents; Run; Rel MEvents]
  | CRepeating => [Acq MIds; Run; Acq MEvents; Run; Rel MEvents; Rel MIds]
  | CShards ls => flat_map (fun l => [Acq (MShard (fst (fst l)) (snd (fst l)) (snd l)); Run; Rel (MShard (fst (fst l)) (snd (fst l)) (snd l))]) ls
  | CUnbuffered f s g t => [Acq (MShard true f s); Run; Acq (MShard false g t); Run; Rel (MShard false g t); Rel (MShard true f s)]
  | CApply f s args => [Acq (MShard false f s)] ++ flat_map acts args ++ [Run; Rel (MShard false f s)]
  end.

(** ** What the threads of the library do by themselves: one lock at a time

    [LOGS]: lib.rs L1012-1015, L1133-1149, the logs of the library (L865, L1028, L1040, ...),
    ui.rs L498-524; [DATA]: lib.rs L1017, L1092-1101, ui.rs L283-287, L322-414;
    [CSV_SENDER]: lib.rs L943-946, L1036-1038, L1088-1090, L1122-1124; [PLOT_NAMES]: L953-965;
    the mailboxes: L886-887, L895, L928, L1019-1022, L1049-1056, L1068-1071, L1104-1110;
    [MONITOR]: L807-815, ui.rs L194; [DESCR]: ui.rs L312; the queue (parallel build):
    schedule.rs L130, L139, L147, L157, L161. *)
Definition chore (m : mutex) : list act := [Acq m; Run; Rel m].

(** The sequential build: a thread runs chores, user code runs calls in between. *)
Inductive work := Chore (m : mutex) | Call (c : call)
(** A parallel build also runs hooks of the state ([update], [before_step], [after_step],
    L134, L137, L216-220) and turns of agents (L183-211; [again]: the agent is pushed
    back) with the state locked. *)
| Hook (cs : list call) | Turn (cs : list call) (again : bool).
Definition work_acts (w : work) : list act :=
  match w with
  | Chore m => chore m
  | Call c => acts c
  | Hook cs => [Acq MState] ++ flat_map acts cs ++ [Rel MState]
  | Turn cs again => [Acq MState] ++ flat_map acts cs ++ (if again then [Acq MEvents; Run; Rel MEvents] else []) ++ [Rel MState]
  end.
Definition program (ws : list work) : list act := flat_map work_acts ws.

(** ** Threads: the locks held, the latest first, and what is left to do *)
Definition thread : Type := list mutex * list act.
Definition holds (m : mutex) (t : thread) : bool := existsb (mutex_beq m) (fst t).
(** The next action of a thread, if nothing is in its way ([std::sync::Mutex] is not
    reentrant: a thread that takes a lock it holds waits for itself). *)
Definition advance (all : list thread) (t : thread) : option thread :=
  match snd t with
  | [] => None
  | Run :: p => Some (fst t, p)
  | Acq m :: p => if existsb (holds m) all then None else Some (m :: fst t, p)
  | Rel m :: p => match fst t with h :: hs => if mutex_beq h m then Some (hs, p) else None | [] => None end
  end.
Fixpoint set_nth {X} (n : nat) (x : X) (l : list X) : list X :=
  match l, n with
  | [], _ => []
  | _ :: l', 0 => x :: l'
  | y :: l', S n' => y :: set_nth n' x l'
  end.
(** One move of thread [i]. *)
Definition lmove (i : nat) (c : list thread) : option (list thread) :=
  match nth_error c i with
  | None => None
  | Some t => option_map (fun t' => set_nth i t' c) (advance c t)
  end.
Fixpoint lmoves (is : list nat) (c : list thread) : option (list thread) :=
  match is with
  | [] => Some c
  | i :: is' => match lmove i c with None => None | Some c' => lmoves is' c' end
  end.
Definition starting (ps : list (list act)) : list thread := map (fun p => ([], p)) ps.
