(** * Model of [simulate!] with the simulation terminal

    Models the simulation thread and the terminal thread of [simulate!] (src/lib.rs
    L834-1126) as an interleaving.  The threads share the mailboxes [tui_operation] and
    [tui_reps] and the channel [sender_ui]/[recv_ui].  Each move is one access to a
    mailbox or the channel, with the thread's own work before it.  The drawing and the
    keys other than [q] are in [UiModel], plots and csv in [PlotModel], logs in [LogModel];
    times are left out. *)
From Coq Require Import List Bool Arith ZArith NArith.
From Verif Require Import F32 OptModel F64 SchedModel SimModel UiModel.
Import ListNotations.
Local Open Scope nat_scope.

(** [enum MessageType], lib.rs L706-716 (those used with the two mailboxes). *)
Inductive mail := Consumed | MStep (i : nat) (progress : f64) | MClear | MQuit | MRep (r : nat).

Section Term.
Context {A S : Type}.

(** Where the simulation thread is, lib.rs L1006-1126. *)
Inductive sim_pc :=
| PRep (r : nat)                          (* head of the loop over repetitions, L1011 *)
| PSendClear (r : nat)                    (* L1025 *)
| PInit (r : nat)                         (* L1033-1035 *)
| PStep (r i : nat) (sc : sched A)        (* head of the loop over steps, L1044 *)
| PSendStep (r i : nat) (sc : sched A)    (* L1059 *)
| PCond (r i : nat) (sc : sched A)        (* L1067 *)
| PSendQuit (r : nat) (sc : sched A)      (* L1073 *)
| PAfter (r : nat) (sc : sched A)         (* L1084-1112 *)
| PSendRep (r : nat)                      (* L1114 *)
| PDone.

(** Where the terminal thread is in its loop, lib.rs L848-936: before [try_recv] (after
    drawing and reading a key), received, [op] read, [op] and [rep] read, [op] dealt
    with, left the loop (its receiver is dropped). *)
Inductive term_pc := TIdle | TGot | TOp (op : mail) | TBoth (op rep : mail) | TRep (rep : mail) | TGone.

(** [counts]: the steps made by each finished repetition; [seen]: the messages the
    interface was given. *)
Record term_state := TS {
  t_pc : sim_pc; t_world : world A S; t_counts : list N;
  t_op : mail; t_rp : mail; t_pending : nat; t_term : term_pc; t_seen : list mail }.

Definition gone (t : term_pc) : bool := match t with TGone => true | _ => false end.

(** The sim thread goes on at [pc]. *)
Definition goto (st : term_state) (pc : sim_pc) : term_state :=
  TS pc (t_world st) (t_counts st) (t_op st) (t_rp st) (t_pending st) (t_term st) (t_seen st).
(** ... after user code left the world [w] and [tui_operation] was set. *)
Definition goto_op (st : term_state) (pc : sim_pc) (w : world A S) (o : mail) : term_state :=
  TS pc w (t_counts st) o (t_rp st) (t_pending st) (t_term st) (t_seen st).
(** [sender_ui.send(())]: fails when the receiver is gone. *)
Definition send (st : term_state) (ok fail : sim_pc) : term_state :=
  if gone (t_term st) then goto st fail
  else TS ok (t_world st) (t_counts st) (t_op st) (t_rp st) (Datatypes.S (t_pending st)) (t_term st) (t_seen st).

(** One move of the simulation thread. *)
Definition sim_move (u : user A S) (chs : nat -> nat -> nat -> nat) (n reps : nat) (st : term_state) : term_state :=
  match t_pc st with
  | PRep r => if r <? reps then goto_op st (PSendClear r) (t_world st) MClear else goto st PDone
  | PSendClear r => send st (PInit r) PDone
  | PInit r => let (sc, w) := call_init u sched_new (t_world st) in goto_op st (PStep r 0 sc) w (t_op st)
  | PStep r i sc =>
      if i <? n then
        let (sc1, w1) := step u (chs r i) sc (t_world st) in
        goto_op st (PSendStep r i sc1) w1 (MStep i (progress_of (N.of_nat i) (N.of_nat n)))
      else goto st (PAfter r sc)
  | PSendStep r i sc => send st (PCond r i sc) (PAfter r sc)
  | PCond r i sc =>
      let '(b, (sc1, w1)) := call_end u sc (t_world st) in
      if b then goto_op st (PSendQuit r sc1) w1 MQuit else goto_op st (PStep r (Datatypes.S i) sc1) w1 (t_op st)
  | PSendQuit r sc => send st (PAfter r sc) (PAfter r sc)
  | PAfter r sc =>
      TS (PSendRep r) (t_world st) (t_counts st ++ [s_step sc]) (t_op st) (MRep r) (t_pending st) (t_term st) (t_seen st)
  | PSendRep r => send st (PRep (Datatypes.S r)) PDone
  | PDone => st
  end.

Definition done (pc : sim_pc) : bool := match pc with PDone => true | _ => false end.
Definition set_term (st : term_state) (t : term_pc) : term_state :=
  TS (t_pc st) (t_world st) (t_counts st) (t_op st) (t_rp st) (t_pending st) t (t_seen st).
Definition show (st : term_state) (m o r : mail) (t : term_pc) : term_state :=
  TS (t_pc st) (t_world st) (t_counts st) o r (t_pending st) t (t_seen st ++ [m]).

(** One move of the terminal thread; [quit]: the user has pressed [q] or [Q]. *)
Definition term_move (quit : bool) (st : term_state) : term_state :=
  match t_term st with
  | TIdle =>
      if quit then set_term st TGone                                  (* L870-879 *)
      else match t_pending st with                                    (* try_recv, L881-882 *)
           | Datatypes.S k => TS (t_pc st) (t_world st) (t_counts st) (t_op st) (t_rp st) k TGot (t_seen st)
           | O => if done (t_pc st) then set_term st TGot else st     (* Disconnected or Empty *)
           end
  | TGot => set_term st (TOp (t_op st))                               (* L886 *)
  | TOp m => set_term st (TBoth m (t_rp st))                          (* L887 *)
  | TBoth m r =>                                                      (* L890-917 *)
      match m with
      | MStep _ _ => show st m Consumed (t_rp st) (TRep r)
      | MQuit => set_term st TGone
      | _ => set_term st (TRep r)
      end
  | TRep r =>                                                         (* L919-931 *)
      match r with
      | MRep _ => show st r (t_op st) Consumed TIdle
      | _ => set_term st TIdle
      end
  | TGone => st
  end.

Inductive tturn := Sim | Term (quit : bool).
Definition tmove (u : user A S) chs n reps (st : term_state) (t : tturn) : term_state :=
  match t with Sim => sim_move u chs n reps st | Term q => term_move q st end.
Definition tmoves (u : user A S) chs n reps (st : term_state) (ts : list tturn) : term_state :=
  fold_left (tmove u chs n reps) ts st.

(** Before both threads start, lib.rs L834-836. *)
Definition tstart (s : S) : term_state := TS (PRep 0) (World s []) [] Consumed Consumed 0 TIdle [].

End Term.
Arguments sim_pc : clear implicits.
Arguments term_state : clear implicits.
