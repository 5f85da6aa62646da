(** * The message exchange of the distributed Kdtree (kdtree_mpi.rs)

    [Kdtree::message_exchange] on all processes at once, as an interleaving of small steps
    over an MPI network.  What goes into the slots of [send_agent_vec] is [outgoing] of
    KdModel.v; here it is a parameter. *)
From Coq Require Import List Bool Arith.
Import ListNotations.

Definition upd {X} (i : nat) (x : X) (f : nat -> X) : nat -> X := fun j => if j =? i then x else f j.
Definition memb (i : nat) (l : list nat) : bool := existsb (Nat.eqb i) l.

Section Mpi.
Context {O : Type}.
(** [world.size()] *)
Variable n : nat.
(** [neighbor_trees] of each process (kdtree_mpi.rs L63). *)
Variable nbrs : nat -> list nat.
(** The agents that process [r] addresses to each rank in its next call, depending on what
    its earlier calls returned; [send_agent_vec] (kdtree_mpi.rs L714-L732). *)
Variable payload : nat -> list (list (list O)) -> nat -> list O.
Variable dummy : O.
(** How many calls each process makes. *)
Variable calls : nat.
(** Whether a ready send without a posted receive is an error (as the MPI standard has it)
    or just a send. *)
Variable strict : bool.

(** Messages in flight, in the order of sending.  MPI matches by sender, receiver and tag,
    and does not let messages with the same three overtake each other. *)
Inductive body := Count (c : nat) | Agents (l : list O).
Record msg := Msg { m_from : nat; m_to : nat; m_tag : nat; m_body : body }.
Definition on (s r g : nat) (m : msg) : bool := (m_from m =? s) && (m_to m =? r) && (m_tag m =? g).
Fixpoint take (s r g : nat) (mail : list msg) : option (body * list msg) :=
  match mail with
  | [] => None
  | m :: mail' => if on s r g m then Some (m_body m, mail') else option_map (fun q => (fst q, m :: snd q)) (take s r g mail')
  end.
Definition idle (s r g : nat) (mail : list msg) : bool := negb (existsb (on s r g) mail).

(** Where a process is in [message_exchange].  Vectors indexed by rank are functions.
    - [Counting]: the loop over the neighbours (kdtree_mpi.rs L735-L753); [todo] starts with
      the current one; [posted]: the receive is started; [sent]: the send is started, with
      the buffering the MPI library chose for it; [got]: the count has arrived;
      [counts]: [received_messages].
    - [Moving]: the second scope (L768-L792), all receives being posted at its start;
      [posts]: receives without a message yet; [bufs]: [vec]; [sends]: sends to start;
      [open]: sends started that the library did not buffer. *)
Inductive phase :=
| Counting (todo : list nat) (posted : bool) (sent : option bool) (got : bool) (counts : nat -> nat)
| Moving (posts : list nat) (bufs : nat -> list O) (sends open : list nat).
(** A process: what its calls returned so far, oldest first, and the call it is in. *)
Record proc := Proc { p_log : list (list (list O)); p_phase : phase }.
Record state := State { procs : nat -> proc; mail : list msg }.

(** The start of a call (kdtree_mpi.rs L711-L735). *)
Definition enter (r : nat) : phase := Counting (nbrs r) false None false (fun _ => 0).
Definition start : state := State (fun r => Proc [] (enter r)) [].

(** What the scheduler can choose: process [r] goes on ([buffer]: if that is a send, the
    library buffers it, so that it completes at once; otherwise it completes when the
    message is received), or the network hands a message of [s] to process [r]. *)
Inductive choice := Run (r : nat) (buffer : bool) | Deliver (s r : nat).
Inductive result := Blocked | Error | Next (σ : state).

(** The receive of [r] that takes a count from [s] is posted and open. *)
Definition ready_for (p : proc) (s : nat) : bool :=
  match p_phase p with Counting (q :: _) true _ false _ => q =? s | _ => false end.

(** kdtree_mpi.rs L705-L795.
    - L738-L746: the receive of a count has the tag of the sender; L747-L751: the send has
      the tag of the sender.
    - L753: both are waited for before the next neighbour.
    - L756-L766: the buffers are [dummy] as often as announced.
    - L770-L777: a receive from every rank that announced something, with the own rank as
      tag; L779-L788: a send to every neighbour with a nonempty slot, with its rank as tag.
    - L790: all are waited for. *)
Definition run_proc (r : nat) (buffer : bool) (σ : state) : result :=
  let p := procs σ r in
  let out := payload r (p_log p) in
  let go ph := State (upd r (Proc (p_log p) ph) (procs σ)) in
  if length (p_log p) =? calls then Blocked else
  match p_phase p with
  | Counting [] _ _ _ counts =>
      Next (go (Moving (filter (fun i => negb (counts i =? 0)) (seq 0 n))
                       (fun i => if memb i (nbrs r) then repeat dummy (counts i) else [])
                       (filter (fun i => negb (length (out i) =? 0)) (nbrs r)) []) (mail σ))
  | Counting (q :: todo) false sent got counts => Next (go (Counting (q :: todo) true sent got counts) (mail σ))
  | Counting (q :: todo) true None got counts =>
      if strict && negb (ready_for (procs σ q) r) then Error
      else Next (go (Counting (q :: todo) true (Some buffer) got counts) (mail σ ++ [Msg r q r (Count (length (out q)))]))
  | Counting (q :: todo) true (Some b) got counts =>
      if got && (b || idle r q r (mail σ)) then Next (go (Counting todo false None false counts) (mail σ)) else Blocked
  | Moving posts bufs sends open =>
      match sends, posts with
      | q :: sends', _ =>
          Next (go (Moving posts bufs sends' (if buffer then open else q :: open)) (mail σ ++ [Msg r q q (Agents (out q))]))
      | [], _ :: _ => Blocked
      | [], [] =>
          if forallb (fun q => idle r q q (mail σ)) open
          then Next (State (upd r (Proc (p_log p ++ [map bufs (seq 0 n)]) (enter r)) (procs σ)) (mail σ))
          else Blocked
      end
  end.

(** A message longer than the buffer, or of the other type, is an error; a shorter one
    leaves the rest of the buffer. *)
Definition deliver (s r : nat) (σ : state) : result :=
  let p := procs σ r in
  let go ph := State (upd r (Proc (p_log p) ph) (procs σ)) in
  match p_phase p with
  | Counting (q :: todo) true sent false counts =>
      if q =? s then
        match take s r s (mail σ) with
        | None => Blocked
        | Some (Count c, mail') => Next (go (Counting (q :: todo) true sent true (upd s c counts)) mail')
        | Some (Agents _, _) => Error
        end
      else Blocked
  | Counting _ _ _ _ _ => Blocked
  | Moving posts bufs sends open =>
      if memb s posts then
        match take s r r (mail σ) with
        | None => Blocked
        | Some (Agents l, mail') =>
            if length l <=? length (bufs s)
            then Next (go (Moving (filter (fun i => negb (i =? s)) posts) (upd s (l ++ skipn (length l) (bufs s)) bufs) sends open) mail')
            else Error
        | Some (Count _, _) => Error
        end
      else Blocked
  end.

Definition step (c : choice) (σ : state) : result :=
  match c with
  | Run r b => if r <? n then run_proc r b σ else Blocked
  | Deliver s r => if (s <? n) && (r <? n) then deliver s r σ else Blocked
  end.

(** A schedule; a blocked choice is passed over, an error ends everything ([None]). *)
Fixpoint run (σ : state) (cs : list choice) : option state :=
  match cs with
  | [] => Some σ
  | c :: cs' => match step c σ with Blocked => run σ cs' | Error => None | Next σ' => run σ' cs' end
  end.
(** The number of choices in it that did something. *)
Fixpoint moves (σ : state) (cs : list choice) : nat :=
  match cs with
  | [] => 0
  | c :: cs' => match step c σ with Blocked => moves σ cs' | Error => 1 | Next σ' => S (moves σ' cs') end
  end.
End Mpi.
