(** * A distributed simulation: a Kdtree, one schedule per process, two exchanges per step

    The usual shape of a model that runs under [simulate_mpi!] (lib.rs L1581-L1680) on a
    Kdtree (kdtree_mpi.rs).  The user's code is written against the public fields and methods
    of the Kdtree the way their comments say (kdtree_mpi.rs L57-L82): every process keeps the
    agents of its block; at the start of a step it receives copies of the agents in the halo
    regions of its neighbours; an agent that leaves the block is put into [agents_to_send];
    at the end of a step the emigrants are taken out of the schedule, sent, and scheduled
    where they arrive.  [scheduled_agent] (L81) maps the key of an agent to the id that
    [distributed_schedule_repeating] (schedule.rs L305-313) gave it.

    The code of the hooks is an assumption about the user; the Kdtree (KdModel.v), the
    schedule (SchedModel.v) and the exchange (MpiModel.v) are the models of the library. *)
From Coq Require Import List Bool ZArith NArith Arith.
From Verif Require Import F32 SchedModel Grid ObjModel FieldModel KdModel.
Import ListNotations.
Local Open Scope nat_scope.

(** [Schedule::step] (schedule.rs L347-413) up to the call of [after_step]; the same text as
    [step] of SchedModel.v without its last call. *)
Definition mid_step {A S : Type} (u : user A S) (ch : nat -> nat) (sc : sched A) (w : world A S) : sched A * world A S :=
  let w0 := if (s_step sc =? 0)%N then call_update u (s_step sc) w else w in
  let (sc1, w1) := call_before u sc w0 in
  match pq_peek (ch 0) (s_events sc1) with
  | None => (sc1, w1)
  | Some e0 =>
      let now := ev_time e0 in
      let (due, rest) := pop_due (length (s_events sc1)) ch 0 now (s_events sc1) in
      run_items u (Sched (s_step sc1) now rest (s_ids sc1)) w1 due
  end.

Section Dist.
Variable A : arith.
Context {O : Type}.
Notation kdtree := (kdtree A (O := O)).
Variable location : O -> num A * num A.
Variable key : O -> N.
Variable radius : O -> num A.
Variable rule : O -> list O -> O.
(** [world.size()] *)
Variable p : nat.

(** What a process holds: its Kdtree, its [scheduled_agent] map (kdtree_mpi.rs L81; newest
    entry first), and whether it has panicked. *)
Record pstate := PS { ps_tree : kdtree; ps_ids : list (N * N); ps_panic : bool }.
Definition panicked (s : pstate) : pstate := PS (ps_tree s) (ps_ids s) true.
Definition with_tree (s : pstate) (k : option kdtree) : pstate :=
  match k with None => panicked s | Some k => PS k (ps_ids s) (ps_panic s) end.
(** [scheduled_agent.get] and [scheduled_agent.insert]. *)
Definition lookup (k : N) (ids : list (N * N)) : option N := option_map snd (find (fun e => (fst e =? k)%N) ids).
Definition note (o : O) (r : sres O) (s : pstate) : pstate :=
  match r with RIdBool i _ => PS (ps_tree s) ((key o, i) :: ps_ids s) (ps_panic s) | _ => s end.

Section Process.
(** [world.rank()] *)
Variable rank : nat.

(** [State::init] (state.rs L47): the agents born here are inserted and scheduled. *)
Fixpoint d_init (born : list O) (s : pstate) : hprog O pstate :=
  match born with
  | [] => HRet s
  | o :: born' =>
      HCall (OpDistRepeating o f0 0) (fun r => d_init born' (note o r (with_tree s (k_insert A (ps_tree s) o (location o)))))
  end.

(** [State::before_step] (state.rs L56): [message_exchange(&prec_neighbors, true)]
    (kdtree_mpi.rs L705-L795) has returned [inbox]; what came in is inserted for reading.
    Filling the slots may panic (L719). *)
Definition d_before (inbox : list (list O)) (s : pstate) : pstate :=
  let s1 := match outgoing A p (ps_tree s) (k_prec_neighbors (ps_tree s)) true with None => panicked s | Some _ => s end in
  fold_left (fun s o => with_tree s (k_insert_read A (ps_tree s) o (location o))) (concat inbox) s1.

(** [Agent::step] (agent.rs L10): look around (kdtree_mpi.rs L797-849), move, and be inserted
    here or addressed to the process whose block one has entered (L584-L609). *)
Definition d_step (o : O) (s : pstate) : O * pstate :=
  match k_relax A location (ps_tree s) (location o) (radius o) with
  | None => (o, panicked s)
  | Some around =>
      let o' := rule o around in
      (o', match block_by_location A p (k_subtrees (ps_tree s)) (location o') with
           | None => panicked s
           | Some b => if (b =? Z.of_nat rank)%Z then with_tree s (k_insert A (ps_tree s) o' (location o'))
                       else with_tree s (k_address A (ps_tree s) (Z.to_nat b) o')
           end)
  end.

(** [State::after_step] (state.rs L58): the emigrants are taken out of the schedule
    (schedule.rs L329-341); [message_exchange(&agents_to_send, false)] has returned [inbox];
    the immigrants are inserted and scheduled for the next step. *)
Fixpoint d_dequeue (l : list O) (s : pstate) (k : pstate -> hprog O pstate) : hprog O pstate :=
  match l with
  | [] => k s
  | o :: l' =>
      match lookup (key o) (ps_ids s) with
      | None => d_dequeue l' (panicked s) k
      | Some i => HCall (OpDequeue i) (fun _ => d_dequeue l' s k)
      end
  end.
Fixpoint d_arrive (l : list O) (s : pstate) : hprog O pstate :=
  match l with
  | [] => HRet s
  | o :: l' =>
      HCall OpReadTime (fun r =>
        HCall (OpDistRepeating o (fadd (match r with RTime t => t | _ => f0 end) f1) 0) (fun r =>
          d_arrive l' (note o r (with_tree s (k_insert A (ps_tree s) o (location o))))))
  end.
Definition d_after (inbox : list (list O)) (s : pstate) : hprog O pstate :=
  let s1 := match outgoing A p (ps_tree s) [] false with None => panicked s | Some _ => s end in
  d_dequeue (concat (k_agents_to_send (ps_tree s))) s1 (d_arrive (concat inbox)).

(** [State::update] (state.rs L53). *)
Definition d_update (_ : N) (s : pstate) : pstate := with_tree s (k_lazy_update A p (ps_tree s)).

Definition d_user (born : list O) (halo mail : list (list O)) : user O pstate :=
  User (d_init born) d_update (fun s => HRet (d_before halo s)) (d_after mail) (fun s => HRet (false, s))
       (fun o s => (o, s)) d_step (fun o s => (o, s)) (fun o s => (false, (o, s))).
End Process.

(** ** All processes.  [tree r]: the Kdtree of process [r] as [create_tree] returned it;
    [born r]: its first agents; [chs r t]: how its queue breaks ties in step [t]. *)
Variable tree : nat -> kdtree.
Variable born : nat -> list O.
Variable chs : nat -> nat -> nat -> nat.
Notation pconf := (sched O * world O pstate)%type.

Definition d_start (r : nat) : pconf := call_init (d_user r (born r) [] []) sched_new (World (PS (tree r) [] false) []).
(** Step [t] of process [r] when its two exchanges return [halo] and [mail]. *)
Definition d_next (r t : nat) (halo mail : list (list O)) (c : pconf) : pconf :=
  step (d_user r (born r) halo mail) (chs r t) (fst c) (snd c).

(** What process [r] hands to its two exchanges: the halo regions before its agents move, the
    emigrants after they have. *)
Definition slots (o : option (list (list O))) : list (list O) := match o with Some v => v | None => [] end.
Definition halo_out (r : nat) (c : pconf) : list (list O) :=
  let s := if (s_step (fst c) =? 0)%N then d_update 0 (w_st (snd c)) else w_st (snd c) in
  slots (outgoing A p (ps_tree s) (k_prec_neighbors (ps_tree s)) true).
Definition mail_out (r t : nat) (halo : list (list O)) (c : pconf) : list (list O) :=
  let s := w_st (snd (mid_step (d_user r (born r) halo []) (chs r t) (fst c) (snd c))) in
  slots (outgoing A p (ps_tree s) [] false).

(** Process [r] after [t] steps, when its calls of [message_exchange] have returned [log]. *)
Fixpoint d_run (r t : nat) (log : list (list (list O))) : pconf :=
  match t with
  | 0 => d_start r
  | S t' => d_next r t' (nth (2 * t') log []) (nth (2 * t' + 1) log []) (d_run r t' log)
  end.

(** What it addresses to process [q] in its next call: the parameter [payload] of MpiModel.v. *)
Definition d_payload (r : nat) (log : list (list (list O))) (q : nat) : list O :=
  let t := Nat.div2 (length log) in
  let c := d_run r t log in
  nth q (if Nat.even (length log) then halo_out r c else mail_out r t (nth (2 * t) log []) c) [].
End Dist.
Arguments PS {A O}. Arguments ps_tree {A O}. Arguments ps_ids {A O}. Arguments ps_panic {A O}.
