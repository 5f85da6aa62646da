(** * Property theorems: the message exchange of the distributed Kdtree (C53) *)
From Coq Require Import List Bool ZArith Arith Sorted Lia.
From Verif Require Import F32 FieldModel FieldReal FieldF32 FieldProps KdModel KdProps MpiModel MpiSpec MpiProofs.
Import ListNotations.
Local Open Scope nat_scope.

(** ** C53: what is received is what was addressed *)
(** For every network, content, number of calls and schedule, if a ready send is treated as
    a send: no error; the calls a process has completed returned, in every slot, what that
    neighbour addressed to it in the same call, in the order given, and nothing else.
    Missing: MPI libraries that insist on a posted receive (refuted below). *)
Theorem C53_delivers_partial :
  forall (O : Type) n nbrs (payload : nat -> list (list (list O)) -> nat -> list O) dummy calls, network n nbrs -> forall cs,
    exists σ, run n nbrs payload dummy calls false (start nbrs) cs = Some σ /\
      forall r, r < n -> length (p_log (procs σ r)) <= calls /\ p_log (procs σ r) = ideal n nbrs payload (length (p_log (procs σ r))) r.
Proof.
  intros O n nbrs payload dummy calls Net cs. destruct (run_inv n nbrs payload dummy calls Net cs _ (start_ok n nbrs payload dummy calls Net)) as (σ & E & I & _).
  exists σ. split; [exact E|]. intros r Hr. destruct (I r Hr) as (L & Lg & _). auto.
Qed.
Print Assumptions C53_delivers_partial.

(** No deadlock, whether the library buffers a send or not: as long as a process has a call
    to make or to complete, something can happen. *)
Theorem C53_no_deadlock_partial :
  forall (O : Type) n nbrs (payload : nat -> list (list (list O)) -> nat -> list O) dummy calls, network n nbrs -> forall cs σ,
    run n nbrs payload dummy calls false (start nbrs) cs = Some σ ->
    (forall r, r < n -> length (p_log (procs σ r)) = calls) \/ exists c σ', step n nbrs payload dummy calls false c σ = Next σ'.
Proof.
  intros O n nbrs payload dummy calls Net cs σ E. destruct (run_inv n nbrs payload dummy calls Net cs _ (start_ok n nbrs payload dummy calls Net)) as (σ' & E' & I).
  rewrite E in E'. injection E' as <-. apply progress; assumption.
Qed.
Print Assumptions C53_no_deadlock_partial.

(** No livelock: in no schedule more than so many choices do something. *)
Theorem C53_bounded_partial :
  forall (O : Type) n nbrs (payload : nat -> list (list (list O)) -> nat -> list O) dummy calls, network n nbrs -> forall cs,
    moves n nbrs payload dummy calls false (start nbrs) cs <= n * ((calls + 1) * (6 * n + 3)).
Proof.
  intros O n nbrs payload dummy calls Net cs. pose proof (moves_work n nbrs payload dummy calls Net cs _ (start_ok n nbrs payload dummy calls Net)) as H.
  pose proof (start_work (O := O) n nbrs calls Net) as W. unfold per_call in W. etransitivity; [exact H|]. etransitivity; [exact W|]. apply Nat.mul_le_mono_l. lia.
Qed.
Print Assumptions C53_bounded_partial.

(** So all calls complete: whatever happened so far, the processes can go on (and with
    the two theorems above nothing else can happen) to where every one has completed all its
    calls, each with the result it had to have, and no message is left. *)
Theorem C53_completes_partial :
  forall (O : Type) n nbrs (payload : nat -> list (list (list O)) -> nat -> list O) dummy calls, network n nbrs -> forall cs,
    exists cs' σ, run n nbrs payload dummy calls false (start nbrs) (cs ++ cs') = Some σ /\ mail σ = [] /\
      forall r, r < n -> p_log (procs σ r) = ideal n nbrs payload calls r.
Proof.
  intros O n nbrs payload dummy calls Net cs. pose proof (start_ok n nbrs payload dummy calls Net) as I0.
  destruct (run_inv n nbrs payload dummy calls Net cs _ I0) as (σ & E & I). destruct (completes n nbrs payload dummy calls Net σ I) as (cs' & σ' & E' & I' & D).
  rewrite <- (run_app n nbrs payload dummy calls cs cs' _ _ E) in E'. exists cs', σ'. split; [exact E'|]. split.
  - apply (done_mail n nbrs payload dummy calls Net); try assumption. apply (run_mail n nbrs payload dummy calls Net _ _ _ I0 (Forall_nil _) E').
  - intros r Hr. destruct I' as [I1 _]. destruct (I1 r Hr) as (_ & Lg & _). rewrite (D r Hr) in Lg. exact Lg.
Qed.
Print Assumptions C53_completes_partial.

(** The neighbours of the Kdtree processes are such a network. *)
Definition tree_neighbors (A : arith) (O : Type) (p : nat) (x y w h d dist : num A) (r : nat) : list nat :=
  match create_tree A (O := O) p (Z.of_nat r) 0 x y w h d dist with
  | None => []
  | Some k => map Z.to_nat (k_neighbor_trees k)
  end.
Theorem C53_kdtree_network :
  forall (A : arith) (O : Type) p (x y w h d dist : num A), 2 <= p -> network p (tree_neighbors A O p x y w h d dist).
Proof.
  intros A O p x y w h d dist Hp r Hr. destruct (C75_symmetric A O p r r x y w h d dist Hp Hr Hr) as (k & _ & E & _ & S & F & N & _).
  assert (T : tree_neighbors A O p x y w h d dist r = map Z.to_nat (k_neighbor_trees k)) by (unfold tree_neighbors; rewrite E; reflexivity). rewrite T.
  rewrite Forall_forall in F. split; [|split; [|split]].
  - assert (F' : forall i, In i (k_neighbor_trees k) -> (0 <= i)%Z) by (intros i Hi; apply F; exact Hi). clear - S F'. induction S as [|a l S IH G]; cbn [map]; constructor.
    + apply IH. intros i Hi. apply F'. right. exact Hi.
    + rewrite Forall_forall in *. intros b Hb. apply in_map_iff in Hb. destruct Hb as (c & <- & Hc). specialize (G c Hc). specialize (F' a (or_introl eq_refl)). lia.
  - apply Forall_forall. intros s Hs. apply in_map_iff in Hs. destruct Hs as (i & <- & Hi). specialize (F i Hi). lia.
  - intros H. apply in_map_iff in H. destruct H as (i & Ei & Hi). specialize (F i Hi). apply N. replace (Z.of_nat r) with i by lia. exact Hi.
  - intros s Hs. apply in_map_iff in Hs. destruct Hs as (i & <- & Hi). pose proof (F i Hi) as Fi.
    destruct (C75_symmetric A O p r (Z.to_nat i) x y w h d dist Hp Hr ltac:(lia)) as (k1 & k2 & E1 & E2 & _ & _ & _ & Sy). rewrite E in E1. injection E1 as <-.
    unfold tree_neighbors. rewrite E2. apply in_map_iff. exists (Z.of_nat r). split; [lia|]. apply Sy. rewrite Z2Nat.id by lia. exact Hi.
Qed.
Print Assumptions C53_kdtree_network.

(** As MPI has it, a ready send needs a posted receive.  Two processes suffice: the first
    starts its send before the other has called at all. *)
Definition two (r : nat) : list nat := [1 - r].
Theorem C53_ready_refuted :
  network 2 two /\ run 2 two (fun r _ q => [r * 10 + q]) 0 1 true (start two) [Run 0 true; Run 0 true] = None.
Proof.
  split; [|reflexivity]. intros r Hr. unfold two. split; [repeat constructor|]. split; [constructor; [lia|constructor]|]. split; [intros [H|[]]; lia|].
  intros s [<-|[]]. left. lia.
Qed.
Print Assumptions C53_ready_refuted.

(** Without regions the argument is not what is sent: process 0 passes an agent for
    process 1, and nothing goes out. *)
Theorem C53_argument_refuted :
  tree_run 2 0 (z 128) (z 8) (z 8) []
    (fun k => (k_neighbor_trees k, option_map (map (map fst)) (outgoing FA 2 k [[]; [at_ 1%nat 60 60]] false))) = Some ([1%Z], Some [[]; []]).
Proof. vm_compute. reflexivity. Qed.
Print Assumptions C53_argument_refuted.

(** Three processes around a ring; process 0 sends nothing to 2; the second call sends on
    what the first one returned.  Buffered and unbuffered sends, messages overtaking. *)
Definition ring (r : nat) : list nat := match r with 0 => [1; 2] | 1 => [0; 2] | _ => [0; 1] end.
Definition word (r : nat) (log : list (list (list nat))) (q : nat) : list nat :=
  match log with [] => if (r =? 0) && (q =? 2) then [] else [r; q] | _ => concat (concat log) end.
Definition rounds (k : nat) : list choice :=
  concat (repeat (flat_map (fun r => [Run r (r =? 1); Deliver ((r + 1) mod 3) r; Deliver ((r + 2) mod 3) r]) [2; 0; 1]) k).
Example C53_concrete :
  network 3 ring /\
  option_map (fun σ => (map (fun r => p_log (procs σ r)) [0; 1; 2], mail σ)) (run 3 ring word 9 2 false (start ring) (rounds 40)) =
  Some (map (fun r => ideal 3 ring word 2 r) [0; 1; 2], []) /\
  ideal 3 ring word 2 2 = [[[]; [1; 2]; []]; [[1; 0; 2; 0]; [0; 1; 2; 1]; []]].
Proof.
  split; [|split; vm_compute; reflexivity]. intros r Hr. destruct r as [|[|[|r]]]; [| | |lia].
  all: split; [repeat constructor|split; [repeat constructor|split; [cbn; lia|]]].
  all: cbn; intros s [<-|[<-|[]]]; cbn; auto.
Qed.
