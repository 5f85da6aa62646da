(** * Property theorems: the number of threads (C132) *)
From Coq Require Import List Bool ZArith NArith Arith Lia Ascii String Decimal DecimalString DecimalN DecimalFacts.
From Verif Require Import F32 SchedModel SchedProofs SchedExamples Merge ParModel NumText NumTextFacts ThreadModel ThreadSpec.
Import ListNotations.
Open Scope N_scope.

(** [--nt] with a number that fits into a [usize] sets it; anything else gives one thread for
    each processor; without [--nt] there is one thread. *)
Theorem C132_threads : forall cpus,
  thread_num cpus None = 1 /\
  (forall s n, writes_number s n -> n < 2 ^ 64 -> thread_num cpus (Some s) = n) /\
  (forall s, (forall n, writes_number s n -> 2 ^ 64 <= n) -> thread_num cpus (Some s) = cpus).
Proof.
  intros cpus. assert (R : forall u, N.of_uint u < 2 ^ 64 <-> in_type usize_type (Z.of_N (N.of_uint u)) = true).
  { intros u. unfold in_type. cbn [usize_type t_signed t_limit]. change 18446744073709551616 with (2 ^ 64). rewrite andb_true_iff, Z.leb_le, Z.ltb_lt. lia. }
  split; [reflexivity|]. split.
  - intros s n (u & Hu & -> & Hs) L.
    assert (E : parse_int usize_type s = Some (Z.of_N (N.of_uint u))).
    { apply parse_int_iff; [discriminate|]. exists u. split; [exact Hu|]. split; [apply R; exact L|]. left. auto. }
    unfold thread_num. rewrite E. apply N2Z.id.
  - intros s H. unfold thread_num. destruct (parse_int usize_type s) as [z|] eqn:E; [|reflexivity]. exfalso.
    apply parse_int_iff in E; [|discriminate]. destruct E as (u & Hu & T & [(-> & Hs)|(K & _)]); [|discriminate].
    apply R in T. specialize (H _ (ex_intro _ u (conj Hu (conj eq_refl Hs)))). lia.
Qed.
Print Assumptions C132_threads.

(** Every number of threads can be asked for. *)
Theorem C132_any : forall cpus n, n < 2 ^ 64 -> exists s, writes_number s n /\ thread_num cpus (Some s) = n.
Proof.
  intros cpus n L. exists (NilEmpty.string_of_uint (N.to_uint n)).
  assert (W : writes_number (NilEmpty.string_of_uint (N.to_uint n)) n).
  { exists (N.to_uint n). split; [|split; [symmetry; apply Unsigned.of_to|left; reflexivity]].
    destruct n as [|p]; [discriminate|]. unfold N.to_uint. intros E. pose proof (Unsigned.of_to (N.pos p)) as K.
    unfold N.to_uint in K. rewrite E in K. discriminate. }
  split; [exact W|]. apply (proj1 (proj2 (C132_threads cpus)) _ _ W L).
Qed.
Print Assumptions C132_any.

(** With [--nt 0] every step panics in which some agent is scheduled. *)
Theorem C132_zero_refuted : forall A S (u : user A S) cpus ch inter sc w,
  (forall s, let '(sc1, _, _) := par_run_hprog (u_before u s) sc in s_events sc1 <> []) ->
  cmd_step cpus (Some "0"%string) u ch inter sc w = PPanic.
Proof.
  intros A S u cpus ch inter sc w H. unfold cmd_step. change (N.to_nat (thread_num cpus (Some "0"%string))) with 0%nat.
  unfold par_step. set (w0 := if s_step sc =? 0 then call_update u (s_step sc) w else w). specialize (H (w_st w0)).
  destruct (par_run_hprog (u_before u (w_st w0)) sc) as [[sc1 s1] log1].
  destruct (pq_peek (ch 0%nat) (s_events sc1)) as [e|] eqn:P; [reflexivity|]. exfalso.
  apply pq_peek_none in P. contradiction.
Qed.
Print Assumptions C132_zero_refuted.

Example C132_concrete :
  thread_num 8 (Some "12"%string) = 12 /\ thread_num 8 (Some "+007"%string) = 7 /\ writes_number "+007" 7 /\
  thread_num 8 (Some "18446744073709551616"%string) = 8 /\ thread_num 8 (Some "-3"%string) = 8 /\ thread_num 8 (Some ""%string) = 8.
Proof.
  repeat split; try reflexivity. exists (D0 (D0 (D7 Nil))). split; [discriminate|]. split; [reflexivity|]. right. reflexivity.
Qed.
