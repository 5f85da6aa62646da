(** * Model of DBDashMap

    Models src/utils/dbdashmap.rs: a sharded, double-buffered hash map.  Each shard is a
    [hashbrown::HashMap], modelled as an association list; the order in which a hash map
    is iterated is unspecified, so every iterating operation takes the iteration order
    [it] as a parameter.  Keys are compared with their [Eq] ([eqk]), which may identify
    distinct values (krABMaga agents are often equal when their ids are equal). *)
From Coq Require Import List Bool NArith PArith Arith.
Import ListNotations.

Section Dash.
Context {K V : Type}.
Variable eqk : K -> K -> bool.      (* Eq for K *)
Variable hash : K -> N.             (* hash_usize, L80-86: any 64-bit hash *)

(** ** One shard: external crate hashbrown *)
Local Notation hm := (list (K * V)).

(** [HashMap::get_key_value] *)
Definition hm_find (k : K) (m : hm) : option (K * V) := find (fun p => eqk k (fst p)) m.

(** [HashMap::remove_entry] *)
Fixpoint hm_remove (k : K) (m : hm) : hm * option (K * V) :=
  match m with
  | [] => ([], None)
  | p :: m' => if eqk k (fst p) then (m', Some p)
               else let (m'', r) := hm_remove k m' in (p :: m'', r)
  end.

(** [HashMap::insert]: an equal key keeps its stored key and gets the new value, whose
    old value is returned. *)
Fixpoint hm_insert (k : K) (v : V) (m : hm) : hm * option V :=
  match m with
  | [] => ([(k, v)], None)
  | p :: m' => if eqk k (fst p) then ((fst p, v) :: m', Some (snd p))
               else let (m'', r) := hm_insert k v m' in (p :: m'', r)
  end.

(** Assignment through [get_mut]. *)
Fixpoint hm_modify (k : K) (f : V -> V) (m : hm) : hm :=
  match m with
  | [] => []
  | p :: m' => if eqk k (fst p) then (fst p, f (snd p)) :: m' else p :: hm_modify k f m'
  end.

(** ** Shards *)

Record dmap := DMap {
  d_shift : N;
  d_shards : list hm;      (* write buffer *)
  d_rshards : list hm      (* read buffer *)
}.

(** [usize::next_power_of_two] (for results that fit in 64 bits). *)
Definition next_pow2 (n : N) : N := if (n <=? 1)%N then 1%N else (2 ^ N.log2_up n)%N.

(** [shard_amount], L14-16. *)
Definition shard_amount (cpus : N) : N := next_pow2 (cpus * 4).

(** [usize::trailing_zeros] *)
Fixpoint tz_pos (p : positive) : N := match p with xO p' => N.succ (tz_pos p') | _ => 0%N end.
Definition trailing_zeros (n : N) : N := match n with 0%N => 64%N | N.pos p => tz_pos p end.

(** [ncb], L18-20. *)
Definition ncb (n : N) : N := trailing_zeros n.

(** [new], [default], [with_hasher], [with_capacity_and_hasher], L34-78.  The capacity
    only pre-allocates memory and is not modelled. *)
Definition dash_new (cpus : N) : dmap :=
  let n := shard_amount cpus in
  DMap (64 - ncb n) (repeat [] (N.to_nat n)) (repeat [] (N.to_nat n)).

(** [determine_shard], L88-90: [usize] shifts drop the high bits; the shift amount is
    taken modulo 64 (release build). *)
Definition determine_shard (shift h : N) : N :=
  N.shiftr (N.shiftl h 7 mod 2 ^ 64) (shift mod 64).

Definition shard_of (d : dmap) (k : K) : nat :=
  N.to_nat (determine_shard (d_shift d) (hash k mod 2 ^ 64)).

Fixpoint set_nth {X} (i : nat) (x : X) (l : list X) : list X :=
  match l, i with
  | [], _ => []
  | _ :: l', O => x :: l'
  | y :: l', S i' => y :: set_nth i' x l'
  end.

(** In the functions below [None] is a panic (shard index out of bounds). *)

(** [insert], L92-101. *)
Definition insert (k : K) (v : V) (d : dmap) : option (dmap * option V) :=
  let i := shard_of d k in
  match nth_error (d_shards d) i with
  | None => None
  | Some m =>
      let (m', r) := hm_insert k v (fst (hm_remove k m)) in
      Some (DMap (d_shift d) (set_nth i m' (d_shards d)) (d_rshards d), r)
  end.

(** [remove], L103-111. *)
Definition remove (k : K) (d : dmap) : option (dmap * option (K * V)) :=
  let i := shard_of d k in
  match nth_error (d_shards d) i with
  | None => None
  | Some m =>
      let (m', r) := hm_remove k m in
      Some (DMap (d_shift d) (set_nth i m' (d_shards d)) (d_rshards d), r)
  end.

(** [get_read], L113-121. *)
Definition get_read (k : K) (d : dmap) : option (option V) :=
  match nth_error (d_rshards d) (shard_of d k) with
  | None => None
  | Some m => Some (option_map snd (hm_find k m))
  end.

(** [get_key_value], L123-131. *)
Definition get_key_value (k : K) (d : dmap) : option (option (K * V)) :=
  match nth_error (d_rshards d) (shard_of d k) with
  | None => None
  | Some m => Some (hm_find k m)
  end.

(** [get_write], L133-147, followed by an assignment [*r = f( *r)] through the returned
    reference; the result is the value found. *)
Definition get_write (k : K) (f : V -> V) (d : dmap) : option (dmap * option V) :=
  let i := shard_of d k in
  match nth_error (d_shards d) i with
  | None => None
  | Some m =>
      Some (DMap (d_shift d) (set_nth i (hm_modify k f m) (d_shards d)) (d_rshards d),
            option_map snd (hm_find k m))
  end.

(** [lazy_update], L149-160.  [n] is [shard_amount()] re-evaluated at the call. *)
Definition lazy_update (n : nat) (d : dmap) : option dmap :=
  if Nat.leb n (length (d_shards d)) && Nat.leb n (length (d_rshards d)) then
    Some (DMap (d_shift d)
            (repeat [] n ++ skipn n (d_shards d))
            (firstn n (d_shards d) ++ skipn n (d_rshards d)))
  else None.

(** [HashMap::extend] with an iterator: repeated [insert]. *)
Definition hm_extend (m : hm) (l : list (K * V)) : hm :=
  fold_left (fun m p => fst (hm_insert (fst p) (snd p) m)) l m.

(** [merge_r_shards], L162-168: drains the WRITE shards. *)
Definition merge_r_shards (it : hm -> hm) (n : nat) (d : dmap) : option (dmap * hm) :=
  if Nat.leb n (length (d_shards d)) then
    Some (DMap (d_shift d) (repeat [] n ++ skipn n (d_shards d)) (d_rshards d),
          fold_left (fun ris m => hm_extend ris (it m)) (firstn n (d_shards d)) [])
  else None.

(** [len] L170-175 and [is_empty] L207-209 (write); [r_len] L177-179 and [is_empty_r]
    L211-213 (read). *)
Definition len (d : dmap) : nat := list_sum (map (@length _) (d_shards d)).
Definition r_len (d : dmap) : nat := list_sum (map (@length _) (d_rshards d)).
Definition is_empty (d : dmap) : bool := Nat.eqb (len d) 0.
Definition is_empty_r (d : dmap) : bool := Nat.eqb (r_len d) 0.

(** [keys] L181-189, [values] L191-199 (read), [w_keys] L282-291 (write). *)
Definition keys (it : hm -> hm) (d : dmap) : list K :=
  flat_map (fun m => map fst (it m)) (d_rshards d).
Definition values (it : hm -> hm) (d : dmap) : list V :=
  flat_map (fun m => map snd (it m)) (d_rshards d).
Definition w_keys (it : hm -> hm) (d : dmap) : list K :=
  flat_map (fun m => map fst (it m)) (d_shards d).

(** [clear], L201-205. *)
Definition clear (d : dmap) : dmap :=
  DMap (d_shift d) (map (fun _ => []) (d_shards d)) (d_rshards d).

(** [update], L217-225: for each write shard, remove and insert each entry into the read
    shard of the same index.  The write shards are kept. *)
Definition update_shard (it : hm -> hm) (w r : hm) : hm :=
  fold_left (fun r p => fst (hm_insert (fst p) (snd p) (fst (hm_remove (fst p) r)))) (it w) r.
Definition update (it : hm -> hm) (n : nat) (d : dmap) : option dmap :=
  if Nat.leb n (length (d_shards d)) && Nat.leb n (length (d_rshards d)) then
    Some (DMap (d_shift d) (d_shards d)
            (map (fun wr => update_shard it (fst wr) (snd wr))
                 (combine (firstn n (d_shards d)) (firstn n (d_rshards d)))
             ++ skipn n (d_rshards d)))
  else None.

(** A loop that may panic. *)
Fixpoint foldM {X Y} (f : Y -> X -> option Y) (l : list X) (y : Y) : option Y :=
  match l with
  | [] => Some y
  | x :: l' => match f y x with None => None | Some y' => foldM f l' y' end
  end.

(** All entries of the read buffer in iteration order. *)
Definition r_entries (it : hm -> hm) (d : dmap) : list (K * V) := flat_map it (d_rshards d).

(** [apply_to_all_values], L227-236. *)
Definition apply_to_all_values (it : hm -> hm) (f : V -> V) (d : dmap) : option dmap :=
  foldM (fun d p => option_map fst (insert (fst p) (f (snd p)) d)) (r_entries it d) d.

(** [apply_to_all_values_write], L237-248. *)
Definition apply_to_all_values_write (f : V -> V) (d : dmap) : dmap :=
  DMap (d_shift d) (map (map (fun p => (fst p, f (snd p)))) (d_shards d)) (d_rshards d).

(** [apply_to_all_values_read_write], L249-265: the write shard of the same index. *)
Definition rw_shard (f : V -> V) (w : hm) (p : K * V) : hm :=
  match hm_find (fst p) w with
  | Some _ => hm_modify (fst p) f w
  | None => fst (hm_insert (fst p) (f (snd p)) w)
  end.
Definition apply_to_all_values_read_write (it : hm -> hm) (f : V -> V) (d : dmap)
  : option dmap :=
  if Nat.leb (length (d_rshards d)) (length (d_shards d)) then
    Some (DMap (d_shift d)
            (map (fun wr => fold_left (rw_shard f) (it (snd wr)) (fst wr))
                 (combine (d_shards d) (d_rshards d))
             ++ skipn (length (d_rshards d)) (d_shards d))
            (d_rshards d))
  else None.

(** [apply_to_all_keys], L267-280. *)
Definition apply_to_all_keys (it : hm -> hm) (f : V -> K -> option K) (d : dmap)
  : option dmap :=
  foldM (fun d p =>
           match f (snd p) (fst p) with
           | None => Some d
           | Some x =>
               match remove (fst p) d with
               | None => None
               | Some (d', _) => option_map fst (insert x (snd p) d')
               end
           end) (r_entries it d) d.

End Dash.

Arguments dmap : clear implicits.
Notation hm K V := (list (K * V)) (only parsing).
Arguments DMap {K V}.
