(** * Specification of DBDashMap: a pair of finite maps *)
From Coq Require Import List Bool NArith Permutation.
From Verif Require Import DashModel.
Import ListNotations.

Section Spec.
Context {K V : Type}.
Variable eqk : K -> K -> bool.

(** What Rust requires of [Eq] and [Hash]. *)
Record lawful (hash : K -> N) : Prop := {
  eqk_refl : forall a, eqk a a = true;
  eqk_sym : forall a b, eqk a b = true -> eqk b a = true;
  eqk_trans : forall a b c, eqk a b = true -> eqk b c = true -> eqk a c = true;
  hash_eqk : forall a b, eqk a b = true -> hash a = hash b
}.

(** A map assigns to (a key equal to) [k] the stored key and its value. *)
Definition fmap := K -> option (K * V).

Definition fput (k : K) (v : V) (m : fmap) : fmap :=
  fun x => if eqk x k then Some (k, v) else m x.
Definition fdel (k : K) (m : fmap) : fmap := fun x => if eqk x k then None else m x.
Definition fempty : fmap := fun _ => None.

(** [l] lists the entries of [m], each exactly once. *)
Definition lists (l : list (K * V)) (m : fmap) : Prop :=
  (forall k p, m k = Some p <-> In p l /\ eqk k (fst p) = true) /\
  ForallOrdPairs (fun p q => eqk (fst p) (fst q) = false) l.

(** The abstract state: read map and write map. *)
Record two := Two { rd : fmap; wr : fmap }.

Definition feq (m m' : fmap) : Prop := forall k, m k = m' k.
Definition teq (s s' : two) : Prop := feq (rd s) (rd s') /\ feq (wr s) (wr s').

(** An iteration order of a hash map. *)
Definition iteration (it : list (K * V) -> list (K * V)) : Prop := forall l, Permutation (it l) l.

(** Calls of the API and their results. *)
Inductive dop :=
| DInsert (k : K) (v : V)
| DRemove (k : K)
| DGetRead (k : K)
| DGetKeyValue (k : K)
| DGetWrite (k : K) (f : V -> V)
| DLazyUpdate
| DUpdate (it : list (K * V) -> list (K * V))
| DMerge (it : list (K * V) -> list (K * V))
| DLen | DRLen | DIsEmpty | DIsEmptyR
| DKeys (it : list (K * V) -> list (K * V))
| DValues (it : list (K * V) -> list (K * V))
| DWKeys (it : list (K * V) -> list (K * V))
| DClear
| DApply (it : list (K * V) -> list (K * V)) (f : V -> V)
| DApplyWrite (f : V -> V)
| DApplyReadWrite (it : list (K * V) -> list (K * V)) (f : V -> V)
| DApplyKeys (it : list (K * V) -> list (K * V)) (f : V -> K -> option K).

Inductive dres :=
| DNone
| DVal (v : option V)
| DPair (p : option (K * V))
| DMapRes (l : list (K * V))
| DNat (n : nat)
| DBool (b : bool)
| DKeyList (l : list K)
| DValList (l : list V).

Definition op_ok (o : dop) : Prop :=
  match o with
  | DUpdate it | DMerge it | DKeys it | DValues it | DWKeys it | DApply it _
  | DApplyReadWrite it _ | DApplyKeys it _ => iteration it
  | _ => True
  end.

(** The value [insert] returns is not constrained here (see C15). *)
Inductive sstep : two -> dop -> two -> dres -> Prop :=
| S_insert r w k v res : sstep (Two r w) (DInsert k v) (Two r (fput k v w)) (DVal res)
| S_remove r w k : sstep (Two r w) (DRemove k) (Two r (fdel k w)) (DPair (w k))
| S_get_read r w k : sstep (Two r w) (DGetRead k) (Two r w) (DVal (option_map snd (r k)))
| S_get_kv r w k : sstep (Two r w) (DGetKeyValue k) (Two r w) (DPair (r k))
| S_get_write r w k f :
    sstep (Two r w) (DGetWrite k f)
      (Two r (fun x => if eqk x k then option_map (fun p => (fst p, f (snd p))) (w x) else w x))
      (DVal (option_map snd (w k)))
| S_lazy r w : sstep (Two r w) DLazyUpdate (Two w fempty) DNone
| S_update r w it :
    sstep (Two r w) (DUpdate it)
      (Two (fun x => match w x with Some p => Some p | None => r x end) w) DNone
| S_merge r w it l : lists l w -> sstep (Two r w) (DMerge it) (Two r fempty) (DMapRes l)
| S_len r w l : lists l w -> sstep (Two r w) DLen (Two r w) (DNat (length l))
| S_rlen r w l : lists l r -> sstep (Two r w) DRLen (Two r w) (DNat (length l))
| S_empty r w b : (b = true <-> forall k, w k = None) ->
    sstep (Two r w) DIsEmpty (Two r w) (DBool b)
| S_empty_r r w b : (b = true <-> forall k, r k = None) ->
    sstep (Two r w) DIsEmptyR (Two r w) (DBool b)
| S_keys r w it l : lists l r -> sstep (Two r w) (DKeys it) (Two r w) (DKeyList (map fst l))
| S_values r w it l : lists l r -> sstep (Two r w) (DValues it) (Two r w) (DValList (map snd l))
| S_wkeys r w it l : lists l w -> sstep (Two r w) (DWKeys it) (Two r w) (DKeyList (map fst l))
| S_clear r w : sstep (Two r w) DClear (Two r fempty) DNone
| S_apply r w it f :
    sstep (Two r w) (DApply it f)
      (Two r (fun x => match r x with Some p => Some (fst p, f (snd p)) | None => w x end)) DNone
| S_apply_w r w f :
    sstep (Two r w) (DApplyWrite f)
      (Two r (fun x => option_map (fun p => (fst p, f (snd p))) (w x))) DNone
| S_apply_rw r w it f :
    sstep (Two r w) (DApplyReadWrite it f)
      (Two r (fun x => match r x with
                       | None => w x
                       | Some p => match w x with
                                   | Some q => Some (fst q, f (snd q))
                                   | None => Some (fst p, f (snd p))
                                   end
                       end)) DNone
| S_apply_keys r w it f l :
    (* the entries of the read map are treated one after the other in some order *)
    lists l r ->
    sstep (Two r w) (DApplyKeys it f)
      (Two r (fold_left (fun m p => match f (snd p) (fst p) with
                                    | None => m
                                    | Some x => fput x (snd p) (fdel (fst p) m)
                                    end) l w)) DNone.

(** Runs of the specification; states are compared pointwise. *)
Inductive sruns : two -> list (dop * dres) -> two -> Prop :=
| sruns_nil s s' : teq s s' -> sruns s [] s'
| sruns_cons s s' o s1 res l s2 :
    teq s s' -> sstep s' o s1 res -> sruns s1 l s2 -> sruns s ((o, res) :: l) s2.

End Spec.

Arguments two : clear implicits.
Arguments dop : clear implicits.
Arguments dres : clear implicits.
