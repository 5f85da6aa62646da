(** * What a user expects of a closure that uses the field

    Used to state C119-C121.  [each xs f k]: the program that calls the closure on the
    given items, one after the other, outside of any iteration, and then goes on with
    [k]. *)
From Coq Require Import List Bool.
From Verif Require Import Grid NumModel ReModel.
Import ListNotations.

Section Spec.
Context {St Call Res Item AItem Out Ora : Type}.
Local Notation prog := (prog Call Res Item AItem Out Ora).

Fixpoint bind {X Y} (p : prog X) : (X -> prog Y) -> prog Y :=
  match p in ReModel.prog _ _ _ _ _ _ X return (X -> prog Y) -> prog Y with
  | Ret x => fun k => k x
  | Do c k' => fun k => Do c (fun r => bind (k' r) k)
  | Iter r b f k' => fun k => Iter r b f (bind k' k)
  | Apply r o f k' => fun k => Apply r o f (bind k' k)
  end.
Fixpoint each {X} (xs : list Item) (f : Item -> prog unit) (k : prog X) : prog X :=
  match xs with
  | [] => k
  | x :: xs' => bind (f x) (fun _ => each xs' f k)
  end.

(** Every borrow the program can ask for, whatever results it gets, satisfies [P]. *)
Variable needs : Call -> St -> list hold.
Variable ap_needs : grid_option -> list hold.
Fixpoint asks (P : hold -> Prop) {X} (p : prog X) : Prop :=
  match p with
  | Ret _ => True
  | Do c k => (forall s h, In h (needs c s) -> P h) /\ forall r, asks P (k r)
  | Iter _ b f k => P (b, Look) /\ (forall x, asks P (f x)) /\ asks P k
  | Apply _ o f k => (forall h, In h (ap_needs o) -> P h) /\ (forall x, asks P (f x)) /\ asks P k
  end.

(** No iteration and no [apply_to_all_values] inside. *)
Fixpoint plain {X} (p : prog X) : Prop :=
  match p with
  | Ret _ => True
  | Do _ k => forall r, plain (k r)
  | Iter _ _ _ _ | Apply _ _ _ _ => False
  end.
(** Only calls that satisfy [P]. *)
Fixpoint only (P : Call -> Prop) {X} (p : prog X) : Prop :=
  match p with
  | Ret _ => True
  | Do c k => P c /\ forall r, only P (k r)
  | Iter _ _ _ _ | Apply _ _ _ _ => False
  end.
(** What such a program does when it is run by itself: its calls, one after the other. *)
Variable act : Call -> St -> option (St * Res).
Fixpoint calls_only {X} (p : prog X) (s : St) : option (St * X) :=
  match p in ReModel.prog _ _ _ _ _ _ X return option (St * X) with
  | Ret x => Some (s, x)
  | Do c k => match act c s with None => None | Some (s', r) => calls_only (k r) s' end
  | Iter _ _ _ _ | Apply _ _ _ _ => None
  end.
(** The closure on each item in turn. *)
Fixpoint in_turn (f : Item -> prog unit) (xs : list Item) (s : St) : option St :=
  match xs with
  | [] => Some s
  | x :: xs' => match calls_only (f x) s with None => None | Some (s', _) => in_turn f xs' s' end
  end.
End Spec.

(** The buffer [apply_to_all_values] does not work on. *)
Definition other (o : grid_option) : cell := match o with READ => Wrt | WRITE | READWRITE => Pub end.

(** The calls that look at the published buffer, that change the write buffer, and that
    look at it. *)
Definition looks {O} (c : ocall O) : Prop :=
  match c with CGet _ | CLocation _ => True | _ => False end.
Definition places {O} (c : ocall O) : Prop :=
  match c with CSet _ _ | CRemove _ _ => True | _ => False end.
Definition looks_ahead {O} (c : ocall O) : Prop :=
  match c with CGetUnbuffered _ | CLocationUnbuffered _ => True | _ => False end.
Definition nlooks {T} (c : gcall T) : Prop :=
  match c with NGet _ | NLocation _ => True | _ => False end.
Definition nplaces {T} (c : gcall T) : Prop :=
  match c with NSet _ _ | NRemove _ => True | _ => False end.
Definition nlooks_ahead {T} (c : gcall T) : Prop :=
  match c with NGetUnbuffered _ | NLocationUnbuffered _ => True | _ => False end.
(** The calls of a closure of [apply_to_all_values] that look at the other buffer. *)
Definition looks_over {O} (o : grid_option) (c : ocall O) : Prop :=
  match o with READ => looks_ahead c | WRITE | READWRITE => looks c end.
Definition nlooks_over {T} (o : grid_option) (c : gcall T) : Prop :=
  match o with READ => nlooks_ahead c | WRITE | READWRITE => nlooks c end.
