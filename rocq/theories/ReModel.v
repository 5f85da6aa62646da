(** * Closures that use the field they are given to

    The methods [iter_objects], [iter_values], their unbuffered versions and
    [apply_to_all_values] of the sequential fields take a closure.  The closure may hold a
    reference to the same field and call its methods, all of which take [&self].  What
    then happens depends on the [RefCell]s around the two buffers: a method that wants to
    change a buffer somebody is looking at, or to look at a buffer somebody is changing,
    panics.  This file models which buffers each method borrows, and for how long:

    - src/engine/fields/dense_object_grid_2d.rs L258-764, sparse_object_grid_2d.rs L278-700,
    - src/engine/fields/dense_number_grid_2d.rs L155-530, sparse_number_grid_2d.rs L147-483,
    - src/engine/fields/field_2d.rs L386-898.

    What the methods compute is taken from NumModel, ObjModel and FieldModel.  [lazy_update]
    and [update] take [&mut self], so a closure cannot call them.  The counter [nagents] of
    [Field2D] is borrowed only inside one statement.  [None] is a panic. *)
From Coq Require Import List Bool ZArith NArith Arith.
From Verif Require Import Grid DashModel NumModel ObjModel FieldModel.
Import ListNotations.

(** [self.locs[self.read]] and [self.locs[self.write]]. *)
Inductive cell := Pub | Wrt.
(** [borrow()] and [borrow_mut()]. *)
Inductive access := Look | Change.
Definition hold := (cell * access)%type.

(** [RefCell] (core::cell, external): any number of [borrow]s, or one [borrow_mut]. *)
Definition cell_eqb (a b : cell) : bool := match a, b with Pub, Pub | Wrt, Wrt => true | _, _ => false end.
Definition clash (a b : hold) : bool :=
  cell_eqb (fst a) (fst b) && match snd a, snd b with Look, Look => false | _, _ => true end.
Definition free (held : list hold) (h : hold) : bool := forallb (fun a => negb (clash a h)) held.
(** Several borrows taken one after the other and kept. *)
Fixpoint all_free (held : list hold) (hs : list hold) : bool :=
  match hs with
  | [] => true
  | h :: hs' => free held h && all_free (h :: held) hs'
  end.

Section Re.
(** The field; its calls without a closure and their results; what the closures of the
    iterations and of [apply_to_all_values] are given and what the latter return; the
    order in which a hash map happens to be iterated. *)
Context {St Call Res Item AItem Out Ora : Type}.
(** What a call borrows, and what it does. *)
Variable needs : Call -> St -> list hold.
Variable act : Call -> St -> option (St * Res).
(** An iteration goes through groups of items (cells, or the whole map), borrowing the
    buffer for each; [keeps]: the borrow lasts while the closure runs. *)
Context {G : Type}.
Variable groups : cell -> St -> list G.
Variable items : Ora -> cell -> G -> St -> option (list Item).
Variable keeps : bool.
(** [apply_to_all_values]: what it borrows, for its whole duration; what the closure is
    called with; what is done with its results.  The results are written to a buffer as
    they come; that is not seen before the end, because the buffer is borrowed for
    changing. *)
Variable ap_needs : grid_option -> list hold.
Variable ap_items : Ora -> grid_option -> St -> option (list AItem).
Variable ap_finish : Ora -> grid_option -> list Out -> St -> option St.

(** A closure, or a whole program: calls to the field, each depending on the results of
    the earlier ones, and a result. *)
Inductive prog : Type -> Type :=
| Ret {X} (x : X) : prog X
| Do {X} (c : Call) (k : Res -> prog X) : prog X
| Iter {X} (r : Ora) (b : cell) (f : Item -> prog unit) (k : prog X) : prog X
| Apply {X} (r : Ora) (o : grid_option) (f : AItem -> prog Out) (k : prog X) : prog X.

(** [for x in l { .. }], and the same collecting results. *)
Fixpoint for_each {X} (body : X -> St -> option St) (l : list X) (s : St) : option St :=
  match l with
  | [] => Some s
  | x :: l' => match body x s with None => None | Some s' => for_each body l' s' end
  end.
Fixpoint for_all {X Y} (body : X -> St -> option (St * Y)) (l : list X) (s : St) : option (St * list Y) :=
  match l with
  | [] => Some (s, [])
  | x :: l' =>
      match body x s with
      | None => None
      | Some (s', y) => option_map (fun p => (fst p, y :: snd p)) (for_all body l' s')
      end
  end.

(** [held]: the borrows alive. *)
Fixpoint run {X} (p : prog X) (held : list hold) (s : St) : option (St * X) :=
  match p in prog X return option (St * X) with
  | Ret x => Some (s, x)
  | Do c k =>
      if all_free held (needs c s) then
        match act c s with None => None | Some (s', r) => run (k r) held s' end
      else None
  | Iter r b f k =>
      let held' := if keeps then (b, Look) :: held else held in
      match for_each (fun g s =>
              if free held (b, Look) then
                match items r b g s with
                | None => None
                | Some xs => for_each (fun x s => option_map fst (run (f x) held' s)) xs s
                end
              else None) (groups b s) s with
      | None => None
      | Some s' => run k held s'
      end
  | Apply r o f k =>
      if all_free held (ap_needs o) then
        match ap_items r o s with
        | None => None
        | Some xs =>
            match for_all (fun x s => run (f x) (ap_needs o ++ held) s) xs s with
            | None => None
            | Some (s', outs) =>
                match ap_finish r o outs s' with
                | None => None
                | Some s'' => run k held s''
                end
            end
        end
      else None
  end.
End Re.
Arguments prog : clear implicits.

(** ** Results of the closure of [apply_to_all_values], bag by bag *)
Fixpoint deal {X Y} (bags : list (list X)) (outs : list Y) : list (list Y) :=
  match bags with
  | [] => []
  | b :: bags' => firstn (length b) outs :: deal bags' (skipn (length b) outs)
  end.
Definition somes {X} (l : list (option X)) : list X := filter_map (fun x => x) l.

(** ** DenseGrid2D *)
Section DenseObjects.
Context {O : Type}.
Variable eqo : O -> O -> bool.

(** Calls without a closure.  The draw of [get_random_empty_bag] is in the call. *)
Inductive ocall :=
| CSet (o : O) (l : loc)
| CRemove (o : O) (l : loc)
| CGet (l : loc)
| CGetUnbuffered (l : loc)
| CLocation (o : O)
| CLocationUnbuffered (o : O)
| CEmptyBags
| CRandomEmpty (index : nat) (draws : list loc).
Definition ocall_op (c : ocall) : oop O :=
  match c with
  | CSet o l => OSet o l
  | CRemove o l => ORemove o l
  | CGet l => OGet l
  | CGetUnbuffered l => OGetUnbuffered l
  | CLocation o => OLocation o
  | CLocationUnbuffered o => OLocationUnbuffered o
  | CEmptyBags => OEmptyBags
  | CRandomEmpty i d => ORandomEmpty i d
  end.

(** dense_object_grid_2d.rs L363 (in the loops over the cells), L430, L472, L510, L551,
    L690, L731. *)
Definition odr_needs (c : ocall) (g : odense O) : list hold :=
  match c with
  | CSet _ _ | CRemove _ _ => [(Wrt, Change)]
  | CGet _ | CLocation _ => [(Pub, Look)]
  | CGetUnbuffered _ | CLocationUnbuffered _ => [(Wrt, Look)]
  | CEmptyBags | CRandomEmpty _ _ => match cells (od_w g) (od_h g) with [] => [] | _ => [(Pub, Look)] end
  end.
Definition odr_act (c : ocall) (g : odense O) : option (odense O * ores O) := od_call eqo g (ocall_op c).

Definition od_buf (b : cell) (g : odense O) : list (list O) := match b with Pub => od_read g | Wrt => od_write g end.
(** [iter_objects], L589-607, [iter_objects_unbuffered], L634-653: the reference [locs]
    to the bag of a cell keeps the borrow alive to the end of the loop body. *)
Definition odr_groups (b : cell) (g : odense O) : list loc := cells (od_w g) (od_h g).
Definition odr_items (_ : unit) (b : cell) (c : loc) (g : odense O) : option (list (loc * O)) :=
  option_map (map (pair c)) (vget (od_buf b g) (cell_index (od_h g) c)).

(** [apply_to_all_values], L258-329. *)
Definition odr_ap_needs (o : grid_option) : list hold :=
  match o with
  | READ => [(Pub, Change)]                        (* L264 *)
  | WRITE | READWRITE => [(Wrt, Change); (Pub, Look)]   (* L279-280, L294-295 *)
  end.
(** The bags gone through, with the location the closure is given; [ws]: the write buffer,
    for READWRITE (L301-313). *)
Fixpoint odr_bags (w h : Z) (i : nat) (rs : list (list O)) (ws : option (list (list O)))
  : option (list (loc * list O)) :=
  match rs with
  | [] => Some []
  | b :: rs' =>
      match indexes_bag (wrap32 (Z.of_nat i)) w h with
      | None => None
      | Some id =>
          match ws with
          | None => option_map (cons (id, b)) (odr_bags w h (S i) rs' None)
          | Some [] => None
          | Some (c :: ws') =>
              option_map (cons (id, match c with [] => b | _ => c end)) (odr_bags w h (S i) rs' (Some ws'))
          end
      end
  end.
Definition odr_ap_bags (o : grid_option) (g : odense O) : option (list (loc * list O)) :=
  odr_bags (od_w g) (od_h g) 0 (od_read g) (match o with READWRITE => Some (od_write g) | _ => None end).
Definition odr_ap_items (_ : unit) (o : grid_option) (g : odense O) : option (list (loc * O)) :=
  option_map (flat_map (fun p => map (pair (fst p)) (snd p))) (odr_ap_bags o g).
(** L285-290: push the results; an index beyond the write buffer panics. *)
Fixpoint odr_push (res : list (list (option O))) (ws : list (list O)) : option (list (list O)) :=
  match res, ws with
  | [], _ => Some ws
  | r :: res', c :: ws' => option_map (cons (c ++ somes r)) (odr_push res' ws')
  | r :: res', [] => match somes r with [] => odr_push res' [] | _ => None end
  end.
(** L301-325. *)
Fixpoint odr_replace (res : list (list (option O))) (ws : list (list O)) : option (list (list O)) :=
  match res, ws with
  | [], _ => Some ws
  | r :: res', c :: ws' =>
      let c' := match c with
                | [] => fold_left (push_new eqo) (somes r) []
                | _ => map2 (fun e x => match x with Some y => y | None => e end) c r
                end in
      option_map (cons c') (odr_replace res' ws')
  | _ :: _, [] => None
  end.
Definition odr_ap_finish (_ : unit) (o : grid_option) (outs : list (option O)) (g : odense O) : option (odense O) :=
  match odr_ap_bags o g with
  | None => None
  | Some bags =>
      let res := deal (map snd bags) outs in
      match o with
      | READ => Some (ODense (map somes res) (od_write g) (od_w g) (od_h g))
      | WRITE => option_map (fun ws => ODense (od_read g) ws (od_w g) (od_h g)) (odr_push res (od_write g))
      | READWRITE => option_map (fun ws => ODense (od_read g) ws (od_w g) (od_h g)) (odr_replace res (od_write g))
      end
  end.

Definition od_prog := prog ocall (ores O) (loc * O) (loc * O) (option O) unit.
Definition od_exec {X} (p : od_prog X) (held : list hold) (g : odense O) : option (odense O * X) :=
  run odr_needs odr_act odr_groups odr_items true odr_ap_needs odr_ap_items odr_ap_finish p held g.
End DenseObjects.
Arguments ocall : clear implicits.
Arguments od_prog : clear implicits.

(** ** SparseGrid2D *)
Section SparseObjects.
Context {O : Type}.
Variable eqo : O -> O -> bool.
Local Notation bags := (list (loc * list O)).
Local Notation order := (bags -> bags).

(** sparse_object_grid_2d.rs L347, L387, L422, L451, L487 and L527 (in loops), L649,
    L691; with the order in which the maps are seen. *)
Definition osr_needs (c : ocall O * order) (g : osparse O) : list hold :=
  match fst c with
  | CSet _ _ | CRemove _ _ => [(Wrt, Change)]
  | CGet _ | CLocation _ => [(Pub, Look)]
  | CGetUnbuffered _ | CLocationUnbuffered _ => [(Wrt, Look)]
  | CEmptyBags | CRandomEmpty _ _ => match cells (os_w g) (os_h g) with [] => [] | _ => [(Pub, Look)] end
  end.
Definition osr_act (c : ocall O * order) (g : osparse O) : option (osparse O * ores O) :=
  os_call eqo (snd c) g (ocall_op (fst c)).

Definition os_buf (b : cell) (g : osparse O) : bags := match b with Pub => os_read g | Wrt => os_write g end.
(** [iter_objects], L568-573, [iter_objects_unbuffered], L608-613: one borrow for all. *)
Definition osr_groups (b : cell) (g : osparse O) : list unit := [tt].
Definition osr_items (it : order) (b : cell) (_ : unit) (g : osparse O) : option (list (loc * O)) :=
  Some (calls (it (os_buf b g))).

(** [apply_to_all_values], L278-320. *)
Definition osr_ap_needs (o : grid_option) : list hold :=
  match o with
  | READ => [(Pub, Change)]                      (* L284 *)
  | WRITE => [(Wrt, Change)]                     (* L292 *)
  | READWRITE => [(Pub, Look); (Wrt, Change)]    (* L302-303 *)
  end.
Definition osr_ap_bags (it : order) (o : grid_option) (g : osparse O) : bags :=
  match o with
  | READ => it (os_read g)
  | WRITE => it (os_write g)
  | READWRITE =>
      map (fun p => (fst p, match hm_find loc_eqb (fst p) (os_write g) with
                            | Some (_, c) => c            (* L307-310 *)
                            | None => snd p               (* L311-316 *)
                            end)) (it (os_read g))
  end.
Definition osr_ap_items (it : order) (o : grid_option) (g : osparse O) : option (list (loc * O)) :=
  Some (calls (osr_ap_bags it o g)).
(** [.expect("error on closure")] *)
Definition expect_all (l : list (option O)) : option (list O) := mapM (fun x => x) l.
(** [*obj = ..] for the objects of each bag, L285-289, L293-297. *)
Definition osr_overwrite (m : bags) (p : loc * list O) : bags := hm_modify loc_eqb (fst p) (fun _ => snd p) m.
(** L306-316. *)
Definition osr_rw (ws : bags) (p : loc * list O) : bags :=
  match hm_find loc_eqb (fst p) ws with
  | Some _ => hm_modify loc_eqb (fst p) (fun _ => snd p) ws
  | None => fold_left (fun ws x => fst (hm_insert loc_eqb (fst p) [x] ws)) (snd p) ws
  end.
Definition osr_ap_finish (it : order) (o : grid_option) (outs : list (option O)) (g : osparse O) : option (osparse O) :=
  match mapM expect_all (deal (map snd (osr_ap_bags it o g)) outs) with
  | None => None
  | Some res =>
      let new := combine (map fst (osr_ap_bags it o g)) res in
      Some match o with
           | READ => OSparse (fold_left osr_overwrite new (os_read g)) (os_write g) (os_w g) (os_h g)
           | WRITE => OSparse (os_read g) (fold_left osr_overwrite new (os_write g)) (os_w g) (os_h g)
           | READWRITE => OSparse (os_read g) (fold_left osr_rw new (os_write g)) (os_w g) (os_h g)
           end
  end.

Definition os_prog := prog (ocall O * order) (ores O) (loc * O) (loc * O) (option O) order.
Definition os_exec {X} (p : os_prog X) (held : list hold) (g : osparse O) : option (osparse O * X) :=
  run osr_needs osr_act osr_groups osr_items true osr_ap_needs osr_ap_items osr_ap_finish p held g.
End SparseObjects.
Arguments os_prog : clear implicits.

(** ** DenseNumberGrid2D *)
Section DenseNumbers.
Context {T : Type}.
Variable eqv : T -> T -> bool.

Inductive gcall :=
| NSet (v : T) (l : loc)
| NRemove (l : loc)
| NGet (l : loc)
| NGetUnbuffered (l : loc)
| NLocation (v : T)
| NLocationUnbuffered (v : T)
| NEmptyBags
| NRandomEmpty (draws : list (nat * loc)).
Definition gcall_op (c : gcall) : gop T :=
  match c with
  | NSet v l => GSet v l
  | NRemove l => GRemove l
  | NGet l => GGet l
  | NGetUnbuffered l => GGetUnbuffered l
  | NLocation v => GLocation v
  | NLocationUnbuffered v => GLocationUnbuffered v
  | NEmptyBags => GEmptyBags
  | NRandomEmpty d => GRandomEmpty d
  end.

(** dense_number_grid_2d.rs L218, L256, L295 (in the loops), L352, L378, L494, L527. *)
Definition dgr_needs (c : gcall) (g : dgrid T) : list hold :=
  match c with
  | NSet _ _ | NRemove _ => [(Wrt, Change)]
  | NGet _ | NLocation _ => [(Pub, Look)]
  | NGetUnbuffered _ | NLocationUnbuffered _ => [(Wrt, Look)]
  | NEmptyBags | NRandomEmpty _ => match cells (dg_w g) (dg_h g) with [] => [] | _ => [(Pub, Look)] end
  end.
Definition dgr_act (c : gcall) (g : dgrid T) : option (dgrid T * gres T) := dg_call eqv g (gcall_op c).

Definition dg_buf (b : cell) (g : dgrid T) : list (option T) := match b with Pub => dg_read g | Wrt => dg_write g end.
(** [iter_values], L404-425, [iter_values_unbuffered], L449-470: the value of a cell is
    copied out ([T: Copy]), so the borrow ends before the closure is called. *)
Definition dgr_groups (b : cell) (g : dgrid T) : list loc := cells (dg_w g) (dg_h g).
Definition dgr_items (_ : unit) (b : cell) (c : loc) (g : dgrid T) : option (list (loc * T)) :=
  option_map (fun e => match e with None => [] | Some v => [(c, v)] end) (vget (dg_buf b g) (cell_index (dg_h g) c)).

(** [apply_to_all_values], L155-195. *)
Definition dgr_ap_needs (o : grid_option) : list hold :=
  match o with
  | READ => [(Pub, Change)]                            (* L161 *)
  | WRITE => [(Wrt, Change); (Pub, Look)]              (* L170-171 *)
  | READWRITE => [(Wrt, Change); (Pub, Change)]        (* L181-182 *)
  end.
(** The values gone through: a cell of the read buffer, or with READWRITE of the write
    buffer if it has a value there (L184-191); [None]: index out of bounds. *)
Fixpoint dgr_values (rs : list (option T)) (ws : option (list (option T))) : option (list (option T)) :=
  match rs with
  | [] => Some []
  | r :: rs' =>
      match ws with
      | None => option_map (cons r) (dgr_values rs' None)
      | Some [] => None
      | Some (w :: ws') => option_map (cons (match w with Some v => Some v | None => r end)) (dgr_values rs' (Some ws'))
      end
  end.
Definition dgr_ap_values (o : grid_option) (g : dgrid T) : option (list (option T)) :=
  dgr_values (dg_read g) (match o with READWRITE => Some (dg_write g) | _ => None end).
Definition opt_list {X} (o : option X) : list X := match o with Some x => [x] | None => [] end.
Definition dgr_ap_items (_ : unit) (o : grid_option) (g : dgrid T) : option (list T) :=
  option_map (flat_map opt_list) (dgr_ap_values o g).
(** The result for a cell, if it has one, replaces what the cell has: L165-166, L174-175,
    L186-190. *)
Fixpoint dgr_put (res : list (list T)) (ws : list (option T)) : option (list (option T)) :=
  match res, ws with
  | [], _ => Some ws
  | [] :: res', w :: ws' => option_map (cons w) (dgr_put res' ws')
  | (x :: _) :: res', _ :: ws' => option_map (cons (Some x)) (dgr_put res' ws')
  | [] :: res', [] => dgr_put res' []
  | (_ :: _) :: _, [] => None
  end.
Definition dgr_ap_finish (_ : unit) (o : grid_option) (outs : list T) (g : dgrid T) : option (dgrid T) :=
  match dgr_ap_values o g with
  | None => None
  | Some vs =>
      let res := deal (map opt_list vs) outs in
      match o with
      | READ => option_map (fun rs => DGrid rs (dg_write g) (dg_w g) (dg_h g)) (dgr_put res (dg_read g))
      | _ => option_map (fun ws => DGrid (dg_read g) ws (dg_w g) (dg_h g)) (dgr_put res (dg_write g))
      end
  end.

Definition dg_prog := prog gcall (gres T) (loc * T) T T unit.
Definition dg_exec {X} (p : dg_prog X) (held : list hold) (g : dgrid T) : option (dgrid T * X) :=
  run dgr_needs dgr_act dgr_groups dgr_items false dgr_ap_needs dgr_ap_items dgr_ap_finish p held g.
End DenseNumbers.
Arguments gcall : clear implicits.
Arguments dg_prog : clear implicits.

(** ** SparseNumberGrid2D *)
Section SparseNumbers.
Context {T : Type}.
Variable eqv : T -> T -> bool.
Local Notation nmap := (list (loc * T)).
Local Notation order := (nmap -> nmap).

(** sparse_number_grid_2d.rs L280 and L311 (in loops), L341, L375, L405, L430, L454, L481. *)
Definition sgr_needs (c : gcall T * order) (g : sgrid T) : list hold :=
  match fst c with
  | NSet _ _ | NRemove _ => [(Wrt, Change)]
  | NGet _ | NLocation _ => [(Pub, Look)]
  | NGetUnbuffered _ | NLocationUnbuffered _ => [(Wrt, Look)]
  | NEmptyBags | NRandomEmpty _ => match cells (sg_w g) (sg_h g) with [] => [] | _ => [(Pub, Look)] end
  end.
Definition sgr_act (c : gcall T * order) (g : sgrid T) : option (sgrid T * gres T) :=
  sg_call eqv (snd c) g (gcall_op (fst c)).

Definition sg_buf (b : cell) (g : sgrid T) : nmap := match b with Pub => sg_read g | Wrt => sg_write g end.
(** [iter_values], L211-214, [iter_values_unbuffered], L246-249: one borrow for all. *)
Definition sgr_groups (b : cell) (g : sgrid T) : list unit := [tt].
Definition sgr_items (it : order) (b : cell) (_ : unit) (g : sgrid T) : option (list (loc * T)) := Some (it (sg_buf b g)).

(** [apply_to_all_values], L147-181. *)
Definition sgr_ap_needs (o : grid_option) : list hold :=
  match o with
  | READ => [(Pub, Change)]                      (* L154 *)
  | WRITE => [(Wrt, Change)]                     (* L160 *)
  | READWRITE => [(Pub, Look); (Wrt, Change)]    (* L167-168 *)
  end.
Definition sgr_ap_entries (it : order) (o : grid_option) (g : sgrid T) : nmap :=
  match o with
  | READ => it (sg_read g)
  | WRITE => it (sg_write g)
  | READWRITE =>
      map (fun p => (fst p, match hm_find loc_eqb (fst p) (sg_write g) with
                            | Some (_, v) => v            (* L172-173 *)
                            | None => snd p               (* L174-175 *)
                            end)) (it (sg_read g))
  end.
Definition sgr_ap_items (it : order) (o : grid_option) (g : sgrid T) : option (list T) :=
  Some (map snd (sgr_ap_entries it o g)).
Definition sgr_overwrite (m : nmap) (p : loc * T) : nmap := hm_modify loc_eqb (fst p) (fun _ => snd p) m.
Definition sgr_rw (ws : nmap) (p : loc * T) : nmap :=
  match hm_find loc_eqb (fst p) ws with
  | Some _ => hm_modify loc_eqb (fst p) (fun _ => snd p) ws
  | None => fst (hm_insert loc_eqb (fst p) (snd p) ws)
  end.
Definition sgr_ap_finish (it : order) (o : grid_option) (outs : list T) (g : sgrid T) : option (sgrid T) :=
  let new := combine (map fst (sgr_ap_entries it o g)) outs in
  Some match o with
       | READ => SGrid (fold_left sgr_overwrite new (sg_read g)) (sg_write g) (sg_w g) (sg_h g)
       | WRITE => SGrid (sg_read g) (fold_left sgr_overwrite new (sg_write g)) (sg_w g) (sg_h g)
       | READWRITE => SGrid (sg_read g) (fold_left sgr_rw new (sg_write g)) (sg_w g) (sg_h g)
       end.

Definition sg_prog := prog (gcall T * order) (gres T) (loc * T) T T order.
Definition sg_exec {X} (p : sg_prog X) (held : list hold) (g : sgrid T) : option (sgrid T * X) :=
  run sgr_needs sgr_act sgr_groups sgr_items true sgr_ap_needs sgr_ap_items sgr_ap_finish p held g.
End SparseNumbers.
Arguments sg_prog : clear implicits.

(** ** Field2D *)
Section Fields.
Variable A : arith.
Local Notation T := (num A).
Local Notation pt := (num A * num A)%type.
Context {O : Type}.
Variable eqo : O -> O -> bool.
Variable location : O -> num A * num A.
Local Notation field := (@field2d A O).

(** The calls without a closure. *)
Inductive fcall :=
| DSet (o : O) (l : pt)
| DRemove (o : O) (l : pt)
| DGet (l : pt)
| DGetUnbuffered (l : pt)
| DCount (l : pt)
| DNeighbors (l : pt) (dist : T)
| DRelax (l : pt) (dist : T)
| DEmptyBags
| DRandomEmptyBag (k : nat).
Definition fcall_op (c : fcall) : @fop A O :=
  match c with
  | DSet o l => FSet o l
  | DRemove o l => FRemove o l
  | DGet l => FGet l
  | DGetUnbuffered l => FGetUnbuffered l
  | DCount l => FCount l
  | DNeighbors l d => FNeighbors l d
  | DRelax l d => FRelax l d
  | DEmptyBags => FEmptyBags
  | DRandomEmptyBag k => FRandomEmptyBag k
  end.

(** The bags a neighbour query borrows for are those of its window; none if the distance
    is not positive. *)
Definition fr_looks (f : field) (l : pt) (dist : T) : bool :=
  if le A dist (of_int A 0) then false
  else match window A f l dist with Some [] => false | _ => true end.
(** field_2d.rs L429 (in the loop), L509 (in the loop: the published bags are borrowed for
    changing), L547, L580, L732 (in the loop), L806, L841, L888. *)
Definition fr_needs (c : fcall) (f : field) : list hold :=
  match c with
  | DSet _ _ | DRemove _ _ => [(Wrt, Change)]
  | DGet _ | DCount _ => [(Pub, Look)]
  | DGetUnbuffered _ => [(Wrt, Look)]
  | DNeighbors l d => if fr_looks f l d then [(Pub, Look)] else []
  | DRelax l d => if fr_looks f l d then [(Pub, Change)] else []
  | DEmptyBags | DRandomEmptyBag _ => match cells (f_dw f) (f_dh f) with [] => [] | _ => [(Pub, Look)] end
  end.
Definition fr_act (c : fcall) (f : field) : option (field * fres A (O := O)) := f_step A eqo location f (fcall_op c).

Definition f_buf (b : cell) (f : field) : list (list O) := match b with Pub => f_read f | Wrt => f_write f end.
(** [iter_objects], L619-638, [iter_objects_unbuffered], L677-696: as in DenseGrid2D. *)
Definition fr_groups (b : cell) (f : field) : list loc := cells (f_dw f) (f_dh f).
Definition fr_items (_ : unit) (b : cell) (c : loc) (f : field) : option (list (pt * O)) :=
  option_map (map (fun o => (not_discretize A (f_disc f) c, o))) (vget (f_buf b f) (cell_index (f_dh f) c)).

(** There is no [apply_to_all_values]: its closure type is empty. *)
Definition f_prog := prog fcall (fres A (O := O)) (pt * O) Empty_set Empty_set unit.
Definition f_exec {X} (p : f_prog X) (held : list hold) (f : field) : option (field * X) :=
  run fr_needs fr_act fr_groups fr_items true (fun _ => []) (fun _ _ _ => None) (fun _ _ _ _ => None) p held f.
End Fields.
