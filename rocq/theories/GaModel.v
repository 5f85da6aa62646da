(** * Model of the genetic searches

    [explore_ga_sequential!] and [explore_ga_parallel!] (src/explore/genetic.rs L384-556,
    L627-829) and [explore_ga_distributed_mpi!] (src/explore/mpi/genetic.rs L120-611).

    The user's functions may draw random numbers or keep state of their own.  Each is
    called once per generation (and index, and repetition), so what it does in a run is a
    function of those numbers and of its arguments: [run], [fitness], [selection],
    [crossover] and [mutation] below take them as extra arguments, and the theorems hold
    for all such functions.  [cmp] is assumed to be a function of its two arguments.
    Generations are counted by a natural number; the code's [u32] counter is that number
    modulo 2^32, and it cannot wrap before reaching a non-zero [generation_num].
    Printing of times is left out; the best individual, which is printed, is kept. *)
From Coq Require Import List Bool Arith NArith.
From Verif Require Import ExpModel.
Import ListNotations.

(** A run of a search: the rows and the best individual, a panic, or not finished within
    the given number of generations.  [RootOnly] (MPI only): the root returns, the other
    ranks wait for it forever. *)
Inductive outcome (A : Type) := Done (a : A) | RootOnly (a : A) | Panic | OutOfFuel.
Arguments Done {A}. Arguments RootOnly {A}. Arguments Panic {A}. Arguments OutOfFuel {A}.

Section GA.
Context {I F S : Type}.
(** [$cmp], [$desired_fitness], [$reps], [$generation_num]. *)
Variable cmp : F -> F -> bool.
Variable desired : F.
Variable reps : nat.
Variable gnum : nat.
(** [new_with_parameters], [init] and the steps of repetition [r] of individual [i] of
    generation [g] (genetic.rs L447-461; the schedule is part of the final state). *)
Variable run : nat -> nat -> nat -> I -> S.
(** [$fitness], [$selection], [$crossover], [$mutation]. *)
Variable fitness : nat -> nat -> list S -> F.
Variable selection : nat -> list (I * F) -> list (I * F).
Variable crossover : nat -> list I -> list I.
Variable mutation : nat -> nat -> I -> I.

(** [BufferGA], genetic.rs L401-406. *)
Record ga_row := GaRow { ga_gen : N; ga_index : nat; ga_fit : F; ga_ind : I }.

(** The simulations of one individual, genetic.rs L445-461, and its fitness, L464. *)
Definition computed (g i : nat) (x : I) : list S := map (fun r => run g i r x) (seq 0 reps).
Definition eval (g i : nat) (x : I) : F := fitness g i (computed g i x).

(** [best_fitness_gen] with [best_individual_gen], L469-479, L748-758. *)
Definition update_best (b : option (F * I)) (f : F) (x : I) : option (F * I) :=
  match b with
  | Some (f0, _) => if cmp f f0 then Some (f, x) else b
  | None => Some (f, x)
  end.
(** [best_fitness], [best_individual], [best_generation], L502-514, L770-782.  A panic
    ([None]) if the generation had no individual ([expect], L504, L518, L772, L786). *)
Definition update_overall (b : option (F * I * nat)) (bg : option (F * I)) (g : nat) : option (F * I * nat) :=
  match bg with
  | None => None
  | Some (f, x) =>
      match b with
      | Some (f0, _, _) => if cmp f f0 then Some (f, x, g) else b
      | None => Some (f, x, g)
      end
  end.

(** ** [explore_ga_sequential!] *)
(** The loop over the population, L443-497: rows, [pop_fitness], best, [flag]. *)
Fixpoint seq_gen (g i : nat) (pop : list I) (b : option (F * I)) : list ga_row * list (I * F) * option (F * I) * bool :=
  match pop with
  | [] => ([], [], b, false)
  | x :: pop' =>
      let f := eval g i x in
      let b' := update_best b f x in
      let r := GaRow (as_u32 g) i f x in
      if cmp f desired then ([r], [(x, f)], b', true)
      else
        let '(rows, pf, b'', flag) := seq_gen g (i + 1) pop' b' in
        (r :: rows, (x, f) :: pf, b'', flag)
  end.
(** L545-547, L816-818, mpi L587-589. *)
Fixpoint mutate (g i : nat) (pop : list I) : list I :=
  match pop with
  | [] => []
  | x :: pop' => mutation g i x :: mutate g (i + 1) pop'
  end.
(** L535-547, L806-818. *)
Definition breed (g : nat) (pf : list (I * F)) : list I := mutate g 0 (crossover g (map fst pf)).
(** The loop, L426-548, and the report, L550-553. *)
Fixpoint seq_loop (fuel g : nat) (pop : list I) (result : list ga_row) (best : option (F * I * nat)) : outcome (list ga_row * (F * I * nat)) :=
  let report result best := match best with None => Panic | Some b => Done (result, b) end in
  match fuel with
  | O => OutOfFuel
  | Datatypes.S fuel' =>
      if negb (gnum =? 0) && (g =? gnum) then report result best
      else
        let g := g + 1 in
        let '(rows, pf, bg, flag) := seq_gen g 0 pop None in
        match update_overall best bg g with
        | None => Panic
        | Some b =>
            let result := result ++ rows in
            if flag then report result (Some b)
            else
              let sel := selection g pf in
              if length sel <=? 1 then report result (Some b)
              else seq_loop fuel' g (breed g sel) result (Some b)
        end
  end.
Definition ga_sequential (fuel : nat) (init : list I) : outcome (list ga_row * (F * I * nat)) :=
  seq_loop fuel 0 init [] None.

(** ** [explore_ga_parallel!] *)
(** The rows also carry the display of the state of the last repetition ([save_state],
    L696, L718: an empty string if there is none). *)
Fixpoint last_of {X} (l : list X) : option X :=
  match l with [] => None | [x] => Some x | _ :: l' => last_of l' end.
Definition par_row (g : nat) (pop : list I) (i : nat) : option (ga_row * option S) :=
  match nth_error pop i with
  | None => None
  | Some x => Some (GaRow (as_u32 g) i (eval g i x) x, last_of (computed g i x))
  end.
(** [into_par_iter().map(..).collect_into_vec(..)] (rayon, external) over [0..len],
    L693-736: the closure runs once per index, on any thread, in any order; the results
    are in the order of the indices. *)
Definition par_gen (g : nat) (pop : list I) : option (list (ga_row * option S)) :=
  all_some (map (par_row g pop) (seq 0 (length pop))).
(** The loop over the results, L739-766. *)
Fixpoint par_scan (result : list (ga_row * option S)) (pf : list (I * F)) (b : option (F * I)) (flag : bool) : list (I * F) * option (F * I) * bool :=
  match result with
  | [] => (pf, b, flag)
  | (r, _) :: result' =>
      par_scan result' (pf ++ [(ga_ind r, ga_fit r)]) (update_best b (ga_fit r) (ga_ind r)) (if cmp (ga_fit r) desired then true else flag)
  end.
(** The loop, L672-820, and the report, L822-825. *)
Fixpoint par_loop (fuel g : nat) (pop : list I) (res : list (ga_row * option S)) (best : option (F * I * nat)) : outcome (list (ga_row * option S) * (F * I * nat)) :=
  let report res best := match best with None => Panic | Some b => Done (res, b) end in
  match fuel with
  | O => OutOfFuel
  | Datatypes.S fuel' =>
      if negb (gnum =? 0) && (g =? gnum) then report res best
      else
        let g := g + 1 in
        match par_gen g pop with
        | None => Panic
        | Some result =>
            let '(pf, bg, flag) := par_scan result [] None false in
            match update_overall best bg g with
            | None => Panic
            | Some b =>
                let res := res ++ result in
                if flag then report res (Some b)
                else
                  let sel := selection g pf in
                  if length sel <? 1 then report res (Some b)
                  else par_loop fuel' g (breed g sel) res (Some b)
            end
        end
  end.
Definition ga_parallel (fuel : nat) (init : list I) : outcome (list (ga_row * option S) * (F * I * nat)) :=
  par_loop fuel 0 init [] None.

(** ** [explore_ga_distributed_mpi!]

    All ranks go through the generations together: the root waits for every rank in the
    gathers (mpi L386-396, L435, L534) and every rank for the root in the receives and
    the broadcast (L283-291, L545), so one generation of all ranks is one step here.  A
    panic in one rank is a panic of the whole.  That the root sends rank 0's part to
    itself and never receives it (L268, L275) is left out. *)
(** The dummy fitness [1000.] (L202-206, L417-421) and the test [== 1000.] (L481). *)
Variable dummy : F.
Variable is_dummy : F -> bool.

(** [BufferGA], mpi L156-162. *)
Record mpi_row := MpiRow { m_gen : N; m_index : nat; m_fit : F }.

(** [samples_count], L236-251. *)
Fixpoint split_counts (per remainder ranks : nat) : list nat :=
  match ranks with
  | O => []
  | Datatypes.S ranks' =>
      if 0 <? remainder then (per + 1) :: split_counts per (remainder - 1) ranks'
      else per :: split_counts per remainder ranks'
  end.
Definition pop_counts (size p : nat) : list nat := split_counts (size / p) (size mod p) p.
(** The parameters sent to each rank, L239-277: [index] goes on through the ranks; an
    index beyond the population panics. *)
Fixpoint take_from (pop : list I) (index n : nat) : option (list I) :=
  match n with
  | O => Some []
  | Datatypes.S n' =>
      match nth_error pop index with
      | None => None
      | Some x => option_map (cons x) (take_from pop (index + 1) n')
      end
  end.
Fixpoint sub_populations (pop : list I) (index : nat) (counts : list nat) : option (list (list I)) :=
  match counts with
  | [] => Some []
  | c :: counts' =>
      match take_from pop index c, sub_populations pop (index + c) counts' with
      | Some l, Some ls => Some (l :: ls)
      | _, _ => None
      end
  end.
(** The loop of a rank over its sub-population, L318-378: the rows carry the local index,
    [my_best_*] persists through the generations.  [d] is the place of the
    sub-population in the population (only used to say which simulation is meant). *)
Fixpoint rank_gen (g d i : nat) (pop : list I) (mb : option (F * nat * I)) (flag : bool) : list mpi_row * option (F * nat * I) * bool :=
  match pop with
  | [] => ([], mb, flag)
  | x :: pop' =>
      let f := eval g (d + i) x in
      let mb' := match mb with
                 | Some (f0, _, _) => if cmp f f0 then Some (f, i, x) else mb
                 | None => Some (f, i, x)
                 end in
      let '(rows, mb'', flag') := rank_gen g d (i + 1) pop' mb' (if cmp f desired then true else flag) in
      (MpiRow (as_u32 g) i f :: rows, mb'', flag')
  end.
(** All ranks. *)
Fixpoint ranks_gen (g d : nat) (subs : list (list I)) (mbs : list (option (F * nat * I))) : list (list mpi_row) * list (option (F * nat * I)) * list bool :=
  match subs, mbs with
  | sub :: subs', mb :: mbs' =>
      let '(rows, mb', flag) := rank_gen g d 0 sub mb false in
      let '(rowss, mbs'', flags) := ranks_gen g (d + length sub) subs' mbs' in
      (rows :: rowss, mb' :: mbs'', flag :: flags)
  | _, _ => ([], [], [])
  end.
(** [max_fitness_index] and [best_individual_string], L398-405. *)
Fixpoint best_rank (l : list (F * nat * I)) (m : F * nat * I) : F * nat * I :=
  match l with
  | [] => m
  | b :: l' => best_rank l' (if cmp (fst (fst b)) (fst (fst m)) then b else m)
  end.
(** The walk over the gathered rows, L439-477: the index becomes global ([i], [j] and
    [displs[i]] as in the code; an index out of range panics); the best fitness of the
    generation and the best individual. *)
Fixpoint walk (rows : list mpi_row) (counts displs : list nat) (i j : nat) (bg : option F) (bi : mpi_row) : option (list mpi_row * option F * mpi_row) :=
  match rows with
  | [] => Some ([], bg, bi)
  | r :: rows' =>
      match nth_error displs i, nth_error counts i with
      | Some d, Some c =>
          let r' := MpiRow (m_gen r) (m_index r + d) (m_fit r) in
          let bg' := match bg with Some f => if cmp (m_fit r) f then Some (m_fit r) else bg | None => Some (m_fit r) end in
          let bi' := if cmp (m_fit r) (m_fit bi) then r' else bi in
          let j := j + 1 in
          match (if j =? c then walk rows' counts displs (i + 1) 0 bg' bi' else walk rows' counts displs i j bg' bi') with
          | Some (rs, bg'', bi'') => Some (r' :: rs, bg'', bi'')
          | None => None
          end
      | _, _ => None
      end
  end.
(** [pop_fitness], L556-562: [all_results] is indexed as if every generation had had the
    size of this one. *)
Fixpoint pair_fitness (all : list mpi_row) (params : list I) (g size i n : nat) : option (list (I * F)) :=
  match n with
  | O => Some []
  | Datatypes.S n' =>
      match nth_error all ((g - 1) * size + i), nth_error params i with
      | Some r, Some x => option_map (cons (x, m_fit r)) (pair_fitness all params g size (i + 1) n')
      | _, _ => None
      end
  end.

(** What the root reports at the end, L595-606: [best_fitness], [best_individual],
    [best_individual_string]. *)
Record mpi_best := MpiBest { mb_fitness : F * nat; mb_row : mpi_row; mb_string : I }.

Fixpoint mpi_loop (fuel p g : nat) (pop : list I) (mbs : list (option (F * nat * I))) (all : list mpi_row) (bf : option (F * nat)) (bi : mpi_row) (bs : option I)
  : outcome (list mpi_row * mpi_best) :=
  let report all bf bi bs := match bf, bs with Some bf, Some bs => Some (all, MpiBest bf bi bs) | _, _ => None end in
  let done o := match o with Some a => Done a | None => Panic end in
  match fuel with
  | O => OutOfFuel
  | Datatypes.S fuel' =>
      if negb (gnum =? 0) && (g =? gnum) then done (report all bf bi bs)
      else
        let g := g + 1 in
        let size := length pop in
        let counts := pop_counts size p in
        match sub_populations pop 0 counts with
        | None => Panic
        | Some subs =>
            let '(rowss, mbs', flags) := ranks_gen g 0 subs mbs in
            match all_some mbs' with            (* [my_best_fitness.expect], L386, L408 *)
            | None | Some [] => Panic
            | Some (b0 :: bl) =>
                let bs := snd (best_rank bl b0) in
                let displs := displacements counts in
                match gather counts displs rowss (repeat (MpiRow (as_u32 g) 0 dummy) size) with
                | None => Panic
                | Some partial =>
                    match walk partial counts displs 0 0 None bi with
                    | None => Panic
                    | Some (partial', bg, bi') =>
                        if existsb (fun r => is_dummy (m_fit r)) partial' then Panic
                        else
                          let all := all ++ partial' in
                          match bg with
                          | None => Panic
                          | Some f =>
                              let bf' := match bf with
                                         | Some (f0, _) => if cmp f f0 then Some (f, g) else bf
                                         | None => Some (f, g)
                                         end in
                              if existsb (fun b => b) flags then done (report all bf' bi' (Some bs))
                              else
                                match pair_fitness all (concat subs) g size 0 size with
                                | None => Panic
                                | Some pf =>
                                    let sel := selection g pf in
                                    if length sel <=? 1 then
                                      (* only the root leaves the loop here (L568-571); the others leave it
                                         at L211 if this was the last generation, else they wait *)
                                      match report all bf' bi' (Some bs) with
                                      | None => Panic
                                      | Some a => if (p =? 1) || (negb (gnum =? 0) && (g =? gnum)) then Done a else RootOnly a
                                      end
                                    else mpi_loop fuel' p g (breed g sel) mbs' all bf' bi' (Some bs)
                                end
                          end
                    end
                end
            end
        end
  end.
Definition ga_mpi (fuel p : nat) (init : list I) : outcome (list mpi_row * mpi_best) :=
  mpi_loop fuel p 0 init (repeat None p) [] None (MpiRow 0 0 dummy) None.
End GA.
Arguments ga_row : clear implicits.
Arguments mpi_row : clear implicits.
Arguments mpi_best : clear implicits.
