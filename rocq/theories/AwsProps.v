(** * Property theorems: the genetic search on AWS (C100-C103) *)
From Coq Require Import List Bool Arith NArith ZArith Lia String Ascii Permutation DecimalString DecimalN.
From Verif Require Import ExpModel GaModel GaSpec AwsModel AwsSpec AwsJson AwsProofs JsonSpec JsonProofs.
Import ListNotations.

(** A search over numbers written in decimal; the network delivers in the order sent. *)
Definition numN (t : string) : N := match NilEmpty.uint_of_string t with Some d => N.of_uint d | None => 0%N end.
Definition gtN (a b : N) : bool := (b <? a)%N.
Definition geN (a b : N) : bool := (b <=? a)%N.
Definition in_order (g : nat) (hist : list (list string)) (k : nat) : option (list string) :=
  match hist with sent :: _ => option_map (fun m => [m]) (nth_error sent k) | [] => None end.
Lemma dec_printable n : printable dec numN n.
Proof. split; [apply dec_number|]. unfold numN, dec. rewrite NilEmpty.usu. apply Unsigned.of_to. Qed.
Lemma in_order_reliable n : reliable n in_order.
Proof.
  intros g sent hist L. exists (seq 0 n). split; [apply Permutation_refl|]. intros k Hk. rewrite seq_nth by exact Hk. reflexivity.
Qed.
Definition reverse_order (n g : nat) (hist : list (list string)) (k : nat) : option (list string) :=
  match hist with sent :: _ => option_map (fun m => [m]) (nth_error sent (n - S k)) | [] => None end.
Lemma reverse_reliable n : reliable n (reverse_order n).
Proof.
  intros g sent hist L. exists (rev (seq 0 n)). split; [apply Permutation_sym, Permutation_rev|]. intros k Hk.
  rewrite rev_nth by (rewrite seq_length; exact Hk). rewrite seq_length, seq_nth by lia. reflexivity.
Qed.

(** ** C100: the work of a generation *)
(** For any number of functions, they get the population [reps] times, in order, in parts
    that differ by at most one. *)
Theorem C100_split :
  forall reps num_func (population : list string), num_func <> 0 ->
    exists parts, aws_split reps num_func population = Some parts /\ List.length parts = num_func /\
      List.concat parts = List.concat (repeat population reps) /\
      (forall a b, In a parts -> In b parts -> List.length a <= List.length b + 1).
Proof.
  intros reps n pop N0. exists (map (chunk reps n pop) (seq 0 n)). split; [apply split_ok; exact N0|]. split; [rewrite map_length, seq_length; reflexivity|]. split.
  - rewrite (chunks_concat reps n pop N0 n (le_n _)), first_end by exact N0. rewrite <- work_length. apply firstn_all.
  - intros a b Ha Hb. apply in_map_iff in Ha, Hb. destruct Ha as (i & <- & Hi). destruct Hb as (j & <- & Hj). apply in_seq in Hi, Hj.
    rewrite !chunk_length, !share_val by lia. destruct (Nat.ltb i _), (Nat.ltb j _); lia.
Qed.
Print Assumptions C100_split.
(** Without functions it panics. *)
Theorem C100_no_functions_refuted : forall reps population, aws_split reps 0 population = None.
Proof. reflexivity. Qed.
Print Assumptions C100_no_functions_refuted.
Example C100_concrete :
  aws_split 2 3 ["a"; "b"; "c"; "d"]%string = Some [["a"; "b"; "c"]; ["d"; "a"; "b"]; ["c"; "d"]]%string /\
  aws_split 1 5 ["a"; "b"]%string = Some [["a"]; ["b"]; []; []; []]%string.
Proof. split; reflexivity. Qed.

(** ** C101: the rows are the evaluations *)
(** When every message arrives once and in time, individuals are plain text and there is
    work for every function: no panic, and the rows are, generation by generation, those
    of all functions in the order in which they arrived. *)
Theorem C101_rows_partial :
  forall (F : Type) show num gt ge zero desired reps gnum num_func (eval : nat -> nat -> nat -> string -> F) selection mutation crossover recv init fuel,
    num_func <> 0 -> reliable num_func recv ->
    healthy show num ge desired reps gnum num_func eval selection mutation crossover init ->
    match ga_aws show num gt ge zero desired reps gnum num_func eval selection mutation crossover recv fuel init with
    | Done (rows, _) => ended ge desired reps gnum num_func eval selection mutation crossover init rows
    | OutOfFuel => gnum = 0 \/ fuel <= gnum
    | _ => False
    end.
Proof.
  intros F show num gt ge zero desired reps gnum n eval selection mutation crossover recv init fuel N0 R H.
  pose proof (loop_ok show num gt ge zero desired reps gnum n eval selection mutation crossover recv init N0 R H fuel 0 init [] [] (zero, ""%string, 0) (went_start _ _ _ _ _ _ _ _ _ _) (or_intror (Nat.le_0_l _))) as K.
  unfold ga_aws. destruct (aws_loop _ _ _ _ _ _ _ _ _ _ _ _ _ _ _ _ _ _ _ _) as [[rs b]|?| |]; try exact K. lia.
Qed.
Print Assumptions C101_rows_partial.
(** What is received is read as JSON says: exactly the texts of the grammar are accepted,
    with the value they stand for. *)
Theorem C101_json : forall s v, from_str s = Some v <-> document v s.
Proof. exact from_str_spec. Qed.
Print Assumptions C101_json.
(** So a message gives rows exactly if it is a JSON object whose member "function" (the
    last one of that name) is an array of objects with a numeric fitness, a text and an
    integral index; the rows hold these, and the index modulo 2^32. *)
Definition last_member (k : string) (l : list (string * json)) (v : json) : Prop :=
  exists before after, l = before ++ (k, v) :: after /\ ~ In k (map fst after).
Definition result_row {F} (num : string -> F) (g : nat) (v : json) (r : aws_row F) : Prop :=
  exists l n z, v = JObj l /\
    (exists f, last_member "Fitness" l (JNum f) /\ w_fit r = num f) /\ last_member "Individual" l (JStr (w_ind r)) /\
    last_member "Index" l (JNum n) /\ integer n z /\
    (- 2 ^ 31 <= w_index r < 2 ^ 31)%Z /\ (exists q, w_index r = z + q * 2 ^ 32)%Z /\ w_gen r = as_u32 g.
Lemma lookup_last k l v : lookup k l = Some v <-> last_member k l v.
Proof.
  unfold last_member. induction l as [|[k' v'] l IH]; cbn [lookup].
  - split; [discriminate|]. intros ([|] & ? & E & _); discriminate.
  - destruct (lookup k l) as [u|] eqn:L.
    + split.
      * intros E. injection E as ->. destruct (proj1 IH eq_refl) as (b & a & -> & N). exists ((k', v') :: b), a. split; [reflexivity|exact N].
      * intros (b & a & E & N). destruct b as [|[kb vb] b].
        -- cbn in E. injection E as -> -> <-. exfalso. apply N. clear - L. induction l as [|[x y] l IH]; [discriminate|]. cbn in L |- *.
           destruct (lookup k l); [right; apply IH; exact L|]. destruct (String.eqb_spec x k); [auto|discriminate].
        -- cbn in E. injection E as -> -> ->. apply IH. exists b, a. auto.
    + assert (NI : ~ In k (map fst l)).
      { clear - L. induction l as [|[x y] l IH]; [intros []|]. cbn in L |- *. destruct (lookup k l); [discriminate|]. destruct (String.eqb_spec x k); [discriminate|]. intros [E|H]; [contradiction|exact (IH eq_refl H)]. }
      destruct (String.eqb_spec k' k) as [->|NE].
      * split; [intros E; injection E as ->; exists [], l; split; [reflexivity|exact NI]|]. intros (b & a & E & N). destruct b as [|[kb vb] b]; cbn in E; injection E as E1 E2; [congruence|].
        subst l. exfalso. apply NI. rewrite map_app. apply in_or_app. right. left. reflexivity.
      * split; [discriminate|]. intros (b & a & E & N). destruct b as [|[kb vb] b]; cbn in E; injection E as E1 E2; [congruence|].
        subst l. exfalso. apply NI. rewrite map_app. apply in_or_app. right. left. reflexivity.
Qed.
Lemma as_i32_spec z i : (- 2 ^ 31 <= i < 2 ^ 31)%Z -> (exists q, i = z + q * 2 ^ 32)%Z -> as_i32 z = i.
Proof.
  intros B (q & ->). unfold as_i32. rewrite <- (Z.mod_add (z + 2 ^ 31) q (2 ^ 32)) by lia. rewrite Z.mod_small by lia. lia.
Qed.
Lemma as_i32_range z : (- 2 ^ 31 <= as_i32 z < 2 ^ 31)%Z /\ (exists q, as_i32 z = z + q * 2 ^ 32)%Z.
Proof.
  unfold as_i32. pose proof (Z.mod_pos_bound (z + 2 ^ 31) (2 ^ 32) ltac:(lia)). split; [lia|]. exists (- ((z + 2 ^ 31) / 2 ^ 32))%Z.
  pose proof (Z.div_mod (z + 2 ^ 31) (2 ^ 32) ltac:(lia)). lia.
Qed.
Theorem C101_decode :
  forall (F : Type) (num : string -> F) g m rows,
    aws_decode num g m = Some rows <->
    exists l fs, document (JObj l) m /\ last_member "function" l (JArr fs) /\ Forall2 (result_row num g) fs rows.
Proof.
  intros F num g m rows.
  assert (R : forall v r, aws_result num g v = Some r <-> result_row num g v r).
  { intros v r. unfold aws_result, result_row. split.
    - destruct v as [?|?|?|?|l]; cbn [field]; try discriminate. destruct (lookup "Fitness" l) as [[?|f|?|?|?]|] eqn:E1; try discriminate.
      destruct (lookup "Individual" l) as [[x|?|?|?|?]|] eqn:E2; try discriminate. destruct (lookup "Index" l) as [[?|n|?|?|?]|] eqn:E3; try discriminate.
      destruct (as_i64 n) as [zz|] eqn:E4; [|discriminate]. intros H. injection H as <-. cbn [w_fit w_ind w_index w_gen]. apply lookup_last in E1, E2, E3.
      exists l, n, zz. apply as_i64_spec in E4. destruct (as_i32_range zz). split; [reflexivity|]. split; [exists f; auto|]. auto 8.
    - intros (l & n & zz & -> & (f & E1 & EF) & E2 & E3 & E4 & B & Q & G). apply lookup_last in E1, E2, E3. apply as_i64_spec in E4. cbn [field]. rewrite E1, E2, E3, E4. cbn [option_map].
      rewrite (as_i32_spec zz _ B Q), <- EF, <- G. destruct r; reflexivity. }
  assert (RS : forall fs rows, all_some (map (aws_result num g) fs) = Some rows <-> Forall2 (result_row num g) fs rows).
  { induction fs as [|v fs IH]; intros rs; cbn [map all_some].
    - split; [intros E; injection E as <-; constructor|intros H; inversion H; reflexivity].
    - split.
      + destruct (aws_result num g v) as [r|] eqn:E; [|discriminate]. destruct (all_some (map (aws_result num g) fs)) as [rs'|] eqn:E'; [|discriminate]. intros X. injection X as <-.
        constructor; [apply R; exact E|apply IH; reflexivity].
      + intros X. inversion X as [|? ? ? ? X1 X2]; subst. apply R in X1. apply IH in X2. rewrite X1, X2. reflexivity. }
  unfold aws_decode. split.
  - destruct (from_str m) as [v|] eqn:E; [|discriminate]. destruct v as [?|?|?|?|l]; cbn [field]; try discriminate. destruct (lookup "function" l) as [[?|?|?|fs|?]|] eqn:E1; try discriminate.
    intros H. apply from_str_spec in E. apply lookup_last in E1. exists l, fs. split; [exact E|]. split; [exact E1|]. apply RS. exact H.
  - intros (l & fs & D & L & X). apply from_str_spec in D. apply lookup_last in L. rewrite D. cbn [field]. rewrite L. apply RS. exact X.
Qed.
Print Assumptions C101_decode.
Definition foreign : string := " { ""function"" : [ ] ,""function"":[ {""Individual"":""a\\b\n"",""Index"":4294967301,""Fitness"":7,""Fitness"":8,""more"":[-1.50e+3, {} ]}]}
"%string.
Example C101_decode_concrete :
  aws_decode numN 3 foreign = Some [AwsRow 3 5%Z 8%N (String "a" (String "\" (String "b" (String "010" ""))))] /\
  aws_decode numN 3 "{""function"":[{""Individual"":""a"",""Index"":01,""Fitness"":7}]}"%string = None /\
  aws_decode numN 3 "{""function"":[{""Individual"":""a"",""Index"":1.0,""Fitness"":7}]}"%string = None /\
  aws_decode numN 3 "{""function"":[],}"%string = None.
Proof. repeat split; vm_compute; reflexivity. Qed.
(** The rows of a generation: every individual, [reps] times, whatever the order. *)
Theorem C101_generation :
  forall (F : Type) reps num_func (eval : nat -> nat -> nat -> string -> F) g population order,
    num_func <> 0 -> Permutation order (seq 0 num_func) ->
    Permutation (map w_ind (arrived reps num_func eval g population order)) (List.concat (repeat population reps)).
Proof.
  intros F reps n eval g pop order N0 O. unfold arrived.
  assert (E : forall l, map w_ind (flat_map (func_rows reps n eval g pop) l) = List.concat (map (chunk reps n pop) l)).
  { induction l as [|i l IH]; [reflexivity|]. cbn [flat_map map List.concat]. rewrite map_app, IH. f_equal. unfold func_rows. rewrite map_map. cbn [w_ind].
    set (xs := chunk reps n pop i). clear. generalize 0. induction xs as [|x xs IH]; intros j; [reflexivity|]. cbn [List.length seq combine map snd]. rewrite IH. reflexivity. }
  rewrite E. transitivity (List.concat (map (chunk reps n pop) (seq 0 n))).
  - clear E. induction O as [|x l l' O IH|x y l|l1 l2 l3 O1 IH1 O2 IH2]; cbn [map List.concat]; [apply perm_nil|apply Permutation_app_head; exact IH| |exact (Permutation_trans IH1 IH2)].
    rewrite !app_assoc. apply Permutation_app_tail. apply Permutation_app_comm.
  - rewrite (chunks_concat reps n pop N0 n (le_n _)), first_end by exact N0. rewrite <- work_length, firstn_all. apply Permutation_refl.
Qed.
Print Assumptions C101_generation.
(** With more functions than evaluations the search always panics: a function without
    individuals sends text that is not JSON. *)
Theorem C101_more_functions_refuted :
  forall (F : Type) show num gt ge zero desired reps gnum num_func (eval : nat -> nat -> nat -> string -> F) selection mutation crossover recv init fuel,
    reliable num_func recv -> List.length init * reps < num_func ->
    ga_aws show num gt ge zero desired reps gnum num_func eval selection mutation crossover recv (S fuel) init = Panic.
Proof.
  intros F show num gt ge zero desired reps gnum n eval selection mutation crossover recv init fuel R L.
  assert (N0 : n <> 0) by lia. unfold ga_aws. cbn [aws_loop].
  replace (negb (Nat.eqb gnum 0) && Nat.eqb 0 gnum) with false by (destruct gnum; reflexivity).
  rewrite (split_ok reps n init N0). destruct (receive_ok show reps n eval recv N0 R 1 init []) as (order & O1 & ->).
  assert (B : forall l, In (n - 1) l -> all_some (map (aws_decode num 1) (map (fun i => msg show eval 1 i (chunk reps n init i)) l)) = None).
  { induction l as [|i l IH]; intros H; [destruct H|]. cbn [map all_some]. destruct H as [->|H].
    - rewrite (chunk_empty reps n init N0 L), decode_empty. reflexivity.
    - rewrite (IH H). destruct (aws_decode _ _ _); reflexivity. }
  rewrite B; [reflexivity|]. apply (Permutation_in _ (Permutation_sym O1)). apply in_seq. lia.
Qed.
Print Assumptions C101_more_functions_refuted.
(** A result that takes more than 20 seconds: panic. *)
Theorem C101_late_refuted :
  forall (F : Type) show num gt ge zero desired reps gnum num_func (eval : nat -> nat -> nat -> string -> F) selection mutation crossover recv init fuel k,
    k < num_func -> (forall hist, recv 1 hist k = None) ->
    ga_aws show num gt ge zero desired reps gnum num_func eval selection mutation crossover recv (S fuel) init = Panic.
Proof.
  intros F show num gt ge zero desired reps gnum n eval selection mutation crossover recv init fuel k Hk H. unfold ga_aws. cbn [aws_loop].
  replace (negb (Nat.eqb gnum 0) && Nat.eqb 0 gnum) with false by (destruct gnum; reflexivity). destruct (aws_split reps n init) as [subs|]; [|reflexivity].
  assert (B : forall todo k0 hist, k0 <= k < k0 + todo -> aws_receive recv 1 hist k0 todo = None).
  { induction todo as [|todo IH]; intros k0 hist L; [lia|]. cbn [aws_receive]. destruct (Nat.eq_dec k0 k) as [->|NE]; [rewrite H; reflexivity|].
    rewrite IH by lia. destruct (recv 1 hist k0); reflexivity. }
  rewrite (B n 0) by lia. reflexivity.
Qed.
Print Assumptions C101_late_refuted.
(** A message delivered twice (the queue promises at least one delivery): the population
    of generation 2 is x, x, but its rows hold an evaluation of b, made in generation 1. *)
Definition twice (g : nat) (hist : list (list string)) (k : nat) : option (list string) :=
  match g, hist with
  | 1, sent :: _ => option_map (fun m => [m]) (nth_error sent 0)
  | 2, sent :: before :: _ => option_map (fun m => [m]) (if Nat.eqb k 0 then nth_error before 1 else nth_error sent 0)
  | _, _ => None
  end.
Theorem C101_twice_refuted :
  exists rows b,
    ga_aws dec numN gtN geN 0%N 100%N 1 2 2 (fun _ i _ _ => N.of_nat i + 7)%N (fun _ l => l) (fun _ _ _ => "x"%string) (fun _ l => l) twice 5 ["a"; "b"]%string = Done (rows, b) /\
    rows = [AwsRow 1 0 7%N "a"; AwsRow 1 0 7%N "a"; AwsRow 2 0 8%N "b"; AwsRow 2 0 7%N "x"]%string.
Proof. eexists _, _. split; vm_compute; reflexivity. Qed.
Print Assumptions C101_twice_refuted.
(** An individual with a quote in it: another one is reported, or the search panics.  One
    with a backslash: what the escape stands for is reported. *)
Definition tricky : string := "a"", ""Individual"": ""b".
Theorem C101_text_refuted :
  (exists rows b, ga_aws dec numN gtN geN 0%N 5%N 1 1 1 (fun _ _ _ _ => 7%N) (fun _ l => l) (fun _ _ x => x) (fun _ l => l) in_order 5 [tricky; tricky] = Done (rows, b) /\
     map w_ind rows = ["b"; "b"]%string) /\
  ga_aws dec numN gtN geN 0%N 5%N 1 1 1 (fun _ _ _ _ => 7%N) (fun _ l => l) (fun _ _ x => x) (fun _ l => l) in_order 5 ["a""b"%string] = Panic /\
  (exists rows b, ga_aws dec numN gtN geN 0%N 5%N 1 1 1 (fun _ _ _ _ => 7%N) (fun _ l => l) (fun _ _ x => x) (fun _ l => l) in_order 5 ["\u0041\ud83d\ude00"; "b"]%string = Done (rows, b) /\
     map w_ind rows = [String "A" (String "240" (String "159" (String "152" (String "128" "")))); "b"]%string).
Proof. split; [eexists _, _; split; vm_compute; reflexivity|split; [vm_compute; reflexivity|eexists _, _; split; vm_compute; reflexivity]]. Qed.
Print Assumptions C101_text_refuted.
(** A fitness that is not a number ("NaN", "inf"): panic. *)
Theorem C101_nan_refuted :
  ga_aws (fun f : N => if (f =? 0)%N then "NaN"%string else dec f) numN gtN geN 0%N 5%N 1 1 1 (fun _ _ _ x => N.of_nat (String.length x)) (fun _ l => l) (fun _ _ x => x) (fun _ l => l) in_order 5 ["a"; ""]%string = Panic.
Proof. vm_compute. reflexivity. Qed.
Print Assumptions C101_nan_refuted.
(** The index in a row is the position in the message, not in the population. *)
Theorem C101_index_refuted :
  exists rows b, ga_aws dec numN gtN geN 0%N 5%N 1 1 2 (fun _ _ _ _ => 7%N) (fun _ l => l) (fun _ _ x => x) (fun _ l => l) in_order 5 ["a"; "b"; "c"; "d"]%string = Done (rows, b) /\
    map (fun r => (w_index r, w_ind r)) rows = [(0%Z, "a"); (1%Z, "b"); (0%Z, "c"); (1%Z, "d")]%string.
Proof. eexists _, _. split; vm_compute; reflexivity. Qed.
Print Assumptions C101_index_refuted.
(** A healthy search: individuals a, b, c on two functions, results in reverse order. *)
Definition ex_eval (g i j : nat) (x : string) : N := (N.of_nat g * 10 + N.of_nat i * 2 + N.of_nat j)%N.
Definition ex_mutate (g i : nat) (x : string) : string := String "m" x.
Lemma ex_healthy reps gnum init : 1 <= reps -> 2 <= List.length init -> Forall plain init ->
  healthy dec numN geN 1000%N reps gnum 2 ex_eval (fun _ l => l) ex_mutate (fun _ l => l) init.
Proof.
  intros R L P. split; [|intros; apply dec_printable].
  assert (K : forall k pop rows, went_on geN 1000%N reps gnum 2 ex_eval (fun _ l => l) ex_mutate (fun _ l => l) init k pop rows -> 2 <= List.length pop /\ Forall plain pop).
  { intros k pop rows W. induction W as [|k pop rows order W [I1 I2] WI O NR SZ]; [split; assumption|]. unfold offspring, chosen in *. split.
    - rewrite map_length, combine_length, seq_length, !map_length in *. lia.
    - apply Forall_forall. intros x Hx. apply in_map_iff in Hx. destruct Hx as ([i y] & <- & Hy). apply in_combine_r in Hy. rewrite map_map in Hy. apply in_map_iff in Hy. destruct Hy as (r & <- & Hr).
      cbn [fst snd]. unfold ex_mutate. apply plain_cons. split; [reflexivity|]. rewrite Forall_forall in I2. apply I2.
      apply (in_map w_ind) in Hr. apply (Permutation_in _ (C101_generation N reps 2 ex_eval (S k) pop order ltac:(lia) O)) in Hr.
      apply in_concat in Hr. destruct Hr as (l & L1 & L2). apply repeat_spec in L1. subst l. exact L2. }
  intros k pop rows W _. destruct (K k pop rows W) as [K1 K2]. split; [|exact K2]. rewrite work_length. nia.
Qed.
Example C101_concrete :
  healthy dec numN geN 1000%N 1 2 2 ex_eval (fun _ l => l) ex_mutate (fun _ l => l) ["a"; "b"; "c"]%string /\
  ga_aws dec numN gtN geN 0%N 1000%N 1 2 2 ex_eval (fun _ l => l) ex_mutate (fun _ l => l) (reverse_order 2) 5 ["a"; "b"; "c"]%string =
  Done ([AwsRow 1 0 12%N "c"; AwsRow 1 0 10%N "a"; AwsRow 1 1 11%N "b"; AwsRow 2 0 22%N "mb"; AwsRow 2 0 20%N "mc"; AwsRow 2 1 21%N "ma"]%string, (22%N, "mb"%string, 2)).
Proof.
  split; [|vm_compute; reflexivity]. apply ex_healthy; [lia|cbn; lia|]. repeat (apply Forall_cons; [pl|]); apply Forall_nil.
Qed.

(** ** C102: the reported best *)
(** On any network: no row beats the reported fitness; and if some fitness is positive,
    the report is a row with that fitness, individual and generation. *)
Theorem C102_best_partial :
  forall (F : Type) show num gt ge zero desired reps gnum num_func (eval : nat -> nat -> nat -> string -> F) selection mutation crossover recv init fuel (P : F -> Prop) rows f x g,
    strict_weak_order gt P -> (forall t, P (num t)) -> P zero ->
    ga_aws show num gt ge zero desired reps gnum num_func eval selection mutation crossover recv fuel init = Done (rows, (f, x, g)) ->
    (forall r, In r rows -> gt (w_fit r) f = false) /\
    ((exists r, In r rows /\ gt (w_fit r) zero = true) -> exists r, In r rows /\ w_fit r = f /\ w_ind r = x /\ w_gen r = as_u32 g) /\
    ((forall r, In r rows -> gt (w_fit r) zero = false) -> f = zero /\ x = ""%string /\ g = 0).
Proof.
  intros F show num gt ge zero desired reps gnum n eval selection mutation crossover recv init fuel P rows f x g SWO PN PZ H.
  assert (B : best_ok gt zero P rows (f, x, g)).
  { apply (loop_best show num gt ge zero desired reps gnum n eval selection mutation crossover recv P SWO PN PZ fuel 0 init [] [] (zero, ""%string, 0)); [|exact H].
    split; [exact PZ|]. split; [intros r []|left; reflexivity]. }
  destruct B as (B1 & B2 & B3). cbn [fst snd] in *. split; [exact B2|]. split.
  - intros (r & R1 & R2). destruct B3 as [E|[_ B3]]; [|exact B3]. injection E as -> -> ->. rewrite (B2 r R1) in R2. discriminate.
  - intros N. destruct B3 as [E|(Z & r & R1 & R2 & _)]; [injection E as -> -> ->; auto|]. rewrite <- R2, (N r R1) in Z. discriminate.
Qed.
Print Assumptions C102_best_partial.
(** So with fitness that is never positive (a negated error, say) the report is empty. *)
Definition showZ (z : Z) : string := NilEmpty.string_of_int (Z.to_int z).
Definition numZ (t : string) : Z := match NilEmpty.int_of_string t with Some d => Z.of_int d | None => 0%Z end.
Theorem C102_negative_refuted :
  exists rows b, ga_aws showZ numZ Z.gtb Z.geb 0%Z 0%Z 1 1 1 (fun _ _ j _ => (- 5 - Z.of_nat j)%Z) (fun _ l => l) (fun _ _ x => x) (fun _ l => l) in_order 5 ["a"; "b"]%string = Done (rows, b) /\
    rows = [AwsRow 1 0 (-5)%Z "a"; AwsRow 1 1 (-6)%Z "b"]%string /\ b = (0%Z, ""%string, 0).
Proof. eexists _, _. split; [vm_compute; reflexivity|]. split; reflexivity. Qed.
Print Assumptions C102_negative_refuted.
Example C102_concrete :
  strict_weak_order gtN (fun _ => True) /\
  exists rows, ga_aws dec numN gtN geN 0%N 8%N 1 9 2 (fun g i j x => (N.of_nat (g * 3 + i)))%N (fun _ l => l) (fun _ _ x => x) (fun _ l => l) in_order 9 ["a"; "b"]%string = Done (rows, (10%N, "b"%string, 3)) /\ List.length rows = 6.
Proof.
  split; [|eexists; split; [vm_compute; reflexivity|reflexivity]]. split; [intros a; apply N.ltb_irrefl|]. unfold gtN. split.
  - intros a b c H1 H2. apply N.ltb_lt in H1, H2. apply N.ltb_lt. lia.
  - intros a b c _ H1 H2. apply N.ltb_ge in H1, H2. apply N.ltb_ge. lia.
Qed.

(** ** C103: repetitions *)
(** Each repetition is a row of its own and an individual of its own for the selection:
    when selection and crossover keep the number of individuals, every generation is
    [reps] times as large as the one before. *)
Theorem C103_growth :
  forall (F : Type) show num gt ge zero desired reps gnum num_func (eval : nat -> nat -> nat -> string -> F) selection mutation crossover recv init fuel,
    num_func <> 0 -> reliable num_func recv ->
    healthy show num ge desired reps gnum num_func eval selection mutation crossover init ->
    (forall g l, List.length (selection g l) = List.length l) -> (forall g l, List.length (crossover g l) = List.length l) ->
    (forall g i j x, ge (eval g i j x) desired = false) ->
    1 <= reps -> 2 <= List.length init -> gnum <> 0 -> gnum < fuel ->
    exists rows b, ga_aws show num gt ge zero desired reps gnum num_func eval selection mutation crossover recv fuel init = Done (rows, b) /\
      List.length rows = List.length init * list_sum (map (fun k => reps ^ k) (seq 1 gnum)).
Proof.
  intros F show num gt ge zero desired reps gnum n eval selection mutation crossover recv init fuel N0 R H SEL CRO NR R1 L2 G FU.
  assert (AL : forall g pop order, Permutation order (seq 0 n) -> List.length (arrived reps n eval g pop order) = List.length pop * reps).
  { intros g pop order O. pose proof (Permutation_length (C101_generation F reps n eval g pop order N0 O)) as E. rewrite map_length in E. rewrite E. apply (work_length reps pop). }
  assert (K : forall k pop rows, went_on ge desired reps gnum n eval selection mutation crossover init k pop rows ->
    List.length pop = List.length init * reps ^ k /\ List.length rows = List.length init * list_sum (map (fun k => reps ^ k) (seq 1 k))).
  { intros k pop rows W. induction W as [|k pop rows order W [I1 I2] WI O NR' SZ]; [cbn; lia|]. split.
    - unfold offspring. rewrite CRO, map_length, combine_length, seq_length, Nat.min_id, map_length. unfold chosen. rewrite SEL, map_length, AL by exact O. rewrite I1. cbn [Nat.pow]. lia.
    - rewrite app_length, AL, I1, I2 by exact O. rewrite seq_S, map_app, list_sum_app. cbn [map list_sum fold_right Nat.add Nat.pow]. lia. }
  pose proof (C101_rows_partial F show num gt ge zero desired reps gnum n eval selection mutation crossover recv init fuel N0 R H) as C.
  destruct (ga_aws _ _ _ _ _ _ _ _ _ _ _ _ _ _ fuel init) as [[rows b]|?| |]; try contradiction; [|lia]. exists rows, b. split; [reflexivity|].
  destruct C as [pop rows _ W|k pop rows order r W WI O I Re|k pop rows order W WI O NR' SM].
  - apply (K gnum pop rows W).
  - exfalso. unfold arrived in I. apply in_flat_map in I. destruct I as (i & _ & I). unfold func_rows in I. apply in_map_iff in I. destruct I as ([j x] & <- & _). unfold AwsSpec.reaches in Re. cbn in Re. rewrite NR in Re. discriminate.
  - exfalso. unfold chosen in SM. rewrite SEL, map_length, AL in SM by exact O. destruct (K k pop rows W) as [K1 _]. rewrite K1 in SM.
    assert (1 <= reps ^ k) by (clear - R1; induction k; cbn; nia). nia.
Qed.
Print Assumptions C103_growth.
(** Two repetitions: selection sees each individual twice, with the fitness of one
    repetition each, where the other searches give it once, with the fitness of both. *)
Theorem C103_refuted :
  exists rows b, ga_aws dec numN gtN geN 0%N 1000%N 2 2 2 ex_eval (fun _ l => l) ex_mutate (fun _ l => l) in_order 5 ["a"; "b"]%string = Done (rows, b) /\
    map (fun r => (w_gen r, w_ind r)) rows =
      [(1%N, "a"); (1%N, "b"); (1%N, "a"); (1%N, "b"); (2%N, "ma"); (2%N, "mb"); (2%N, "ma"); (2%N, "mb"); (2%N, "ma"); (2%N, "mb"); (2%N, "ma"); (2%N, "mb")]%string.
Proof. eexists _, _. split; vm_compute; reflexivity. Qed.
Print Assumptions C103_refuted.
Example C103_concrete :
  healthy dec numN geN 1000%N 3 2 2 ex_eval (fun _ l => l) ex_mutate (fun _ l => l) ["a"; "b"]%string /\
  list_sum (map (fun k => 3 ^ k) (seq 1 2)) = 12.
Proof. split; [|reflexivity]. apply ex_healthy; [lia|cbn; lia|]. repeat (apply Forall_cons; [pl|]); apply Forall_nil. Qed.
