(** * Proofs about the genetic search on AWS *)
From Coq Require Import List Bool Arith NArith ZArith Lia String Ascii Permutation.
From Verif Require Import ExpModel GaModel GaSpec AwsModel AwsSpec AwsJson.
Import ListNotations.

(** ** The split *)
Lemma work_length reps pop : List.length (work reps pop) = List.length pop * reps.
Proof. unfold work. induction reps as [|r IH]; cbn [repeat List.concat List.length]; [lia|]. rewrite app_length, IH. lia. Qed.
Lemma work_nth reps pop k : k < List.length pop * reps -> nth_error (work reps pop) k = nth_error pop (k mod List.length pop).
Proof.
  unfold work. revert k. induction reps as [|r IH]; intros k H; [lia|]. cbn [repeat List.concat].
  destruct (Nat.lt_ge_cases k (List.length pop)) as [L|L].
  - rewrite nth_error_app1 by exact L. rewrite Nat.mod_small by exact L. reflexivity.
  - rewrite nth_error_app2 by exact L. rewrite IH by lia. f_equal.
    assert (Z : List.length pop <> 0) by lia. replace k with ((k - List.length pop) + 1 * List.length pop) at 2 by lia. rewrite Nat.mod_add by exact Z. reflexivity.
Qed.
Lemma firstn_nth {X} (l : list X) n x : nth_error l n = Some x -> firstn (S n) l = firstn n l ++ [x].
Proof. revert l. induction n as [|n IH]; intros [|y l] H; try discriminate; cbn in *; [injection H as <-; reflexivity|]. rewrite (IH l H). reflexivity. Qed.
Lemma slice_cons {X} (l : list X) b n x : nth_error l b = Some x -> firstn (S n) (skipn b l) = x :: firstn n (skipn (S b) l).
Proof.
  revert l. induction b as [|b IH]; intros [|y l] H; try discriminate; [cbn in *; injection H as <-; reflexivity|].
  change (nth_error l b = Some x) in H. change (skipn (S b) (y :: l)) with (skipn b l). rewrite (IH l H). reflexivity.
Qed.

Section Split.
Variable reps nfunc : nat.
Variable pop : list string.
Hypothesis N0 : nfunc <> 0.
Local Notation total := (List.length pop * reps).
Local Notation per := (total / nfunc).
Local Notation rem := (total mod nfunc).
Lemma share_val i : share reps nfunc pop i = per + (if Nat.ltb i rem then 1 else 0).
Proof. unfold share. rewrite work_length. reflexivity. Qed.
Lemma first_val i : first reps nfunc pop i = i * per + Nat.min i rem.
Proof.
  unfold first. induction i as [|i IH]; [reflexivity|]. rewrite seq_S, map_app, list_sum_app, IH. cbn [map list_sum fold_right Nat.add]. rewrite share_val.
  destruct (Nat.ltb i rem) eqn:E; [apply Nat.ltb_lt in E|apply Nat.ltb_ge in E]; lia.
Qed.
Lemma first_end : first reps nfunc pop nfunc = total.
Proof. rewrite first_val. pose proof (Nat.mod_upper_bound total nfunc N0). rewrite Nat.min_r by lia. rewrite (Nat.div_mod total nfunc N0) at 3. lia. Qed.
Lemma first_S i : first reps nfunc pop (S i) = first reps nfunc pop i + share reps nfunc pop i.
Proof. unfold first. rewrite seq_S, map_app, list_sum_app. cbn [map list_sum fold_right Nat.add]. lia. Qed.
Lemma first_mono i j : i <= j -> first reps nfunc pop i <= first reps nfunc pop j.
Proof. intros H. rewrite !first_val. assert (i * per <= j * per) by (apply Nat.mul_le_mono_r; exact H). lia. Qed.
Lemma params_ok i sub rmd b : forall todo j, j + todo = sub -> b + sub <= total ->
  (forall j0, j0 < sub -> aws_index nfunc total per i sub rmd j0 = b + j0) ->
  aws_params nfunc pop total per i sub rmd j todo = Some (firstn todo (skipn (b + j) (work reps pop))).
Proof.
  induction todo as [|todo IH]; intros j HJ HB HI; [reflexivity|]. cbn [aws_params]. rewrite HI by lia.
  assert (L : b + j < total) by lia. rewrite <- (work_nth reps pop) by exact L.
  destruct (nth_error (work reps pop) (b + j)) as [x|] eqn:E; [|apply nth_error_None in E; rewrite work_length in E; lia].
  rewrite (slice_cons _ _ todo x E). rewrite (IH (S j)) by (try assumption; lia). rewrite Nat.add_succ_r. reflexivity.
Qed.
Lemma funcs_ok : forall todo i rmd, i + todo = nfunc -> (per <> 0 -> rmd = i - rem \/ rem = 0) ->
  aws_funcs nfunc pop total per i (rem - i) rmd todo = Some (map (chunk reps nfunc pop) (seq i todo)).
Proof.
  induction todo as [|todo IH]; intros i rmd Hi HR; [reflexivity|]. cbn [aws_funcs seq map].
  pose proof (Nat.mod_upper_bound total nfunc N0) as RB.
  set (sub := share reps nfunc pop i).
  assert (SUB : (if Nat.ltb 0 (rem - i) then (per + 1, rem - i - 1) else (per, rem - i)) = (sub, rem - S i)).
  { unfold sub. rewrite share_val. destruct (Nat.ltb 0 (rem - i)) eqn:E; [apply Nat.ltb_lt in E|apply Nat.ltb_ge in E].
    - replace (Nat.ltb i rem) with true by (symmetry; apply Nat.ltb_lt; lia). f_equal; lia.
    - replace (Nat.ltb i rem) with false by (symmetry; apply Nat.ltb_ge; lia). f_equal; lia. }
  rewrite SUB. rewrite (params_ok i sub rmd (first reps nfunc pop i)).
  - rewrite Nat.add_0_r. fold (chunk reps nfunc pop i).
    match goal with |- context [aws_funcs nfunc pop total per (S i) (rem - S i) ?r todo] => set (rmd' := r) end.
    rewrite (IH (S i) rmd'); [unfold chunk, sub; reflexivity|lia|].
    intros Hp. destruct (HR Hp) as [E|E]; [|right; exact E]. destruct (Nat.eq_dec rem 0) as [Z|Z]; [right; exact Z|left]. unfold rmd'.
    replace (Nat.ltb 0 sub) with true by (symmetry; apply Nat.ltb_lt; unfold sub; rewrite share_val; lia). apply Nat.eqb_neq in Z. rewrite Z. apply Nat.eqb_neq in Z. cbn [negb andb].
    destruct (Nat.ltb i rem) eqn:L; [apply Nat.ltb_lt in L|apply Nat.ltb_ge in L]; cbn [negb]; lia.
  - reflexivity.
  - unfold sub. rewrite <- first_S, <- first_end. apply first_mono. lia.
  - intros j0 Hj. unfold aws_index. rewrite first_val. unfold sub in *. rewrite share_val in *.
    destruct (Nat.eqb rem 0) eqn:Z; [apply Nat.eqb_eq in Z|apply Nat.eqb_neq in Z].
    + replace (Nat.ltb i rem) with false by (symmetry; apply Nat.ltb_ge; lia). rewrite Z, Nat.min_0_r. lia.
    + destruct (Nat.ltb i rem) eqn:L; [apply Nat.ltb_lt in L|apply Nat.ltb_ge in L].
      * rewrite Nat.min_l by lia. lia.
      * rewrite Nat.min_r by lia. rewrite Nat.add_0_r in Hj. assert (HP : per <> 0) by lia. destruct (HR HP) as [->|?]; [|lia].
        assert (E : i * per = rem * per + (i - rem) * per) by (rewrite <- Nat.mul_add_distr_r; f_equal; lia). rewrite E. lia.
Qed.
Lemma split_ok : aws_split reps nfunc pop = Some (map (chunk reps nfunc pop) (seq 0 nfunc)).
Proof.
  unfold aws_split. apply Nat.eqb_neq in N0 as N0'. rewrite N0'. cbv zeta.
  replace (aws_funcs nfunc pop total per 0 rem 0 nfunc) with (aws_funcs nfunc pop total per 0 (rem - 0) 0 nfunc) by (rewrite Nat.sub_0_r; reflexivity).
  apply funcs_ok; [lia|intros _; left; lia].
Qed.
Lemma chunks_concat k : k <= nfunc -> List.concat (map (chunk reps nfunc pop) (seq 0 k)) = firstn (first reps nfunc pop k) (work reps pop).
Proof.
  induction k as [|k IH]; intros H; [reflexivity|]. rewrite seq_S, map_app, concat_app, IH by lia. cbn [map List.concat Nat.add]. rewrite app_nil_r, first_S. unfold chunk.
  set (f := first reps nfunc pop k). set (s := share reps nfunc pop k).
  transitivity (firstn f (firstn (f + s) (work reps pop)) ++ skipn f (firstn (f + s) (work reps pop))); [|apply firstn_skipn].
  rewrite firstn_firstn, Nat.min_l by lia. f_equal. rewrite skipn_firstn_comm. f_equal. lia.
Qed.
Lemma chunk_length i : i < nfunc -> List.length (chunk reps nfunc pop i) = share reps nfunc pop i.
Proof.
  intros H. unfold chunk. rewrite firstn_length, skipn_length, work_length. pose proof (first_mono (S i) nfunc ltac:(lia)) as M. rewrite first_end, first_S in M. lia.
Qed.
Lemma chunk_in i x : In x (chunk reps nfunc pop i) -> In x pop.
Proof.
  unfold chunk. intros H. assert (H' : In x (work reps pop)).
  { rewrite <- (firstn_skipn (first reps nfunc pop i)). apply in_or_app. right. rewrite <- (firstn_skipn (share reps nfunc pop i) (skipn _ _)). apply in_or_app. left. exact H. }
  unfold work in H'. apply in_concat in H'. destruct H' as (l & L1 & L2). apply repeat_spec in L1. subst l. exact L2.
Qed.
Lemma chunk_nonempty i : i < nfunc -> nfunc <= total -> chunk reps nfunc pop i <> [].
Proof.
  intros H T E. apply (f_equal (@List.length string)) in E. rewrite chunk_length, share_val in E by exact H. cbn in E.
  assert (1 <= per) by (apply Nat.div_le_lower_bound; lia). lia.
Qed.
Lemma chunk_empty : total < nfunc -> chunk reps nfunc pop (nfunc - 1) = [].
Proof.
  intros T. assert (E : List.length (chunk reps nfunc pop (nfunc - 1)) = 0).
  { rewrite chunk_length, share_val by lia. rewrite Nat.div_small, Nat.mod_small by exact T.
    replace (Nat.ltb (nfunc - 1) total) with false by (symmetry; apply Nat.ltb_ge; lia). reflexivity. }
  destruct (chunk _ _ _ _); [reflexivity|discriminate].
Qed.
End Split.

(** ** The search *)
Section Search.
Context {F : Type}.
Variable show : F -> string.
Variable num : string -> F.
Variable gt ge : F -> F -> bool.
Variable zero desired : F.
Variable reps gnum nfunc : nat.
Variable eval : nat -> nat -> nat -> string -> F.
Variable selection : nat -> list (string * F) -> list (string * F).
Variable mutation : nat -> nat -> string -> string.
Variable crossover : nat -> list string -> list string.
Variable recv : nat -> list (list string) -> nat -> option (list string).
Variable init : list string.
Hypothesis N0 : nfunc <> 0.
Hypothesis REL : reliable nfunc recv.

Lemma sent_map g subs : forall i, aws_sent show eval g i subs = map (fun iq => msg show eval g (fst iq) (snd iq)) (combine (seq i (List.length subs)) subs).
Proof. induction subs as [|xs subs IH]; intros i; [reflexivity|]. cbn [aws_sent List.length seq combine map fst snd]. rewrite IH. reflexivity. Qed.
Lemma combine_map {X} (f : nat -> X) l : combine l (map f l) = map (fun i => (i, f i)) l.
Proof. induction l as [|i l IH]; [reflexivity|]. cbn. rewrite IH. reflexivity. Qed.
Lemma sent_chunks g pop : aws_sent show eval g 0 (map (chunk reps nfunc pop) (seq 0 nfunc)) = map (fun i => msg show eval g i (chunk reps nfunc pop i)) (seq 0 nfunc).
Proof. rewrite sent_map, map_length, seq_length, combine_map, map_map. reflexivity. Qed.
Lemma receive_ok g pop hist :
  exists order, Permutation order (seq 0 nfunc) /\
    aws_receive recv g (aws_sent show eval g 0 (map (chunk reps nfunc pop) (seq 0 nfunc)) :: hist) 0 nfunc = Some (map (fun i => msg show eval g i (chunk reps nfunc pop i)) order).
Proof.
  rewrite sent_chunks. set (sent := map _ (seq 0 nfunc)). destruct (REL g sent hist) as (order & O1 & O2); [unfold sent; rewrite map_length, seq_length; reflexivity|].
  exists order. split; [exact O1|]. assert (LEN : List.length order = nfunc) by (rewrite (Permutation_length O1), seq_length; reflexivity).
  assert (K : forall todo k, k + todo = nfunc -> aws_receive recv g (sent :: hist) k todo = Some (map (fun i => msg show eval g i (chunk reps nfunc pop i)) (skipn k order))).
  { induction todo as [|todo IH]; intros k Hk.
    - rewrite skipn_all2 by lia. reflexivity.
    - cbn [aws_receive]. rewrite O2 by lia. destruct (nth_error order k) as [i|] eqn:E; [|apply nth_error_None in E; lia].
      rewrite (nth_error_nth order k 0 E). assert (IN : i < nfunc).
      { apply nth_error_In in E. apply (Permutation_in _ O1) in E. apply in_seq in E. lia. }
      assert (SN : nth_error sent i = Some (msg show eval g i (chunk reps nfunc pop i))).
      { unfold sent. rewrite nth_error_map. assert (Q : nth_error (seq 0 nfunc) i = Some i).
        { rewrite (nth_error_nth' _ 0) by (rewrite seq_length; exact IN). rewrite seq_nth by exact IN. reflexivity. }
        rewrite Q. reflexivity. }
      rewrite SN. cbn [option_map]. rewrite (IH (S k)) by lia. cbn [option_map app]. f_equal.
      assert (SK : skipn k order = i :: skipn (S k) order).
      { clear - E. revert k E. induction order as [|x order IHo]; intros [|k] E; try discriminate; [cbn in *; injection E as ->; reflexivity|]. exact (IHo k E). }
      rewrite SK. reflexivity. }
  exact (K nfunc 0 eq_refl).
Qed.
Lemma rows_func g pop i : rows_of eval g i 0 (chunk reps nfunc pop i) = func_rows reps nfunc eval g pop i.
Proof.
  unfold func_rows. set (xs := chunk reps nfunc pop i). generalize 0. induction xs as [|x xs IH]; intros j; [reflexivity|].
  cbn [rows_of List.length seq combine map fst snd]. rewrite IH. reflexivity.
Qed.
Lemma all_some_map {X Y} (f : X -> option Y) (h : X -> Y) l : (forall x, In x l -> f x = Some (h x)) -> all_some (map f l) = Some (map h l).
Proof. induction l as [|x l IH]; intros H; [reflexivity|]. cbn. rewrite (H x (or_introl eq_refl)), IH; [reflexivity|]. intros y Hy. apply H. right. exact Hy. Qed.
Lemma decode_all g pop order : Permutation order (seq 0 nfunc) -> nfunc <= List.length (work reps pop) -> Forall plain pop -> (forall g i j x, printable show num (eval g i j x)) ->
  all_some (map (aws_decode num g) (map (fun i => msg show eval g i (chunk reps nfunc pop i)) order)) = Some (map (func_rows reps nfunc eval g pop) order).
Proof.
  intros O1 T P Q. rewrite map_map. apply all_some_map. intros i Hi. apply (Permutation_in _ O1) in Hi. apply in_seq in Hi. rewrite work_length in T.
  rewrite decode_msg; [rewrite rows_func; reflexivity|apply chunk_nonempty; lia| |exact Q]. apply Forall_forall. intros x Hx. rewrite Forall_forall in P. apply P. exact (chunk_in reps nfunc pop i x Hx).
Qed.
Lemma mutate_map g l : forall i, GaModel.mutate mutation g i l = map (fun ix => mutation g (fst ix) (snd ix)) (combine (seq i (List.length l)) l).
Proof. induction l as [|x l IH]; intros i; [reflexivity|]. cbn [GaModel.mutate List.length seq combine map fst snd]. rewrite Nat.add_1_r, IH. reflexivity. Qed.

Local Notation went_on := (went_on ge desired reps gnum nfunc eval selection mutation crossover init).
Local Notation ended := (ended ge desired reps gnum nfunc eval selection mutation crossover init).
Local Notation loop := (aws_loop show num gt ge zero desired reps gnum nfunc eval selection mutation crossover recv).
Theorem loop_ok : healthy show num ge desired reps gnum nfunc eval selection mutation crossover init ->
  forall fuel g pop hist rows best, went_on g pop rows -> (gnum = 0 \/ g <= gnum) ->
    match loop fuel g pop hist rows best with
    | Done (rs, _) => ended rs
    | OutOfFuel => gnum = 0 \/ fuel + g <= gnum
    | _ => False
    end.
Proof.
  intros [H1 H2]. induction fuel as [|fuel IH]; intros g pop hist rows best W LE; [cbn; lia|]. cbn [aws_loop].
  destruct (negb (Nat.eqb gnum 0) && Nat.eqb g gnum) eqn:LIM.
  - apply andb_prop in LIM. destruct LIM as [L1 L2]. apply negb_true_iff in L1. apply Nat.eqb_neq in L1. apply Nat.eqb_eq in L2. subst g. exact (end_limit _ _ _ _ _ _ _ _ _ _ pop rows L1 W).
  - assert (WI : within gnum g).
    { unfold within. destruct LE as [LE|LE]; [left; exact LE|]. apply andb_false_iff in LIM. destruct LIM as [L|L]; [apply negb_false_iff in L; apply Nat.eqb_eq in L; left; exact L|].
      apply Nat.eqb_neq in L. right. lia. }
    rewrite (split_ok reps nfunc pop N0). destruct (receive_ok (S g) pop hist) as (order & O1 & O2). rewrite O2.
    destruct (H1 g pop rows W WI) as [T P]. rewrite (decode_all (S g) pop order O1 T P H2). cbv zeta.
    rewrite <- flat_map_concat_map. fold (arrived reps nfunc eval (S g) pop order). set (ar := arrived reps nfunc eval (S g) pop order).
    destruct (existsb (fun r => ge (w_fit r) desired) ar) eqn:FL.
    + apply existsb_exists in FL. destruct FL as (r & R1 & R2). exact (end_desired _ _ _ _ _ _ _ _ _ _ g pop rows order r W WI O1 R1 R2).
    + assert (NR : forall r, In r ar -> ~ reaches ge desired r).
      { intros r Hr Hx. assert (existsb (fun r => ge (w_fit r) desired) ar = true) by (apply existsb_exists; exists r; split; assumption). congruence. }
      fold (chosen selection (S g) ar).
      destruct (Nat.leb (List.length (chosen selection (S g) ar)) 1) eqn:SM; [apply Nat.leb_le in SM|apply Nat.leb_gt in SM].
      * apply (end_small _ _ _ _ _ _ _ _ _ _ g pop rows order W WI O1 NR). fold ar. lia.
      * rewrite mutate_map. fold (offspring selection mutation crossover (S g) ar).
        specialize (IH (S g) (offspring selection mutation crossover (S g) ar) (aws_sent show eval (S g) 0 (map (chunk reps nfunc pop) (seq 0 nfunc)) :: hist) (rows ++ ar) (aws_best gt zero best ar (S g))).
        lapply IH; [clear IH; intros IH|exact (went_next _ _ _ _ _ _ _ _ _ _ g pop rows order W WI O1 NR ltac:(fold ar; lia))].
        lapply IH; [clear IH; intros IH|unfold within in WI; lia].
        destruct (aws_loop _ _ _ _ _ _ _ _ _ _ _ _ _ _ fuel _ _ _ _ _) as [[rs b]|?| |]; [exact IH|exact IH|exact IH|lia].
Qed.
End Search.

(** ** The best individual, for any network *)
Section Best.
Context {F : Type}.
Variable show : F -> string.
Variable num : string -> F.
Variable gt ge : F -> F -> bool.
Variable zero desired : F.
Variable reps gnum nfunc : nat.
Variable eval : nat -> nat -> nat -> string -> F.
Variable selection : nat -> list (string * F) -> list (string * F).
Variable mutation : nat -> nat -> string -> string.
Variable crossover : nat -> list string -> list string.
Variable recv : nat -> list (list string) -> nat -> option (list string).
Variable P : F -> Prop.
Hypothesis SWO : strict_weak_order gt P.
Hypothesis PN : forall t, P (num t).
Hypothesis PZ : P zero.

Lemma all_some_each {X Y} (f : X -> option Y) l : forall ys, all_some (map f l) = Some ys -> forall y, In y ys -> exists x, In x l /\ f x = Some y.
Proof.
  induction l as [|x l IH]; intros ys H y Hy; cbn in H; [injection H as <-; destruct Hy|]. destruct (f x) as [z|] eqn:E; [|discriminate].
  destruct (all_some (map f l)) as [zs|]; [|discriminate]. injection H as <-. destruct Hy as [<-|Hy]; [exists x; split; [left; reflexivity|exact E]|].
  destruct (IH zs eq_refl y Hy) as (x' & X1 & X2). exists x'. split; [right; exact X1|exact X2].
Qed.
Lemma decode_in g m rows : aws_decode num g m = Some rows -> forall r, In r rows -> P (w_fit r) /\ w_gen r = as_u32 g.
Proof.
  unfold aws_decode. destruct (from_str m) as [v|]; [|discriminate]. destruct (field "function" v) as [[| | |l|]|]; try discriminate. intros H r Hr.
  destruct (all_some_each _ _ _ H r Hr) as (x & _ & E). unfold aws_result in E. destruct (field "Fitness" x) as [[|f| | |]|]; try discriminate.
  destruct (field "Individual" x) as [[y| | | |]|]; try discriminate. destruct (field "Index" x) as [[|n| | |]|]; try discriminate. destruct (as_i64 n) as [z|]; [|discriminate].
  injection E as <-. cbn. split; [apply PN|reflexivity].
Qed.
Definition best_gen_ok (rows : list (aws_row F)) (b : F * string) : Prop :=
  P (fst b) /\ (forall r, In r rows -> gt (w_fit r) (fst b) = false) /\
  (b = (zero, ""%string) \/ (gt (fst b) zero = true /\ exists r, In r rows /\ w_fit r = fst b /\ w_ind r = snd b)).
Lemma best_gen_spec rows : (forall r, In r rows -> P (w_fit r)) -> best_gen_ok rows (aws_best_gen gt zero rows).
Proof.
  destruct SWO as (IR & TR & NT).
  assert (K : forall l seen b, best_gen_ok seen b -> (forall r, In r l -> P (w_fit r)) ->
    best_gen_ok (seen ++ l) (fold_left (fun b r => if gt (w_fit r) (fst b) then (w_fit r, w_ind r) else b) l b)).
  { induction l as [|r l IH]; intros seen b (B1 & B2 & B3) HP; [rewrite app_nil_r; split; [exact B1|split; assumption]|].
    cbn [fold_left]. replace (seen ++ r :: l) with ((seen ++ [r]) ++ l) by (rewrite <- app_assoc; reflexivity). apply IH; [|intros r' Hr'; apply HP; right; exact Hr'].
    destruct (gt (w_fit r) (fst b)) eqn:E; unfold best_gen_ok; cbn [fst snd].
    - split; [apply HP; left; reflexivity|]. split.
      + intros r' Hr'. apply in_app_or in Hr'. destruct Hr' as [Hr'|[<-|[]]]; [|apply IR]. destruct (gt (w_fit r') (w_fit r)) eqn:E'; [|reflexivity].
        specialize (B2 r' Hr'). rewrite (TR _ _ _ E' E) in B2. discriminate.
      + right. split; [|exists r; split; [apply in_or_app; right; left; reflexivity|split; reflexivity]].
        destruct B3 as [->|[B3 _]]; [exact E|exact (TR _ _ _ E B3)].
    - split; [exact B1|]. split.
      + intros r' Hr'. apply in_app_or in Hr'. destruct Hr' as [Hr'|[<-|[]]]; [apply B2; exact Hr'|exact E].
      + destruct B3 as [B3|(B3 & r' & R1 & R2)]; [left; exact B3|right]. split; [exact B3|]. exists r'. split; [apply in_or_app; left; exact R1|exact R2]. }
  intros HP. apply (K rows [] (zero, ""%string)); [|exact HP]. split; [exact PZ|]. split; [intros r []|left; reflexivity].
Qed.
Definition best_ok (rows : list (aws_row F)) (b : F * string * nat) : Prop :=
  P (fst (fst b)) /\ (forall r, In r rows -> gt (w_fit r) (fst (fst b)) = false) /\
  (b = (zero, ""%string, 0) \/ (gt (fst (fst b)) zero = true /\ exists r, In r rows /\ w_fit r = fst (fst b) /\ w_ind r = snd (fst b) /\ w_gen r = as_u32 (snd b))).
Lemma best_step rows new best g : best_ok rows best -> (forall r, In r new -> P (w_fit r) /\ w_gen r = as_u32 g) -> best_ok (rows ++ new) (aws_best gt zero best new g).
Proof.
  destruct SWO as (IR & TR & NT). intros (B1 & B2 & B3) HP. destruct (best_gen_spec new (fun r Hr => proj1 (HP r Hr))) as (G1 & G2 & G3). unfold aws_best.
  set (b := aws_best_gen gt zero new) in *. destruct (gt (fst b) (fst (fst best))) eqn:E.
  - split; [exact G1|]. split.
    + intros r Hr. cbn [fst]. apply in_app_or in Hr. destruct Hr as [Hr|Hr]; [|apply G2; exact Hr]. destruct (gt (w_fit r) (fst b)) eqn:E'; [|reflexivity].
      specialize (B2 r Hr). rewrite (TR _ _ _ E' E) in B2. discriminate.
    + right. cbn [fst snd]. assert (Z : gt (fst b) zero = true) by (destruct B3 as [->|[B3 _]]; [exact E|exact (TR _ _ _ E B3)]). split; [exact Z|].
      destruct G3 as [G3|(_ & r & R1 & R2 & R3)]; [rewrite G3 in Z; cbn in Z; rewrite IR in Z; discriminate|]. exists r. split; [apply in_or_app; right; exact R1|].
      split; [exact R2|]. split; [exact R3|]. apply (HP r R1).
  - split; [exact B1|]. split.
    + intros r Hr. apply in_app_or in Hr. destruct Hr as [Hr|Hr]; [apply B2; exact Hr|]. exact (NT _ _ _ G1 (G2 r Hr) E).
    + destruct B3 as [B3|(B3 & r & R1 & R2)]; [left; exact B3|right]. split; [exact B3|]. exists r. split; [apply in_or_app; left; exact R1|exact R2].
Qed.
Lemma loop_best fuel : forall g pop hist rows best rs b, best_ok rows best ->
  aws_loop show num gt ge zero desired reps gnum nfunc eval selection mutation crossover recv fuel g pop hist rows best = Done (rs, b) -> best_ok rs b.
Proof.
  induction fuel as [|fuel IH]; intros g pop hist rows best rs b B H; [discriminate|]. cbn [aws_loop] in H.
  destruct (negb (Nat.eqb gnum 0) && Nat.eqb g gnum); [injection H as <- <-; exact B|].
  destruct (aws_split reps nfunc pop) as [subs|]; [|discriminate]. destruct (aws_receive recv (S g) _ 0 nfunc) as [ms|]; [|discriminate].
  destruct (all_some (map (aws_decode num (S g)) ms)) as [rss|] eqn:D; [|discriminate]. cbv zeta in H.
  assert (B' : best_ok (rows ++ List.concat rss) (aws_best gt zero best (List.concat rss) (S g))).
  { apply best_step; [exact B|]. intros r Hr. apply in_concat in Hr. destruct Hr as (l & L1 & L2). destruct (all_some_each _ _ _ D l L1) as (m & _ & M). exact (decode_in _ _ _ M r L2). }
  destruct (existsb _ (List.concat rss)); [injection H as <- <-; exact B'|]. destruct (Nat.leb _ 1); [injection H as <- <-; exact B'|]. exact (IH _ _ _ _ _ _ _ B' H).
Qed.
End Best.
