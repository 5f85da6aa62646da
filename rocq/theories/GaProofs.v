(** * Proofs about the genetic searches *)
From Coq Require Import List Bool Arith NArith Lia.
From Verif Require Import ExpModel GaModel GaSpec.
Import ListNotations.

Section GA.
Context {I F S : Type}.
Variable cmp : F -> F -> bool.
Variable desired : F.
Variable reps gnum : nat.
Variable run : nat -> nat -> nat -> I -> S.
Variable fitness : nat -> nat -> list S -> F.
Variable selection : nat -> list (I * F) -> list (I * F).
Variable crossover : nat -> list I -> list I.
Variable mutation : nat -> nat -> I -> I.
Variable init : list I.
Notation score := (score reps run fitness).
Notation scored := (scored reps run fitness).
Notation selected := (selected reps run fitness selection).
Notation population := (population reps run fitness selection crossover mutation init).
Notation gen_rows := (gen_rows reps run fitness selection crossover mutation init).
Notation within := (within gnum).
Notation continues := (continues cmp desired reps gnum run fitness selection crossover mutation init).
Notation stops := (stops cmp desired reps gnum run fitness selection crossover mutation init).
Notation reaches := (reaches cmp desired).
Notation row := (ga_row I F).

Definition rows_from (g i : nat) (pop : list I) : list row :=
  map (fun ix => GaRow (as_u32 g) (fst ix) (score g (fst ix) (snd ix)) (snd ix)) (combine (seq i (length pop)) pop).
Definition hit (r : row) : bool := cmp (ga_fit r) desired.
Fixpoint upto (l : list row) : list row :=
  match l with [] => [] | r :: l' => if hit r then [r] else r :: upto l' end.
Definition paired (r : row) : I * F := (ga_ind r, ga_fit r).
Definition best_of (l : list row) (b : option (F * I)) : option (F * I) := fold_left (fun b r => update_best cmp b (ga_fit r) (ga_ind r)) l b.

Lemma rows_from_cons g i x pop : rows_from g i (x :: pop) = GaRow (as_u32 g) i (score g i x) x :: rows_from g (i + 1) pop.
Proof. unfold rows_from. cbn [length seq combine map fst snd]. rewrite Nat.add_1_r. reflexivity. Qed.
Lemma gen_rows_from k : gen_rows k = rows_from (Datatypes.S k) 0 (population k).
Proof. reflexivity. Qed.
Lemma paired_rows g pop : forall i, map paired (rows_from g i pop) = map (fun ix => (snd ix, score g (fst ix) (snd ix))) (combine (seq i (length pop)) pop).
Proof. intros i. unfold rows_from. rewrite map_map. reflexivity. Qed.
Lemma paired_scored k : map paired (gen_rows k) = scored (Datatypes.S k) (population k).
Proof. apply paired_rows. Qed.

Lemma seq_gen_eq g : forall pop i b,
  seq_gen cmp desired reps run fitness g i pop b =
  (upto (rows_from g i pop), map paired (upto (rows_from g i pop)), best_of (upto (rows_from g i pop)) b, existsb hit (rows_from g i pop)).
Proof.
  induction pop as [|x pop IH]; intros i b; [reflexivity|]. rewrite rows_from_cons. cbn [seq_gen upto existsb]. change (eval reps run fitness g i x) with (score g i x). change (hit {| ga_gen := as_u32 g; ga_index := i; ga_fit := score g i x; ga_ind := x |}) with (cmp (score g i x) desired).
  destruct (cmp (score g i x) desired) eqn:C; [reflexivity|]. rewrite IH. reflexivity.
Qed.
Lemma upto_none l : existsb hit l = false -> upto l = l.
Proof. induction l as [|r l IH]; [reflexivity|]. cbn [existsb upto]. destruct (hit r); [discriminate|]. cbn [orb]. intros H. rewrite IH by exact H. reflexivity. Qed.
Lemma upto_some l : existsb hit l = true -> exists l0 r rest, l = l0 ++ r :: rest /\ upto l = l0 ++ [r] /\ (forall x, In x l0 -> ~ reaches x) /\ reaches r.
Proof.
  induction l as [|r l IH]; [discriminate|]. cbn [existsb upto]. destruct (hit r) eqn:H; cbn [orb].
  - intros _. exists [], r, l. split; [reflexivity|]. split; [reflexivity|]. split; [intros x []|exact H].
  - intros E. destruct (IH E) as (l0 & r0 & rest & -> & U & N & R). exists (r :: l0), r0, rest. rewrite U. split; [reflexivity|]. split; [reflexivity|]. split; [|exact R].
    intros x [<-|Hx]; [unfold GaSpec.reaches; unfold hit in H; congruence|apply N; exact Hx].
Qed.
Lemma upto_split l0 r rest : (forall x, In x l0 -> ~ reaches x) -> reaches r -> upto (l0 ++ r :: rest) = l0 ++ [r] /\ existsb hit (l0 ++ r :: rest) = true.
Proof.
  induction l0 as [|x l0 IH]; intros N R; cbn [app upto existsb].
  - unfold GaSpec.reaches in R. unfold hit. rewrite R. split; reflexivity.
  - assert (NX : hit x = false) by (apply not_true_is_false; apply N; left; reflexivity). rewrite NX. destruct (IH (fun y Hy => N y (or_intror Hy)) R) as (U & E). rewrite U, E. split; reflexivity.
Qed.
Lemma no_hit l : existsb hit l = false <-> forall r, In r l -> ~ reaches r.
Proof.
  split.
  - intros H r Hr HR. assert (existsb hit l = true) by (apply existsb_exists; exists r; split; [exact Hr|exact HR]). congruence.
  - intros H. apply not_true_is_false. intros E. apply existsb_exists in E. destruct E as (r & Hr & HR). exact (H r Hr HR).
Qed.
Lemma mutate_eq g : forall pop i, mutate mutation g i pop = map (fun ix => mutation g (fst ix) (snd ix)) (combine (seq i (length pop)) pop).
Proof. induction pop as [|x pop IH]; intros i; [reflexivity|]. cbn [mutate length seq combine map fst snd]. rewrite IH, Nat.add_1_r. reflexivity. Qed.
Lemma population_S k : population (Datatypes.S k) = breed crossover mutation (Datatypes.S k) (selected k (population k)).
Proof. unfold breed. rewrite mutate_eq. reflexivity. Qed.
Lemma rows_nil g i pop : rows_from g i pop = [] <-> pop = [].
Proof. destruct pop as [|x pop]; [split; reflexivity|]. rewrite rows_from_cons. split; discriminate. Qed.
Lemma best_of_some l : forall f x, exists f' x', best_of l (Some (f, x)) = Some (f', x').
Proof. induction l as [|r l IH]; intros f x; [exists f, x; reflexivity|]. cbn [best_of fold_left update_best]. destruct (cmp (ga_fit r) f); apply IH. Qed.
Lemma best_of_none l : l <> [] -> exists f x, best_of l None = Some (f, x).
Proof. destruct l as [|r l]; [intros []; reflexivity|]. intros _. cbn [best_of fold_left update_best]. apply best_of_some. Qed.
Lemma upto_nil l : upto l = [] <-> l = [].
Proof. destruct l as [|r l]; [split; reflexivity|]. cbn [upto]. destruct (hit r); split; discriminate. Qed.
Lemma not_limit k : within k <-> negb (gnum =? 0) && (k =? gnum) = false /\ (gnum = 0 \/ k <= gnum).
Proof.
  unfold GaSpec.within. destruct (Nat.eqb_spec gnum 0), (Nat.eqb_spec k gnum); cbn; split; intros; try lia; try (split; [reflexivity|lia]).
Qed.

(** ** Sequential *)
Notation seq_loop := (seq_loop cmp desired reps gnum run fitness selection crossover mutation).
(** One generation. *)
Lemma seq_step fuel k res best :
  within k ->
  seq_loop (Datatypes.S fuel) k (population k) res best =
  match update_overall cmp best (best_of (upto (gen_rows k)) None) (Datatypes.S k) with
  | None => Panic
  | Some b =>
      if existsb hit (gen_rows k) then Done (res ++ upto (gen_rows k), b)
      else if length (selected k (population k)) <? 2 then Done (res ++ gen_rows k, b)
      else seq_loop fuel (Datatypes.S k) (population (Datatypes.S k)) (res ++ gen_rows k) (Some b)
  end.
Proof.
  intros W. apply not_limit in W. destruct W as (W & _). cbn [GaModel.seq_loop]. rewrite W, Nat.add_1_r, seq_gen_eq. rewrite <- gen_rows_from.
  destruct (update_overall _ _ _ _) as [b|]; [|reflexivity]. destruct (existsb hit (gen_rows k)) eqn:E; [reflexivity|]. rewrite (upto_none _ E), paired_scored. fold (selected k (population k)).
  rewrite <- population_S. reflexivity.
Qed.
Lemma seq_limit fuel k res best :
  gnum <> 0 -> k = gnum -> seq_loop (Datatypes.S fuel) k (population k) res best = match best with None => Panic | Some b => Done (res, b) end.
Proof. intros G ->. cbn [GaModel.seq_loop]. apply Nat.eqb_neq in G. rewrite G, Nat.eqb_refl. reflexivity. Qed.

(** What a run from generation [k] gives. *)
Definition seq_result (k fuel : nat) (res : list row) (o : outcome (list row * (F * I * nat))) : Prop :=
  match o with
  | Done (rows, _) => exists m last, k <= m < k + fuel /\ (forall j, k <= j < m -> continues 2 j) /\ stops false 2 m last /\ rows = res ++ flat_map gen_rows (seq k (m - k)) ++ last
  | Panic => exists m, k <= m < k + fuel /\ (forall j, k <= j < m -> continues 2 j) /\ within m /\ population m = []
  | OutOfFuel => forall j, k <= j < k + fuel -> continues 2 j
  | RootOnly _ => False
  end.
Lemma seq_loop_result : forall fuel k res best,
  (gnum = 0 \/ k <= gnum) -> (k <> 0 -> best <> None) -> seq_result k fuel res (seq_loop fuel k (population k) res best).
Proof.
  induction fuel as [|fuel IH]; intros k res best HK HB; [cbn; lia|].
  destruct (negb (gnum =? 0) && (k =? gnum)) eqn:L.
  - apply andb_prop in L. destruct L as (L1 & L2). apply negb_true_iff, Nat.eqb_neq in L1. apply Nat.eqb_eq in L2. rewrite seq_limit by assumption. destruct best as [b|]; [|exfalso; apply HB; [congruence|reflexivity]].
    exists k, []. split; [lia|]. split; [lia|]. split; [apply stop_limit; assumption|]. rewrite Nat.sub_diag. cbn. rewrite app_nil_r. reflexivity.
  - assert (W : within k) by (apply not_limit; split; assumption). rewrite seq_step by exact W. unfold update_overall.
    destruct (best_of (upto (gen_rows k)) None) as [[f x]|] eqn:B.
    2: { assert (P : population k = []). { destruct (population k) as [|y pop] eqn:P; [reflexivity|]. exfalso. destruct (best_of_none (upto (gen_rows k))) as (f & x & Q); [|congruence]. rewrite upto_nil, gen_rows_from, rows_nil, P. discriminate. }
         exists k. split; [lia|]. split; [lia|]. split; assumption. }
    assert (P : population k <> []). { intros P. rewrite gen_rows_from, P in B. discriminate. }
    set (o := match best with Some (f0, _, _) => if cmp f f0 then Some (f, x, Datatypes.S k) else best | None => Some (f, x, Datatypes.S k) end).
    assert (HO : exists b, o = Some b) by (unfold o; destruct best as [[[f0 x0] g0]|]; [destruct (cmp f f0)|]; eexists; reflexivity).
    destruct HO as (b & HO). rewrite HO. clear o HO. destruct (existsb hit (gen_rows k)) eqn:E.
    + destruct (upto_some _ E) as (l0 & r & rest & E1 & E2 & E3 & E4). exists k, (l0 ++ [r]). split; [lia|]. split; [lia|]. split; [apply (stop_desired _ _ _ _ _ _ _ _ _ _ false 2 k l0 r rest); assumption|]. rewrite Nat.sub_diag, E2. reflexivity.
    + pose proof (proj1 (no_hit _) E) as N. destruct (Nat.ltb_spec (length (selected k (population k))) 2) as [SM|SM].
      * exists k, (gen_rows k). split; [lia|]. split; [lia|]. split; [apply stop_small; assumption|]. rewrite Nat.sub_diag. reflexivity.
      * assert (CK : continues 2 k) by (split; [exact W|split; [exact P|split; [exact N|exact SM]]]).
        specialize (IH (Datatypes.S k) (res ++ gen_rows k) (Some b)). assert (A1 : gnum = 0 \/ Datatypes.S k <= gnum) by (destruct W; lia). specialize (IH A1 ltac:(discriminate)).
        destruct (seq_loop fuel (Datatypes.S k) (population (Datatypes.S k)) (res ++ gen_rows k) (Some b)) as [[rows bb]|?| |]; cbn in IH |- *.
        -- destruct IH as (m & last & M1 & M2 & M3 & M4). exists m, last. split; [lia|]. split; [intros j Hj; destruct (Nat.eq_dec j k) as [->|NJ]; [exact CK|apply M2; lia]|]. split; [exact M3|].
           rewrite M4, <- app_assoc. replace (m - k) with (Datatypes.S (m - Datatypes.S k)) by lia. cbn [seq flat_map]. rewrite <- app_assoc. reflexivity.
        -- exact IH.
        -- destruct IH as (m & M1 & M2 & M3). exists m. split; [lia|]. split; [intros j Hj; destruct (Nat.eq_dec j k) as [->|NJ]; [exact CK|apply M2; lia]|exact M3].
        -- intros j Hj. destruct (Nat.eq_dec j k) as [->|NJ]; [exact CK|apply IH; lia].
Qed.

(** ** Parallel *)
Notation par_loop := (par_loop cmp desired reps gnum run fitness selection crossover mutation).
(** The rows of a generation with the states shown. *)
Definition shown (g : nat) (r : row) : row * option S := (r, last_of (computed reps run g (ga_index r) (ga_ind r))).
Lemma all_some_map_some {X Y} (f : X -> option Y) (h : X -> Y) l : (forall x, In x l -> f x = Some (h x)) -> all_some (map f l) = Some (map h l).
Proof. induction l as [|x l IH]; intros H; [reflexivity|]. cbn [map all_some]. rewrite (H x) by (left; reflexivity). rewrite IH; [reflexivity|]. intros y Hy. apply H. right. exact Hy. Qed.
Lemma par_gen_eq g pop : par_gen reps run fitness g pop = Some (map (shown g) (rows_from g 0 pop)).
Proof.
  unfold par_gen, rows_from. rewrite map_map.
  assert (G : forall l p i, (forall k x, nth_error l k = Some x -> nth_error p (i + k) = Some x) ->
    all_some (map (par_row reps run fitness g p) (seq i (length l))) = Some (map (fun x => shown g (GaRow (as_u32 g) (fst x) (score g (fst x) (snd x)) (snd x))) (combine (seq i (length l)) l))).
  { induction l as [|x l IH]; intros p i H; [reflexivity|]. cbn [length seq map combine all_some]. unfold par_row at 1. pose proof (H 0 x eq_refl) as H0. rewrite Nat.add_0_r in H0. rewrite H0.
    rewrite IH; [reflexivity|]. intros k y Hy. replace (Datatypes.S i + k) with (i + Datatypes.S k) by lia. apply H. exact Hy. }
  apply (G pop pop 0). intros k x H. exact H.
Qed.
Lemma par_scan_eq g : forall (l : list row) pf b flag,
  par_scan cmp desired (map (shown g) l) pf b flag = (pf ++ map paired l, best_of l b, existsb hit l || flag).
Proof.
  induction l as [|r l IH]; intros pf b flag; [cbn; rewrite app_nil_r; reflexivity|]. cbn [map par_scan shown]. rewrite IH, <- app_assoc. cbn [existsb best_of fold_left app]. f_equal. change (hit r) with (cmp (ga_fit r) desired).
  destruct (cmp (ga_fit r) desired); [rewrite orb_true_r|]; reflexivity.
Qed.
Lemma par_step fuel k res best :
  within k ->
  par_loop (Datatypes.S fuel) k (population k) res best =
  match update_overall cmp best (best_of (gen_rows k) None) (Datatypes.S k) with
  | None => Panic
  | Some b =>
      if existsb hit (gen_rows k) then Done (res ++ map (shown (Datatypes.S k)) (gen_rows k), b)
      else if length (selected k (population k)) <? 1 then Done (res ++ map (shown (Datatypes.S k)) (gen_rows k), b)
      else par_loop fuel (Datatypes.S k) (population (Datatypes.S k)) (res ++ map (shown (Datatypes.S k)) (gen_rows k)) (Some b)
  end.
Proof.
  intros W. apply not_limit in W. destruct W as (W & _). cbn [GaModel.par_loop]. rewrite W, Nat.add_1_r, par_gen_eq. rewrite <- gen_rows_from. rewrite par_scan_eq. cbn [app]. rewrite orb_false_r, paired_scored. fold (selected k (population k)). rewrite <- population_S. reflexivity.
Qed.
Lemma par_limit fuel k res best :
  gnum <> 0 -> k = gnum -> par_loop (Datatypes.S fuel) k (population k) res best = match best with None => Panic | Some b => Done (res, b) end.
Proof. intros G ->. cbn [GaModel.par_loop]. apply Nat.eqb_neq in G. rewrite G, Nat.eqb_refl. reflexivity. Qed.
Definition shown_gen (k : nat) : list (row * option S) := map (shown (Datatypes.S k)) (gen_rows k).
Definition par_result (k fuel : nat) (res : list (row * option S)) (o : outcome (list (row * option S) * (F * I * nat))) : Prop :=
  match o with
  | Done (rows, _) => exists m last, k <= m < k + fuel /\ (forall j, k <= j < m -> continues 1 j) /\ stops true 1 m last /\
      rows = res ++ flat_map shown_gen (seq k (m - k)) ++ map (shown (Datatypes.S m)) last
  | Panic => exists m, k <= m < k + fuel /\ (forall j, k <= j < m -> continues 1 j) /\ within m /\ population m = []
  | OutOfFuel => forall j, k <= j < k + fuel -> continues 1 j
  | RootOnly _ => False
  end.
Lemma par_loop_result : forall fuel k res best,
  (gnum = 0 \/ k <= gnum) -> (k <> 0 -> best <> None) -> par_result k fuel res (par_loop fuel k (population k) res best).
Proof.
  induction fuel as [|fuel IH]; intros k res best HK HB; [cbn; lia|].
  destruct (negb (gnum =? 0) && (k =? gnum)) eqn:L.
  - apply andb_prop in L. destruct L as (L1 & L2). apply negb_true_iff, Nat.eqb_neq in L1. apply Nat.eqb_eq in L2. rewrite par_limit by assumption. destruct best as [b|]; [|exfalso; apply HB; [congruence|reflexivity]].
    exists k, []. split; [lia|]. split; [lia|]. split; [apply stop_limit; assumption|]. rewrite Nat.sub_diag. cbn. rewrite app_nil_r. reflexivity.
  - assert (W : within k) by (apply not_limit; split; assumption). rewrite par_step by exact W. unfold update_overall.
    destruct (best_of (gen_rows k) None) as [[f x]|] eqn:B.
    2: { assert (P : population k = []). { destruct (population k) as [|y pop] eqn:P; [reflexivity|]. exfalso. destruct (best_of_none (gen_rows k)) as (f & x & Q); [|congruence]. rewrite gen_rows_from, rows_nil, P. discriminate. }
         exists k. split; [lia|]. split; [lia|]. split; assumption. }
    assert (P : population k <> []). { intros P. rewrite gen_rows_from, P in B. discriminate. }
    set (o := match best with Some (f0, _, _) => if cmp f f0 then Some (f, x, Datatypes.S k) else best | None => Some (f, x, Datatypes.S k) end).
    assert (HO : exists b, o = Some b) by (unfold o; destruct best as [[[f0 x0] g0]|]; [destruct (cmp f f0)|]; eexists; reflexivity).
    destruct HO as (b & HO). rewrite HO. clear o HO. destruct (existsb hit (gen_rows k)) eqn:E.
    + destruct (upto_some _ E) as (l0 & r & rest & E1 & E2 & E3 & E4). exists k, (gen_rows k). split; [lia|]. split; [lia|]. split; [apply (stop_desired _ _ _ _ _ _ _ _ _ _ true 1 k l0 r rest); assumption|]. rewrite Nat.sub_diag. reflexivity.
    + pose proof (proj1 (no_hit _) E) as N. destruct (Nat.ltb_spec (length (selected k (population k))) 1) as [SM|SM].
      * exists k, (gen_rows k). split; [lia|]. split; [lia|]. split; [apply stop_small; assumption|]. rewrite Nat.sub_diag. reflexivity.
      * assert (CK : continues 1 k) by (split; [exact W|split; [exact P|split; [exact N|exact SM]]]).
        specialize (IH (Datatypes.S k) (res ++ map (shown (Datatypes.S k)) (gen_rows k)) (Some b)). assert (A1 : gnum = 0 \/ Datatypes.S k <= gnum) by (destruct W; lia). specialize (IH A1 ltac:(discriminate)).
        destruct (par_loop fuel (Datatypes.S k) (population (Datatypes.S k)) (res ++ map (shown (Datatypes.S k)) (gen_rows k)) (Some b)) as [[rows bb]|?| |]; cbn in IH |- *.
        -- destruct IH as (m & last & M1 & M2 & M3 & M4). exists m, last. split; [lia|]. split; [intros j Hj; destruct (Nat.eq_dec j k) as [->|NJ]; [exact CK|apply M2; lia]|]. split; [exact M3|].
           rewrite M4, <- app_assoc. replace (m - k) with (Datatypes.S (m - Datatypes.S k)) by lia. cbn [seq flat_map]. rewrite <- app_assoc. reflexivity.
        -- exact IH.
        -- destruct IH as (m & M1 & M2 & M3). exists m. split; [lia|]. split; [intros j Hj; destruct (Nat.eq_dec j k) as [->|NJ]; [exact CK|apply M2; lia]|exact M3].
        -- intros j Hj. destruct (Nat.eq_dec j k) as [->|NJ]; [exact CK|apply IH; lia].
Qed.

(** ** When a search stops is determined *)
Lemma continues_le a b k : a <= b -> continues b k -> continues a k.
Proof. intros H (C1 & C2 & C3 & C4). split; [exact C1|split; [exact C2|split; [exact C3|lia]]]. Qed.
Lemma stops_not_continues whole least m last : stops whole least m last -> ~ continues least m.
Proof.
  intros St (C1 & C2 & C3 & C4). destruct St as [G E|l r rest W E N R|W P N SM].
  - destruct C1; lia.
  - apply (C3 r); [rewrite E; apply in_elt|exact R].
  - lia.
Qed.
Lemma stop_unique whole whole' least m m' last last' :
  (forall k, k < m -> continues least k) -> stops whole least m last -> (forall k, k < m' -> continues least k) -> stops whole' least m' last' -> m = m'.
Proof.
  intros C St C' St'. destruct (Nat.lt_trichotomy m m') as [L|[E|L]]; [|exact E|].
  - exfalso. exact (stops_not_continues _ _ _ _ St (C' m L)).
  - exfalso. exact (stops_not_continues _ _ _ _ St' (C m' L)).
Qed.
Lemma upto_unique (l l0 : list row) r rest l0' r' rest' :
  l = l0 ++ r :: rest -> l = l0' ++ r' :: rest' -> (forall x, In x l0 -> ~ reaches x) -> reaches r -> (forall x, In x l0' -> ~ reaches x) -> reaches r' -> l0 ++ [r] = l0' ++ [r'].
Proof. intros E E' N R N' R'. destruct (upto_split l0 r rest N R) as (U & _). destruct (upto_split l0' r' rest' N' R') as (U' & _). rewrite <- U, <- U', <- E, <- E'. reflexivity. Qed.
Lemma last_unique whole least m last last' : stops whole least m last -> stops whole least m last' -> last = last'.
Proof.
  intros St St'. destruct St as [G E|l r rest W E N R|W P N SM]; destruct St' as [G' E'|l' r' rest' W' E' N' R'|W' P' N' SM'].
  - reflexivity.
  - destruct W'; lia.
  - destruct W'; lia.
  - destruct W; lia.
  - destruct whole; [reflexivity|]. apply (upto_unique (gen_rows m) l r rest l' r' rest'); assumption.
  - exfalso. apply (N' r); [rewrite E; apply in_elt|exact R].
  - destruct W; lia.
  - exfalso. apply (N r'); [rewrite E'; apply in_elt|exact R'].
  - reflexivity.
Qed.

(** ** The best individual *)
Definition row_is (f : F) (x : I) (r : row) : Prop := ga_fit r = f /\ ga_ind r = x.
Definition best_in (rows : list row) (f : F) (x : I) : Prop := exists r, In r rows /\ row_is f x r.
Section Strict.
Variable P : F -> Prop.
Hypothesis SWO : strict_weak_order cmp P.
Lemma best_of_best : forall l f x (seen : list row), best_in seen f x -> (forall r, In r seen -> cmp (ga_fit r) f = false) ->
  exists f' x', best_of l (Some (f, x)) = Some (f', x') /\ best_in (seen ++ l) f' x' /\ (forall r, In r (seen ++ l) -> cmp (ga_fit r) f' = false).
Proof.
  destruct SWO as (IR & TR & NT). induction l as [|r l IH]; intros f x seen HB HN; [exists f, x; rewrite app_nil_r; repeat split; assumption|].
  cbn [best_of fold_left update_best]. replace (seen ++ r :: l) with ((seen ++ [r]) ++ l) by (rewrite <- app_assoc; reflexivity). destruct (cmp (ga_fit r) f) eqn:C.
  - apply IH; [exists r; split; [apply in_elt|split; reflexivity]|]. intros r' Hr. apply in_app_or in Hr. destruct Hr as [Hr|[<-|[]]]; [|apply IR].
    destruct (cmp (ga_fit r') (ga_fit r)) eqn:C'; [|reflexivity]. rewrite <- (HN r' Hr). symmetry. exact (TR _ _ _ C' C).
  - apply IH; [destruct HB as (r' & Hr & E); exists r'; split; [apply in_or_app; left; exact Hr|exact E]|]. intros r' Hr. apply in_app_or in Hr. destruct Hr as [Hr|[<-|[]]]; [apply HN; exact Hr|exact C].
Qed.
Lemma best_of_gen l f x : best_of l None = Some (f, x) -> best_in l f x /\ forall r, In r l -> cmp (ga_fit r) f = false.
Proof.
  destruct l as [|r l]; [discriminate|]. cbn [best_of fold_left update_best]. intros H. destruct (best_of_best l (ga_fit r) (ga_ind r) [r]) as (f' & x' & E & B & N).
  - exists r. split; [left; reflexivity|split; reflexivity].
  - intros r' [<-|[]]. apply (proj1 SWO).
  - unfold best_of in E. rewrite E in H. injection H as <- <-. split; [exact B|exact N].
Qed.
(** The best of all generations so far. *)
Definition overall_ok (rows : list row) (b : F * I * nat) : Prop :=
  let '(f, x, g) := b in (exists r, In r rows /\ row_is f x r /\ ga_gen r = as_u32 g) /\ forall r, In r rows -> cmp (ga_fit r) f = false.
Lemma overall_step rows rows' best b g :
  (match best with None => rows = [] | Some b0 => overall_ok rows b0 end) -> (forall r, In r rows' -> ga_gen r = as_u32 g) -> (forall r, In r rows' -> P (ga_fit r)) ->
  update_overall cmp best (best_of rows' None) g = Some b -> overall_ok (rows ++ rows') b.
Proof.
  intros HB HG HP HU. unfold update_overall in HU. destruct (best_of rows' None) as [[f x]|] eqn:B; [|discriminate]. destruct (best_of_gen _ _ _ B) as ((r & Hr & Er) & N).
  assert (NEW : (forall r', In r' rows -> cmp (ga_fit r') f = false) -> overall_ok (rows ++ rows') (f, x, g)).
  { intros NB. split; [exists r; split; [apply in_or_app; right; exact Hr|split; [exact Er|apply HG; exact Hr]]|]. intros r' Hr'. apply in_app_or in Hr'. destruct Hr' as [Hr'|Hr']; [apply NB|apply N]; exact Hr'. }
  destruct SWO as (IR & TR & NT). destruct best as [[[f0 x0] g0]|].
  - destruct HB as ((r0 & Hr0 & Er0 & Eg0) & N0). destruct (cmp f f0) eqn:C; injection HU as <-.
    + apply NEW. intros r' Hr'. destruct (cmp (ga_fit r') f) eqn:C'; [|reflexivity]. rewrite <- (N0 r' Hr'). symmetry. exact (TR _ _ _ C' C).
    + split; [exists r0; split; [apply in_or_app; left; exact Hr0|split; assumption]|]. intros r' Hr'. apply in_app_or in Hr'. destruct Hr' as [Hr'|Hr']; [apply N0; exact Hr'|]. apply (NT _ f _); [destruct Er as (<- & _); apply HP; exact Hr|exact (N r' Hr')|exact C].
  - subst rows. injection HU as <-. apply NEW. intros r' [].
Qed.
End Strict.
Section Total.
Variable P : F -> Prop.
Hypothesis TP : total_preorder cmp P.
Lemma best_of_best_t : forall l f x (seen : list row), (forall r, In r (seen ++ l) -> P (ga_fit r)) -> best_in seen f x -> (forall r, In r seen -> cmp f (ga_fit r) = true) ->
  exists f' x', best_of l (Some (f, x)) = Some (f', x') /\ best_in (seen ++ l) f' x' /\ (forall r, In r (seen ++ l) -> cmp f' (ga_fit r) = true).
Proof.
  destruct TP as (TO & TR). assert (RE : forall a, P a -> cmp a a = true) by (intros a Ha; destruct (TO a a Ha Ha); assumption).
  induction l as [|r l IH]; intros f x seen HP HB HN; [exists f, x; rewrite app_nil_r; repeat split; assumption|].
  cbn [best_of fold_left update_best]. replace (seen ++ r :: l) with ((seen ++ [r]) ++ l) by (rewrite <- app_assoc; reflexivity). destruct (cmp (ga_fit r) f) eqn:C.
  - apply IH; [rewrite <- app_assoc; exact HP|exists r; split; [apply in_elt|split; reflexivity]|]. intros r' Hr. apply in_app_or in Hr. destruct Hr as [Hr|[<-|[]]]; [|apply RE; apply HP; apply in_elt]. exact (TR _ _ _ C (HN r' Hr)).
  - assert (PF : P f) by (destruct HB as (r' & Hr & <- & _); apply HP; apply in_or_app; left; exact Hr).
    apply IH; [rewrite <- app_assoc; exact HP|destruct HB as (r' & Hr & E); exists r'; split; [apply in_or_app; left; exact Hr|exact E]|]. intros r' Hr. apply in_app_or in Hr. destruct Hr as [Hr|[<-|[]]]; [apply HN; exact Hr|]. destruct (TO f (ga_fit r) PF) as [T|T]; [apply HP; apply in_elt|exact T|congruence].
Qed.
Lemma best_of_gen_t l f x : (forall r, In r l -> P (ga_fit r)) -> best_of l None = Some (f, x) -> best_in l f x /\ forall r, In r l -> cmp f (ga_fit r) = true.
Proof.
  destruct l as [|r l]; [discriminate|]. cbn [best_of fold_left update_best]. intros HP H. destruct (best_of_best_t l (ga_fit r) (ga_ind r) [r]) as (f' & x' & E & B & N).
  - exact HP.
  - exists r. split; [left; reflexivity|split; reflexivity].
  - intros r' [<-|[]]. destruct TP as (TO & _). assert (PR : P (ga_fit r)) by (apply HP; left; reflexivity). destruct (TO (ga_fit r) (ga_fit r) PR PR); assumption.
  - unfold best_of in E. rewrite E in H. injection H as <- <-. split; [exact B|exact N].
Qed.
Definition overall_ok_t (rows : list row) (b : F * I * nat) : Prop :=
  let '(f, x, g) := b in (exists r, In r rows /\ row_is f x r /\ ga_gen r = as_u32 g) /\ forall r, In r rows -> cmp f (ga_fit r) = true.
Lemma overall_step_t rows rows' best b g :
  (match best with None => rows = [] | Some b0 => overall_ok_t rows b0 end) -> (forall r, In r rows' -> ga_gen r = as_u32 g) -> (forall r, In r rows' -> P (ga_fit r)) ->
  (forall f x g, best = Some (f, x, g) -> P f) ->
  update_overall cmp best (best_of rows' None) g = Some b -> overall_ok_t (rows ++ rows') b.
Proof.
  intros HB HG HP HPB HU. unfold update_overall in HU. destruct (best_of rows' None) as [[f x]|] eqn:B; [|discriminate]. destruct (best_of_gen_t _ _ _ HP B) as ((r & Hr & Er) & N).
  assert (NEW : (forall r', In r' rows -> cmp f (ga_fit r') = true) -> overall_ok_t (rows ++ rows') (f, x, g)).
  { intros NB. split; [exists r; split; [apply in_or_app; right; exact Hr|split; [exact Er|apply HG; exact Hr]]|]. intros r' Hr'. apply in_app_or in Hr'. destruct Hr' as [Hr'|Hr']; [apply NB|apply N]; exact Hr'. }
  destruct TP as (TO & TR). destruct best as [[[f0 x0] g0]|].
  - destruct HB as ((r0 & Hr0 & Er0 & Eg0) & N0). destruct (cmp f f0) eqn:C; injection HU as <-.
    + apply NEW. intros r' Hr'. exact (TR _ _ _ C (N0 r' Hr')).
    + split; [exists r0; split; [apply in_or_app; left; exact Hr0|split; assumption]|]. intros r' Hr'. apply in_app_or in Hr'. destruct Hr' as [Hr'|Hr']; [apply N0; exact Hr'|]. destruct (TO f0 f) as [T|T]; [exact (HPB _ _ _ eq_refl)|destruct Er as (<- & _); apply HP; exact Hr|exact (TR _ _ _ T (N r' Hr'))|congruence].
  - subst rows. injection HU as <-. apply NEW. intros r' [].
Qed.
End Total.
Lemma gen_rows_gen k r : In r (gen_rows k) -> ga_gen r = as_u32 (Datatypes.S k).
Proof. intros H. apply in_map_iff in H. destruct H as (ix & <- & _). reflexivity. Qed.
Lemma upto_in l r : In r (upto l) -> In r l.
Proof. induction l as [|x l IH]; [intros []|]. cbn [upto]. destruct (hit x); [intros [<-|[]]; left; reflexivity|]. intros [<-|H]; [left; reflexivity|right; apply IH; exact H]. Qed.

(** A property of the best kept by every generation holds at the end. *)
Section Keep.
Variable P : F -> Prop.
Variable ok : list row -> F * I * nat -> Prop.
Hypothesis PG : forall k r, In r (gen_rows k) -> P (ga_fit r).
Hypothesis step : forall rows rows' best b g,
  (match best with None => rows = [] | Some b0 => ok rows b0 end) -> (forall r, In r rows' -> ga_gen r = as_u32 g) -> (forall r, In r rows' -> P (ga_fit r)) ->
  update_overall cmp best (best_of rows' None) g = Some b -> ok (rows ++ rows') b.
Lemma seq_keep : forall fuel k res best rows b,
  (gnum = 0 \/ k <= gnum) -> (match best with None => res = [] | Some b0 => ok res b0 end) ->
  seq_loop fuel k (population k) res best = Done (rows, b) -> ok rows b.
Proof.
  induction fuel as [|fuel IH]; intros k res best rows b HK HB; [discriminate|].
  destruct (negb (gnum =? 0) && (k =? gnum)) eqn:L.
  - apply andb_prop in L. destruct L as (L1 & L2). apply negb_true_iff, Nat.eqb_neq in L1. apply Nat.eqb_eq in L2. rewrite seq_limit by assumption. destruct best as [b0|]; [|discriminate]. intros [= <- <-]. exact HB.
  - assert (W : within k) by (apply not_limit; split; assumption). rewrite seq_step by exact W. destruct (update_overall cmp best _ _) as [b1|] eqn:U; [|discriminate].
    assert (O1 : ok (res ++ upto (gen_rows k)) b1) by (apply (step _ _ best _ (Datatypes.S k)); [exact HB|intros r Hr; apply gen_rows_gen; apply upto_in; exact Hr|intros r Hr; apply (PG k); apply upto_in; exact Hr|exact U]).
    destruct (existsb hit (gen_rows k)) eqn:E; [intros [= <- <-]; exact O1|]. rewrite (upto_none _ E) in O1. destruct (_ <? 2); [intros [= <- <-]; exact O1|]. apply IH; [destruct W; lia|exact O1].
Qed.
Lemma par_keep : forall fuel k res best rows b,
  (gnum = 0 \/ k <= gnum) -> (match best with None => res = [] | Some b0 => ok (map fst res) b0 end) ->
  par_loop fuel k (population k) res best = Done (rows, b) -> ok (map fst rows) b.
Proof.
  induction fuel as [|fuel IH]; intros k res best rows b HK HB; [discriminate|].
  destruct (negb (gnum =? 0) && (k =? gnum)) eqn:L.
  - apply andb_prop in L. destruct L as (L1 & L2). apply negb_true_iff, Nat.eqb_neq in L1. apply Nat.eqb_eq in L2. rewrite par_limit by assumption. destruct best as [b0|]; [|discriminate]. intros [= <- <-]. exact HB.
  - assert (W : within k) by (apply not_limit; split; assumption). rewrite par_step by exact W. destruct (update_overall cmp best _ _) as [b1|] eqn:U; [|discriminate].
    assert (O1 : ok (map fst (res ++ map (shown (Datatypes.S k)) (gen_rows k))) b1).
    { rewrite map_app, map_map. cbn [shown fst]. rewrite map_id. apply (step _ _ best _ (Datatypes.S k)); [|intros r Hr; apply gen_rows_gen; exact Hr|intros r Hr; apply (PG k); exact Hr|exact U]. destruct best; [exact HB|]. rewrite HB. reflexivity. }
    destruct (existsb hit (gen_rows k)) eqn:E; [intros [= <- <-]; exact O1|]. destruct (_ <? 1); [intros [= <- <-]; exact O1|]. apply IH; [destruct W; lia|exact O1].
Qed.
End Keep.
End GA.
