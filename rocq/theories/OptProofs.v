(** * Proofs about the random and the Bayesian search *)
From Coq Require Import List Bool Arith ZArith Lia.
From Verif Require Import F32 FOrder OptModel OptSpec.
Import ListNotations.

Section Pick.
Context {A : Type}.
Variable better : spec_float -> spec_float -> bool.
Hypothesis TR : forall a b c, better a b = true -> better b c = true -> better a c = true.
Hypothesis NT : forall a b c, f32_is_nan b = false -> better a b = false -> better b c = false -> better a c = false.
Hypothesis NN : forall a b, better a b = true -> f32_is_nan a = false.
Definition pick (b x : A * spec_float) : A * spec_float := if better (snd x) (snd b) then x else b.
Lemma first_best_nil start (d : A) : first_best better start d [] (d, start).
Proof. left. split; [reflexivity|]. intros x c []. Qed.
Lemma first_best_snoc start (d : A) h b x : first_best better start d h b -> first_best better start d (h ++ [x]) (pick b x).
Proof.
  intros H. unfold pick. destruct (better (snd x) (snd b)) eqn:B; destruct H as [(-> & H)|(l & l' & -> & H1 & H2 & H3)]; cbn [snd] in *.
  - right. exists h, []. split; [reflexivity|]. split; [exact B|]. split; [|intros y c []]. intros y c Hy Hc. rewrite (H y c Hy) in Hc. discriminate.
  - right. exists (l ++ b :: l'), []. split; [reflexivity|]. split; [exact (TR _ _ _ B H1)|]. split; [|intros y c []]. intros y c Hy Hc. apply in_app_or in Hy. destruct Hy as [Hy|[->|Hy]].
    + exact (TR _ _ _ B (H2 y c Hy Hc)).
    + exact B.
    + destruct (better (snd x) c) eqn:E; [reflexivity|]. rewrite (NT _ c _ (NN _ _ Hc) E (H3 y c Hy)) in B. discriminate.
  - left. split; [reflexivity|]. intros y c Hy. apply in_app_or in Hy. destruct Hy as [Hy|[->|[]]]; [exact (H y c Hy)|exact B].
  - right. exists l, (l' ++ [x]). split; [rewrite <- app_assoc; reflexivity|]. split; [exact H1|]. split; [exact H2|]. intros y c Hy. apply in_app_or in Hy. destruct Hy as [Hy|[->|[]]]; [exact (H3 y c Hy)|exact B].
Qed.
Lemma first_best_fold start (d : A) : forall l h b, first_best better start d h b -> first_best better start d (h ++ l) (fold_left pick l b).
Proof. induction l as [|x l IH]; intros h b H; [rewrite app_nil_r; exact H|]. cbn [fold_left]. replace (h ++ x :: l) with ((h ++ [x]) ++ l) by (rewrite <- app_assoc; reflexivity). apply IH, first_best_snoc, H. Qed.
Lemma first_best_unbeaten start (d : A) h b : (forall a, better a a = false) -> first_best better start d h b -> forall x c, In (x, c) h -> better c (snd b) = false.
Proof.
  intros IR [(-> & H)|(l & l' & -> & H1 & H2 & H3)] x c Hx; [exact (H x c Hx)|]. apply in_app_or in Hx. destruct Hx as [Hx|[->|Hx]]; [|apply IR|exact (H3 x c Hx)].
  destruct (better c (snd b)) eqn:E; [|reflexivity]. rewrite <- (IR c). symmetry. apply (TR _ (snd b)); [exact E|]. apply (H2 x c Hx). exact (TR _ _ _ E H1).
Qed.
End Pick.
Lemma fltb_trans a b c : fltb a b = true -> fltb b c = true -> fltb a c = true. Proof. apply SFltb_trans. Qed.
Lemma fltb_negtrans a b c : f32_is_nan b = false -> fltb a b = false -> fltb b c = false -> fltb a c = false. Proof. apply SFltb_negtrans. Qed.
Lemma fltb_nan a b : fltb a b = true -> f32_is_nan a = false. Proof. intros H. apply SFltb_key in H. apply H. Qed.
Lemma fltb_irrefl a : fltb a a = false. Proof. apply SFltb_irrefl. Qed.
Lemma dgtb_trans a b c : dgtb a b = true -> dgtb b c = true -> dgtb a c = true. Proof. unfold dgtb. intros H1 H2. exact (SFltb_trans _ _ _ H2 H1). Qed.
Lemma dgtb_negtrans a b c : f32_is_nan b = false -> dgtb a b = false -> dgtb b c = false -> dgtb a c = false. Proof. unfold dgtb. intros N H1 H2. exact (SFltb_negtrans _ _ _ N H2 H1). Qed.
Lemma dgtb_nan a b : dgtb a b = true -> f32_is_nan a = false. Proof. intros H. apply SFltb_key in H. apply H. Qed.
Lemma dgtb_irrefl a : dgtb a a = false. Proof. apply SFltb_irrefl. Qed.

Lemma skipn_cons {X} (l : list X) i x : nth_error l i = Some x -> skipn i l = x :: skipn (i + 1) l.
Proof. revert l. induction i as [|i IH]; intros [|y l] H; try discriminate; [injection H as ->; reflexivity|]. cbn. exact (IH l H). Qed.

Section Random.
Context {S : Type}.
Variable gen_sample : nat -> nat -> S -> S.
Variable simulate : nat -> nat -> nat -> S -> S.
Variable cost : nat -> nat -> nat -> S -> f32.
Variable target : f32.
Variable n_iter batch_size reps : nat.
Variable init : S.
Notation after := (after gen_sample simulate).
Notation mean_cost := (mean_cost gen_sample simulate cost reps).
Notation batch := (batch gen_sample simulate cost batch_size reps).
Notation history := (history gen_sample simulate cost target batch_size reps init).
Notation random_loop := (random_loop gen_sample simulate cost target batch_size reps).

Lemma run_reps_eq it j s : forall n r c,
  run_reps simulate cost it j r n (after it j s r) c = (after it j s (r + n), fold_left fadd (map (fun r => cost it j r (after it j s (r + 1))) (seq r n)) c).
Proof.
  induction n as [|n IH]; intros r c; [cbn; rewrite Nat.add_0_r; reflexivity|]. cbn [run_reps seq map fold_left].
  change (simulate it j r (after it j s r)) with (after it j s (Datatypes.S r)). replace (r + 1) with (Datatypes.S r) by lia. rewrite IH. f_equal. f_equal. lia.
Qed.
Lemma run_sample_eq it j s : run_sample simulate cost reps it j (gen_sample it j s) = (after it j s reps, mean_cost it j s).
Proof. unfold run_sample. change (gen_sample it j s) with (after it j s 0). rewrite run_reps_eq. reflexivity. Qed.
Lemma run_batch_eq it s : forall n j, run_batch simulate cost reps it j (new_samples gen_sample it j n s) = map (fun j => (after it j s reps, mean_cost it j s)) (seq j n).
Proof. induction n as [|n IH]; intros j; [reflexivity|]. cbn [new_samples run_batch seq map]. rewrite run_sample_eq, IH. replace (j + 1) with (Datatypes.S j) by lia. reflexivity. Qed.
Lemma scan_fold (best : S * f32) (B : list (S * f32)) : forall n i mc mi cur,
  i + n = length B -> snd cur = mc ->
  (match mi with None => cur = best | Some k => nth_error B k = Some cur end) ->
  exists mi', scan (map snd B) i n mc mi = Some (snd (fold_left (pick fltb) (skipn i B) cur), mi') /\
    (match mi' with None => fold_left (pick fltb) (skipn i B) cur = best | Some k => nth_error B k = Some (fold_left (pick fltb) (skipn i B) cur) end).
Proof.
  induction n as [|n IH]; intros i mc mi cur L Hmc Hmi.
  - rewrite skipn_all2 by lia. exists mi. cbn [OptModel.scan fold_left]. subst mc. split; [reflexivity|exact Hmi].
  - cbn [scan]. assert (E : exists x, nth_error B i = Some x) by (destruct (nth_error B i) eqn:E; [eexists; reflexivity|apply nth_error_None in E; lia]). destruct E as ([s c] & E).
    rewrite nth_error_map, E. cbn [option_map snd]. rewrite (skipn_cons _ _ _ E). cbn [fold_left]. change (pick fltb cur (s, c)) with (if fltb c (snd cur) then (s, c) else cur). rewrite Hmc. destruct (fltb c mc) eqn:C.
    + apply IH; [lia|reflexivity|exact E].
    + apply IH; [lia|exact Hmc|exact Hmi].
Qed.
Definition random_result (it n : nat) (o : option (S * f32)) : Prop :=
  exists b k h, o = Some b /\ history k h b /\ it <= k <= it + n /\ (k = it + n \/ (k <> it /\ fleb (snd b) target = true)).
Lemma random_loop_result : forall n it h best, history it h best -> first_best fltb f32_max init h best -> (it <> 0 -> fleb (snd best) target = false) ->
  random_result it n (random_loop it n best (snd best)).
Proof.
  induction n as [|n IH]; intros it h best H FB T.
  - exists best, it, h. split; [reflexivity|]. split; [exact H|]. split; [lia|]. left. lia.
  - cbn [OptModel.random_loop]. rewrite run_batch_eq. change (map _ (seq 0 batch_size)) with (batch it (fst best)).
    assert (LB : 0 + batch_size = length (batch it (fst best))) by (unfold OptSpec.batch; rewrite map_length, seq_length; reflexivity).
    destruct (scan_fold best (batch it (fst best)) batch_size 0 (snd best) None best LB eq_refl eq_refl) as (mi & -> & HM). cbn [skipn] in *.
    set (b' := fold_left (pick fltb) (batch it (fst best)) best) in *.
    assert (FB' : first_best fltb f32_max init (h ++ batch it (fst best)) b') by (apply first_best_fold; [exact fltb_trans|exact fltb_negtrans|exact fltb_nan|exact FB]).
    assert (H' : history (Datatypes.S it) (h ++ batch it (fst best)) b') by (apply history_S; assumption).
    assert (FIN : random_result it (Datatypes.S n) (if fleb (snd b') target then Some b' else random_loop (it + 1) n b' (snd b'))).
    2: { cbv beta iota. clear -FIN HM. destruct mi as [k|]; [rewrite HM; cbn [option_map fst]; rewrite <- surjective_pairing; exact FIN|rewrite <- HM; exact FIN]. }
    clear mi HM. destruct (fleb (snd b') target) eqn:C.
    + exists b', (Datatypes.S it), (h ++ batch it (fst best)). split; [reflexivity|]. split; [exact H'|]. split; [lia|]. right. split; [lia|exact C].
    + replace (it + 1) with (Datatypes.S it) by lia. destruct (IH (Datatypes.S it) _ b' H' FB' (fun _ => C)) as (b & k & h' & R1 & R2 & R3 & R4). exists b, k, h'. split; [exact R1|]. split; [exact R2|]. split; [lia|]. destruct R4 as [R4|(R4 & R5)]; [left; lia|right; split; [lia|exact R5]].
Qed.
Lemma history_best k h b : history k h b -> first_best fltb f32_max init h b.
Proof. destruct 1; [apply first_best_nil|assumption]. Qed.
End Random.

Lemma argmax_fold {X : Type} (B : list (X * spec_float)) : forall l i max idx cur, skipn i B = l -> snd cur = max -> (nth_error (map fst B) idx = Some (fst cur)) ->
  exists idx', argmax (map snd l) i max idx = (snd (fold_left (pick dgtb) l cur), idx') /\ nth_error (map fst B) idx' = Some (fst (fold_left (pick dgtb) l cur)).
Proof.
  induction l as [|[x y] l IH]; intros i max idx cur L Hm Hi; [exists idx; subst max; split; [reflexivity|exact Hi]|]. cbn [map snd argmax fold_left]. change (pick dgtb cur (x, y)) with (if dgtb y (snd cur) then (x, y) else cur). rewrite Hm.
  assert (E : nth_error B i = Some (x, y)).
  { revert i L. clear. induction B as [|z B IH]; intros i L; [destruct i; discriminate|]. destruct i as [|i]; [injection L as -> _; reflexivity|]. exact (IH i L). }
  assert (L' : skipn (i + 1) B = l) by (rewrite (skipn_cons _ _ _ E) in L; congruence).
  destruct (dgtb y max).
  - apply IH; [exact L'|reflexivity|]. rewrite nth_error_map, E. reflexivity.
  - apply IH; [exact L'|exact Hm|exact Hi].
Qed.

Section Bayes.
Context {X G : Type}.
Variable objective : nat -> X -> f64.
Variable gen_params : nat -> list X -> list X.
Variable gp_new : list X -> list f64 -> G.
Variable gp_add : G -> X -> f64 -> G.
Variable predict variance : G -> X -> f64.
Variable cdf pdf : f64 -> f64.
Variable init : list X.
Notation points := (points objective gen_params gp_new gp_add predict variance cdf pdf init).
Notation ei := (expected_improvement predict variance cdf pdf).
Notation bayes_loop := (bayes_loop objective gen_params gp_add predict variance cdf pdf).
Lemma map_fst_pair {Y} (f : X -> Y) l : map fst (map (fun x => (x, f x)) l) = l.
Proof. induction l as [|x l IH]; [reflexivity|]. cbn. rewrite IH. reflexivity. Qed.
Lemma map_snd_pair {Y} (f : X -> Y) l : map snd (map (fun x => (x, f x)) l) = map f l.
Proof. induction l as [|x l IH]; [reflexivity|]. cbn. rewrite IH. reflexivity. Qed.
Lemma acquisition_eq (xs samples : list X) (g : G) :
  match samples with
  | [] => acquisition predict variance cdf pdf xs samples g = None
  | x0 :: _ => exists x sc, acquisition predict variance cdf pdf xs samples g = Some x /\ first_best dgtb f64_min x0 (map (fun x => (x, ei xs g x)) samples) (x, sc)
  end.
Proof.
  destruct samples as [|x0 rest]; [reflexivity|]. set (B := map (fun x => (x, ei xs g x)) (x0 :: rest)).
  destruct (argmax_fold B B 0 f64_min 0 (x0, f64_min) eq_refl eq_refl eq_refl) as (idx & E1 & E2). unfold acquisition.
  assert (ES : map (ei xs g) (x0 :: rest) = map snd B) by (unfold B; symmetry; apply map_snd_pair). assert (EF : map fst B = x0 :: rest) by (unfold B; apply map_fst_pair). rewrite ES, E1. cbn [snd]. rewrite EF in E2. rewrite E2. destruct (fold_left (pick dgtb) B (x0, f64_min)) as [x sc] eqn:F. exists x, sc. split; [reflexivity|]. rewrite <- F.
  apply (first_best_fold dgtb dgtb_trans dgtb_negtrans dgtb_nan f64_min x0 B [] _ (first_best_nil dgtb f64_min x0)).
Qed.
Lemma acquisition_some (xs samples : list X) (g : G) x : acquisition predict variance cdf pdf xs samples g = Some x ->
  exists x0 rest sc, samples = x0 :: rest /\ first_best dgtb f64_min x0 (map (fun x => (x, ei xs g x)) samples) (x, sc).
Proof.
  intros H. pose proof (acquisition_eq xs samples g) as A. destruct samples as [|x0 rest]; [congruence|]. destruct A as (x' & sc & E & F). rewrite H in E. injection E as <-. exists x0, rest, sc. split; [reflexivity|exact F].
Qed.
Lemma points_length k h g : points k h g -> length h = length init + k.
Proof. induction 1 as [|k h g x x0 rest sc H IH E F]; [unfold evaluated; rewrite map_length, combine_length, seq_length; lia|]. rewrite app_length, IH. cbn. lia. Qed.
Lemma bayes_loop_result (x0 : X) : forall n k h g xm ym, points k h g -> first_best dgtb f64_min x0 h (xm, ym) ->
  match bayes_loop k n (length h) (map fst h) g xm ym with
  | Some b => exists h' g', points (k + n) h' g' /\ first_best dgtb f64_min x0 h' b
  | None => exists k' h' g', k <= k' < k + n /\ points k' h' g' /\ gen_params k' (map fst h') = []
  end.
Proof.
  induction n as [|n IH]; intros k h g xm ym H FB; [exists h, g; rewrite Nat.add_0_r; split; assumption|]. cbn [OptModel.bayes_loop].
  destruct (acquisition predict variance cdf pdf (map fst h) (gen_params k (map fst h)) g) as [x|] eqn:A.
  - destruct (acquisition_some _ _ _ _ A) as (y0 & rest & sc & E & F). rewrite E in F. set (y := objective (length h) x).
    assert (H' : points (Datatypes.S k) (h ++ [(x, y)]) (gp_add g x y)) by (exact (points_S _ _ _ _ _ _ _ _ _ k h g x y0 rest sc H E F)).
    pose proof (first_best_snoc dgtb dgtb_trans dgtb_negtrans dgtb_nan f64_min x0 h (xm, ym) (x, y) FB) as FB'. unfold pick in FB'. cbn [snd] in FB'.
    assert (E1 : length (h ++ [(x, y)]) = length h + 1) by (rewrite app_length; reflexivity). assert (E2 : map fst (h ++ [(x, y)]) = map fst h ++ [x]) by (rewrite map_app; reflexivity).
    replace (k + 1) with (Datatypes.S k) by lia. destruct (dgtb y ym).
    + pose proof (IH (Datatypes.S k) _ _ _ _ H' FB') as R. rewrite E1, E2 in R. destruct (bayes_loop _ _ _ _ _ _ _) as [b|]; [replace (k + Datatypes.S n) with (Datatypes.S k + n) by lia; exact R|]. destruct R as (k' & h' & g' & R1 & R2). exists k', h', g'. split; [lia|exact R2].
    + pose proof (IH (Datatypes.S k) _ _ _ _ H' FB') as R. rewrite E1, E2 in R. destruct (bayes_loop _ _ _ _ _ _ _) as [b|]; [replace (k + Datatypes.S n) with (Datatypes.S k + n) by lia; exact R|]. destruct R as (k' & h' & g' & R1 & R2). exists k', h', g'. split; [lia|exact R2].
  - exists k, h, g. split; [lia|]. split; [exact H|]. pose proof (acquisition_eq (map fst h) (gen_params k (map fst h)) g) as Q. destruct (gen_params k (map fst h)); [reflexivity|]. destruct Q as (? & ? & Q & _). congruence.
Qed.
Lemma objectives_eq : forall xs e, objectives objective e xs = map snd (map (fun ix => (snd ix, objective (fst ix) (snd ix))) (combine (seq e (length xs)) xs)).
Proof. induction xs as [|x xs IH]; intros e; [reflexivity|]. cbn [objectives length seq combine map fst snd]. rewrite IH. replace (e + 1) with (Datatypes.S e) by lia. reflexivity. Qed.
Lemma evaluated_fst : map fst (evaluated objective init) = init.
Proof. unfold evaluated. rewrite map_map. cbn [fst]. generalize 0. induction init as [|x l IH]; intros n; [reflexivity|]. cbn. rewrite IH. reflexivity. Qed.
Lemma bayes_result n :
  match bayesian_search objective gen_params gp_new gp_add predict variance cdf pdf n init with
  | Some b => exists x0 rest h g, init = x0 :: rest /\ points n h g /\ first_best dgtb f64_min x0 h b
  | None => init = [] \/ exists k h g, k < n /\ points k h g /\ gen_params k (map fst h) = []
  end.
Proof.
  unfold bayesian_search. rewrite objectives_eq. change (map _ (combine (seq 0 (length init)) init)) with (evaluated objective init).
  destruct init as [|x0 rest] eqn:EI; [left; reflexivity|]. rewrite <- EI in *. set (B := evaluated objective init).
  assert (EB : nth_error (map fst B) 0 = Some x0) by (unfold B; rewrite evaluated_fst, EI; reflexivity).
  destruct (argmax_fold B B 0 f64_min 0 (x0, f64_min) eq_refl eq_refl EB) as (idx & E1 & E2). rewrite E1. unfold B in E2 at 1. rewrite evaluated_fst in E2. rewrite E2.
  assert (FB : first_best dgtb f64_min x0 B (fold_left (pick dgtb) B (x0, f64_min))) by (apply (first_best_fold dgtb dgtb_trans dgtb_negtrans dgtb_nan f64_min x0 B [] _ (first_best_nil dgtb f64_min x0))).
  destruct (fold_left (pick dgtb) B (x0, f64_min)) as [xm ym]. cbn [fst snd].
  pose proof (bayes_loop_result x0 n 0 B (gp_new init (map snd B)) xm ym (points_0 _ _ _ _ _ _ _ _ _) FB) as R. assert (LB : length B = length init) by (unfold B, evaluated; rewrite map_length, combine_length, seq_length; lia). rewrite LB in R. unfold B at 1 in R. rewrite evaluated_fst in R.
  destruct (bayes_loop _ _ _ _ _ _ _) as [b|].
  - destruct R as (h & g & R1 & R2). exists x0, rest, h, g. split; [exact EI|]. split; assumption.
  - right. destruct R as (k & h & g & R1 & R2). exists k, h, g. split; [lia|exact R2].
Qed.
End Bayes.
