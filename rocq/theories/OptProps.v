(** * Property theorems: random search, Bayesian search, gen_param! (C49-C51) *)
From Coq Require Import List Bool Arith ZArith Lia.
From Verif Require Import F32 FOrder OptModel OptSpec OptProofs.
Import ListNotations.

(** ** C49: random search *)
(** It never panics and returns the best of what it evaluated: the first sample with the
    least mean cost, or the initial state if no sample costs less than [f32::MAX].  It
    goes on for [n_iter] batches or until the best cost is at most the target. *)
Theorem C49_best :
  forall (S : Type) (gen_sample : nat -> nat -> S -> S) simulate cost target n_iter batch_size reps init,
    exists b k h, random_search gen_sample simulate cost target n_iter batch_size reps init = Some b /\
      history gen_sample simulate cost target batch_size reps init k h b /\
      first_best fltb f32_max init h b /\
      k <= n_iter /\ length h = k * batch_size /\ (k = n_iter \/ (k <> 0 /\ fleb (snd b) target = true)).
Proof.
  intros S gen_sample simulate cost target n_iter batch_size reps init.
  destruct (random_loop_result gen_sample simulate cost target batch_size reps init n_iter 0 [] (init, f32_max) (history_0 _ _ _ _ _ _ _) (first_best_nil _ _ _) (fun H => False_ind _ (H eq_refl))) as (b & k & h & R1 & R2 & R3 & R4).
  exists b, k, h. split; [exact R1|]. split; [exact R2|]. split; [exact (history_best _ _ _ _ _ _ _ _ _ _ R2)|]. split; [lia|]. split; [|exact R4].
  clear -R2. induction R2 as [|k h b b' H IH T FB]; [reflexivity|]. rewrite app_length, IH. unfold batch. rewrite map_length, seq_length. lia.
Qed.
Print Assumptions C49_best.
(** In short: no evaluated sample costs less than the returned cost, and what is returned
    is an evaluated sample with its cost, or the initial state with [f32::MAX]. *)
Theorem C49_least :
  forall (S : Type) (gen_sample : nat -> nat -> S -> S) simulate cost target batch_size reps init k h b,
    history gen_sample simulate cost target batch_size reps init k h b ->
    (forall s c, In (s, c) h -> fltb c (snd b) = false) /\ (b = (init, f32_max) \/ In b h).
Proof.
  intros S gen_sample simulate cost target batch_size reps init k h b H. pose proof (history_best _ _ _ _ _ _ _ _ _ _ H) as FB. split.
  - exact (first_best_unbeaten fltb fltb_trans f32_max init h b fltb_irrefl FB).
  - destruct FB as [(-> & _)|(l & l' & -> & _)]; [left; reflexivity|right; apply in_elt].
Qed.
Print Assumptions C49_least.
(** With no repetitions every mean is 0/0 and the initial state is returned. *)
Theorem C49_no_reps :
  forall (S : Type) (gen_sample : nat -> nat -> S -> S) simulate cost target n_iter batch_size init,
    random_search gen_sample simulate cost target n_iter batch_size 0 init = Some (init, f32_max).
Proof.
  intros S gen_sample simulate cost target n_iter batch_size init. destruct (C49_best S gen_sample simulate cost target n_iter batch_size 0 init) as (b & k & h & E & H & FB & _). rewrite E. f_equal.
  assert (NAN : forall s c, In (s, c) h -> c = S754_nan).
  { clear -H. induction H as [|k h b b' H IH T FB]; intros s c Hs; [destruct Hs|]. apply in_app_or in Hs. destruct Hs as [Hs|Hs]; [exact (IH s c Hs)|]. apply in_map_iff in Hs. destruct Hs as (j & E & _). injection E as _ <-. vm_compute. reflexivity. }
  destruct FB as [(-> & _)|([|] & l' & -> & B & _)]; [reflexivity|exfalso|exfalso]; destruct b as [s c]; cbn [snd] in B; rewrite (NAN s c) in B; try discriminate; try (left; reflexivity); apply in_elt.
Qed.
Print Assumptions C49_no_reps.
Example C49_concrete :
  random_search (fun it j s => (s + Z.of_nat it - Z.of_nat j)%Z) (fun _ _ _ s => s) (fun _ _ _ s => f_of_Z (s * s)) f1 5 3 2 10%Z = Some (7%Z, f_of_Z 49) /\
  (exists h, history (fun it j s => (s + Z.of_nat it - Z.of_nat j)%Z) (fun _ _ _ s => s) (fun _ _ _ s => f_of_Z (s * s)) f1 3 2 2%Z 1 h (0%Z, f0) /\ map fst h = [2; 1; 0]%Z).
Proof.
  split; [vm_compute; reflexivity|]. eexists. split; [eapply (history_S _ _ _ _ _ _ _ 0 [] (2%Z, f32_max)); [apply history_0|intros C; destruct (C eq_refl)|]|reflexivity].
  pose proof (first_best_fold fltb fltb_trans fltb_negtrans fltb_nan f32_max 2%Z (batch (fun it j s => (s + Z.of_nat it - Z.of_nat j)%Z) (fun _ _ _ s => s) (fun _ _ _ s => f_of_Z (s * s)) 3 2 0 2%Z) [] (2%Z, f32_max) (first_best_nil _ _ _)) as F.
  replace (fold_left _ _ _) with (0%Z, f0) in F by (vm_compute; reflexivity). exact F.
Qed.

(** ** C50: Bayesian search *)
(** It returns the first best of the points it evaluated, if a value exceeds the least
    finite f64. *)
Theorem C50_best_partial :
  forall (X G : Type) objective gen_params (gp_new : list X -> list f64 -> G) gp_add predict variance cdf pdf n init x y,
    bayesian_search objective gen_params gp_new gp_add predict variance cdf pdf n init = Some (x, y) ->
    exists h g, points objective gen_params gp_new gp_add predict variance cdf pdf init n h g /\ length h = length init + n /\
      (forall x' y', In (x', y') h -> dgtb y' y = false) /\
      ((exists x' y', In (x', y') h /\ dgtb y' f64_min = true) -> In (x, y) h) /\
      ((forall x' y', In (x', y') h -> dgtb y' f64_min = false) -> y = f64_min /\ hd_error init = Some x).
Proof.
  intros X G objective gen_params gp_new gp_add predict variance cdf pdf n init x y E. pose proof (bayes_result objective gen_params gp_new gp_add predict variance cdf pdf init n) as R. rewrite E in R. destruct R as (x0 & rest & h & g & EI & P & FB).
  exists h, g. split; [exact P|]. split; [exact (points_length _ _ _ _ _ _ _ _ _ _ _ _ P)|]. split; [exact (first_best_unbeaten dgtb dgtb_trans f64_min x0 h (x, y) dgtb_irrefl FB)|].
  destruct FB as [(EB & H)|(l & l' & -> & H1 & H2 & H3)].
  - injection EB as -> ->. split; [intros (x' & y' & Hx & Hy); rewrite (H _ _ Hx) in Hy; discriminate|]. intros _. split; [reflexivity|]. rewrite EI. reflexivity.
  - split; [intros _; apply in_elt|]. intros H. cbn [snd] in H1. rewrite (H x y) in H1 by apply in_elt. discriminate.
Qed.
Print Assumptions C50_best_partial.
(** Every point of the history carries the value the objective gave for it. *)
Theorem C50_values :
  forall (X G : Type) objective gen_params (gp_new : list X -> list f64 -> G) gp_add predict variance cdf pdf init k h g,
    points objective gen_params gp_new gp_add predict variance cdf pdf init k h g ->
    firstn (length init) (map fst h) = init /\
    forall e x y, nth_error h e = Some (x, y) -> y = objective e x.
Proof.
  intros X G objective gen_params gp_new gp_add predict variance cdf pdf init k h g P. induction P as [|k h g x x0 rest sc P (IH1 & IH2) E F].
  - split; [rewrite evaluated_fst, firstn_all; reflexivity|]. unfold evaluated. intros e x y H. rewrite nth_error_map in H.
    assert (Q : forall (l : list X) n e i x, nth_error (combine (seq n (length l)) l) e = Some (i, x) -> i = n + e).
    { clear. induction l as [|z l IH]; intros n e i x H; [destruct e; discriminate|]. destruct e as [|e]; cbn in H; [injection H as <- _; lia|]. apply IH in H. lia. }
    destruct (nth_error (combine (seq 0 (length init)) init) e) as [[i z]|] eqn:N; [|discriminate]. apply Q in N. cbn in H. injection H as <- <-. subst i. reflexivity.
  - pose proof (points_length _ _ _ _ _ _ _ _ _ _ _ _ P) as L. split.
    + rewrite map_app, firstn_app, IH1, map_length. replace (length init - length h) with 0 by lia. apply app_nil_r.
    + intros e x' y' H. destruct (Nat.lt_ge_cases e (length h)) as [Q|Q]; [rewrite nth_error_app1 in H by exact Q; exact (IH2 _ _ _ H)|]. rewrite nth_error_app2 in H by exact Q. destruct (e - length h) as [|d] eqn:D; [|destruct d; discriminate]. injection H as <- <-. replace e with (length h) by lia. reflexivity.
Qed.
Print Assumptions C50_values.
(** It panics exactly without initial points, or when an iteration gets no samples. *)
Lemma first_best_unique {A} (better : spec_float -> spec_float -> bool) start (d : A) h b c :
  first_best better start d h b -> first_best better start d h c -> b = c.
Proof.
  assert (G : forall (l : list (A * spec_float)) b l' m c m', l ++ b :: l' = m ++ c :: m' -> b = c \/ In b m /\ In c l' \/ In c l /\ In b m').
  { induction l as [|x l IH]; intros b0 l' m c0 m' E; destruct m as [|y m]; cbn in E; injection E as -> E.
    - left. reflexivity.
    - right. left. split; [left; reflexivity|]. rewrite E. apply in_or_app. right. left. reflexivity.
    - right. right. split; [left; reflexivity|]. rewrite <- E. apply in_or_app. right. left. reflexivity.
    - destruct (IH _ _ _ _ _ E) as [H|[[H1 H2]|[H1 H2]]]; [left; exact H|right; left; split; [right; exact H1|exact H2]|right; right; split; [right; exact H1|exact H2]]. }
  intros [(-> & Hb)|(l & l' & -> & B1 & B2 & B3)] [(-> & Hc)|(m & m' & Ec & C1 & C2 & C3)].
  - reflexivity.
  - rewrite (Hb (fst c) (snd c)) in C1; [discriminate|]. rewrite Ec. rewrite <- surjective_pairing. apply in_or_app. right. left. reflexivity.
  - rewrite (Hc (fst b) (snd b)) in B1; [discriminate|]. rewrite <- surjective_pairing. apply in_or_app. right. left. reflexivity.
  - destruct (G _ _ _ _ _ _ Ec) as [H|[[H1 H2]|[H1 H2]]]; [exact H| |]; exfalso.
    + rewrite (surjective_pairing b) in H1. rewrite (surjective_pairing c) in H2. specialize (C2 _ _ H1 B1). rewrite (B3 _ _ H2) in C2. discriminate.
    + rewrite (surjective_pairing b) in H2. rewrite (surjective_pairing c) in H1. specialize (B2 _ _ H1 C1). rewrite (C3 _ _ H2) in B2. discriminate.
Qed.
Section PointsUnique.
Context {X G : Type} (objective : nat -> X -> f64) (gen_params : nat -> list X -> list X) (gp_new : list X -> list f64 -> G) (gp_add : G -> X -> f64 -> G)
  (predict variance : G -> X -> f64) (cdf pdf : f64 -> f64) (init : list X).
Notation points := (points objective gen_params gp_new gp_add predict variance cdf pdf init).
Lemma points_unique k : forall h g h' g', points k h g -> points k h' g' -> h = h' /\ g = g'.
Proof.
  induction k as [|k IH]; intros h g h' g' H H'.
  - inversion H; inversion H'; subst. split; reflexivity.
  - inversion H as [|k1 h1 g1 x1 a1 r1 s1 P1 Q1 F1]; inversion H' as [|k2 h2 g2 x2 a2 r2 s2 P2 Q2 F2]; subst.
    destruct (IH _ _ _ _ P1 P2) as [-> ->]. rewrite Q1 in Q2. injection Q2 as <- <-.
    pose proof (first_best_unique _ _ _ _ _ _ F1 F2) as E. injection E as -> _. split; reflexivity.
Qed.
Lemma points_earlier n : forall h g k, points n h g -> k < n -> exists h' g', points k h' g' /\ gen_params k (map fst h') <> [].
Proof.
  induction n as [|n IH]; intros h g k H L; [lia|]. inversion H as [|k1 h1 g1 x1 a1 r1 s1 P1 Q1 F1]; subst.
  destruct (Nat.eq_dec k n) as [->|N].
  - exists h1, g1. split; [exact P1|]. rewrite Q1. discriminate.
  - apply (IH h1 g1 k P1). lia.
Qed.
End PointsUnique.
Theorem C50_panics :
  forall (X G : Type) objective gen_params (gp_new : list X -> list f64 -> G) gp_add predict variance cdf pdf n init,
    bayesian_search objective gen_params gp_new gp_add predict variance cdf pdf n init = None <->
    init = [] \/ exists k h g, k < n /\ points objective gen_params gp_new gp_add predict variance cdf pdf init k h g /\ gen_params k (map fst h) = [].
Proof.
  intros X G objective gen_params gp_new gp_add predict variance cdf pdf n init.
  pose proof (bayes_result objective gen_params gp_new gp_add predict variance cdf pdf init n) as R.
  split; intros E; [rewrite E in R; exact R|].
  destruct (bayesian_search objective gen_params gp_new gp_add predict variance cdf pdf n init) as [b|]; [exfalso|reflexivity].
  destruct R as (x0 & rest & h & g & E0 & P & _). destruct E as [E|(k & h' & g' & L & P' & E)]; [congruence|].
  destruct (points_earlier _ _ _ _ _ _ _ _ _ _ _ _ _ P L) as (h2 & g2 & P2 & N).
  destruct (points_unique _ _ _ _ _ _ _ _ _ _ _ _ _ _ P' P2) as [-> _]. contradiction.
Qed.
Print Assumptions C50_panics.
(** When the objective is minus infinity everywhere the reported value is not the value
    of the reported point. *)
Theorem C50_refuted :
  forall (X G : Type) gen_params (gp_new : list X -> list f64 -> G) gp_add predict variance cdf pdf n x0 rest,
    (forall k xs, gen_params k xs <> []) ->
    bayesian_search (fun _ _ => S754_infinity true) gen_params gp_new gp_add predict variance cdf pdf n (x0 :: rest) = Some (x0, f64_min).
Proof.
  intros X G gen_params gp_new gp_add predict variance cdf pdf n x0 rest NE.
  destruct (bayesian_search (fun _ _ => S754_infinity true) gen_params gp_new gp_add predict variance cdf pdf n (x0 :: rest)) as [[x y]|] eqn:E.
  - destruct (C50_best_partial _ _ _ _ _ _ _ _ _ _ _ _ _ _ E) as (h & g & P & _ & _ & _ & H). destruct H as (-> & HX); [|cbn in HX; injection HX as <-; reflexivity].
    intros x' y' Hx. apply In_nth_error in Hx. destruct Hx as (e & He). rewrite (proj2 (C50_values _ _ _ _ _ _ _ _ _ _ _ _ _ _ P) _ _ _ He). reflexivity.
  - destruct (proj1 (C50_panics _ _ _ _ _ _ _ _ _ _ _ _) E) as [|(k & h & g & _ & _ & H)]; [discriminate|]. destruct (NE _ _ H).
Qed.
Print Assumptions C50_refuted.
(** The expected improvement of a point without variance is zero. *)
Theorem C50_certain_point :
  forall (X G : Type) (predict variance : G -> X -> f64) cdf pdf xs g x s,
    variance g x = S754_zero s -> expected_improvement predict variance cdf pdf xs g x = d0.
Proof. intros X G predict variance cdf pdf xs g x s E. unfold expected_improvement. rewrite E. destruct s; reflexivity. Qed.
Print Assumptions C50_certain_point.
(** Otherwise it is the expected improvement over the greatest prediction [m] for the
    points so far. *)
Theorem C50_improvement :
  forall (X G : Type) (predict variance : G -> X -> f64) cdf pdf xs g x,
    SFeqb (dsqrt (variance g x)) d0 = false ->
    exists m, (m = f64_min \/ In m (map (predict g) xs)) /\ (forall y, In y xs -> dgtb (predict g y) m = false) /\ dgtb f64_min m = false /\
      expected_improvement predict variance cdf pdf xs g x =
        dadd (dmul (dsub (predict g x) m) (cdf (ddiv (dsub (predict g x) m) (dsqrt (variance g x)))))
             (dmul (dsqrt (variance g x)) (pdf (ddiv (dsub (predict g x) m) (dsqrt (variance g x))))).
Proof.
  intros X G predict variance cdf pdf xs g x H. exists (max_of (map (predict g) xs) f64_min).
  assert (Q : forall l m, (max_of l m = m \/ In (max_of l m) l) /\ (forall y, In y l -> dgtb y (max_of l m) = false) /\ dgtb m (max_of l m) = false).
  { induction l as [|y l IH]; intros m; [split; [left; reflexivity|split; [intros y []|apply dgtb_irrefl]]|]. cbn [max_of]. destruct (IH (if dgtb y m then y else m)) as (A & B & C). destruct (dgtb y m) eqn:E.
    - split; [right; destruct A as [->|A]; [left; reflexivity|right; exact A]|]. split; [intros z [<-|Hz]; [exact C|exact (B z Hz)]|]. destruct (dgtb m (max_of l y)) eqn:D; [|reflexivity]. rewrite (dgtb_trans _ _ _ E D) in C. discriminate.
    - split; [destruct A as [->|A]; [left; reflexivity|right; right; exact A]|]. split; [|exact C]. intros z [<-|Hz]; [|exact (B z Hz)].
      destruct (f32_is_nan m) eqn:NM; [|exact (dgtb_negtrans _ _ _ NM E C)]. destruct m; try discriminate. assert (F : forall l, max_of l S754_nan = S754_nan).
      { clear. induction l as [|y l IH]; [reflexivity|]. cbn [max_of]. replace (dgtb y S754_nan) with false by (destruct y; reflexivity). exact IH. }
      rewrite F. destruct y; reflexivity. }
  destruct (Q (map (predict g) xs) f64_min) as (A & B & C). split; [exact A|]. split; [intros y Hy; apply B, in_map, Hy|]. split; [exact C|]. unfold expected_improvement, deqb. rewrite H. reflexivity.
Qed.
Print Assumptions C50_improvement.
Definition d_of (z : Z) : f64 := binary_normalize 53 1024 z 0 false.
Example C50_concrete :
  bayesian_search (fun _ (x : Z) => d_of (- (x * x))) (fun k _ => [Z.of_nat k - 3; 7]%Z) (fun _ _ => tt) (fun g _ _ => g) (fun _ x => d_of x) (fun _ x => d_of (x * x)) (fun z => d0) (fun z => d_of 1) 5 [4; -9]%Z = Some (4%Z, d_of (-16)) /\
  bayesian_search (fun _ (x : Z) => d_of (- (x * x))) (fun k _ => [Z.of_nat k - 3; 7]%Z) (fun _ _ => tt) (fun g _ _ => g) (fun _ x => d_of x) (fun _ x => d0) (fun z => d0) (fun z => d_of 1) 5 [4; -9]%Z = Some (0%Z, d_of 0).
Proof. split; vm_compute; reflexivity. Qed.

(** ** C51: gen_param! *)
(** What rand's [Uniform] guarantees about a draw. *)
Definition draws_in {T : Type} (lt : T -> T -> bool) (draw : T -> T -> nat -> T) : Prop :=
  forall low high k, lt low high = true -> lt (draw low high k) low = false /\ lt (draw low high k) high = true.
(** Integers: [n] values in the range (or equal to [min] if the bounds are equal),
    unless both bounds are the greatest value of the type. *)
Theorem C51_integers_partial :
  forall lo hi draw min max n, (lo <= 0 -> 1 <= hi -> lo <= min <= hi -> lo <= max <= hi ->
    draws_in Z.ltb draw -> ~ (min = max /\ max = hi) ->
    exists l, gen_param Z.gtb Z.eqb Z.ltb (int_succ lo hi) draw min max n = Some l /\ length l = n /\
      forall v, In v l -> Z.min min max <= v /\ (v < Z.max min max \/ (min = max /\ v = min)))%Z.
Proof.
  intros lo hi draw min max n L1 L2 LM LX D NE. unfold gen_param. rewrite Z.gtb_ltb.
  assert (G : forall a b, (a < b)%Z -> exists l, (if (a <? b)%Z then Some (map (draw a b) (seq 0 n)) else None) = Some l /\ length l = n /\ forall v, In v l -> (a <= v < b)%Z).
  { intros a b AB. apply Z.ltb_lt in AB. rewrite AB. eexists. split; [reflexivity|]. split; [rewrite map_length; apply seq_length|]. intros v Hv. apply in_map_iff in Hv. destruct Hv as (k & <- & _). destruct (D a b k AB) as (D1 & D2). apply Z.ltb_ge in D1. apply Z.ltb_lt in D2. lia. }
  destruct (max <? min)%Z eqn:C; [apply Z.ltb_lt in C|apply Z.ltb_ge in C; destruct (min =? max)%Z eqn:Q; [apply Z.eqb_eq in Q|apply Z.eqb_neq in Q]].
  - destruct (G max min C) as (l & H1 & H2 & H3). exists l. split; [exact H1|]. split; [exact H2|]. intros v Hv. specialize (H3 v Hv). lia.
  - subst min. unfold int_succ. destruct (max =? hi)%Z eqn:Q; [apply Z.eqb_eq in Q; destruct (NE (conj eq_refl Q))|]. destruct (G max (max + 1)%Z ltac:(lia)) as (l & H1 & H2 & H3). exists l. split; [exact H1|]. split; [exact H2|]. intros v Hv. specialize (H3 v Hv). lia.
  - destruct (G min max ltac:(lia)) as (l & H1 & H2 & H3). exists l. split; [exact H1|]. split; [exact H2|]. intros v Hv. specialize (H3 v Hv). lia.
Qed.
Print Assumptions C51_integers_partial.
(** Floats (f32 and f64 alike): [n] values in the range if the bounds are different. *)
Theorem C51_floats_partial :
  forall succ draw min max n, f32_is_nan min = false -> f32_is_nan max = false ->
    SFeqb min max = false -> draws_in SFltb draw ->
    exists l, gen_param (fun x y => SFltb y x) SFeqb SFltb succ draw min max n = Some l /\ length l = n /\
      forall v, In v l -> (SFltb v min = false /\ SFltb v max = true) \/ (SFltb v max = false /\ SFltb v min = true).
Proof.
  intros succ draw min max n NM NX NE D. unfold gen_param.
  assert (G : forall a b, SFltb a b = true -> exists l, (if SFltb a b then Some (map (draw a b) (seq 0 n)) else None) = Some l /\ length l = n /\ forall v, In v l -> SFltb v a = false /\ SFltb v b = true).
  { intros a b AB. rewrite AB. eexists. split; [reflexivity|]. split; [rewrite map_length; apply seq_length|]. intros v Hv. apply in_map_iff in Hv. destruct Hv as (k & <- & _). apply D. exact AB. }
  destruct (SFltb max min) eqn:C.
  - destruct (G max min C) as (l & H1 & H2 & H3). exists l. split; [exact H1|]. split; [exact H2|]. intros v Hv. right. exact (H3 v Hv).
  - rewrite NE. destruct (G min max) as (l & H1 & H2 & H3).
    + destruct (SFltb min max) eqn:E; [reflexivity|]. exfalso. unfold SFltb, SFeqb in *. pose proof (SFcompare_key min max NM NX) as K1. pose proof (SFcompare_key max min NX NM) as K2. destruct (SFcompare min max) as [[| |]|]; try discriminate; [|contradiction].
      destruct (SFcompare max min) as [[| |]|]; try discriminate; [|  |contradiction]; destruct (fkey min) as [[a b] c], (fkey max) as [[a' b'] c']; cbn in *; [injection K2 as -> -> ->|]; lia.
    + exists l. split; [exact H1|]. split; [exact H2|]. intros v Hv. left. exact (H3 v Hv).
Qed.
Print Assumptions C51_floats_partial.
(** Asked for no values it returns none, not one. *)
Theorem C51_zero_refuted :
  forall lo hi draw min max, (min < max)%Z -> gen_param Z.gtb Z.eqb Z.ltb (int_succ lo hi) draw min max 0 = Some [].
Proof. intros lo hi draw min max L. unfold gen_param. rewrite Z.gtb_ltb. destruct (max <? min)%Z eqn:C; [apply Z.ltb_lt in C; lia|]. destruct (min =? max)%Z eqn:E; [apply Z.eqb_eq in E; lia|]. apply Z.ltb_lt in L. rewrite L. reflexivity. Qed.
Print Assumptions C51_zero_refuted.
(** It panics when both bounds are the greatest value of an integer type, *)
Theorem C51_top_refuted :
  forall lo hi draw n, (lo <= 0 -> 1 <= hi -> gen_param Z.gtb Z.eqb Z.ltb (int_succ lo hi) draw hi hi n = None)%Z.
Proof. intros lo hi draw n L H. unfold gen_param. rewrite Z.gtb_ltb, Z.ltb_irrefl, Z.eqb_refl. unfold int_succ. rewrite Z.eqb_refl. destruct (hi <? lo)%Z eqn:E; [apply Z.ltb_lt in E; lia|reflexivity]. Qed.
Print Assumptions C51_top_refuted.
(** and, for f32, when both are 2^24, where adding one changes nothing. *)
Theorem C51_f32_refuted :
  forall draw n, gen_param fgtb feqb fltb (fun x => fadd x f1) draw (f_of_Z 16777216) (f_of_Z 16777216) n = None.
Proof. intros draw n. vm_compute. reflexivity. Qed.
Print Assumptions C51_f32_refuted.
(** For equal floats the values need not be the bound: any value of [[2, 3)] may come. *)
Theorem C51_equal_floats_refuted :
  forall v, fltb v f2 = false -> fltb v (f_of_Z 3) = true ->
    exists draw, draws_in SFltb draw /\ gen_param fgtb feqb fltb (fun x => fadd x f1) draw f2 f2 1 = Some [v].
Proof.
  intros v H1 H2. exists (fun low high _ => if SFeqb low f2 && SFeqb high (f_of_Z 3) then v else low). split; [|vm_compute; reflexivity].
  assert (EQL : forall a b c, SFeqb a b = true -> SFltb c a = SFltb c b /\ SFltb a c = SFltb b c).
  { intros a b c E. assert (NA : f32_is_nan a = false /\ f32_is_nan b = false) by (destruct a, b; split; try reflexivity; try discriminate; cbn in E; discriminate). destruct NA as (NA & NB).
    assert (K : fkey a = fkey b) by (pose proof (SFcompare_key a b NA NB) as K; unfold SFeqb in E; destruct (SFcompare a b) as [[| |]|]; try discriminate; exact K).
    split; apply eq_true_iff_eq; rewrite !SFltb_key, K, NA, NB; reflexivity. }
  intros low high k LH. destruct (SFeqb low f2 && SFeqb high (f_of_Z 3)) eqn:E.
  - apply andb_prop in E. destruct E as (E1 & E2). rewrite (proj1 (EQL _ _ v E1)), (proj1 (EQL _ _ v E2)). split; assumption.
  - split; [apply SFltb_irrefl|exact LH].
Qed.
Print Assumptions C51_equal_floats_refuted.
Example C51_concrete :
  draws_in Z.ltb (fun low high k => low + Z.of_nat k mod (high - low))%Z /\
  gen_param Z.gtb Z.eqb Z.ltb (int_succ 0 255) (fun low high k => low + Z.of_nat k mod (high - low))%Z 10%Z 7%Z 5 = Some [7; 8; 9; 7; 8]%Z /\
  gen_param Z.gtb Z.eqb Z.ltb (int_succ 0 255) (fun low high k => low + Z.of_nat k mod (high - low))%Z 4%Z 4%Z 2 = Some [4; 4]%Z.
Proof.
  split; [|split; vm_compute; reflexivity]. intros low high k H. apply Z.ltb_lt in H. pose proof (Z.mod_pos_bound (Z.of_nat k) (high - low) ltac:(lia)). split; [apply Z.ltb_ge|apply Z.ltb_lt]; lia.
Qed.
