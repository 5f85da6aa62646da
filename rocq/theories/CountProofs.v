(** * Proofs: the counters of agents of [Field2D] and [Kdtree] *)
From Coq Require Import List Bool ZArith NArith Arith Lia.
From Verif Require Import F32 Grid ObjModel FieldModel FieldSpec FieldProofs KdModel KdSpec KdProofs KdStore CountSpec.
Import ListNotations.
Local Open Scope Z_scope.

Section Field.
Variable A : arith.
Notation T := (num A).
Notation pt := (num A * num A)%type.
Context {O : Type}.
Variable eqo : O -> O -> bool.
Variable location : O -> num A * num A.
Notation fop := (fop A (O := O)).
Notation field2d := (field2d A (O := O)).
Variables w h d : T.
Variable t : bool.
Hypothesis GS : good_size A w h d.
Notation live := (live A eqo d).
Notation setup := (setup A (O := O)).
Notation published := (published A (O := O)).

Lemma setup_snoc cs c : setup (cs ++ [c]) = if published cs then setup cs else setup cs ++ match c with FLazyUpdate => [] | _ => [c] end.
Proof.
  induction cs as [|x cs IH]; [destruct c; reflexivity|].
  destruct x; cbn [app CountSpec.setup CountSpec.published]; try reflexivity; rewrite IH; destruct (published cs); reflexivity.
Qed.
Lemma published_snoc cs c : published (cs ++ [c]) = published cs || match c with FLazyUpdate => true | _ => false end.
Proof. induction cs as [|x cs IH]; [destruct c; reflexivity|]. destruct x; cbn [app CountSpec.published]; try exact IH; reflexivity. Qed.

(** Before the first update the calls of the current epoch are all the calls. *)
Lemma setup_epoch cs : published cs = false -> current_epoch A (rev cs) = setup cs.
Proof.
  induction cs as [|c cs IH] using rev_ind; intros P; [reflexivity|]. rewrite published_snoc in P. apply orb_false_iff in P. destruct P as [P Pc].
  rewrite rev_app_distr, setup_snoc, P. cbn [rev app]. destruct c; try discriminate; cbn [current_epoch]; rewrite IH by exact P; reflexivity.
Qed.

Lemma gone_count o l (ps : list (O * pt)) :
  let b := at_cell A d (discretize A d l) ps in
  (length (filter (fun p => negb (takes_back A eqo d (fst p) (snd p) (FRemove o l))) ps) + (length b - length (without eqo o b)) = length ps)%nat /\
  (length (without eqo o b) <= length b)%nat.
Proof.
  cbn [takes_back]. unfold at_cell, without. induction ps as [|[x lx] ps [IH IL]]; [split; cbn; lia|]. cbn [filter fst snd].
  cbv zeta in *.
  assert (E : loc_eqb (discretize A d l) (discretize A d lx) = loc_eqb (discretize A d lx) (discretize A d l)).
  { destruct (loc_eqb (discretize A d lx) (discretize A d l)) eqn:E1.
    - apply loc_eqb_eq in E1. rewrite E1. apply loc_eqb_refl.
    - apply loc_eqb_neq. apply loc_eqb_neq in E1. congruence. }
  rewrite E. destruct (loc_eqb (discretize A d lx) (discretize A d l)); cbn [andb negb map fst filter length].
  - destruct (eqo x o); cbn [negb length]; split; lia.
  - split; lia.
Qed.

Lemma live_nil_set e o l : length (live (e ++ [FSet o l])) = S (length (live e)).
Proof.
  rewrite live_snoc. cbn [FieldSpec.live existsb takes_back negb]. rewrite filter_true by reflexivity. rewrite app_length. cbn. lia.
Qed.

Definition counted (cs : list fop) (f : field2d) : Prop :=
  f_checked f = published cs /\ f_nagents f = N.of_nat (length (live (setup cs))) /\
  f_density f = if published cs then (f_nagents f / Z.to_N (cols A w d * cols A h d))%N else 0%N.

Lemma count_step cs f c f' r : fwf A w h d t f -> state_after A eqo w h d cs f -> f_in A w h d c -> counted cs f ->
  f_step A eqo location f c = Some (f', r) -> counted (cs ++ [c]) f'.
Proof.
  intros W S Hc (C1 & C2 & C3) E. unfold counted. rewrite setup_snoc, published_snoc.
  assert (Q : f' = f -> published cs = published cs || match c with FLazyUpdate => true | _ => false end ->
              length (live (if published cs then setup cs else setup cs ++ match c with FLazyUpdate => [] | _ => [c] end)) = length (live (setup cs)) ->
    f_checked f' = published cs || match c with FLazyUpdate => true | _ => false end /\
    f_nagents f' = N.of_nat (length (live (if published cs then setup cs else setup cs ++ match c with FLazyUpdate => [] | _ => [c] end))) /\
    f_density f' = if published cs || match c with FLazyUpdate => true | _ => false end then (f_nagents f' / Z.to_N (cols A w d * cols A h d))%N else 0%N).
  { intros -> <- ->. auto. }
  assert (L : match c with FSet _ _ | FRemove _ _ | FLazyUpdate => False | _ => True end ->
              length (live (if published cs then setup cs else setup cs ++ match c with FLazyUpdate => [] | _ => [c] end)) = length (live (setup cs))).
  { intros Hq. destruct (published cs); [reflexivity|]. destruct c; try destruct Hq; rewrite live_snoc; cbn [FieldSpec.live takes_back negb]; rewrite app_nil_r, filter_true; reflexivity. }
  assert (K : match c with FSet _ _ | FRemove _ _ | FLazyUpdate => False | _ => True end -> f' = f).
  { intros Hq. destruct c; try destruct Hq; cbn [f_step] in E; unfold query, option_map in E; repeat (match type of E with match ?x with _ => _ end = _ => destruct x; try discriminate end); injection E as <- _; reflexivity. }
  destruct c as [o l|o l| | | | | | | | | | |]; try (apply Q; [apply K; exact I|rewrite orb_false_r; reflexivity|apply L; exact I]).
  - (* set *)
    cbn [f_step] in E. destruct (f_set A f o l) as [g|] eqn:Eg; [|discriminate]. injection E as <- _. unfold f_set in Eg.
    destruct (vget _ _); [|discriminate]. destruct (vset _ _ _); [|discriminate]. injection Eg as <-. cbn [f_checked f_nagents f_density].
    rewrite orb_false_r, C1, C3. destruct (published cs) eqn:P; [rewrite C2; auto|]. split; [reflexivity|]. split; [|reflexivity].
    rewrite live_nil_set, C2. lia.
  - (* remove *)
    cbn [f_step] in E. destruct (f_remove A eqo f o l) as [g|] eqn:Eg; [|discriminate]. injection E as <- _. unfold f_remove in Eg.
    rewrite (index_eq A w h d t f l W) in Eg. cbn [f_in] in Hc. destruct (S _ Hc) as [_ Sw]. rewrite Sw in Eg. clear Sw S.
    rewrite orb_false_r. destruct (published cs) eqn:P.
    + assert (HH : f_checked g = f_checked f /\ f_nagents g = f_nagents f /\ f_density g = f_density f).
      { destruct (at_cell _ _ _ _); [injection Eg as <-; auto|]. rewrite C1 in Eg. cbn [negb andb] in Eg. destruct (vset _ _ _); [|discriminate]. injection Eg as <-.
        cbn. auto. }
      destruct HH as (-> & -> & ->). auto.
    + unfold pending in Eg. rewrite setup_epoch in Eg by exact P. rewrite live_snoc. cbn [FieldSpec.live]. rewrite app_nil_r.
      pose proof (gone_count o l (live (setup cs))) as [G1 G2]. cbv zeta in G1, G2. rewrite C1 in Eg. cbn [negb andb] in Eg.
      destruct (at_cell A d (discretize A d l) (live (setup cs))) as [|x b] eqn:Eb.
      * injection Eg as <-. rewrite C1, C3. split; [reflexivity|]. split; [|reflexivity]. rewrite C2. f_equal. cbn in G1. cbn. lia.
      * destruct (_ <? _)%N eqn:EN; [discriminate|]. destruct (vset _ _ _); [|discriminate].
        cbn [option_map] in Eg. match type of Eg with Some ?X = Some ?Y => assert (EE : X = Y) by congruence end. clear Eg. rewrite <- EE. cbn [f_checked f_nagents f_density].
        rewrite C3. split; [reflexivity|]. split; [|reflexivity]. rewrite C2. lia.
  - (* lazy_update *)
    cbn [f_step] in E. destruct (f_lazy_update A f) as [g|] eqn:Eg; [|discriminate]. injection E as <- _. unfold f_lazy_update in Eg.
    rewrite orb_true_r. destruct W as (_ & _ & _ & _ & W5 & W6 & _). rewrite C1 in Eg. destruct (published cs) eqn:P.
    + injection Eg as <-. cbn [f_checked f_nagents f_density]. auto.
    + destruct GS as (G1 & G2 & G3 & G4). rewrite W5, W6, wrap32_id in Eg by (unfold in_i32; nia). unfold as_index in Eg. destruct (Z.ltb_spec (cols A w d * cols A h d) 0); [nia|].
      destruct (Z.to_nat (cols A w d * cols A h d)) as [|n] eqn:En; [nia|]. injection Eg as <-. cbn [f_checked f_nagents f_density].
      rewrite app_nil_r. split; [reflexivity|]. split; [exact C2|]. f_equal. lia.
Qed.

Lemma count_history cs : Forall (f_in A w h d) cs ->
  exists f rs, f_run A eqo location (f_new A w h d t) cs = Some (f, rs) /\ fwf A w h d t f /\ state_after A eqo w h d cs f /\ counted cs f.
Proof.
  induction cs as [|c cs IH] using rev_ind; intros Hin.
  - destruct (history A eqo location w h d t GS [] (Forall_nil _)) as (f & rs & E & _ & W & S). exists f, rs. split; [exact E|]. split; [exact W|]. split; [exact S|].
    cbn in E. injection E as <- <-. repeat split.
  - destruct (history A eqo location w h d t GS (cs ++ [c]) Hin) as (f' & rs' & E' & _ & W' & S').
    apply Forall_app in Hin. destruct Hin as [Hin Hc]. inversion_clear Hc as [|? ? Hc' _].
    destruct (IH Hin) as (f & rs & E & W & S & C). exists f', rs'. split; [exact E'|]. split; [exact W'|]. split; [exact S'|].
    rewrite run_app, E in E'. cbn [f_run] in E'. destruct (f_step A eqo location f c) as [[g r]|] eqn:Es; [|discriminate].
    cbn in E'. injection E' as <- _. exact (count_step cs f c g r W S Hc' C Es).
Qed.
End Field.

Section Tree.
Variable A : arith.
Notation T := (num A).
Notation pt := (num A * num A)%type.
Context {O : Type}.
Variable eqo : O -> O -> bool.
Notation kop := (kop A (O := O)).
Notation kdtree := (kdtree A (O := O)).
Variables w h d : T.
Hypothesis GS : good_size A w h d.
Notation live := (live A eqo d).
Notation setup := (k_setup A (O := O)).
Notation published := (k_published A (O := O)).

Lemma k_setup_snoc cs c : setup (cs ++ [c]) = if published cs then setup cs else setup cs ++ match c with KLazyUpdate => [] | _ => [c] end.
Proof.
  induction cs as [|x cs IH]; [destruct c; reflexivity|].
  destruct x; cbn [app CountSpec.k_setup CountSpec.k_published]; try reflexivity; rewrite IH; destruct (published cs); reflexivity.
Qed.
Lemma k_published_snoc cs c : published (cs ++ [c]) = published cs || match c with KLazyUpdate => true | _ => false end.
Proof. induction cs as [|x cs IH]; [destruct c; reflexivity|]. destruct x; cbn [app CountSpec.k_published]; try exact IH; reflexivity. Qed.

Lemma k_setup_epoch cs : published cs = false -> current_epoch A (rev (flat_map (as_calls A) cs)) = flat_map (as_calls A) (setup cs).
Proof.
  induction cs as [|c cs IH] using rev_ind; intros P; [reflexivity|]. rewrite k_published_snoc in P. apply orb_false_iff in P. destruct P as [P Pc].
  rewrite calls_snoc, rev_app_distr, k_setup_snoc, P, flat_map_app. destruct c; try discriminate; cbn [as_calls rev app current_epoch flat_map]; rewrite IH by exact P; rewrite ?app_nil_r; reflexivity.
Qed.

Definition k_placed (cs : list kop) : nat := (length (live (flat_map (as_calls A) cs)) + length (read_inserts A cs))%nat.
Definition k_counted (cs : list kop) (k : kdtree) : Prop :=
  k_checked k = published cs /\ k_nagents k = N.of_nat (k_placed (setup cs)) /\
  k_density k = if published cs then (k_nagents k / Z.to_N (cols A w d * cols A h d))%N else 0%N.

Lemma k_count_step p k0 cs k c k' : kwf A w h d k -> k_after A eqo w h d p k0 cs k -> k_in A p w h d c -> k_counted cs k ->
  k_step A eqo p k c = Some k' -> k_counted (cs ++ [c]) k'.
Proof.
  intros W (B & _) Hc (C1 & C2 & C3) E. pose proof W as (W1 & W2 & W3 & W4 & W5 & W6 & W7 & W8).
  assert (IX : forall l, k_index A k l = cell_index (cols A h d) (discretize A d l)) by (intros l; unfold k_index; rewrite W3, W4; reflexivity).
  unfold k_counted. rewrite k_setup_snoc, k_published_snoc.
  destruct c as [o l|o l|o l| |s o]; cbn [k_step k_in] in *.
  - unfold k_insert in E. rewrite IX in E. destruct (push (k_write k) _ o); [|discriminate].
    assert (HH : k_checked k' = k_checked k /\ k_nagents k' = bump A k /\ k_density k' = k_density k).
    { destruct (region_of A k l); [destruct (push (k_neighbors k) _ o); [|discriminate]|]; injection E as <-; auto. }
    destruct HH as (-> & -> & ->). unfold bump. rewrite orb_false_r, C1, C3. destruct (published cs) eqn:P; [rewrite C2; auto|].
    split; [reflexivity|]. split; [|reflexivity]. unfold k_placed in *. rewrite flat_map_app, read_app. cbn [flat_map as_calls read_inserts]. rewrite !app_nil_r.
    rewrite (live_nil_set A eqo d), C2. lia.
  - unfold k_insert_read in E. rewrite IX in E. destruct (push (k_read k) _ o); [|discriminate]. injection E as <-.
    cbn [k_checked k_nagents k_density with_bags]. unfold bump. rewrite orb_false_r, C1, C3. destruct (published cs) eqn:P; [rewrite C2; auto|].
    split; [reflexivity|]. split; [|reflexivity]. unfold k_placed in *. rewrite flat_map_app, read_app. cbn [flat_map as_calls read_inserts]. rewrite !app_nil_r, app_length.
    cbn [length]. rewrite C2. lia.
  - unfold k_remove in E. rewrite IX in E. destruct (B _ Hc) as [_ Sw]. rewrite Sw in E. clear Sw B. rewrite orb_false_r.
    destruct (published cs) eqn:P.
    + assert (HH : k_checked k' = k_checked k /\ k_nagents k' = k_nagents k /\ k_density k' = k_density k).
      { destruct (at_cell _ _ _ _); [injection E as <-; auto|]. rewrite C1 in E. cbn [negb andb] in E. destruct (vset _ _ _); [|discriminate]. injection E as <-. cbn. auto. }
      destruct HH as (-> & -> & ->). auto.
    + unfold k_pending, pending in E. rewrite k_setup_epoch in E by exact P.
      pose proof (gone_count A eqo d o l (live (flat_map (as_calls A) (setup cs)))) as [G1 G2]. cbv zeta in G1, G2. rewrite C1 in E. cbn [negb andb] in E.
      unfold k_placed in *. rewrite flat_map_app, read_app. cbn [flat_map as_calls read_inserts]. rewrite !app_nil_r. rewrite live_snoc. cbn [FieldSpec.live]. rewrite app_nil_r.
      destruct (at_cell A d (discretize A d l) (live (flat_map (as_calls A) (setup cs)))) as [|x b] eqn:Eb.
      * injection E as <-. rewrite C1, C3. split; [reflexivity|]. split; [|reflexivity]. rewrite C2. cbn in G1. cbn. lia.
      * destruct (_ <? _)%N eqn:EN; [discriminate|]. destruct (vset _ _ _); [|discriminate].
        cbn [option_map] in E. match type of E with Some ?X = Some ?Y => assert (EE : X = Y) by congruence end. clear E. rewrite <- EE. cbn [k_checked k_nagents k_density with_bags].
        rewrite C1, C3. split; [reflexivity|]. split; [|reflexivity]. rewrite C2. lia.
  - unfold k_lazy_update in E. cbv zeta in E. rewrite orb_true_r. rewrite C1 in E. destruct (published cs) eqn:P.
    + injection E as <-. cbn [k_checked k_nagents k_density]. auto.
    + destruct GS as (G1 & G2 & G3 & G4). rewrite W4, W5, wrap32_id in E by (unfold in_i32; nia). unfold as_index in E. destruct (Z.ltb_spec (cols A w d * cols A h d) 0); [nia|].
      destruct (Z.to_nat (cols A w d * cols A h d)) as [|n] eqn:En; [nia|]. injection E as <-. cbn [k_checked k_nagents k_density].
      rewrite app_nil_r. split; [reflexivity|]. split; [exact C2|]. f_equal. lia.
  - unfold k_address in E. destruct (push _ _ o); [|discriminate]. injection E as <-. cbn [k_checked k_nagents k_density].
    rewrite orb_false_r, C1, C3. split; [reflexivity|]. split; [|reflexivity]. rewrite C2. destruct (published cs); [reflexivity|].
    unfold k_placed. rewrite flat_map_app, read_app. cbn [flat_map as_calls read_inserts]. rewrite !app_nil_r. reflexivity.
Qed.
End Tree.
