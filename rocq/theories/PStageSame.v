(** * Both builds move the same population, if agents do not look at the order in bags *)
From Coq Require Import List Bool ZArith NArith Arith Lia Permutation.
From Verif Require Import F32 SchedModel ParModel ParProofs SimModel Grid DashSpec ObjModel OrderSpec OrderProofs FlockSpec
  StageModel StageSpec StageProofs PStageModel PStageSpec PStageProofs.
Import ListNotations.
Local Open Scope nat_scope.

Section Same.
Context {O G G' : Type}.
Variables (u : user O (G * bool)) (g0 : G) (publish : G -> G) (shows : G -> list O -> Prop) (next : G -> O -> O).
Variables (u' : user O (G' * bool)) (threads : nat) (g0' : G') (publish' : G' -> option G') (shows' : G' -> list O -> Prop) (next' : G' -> O -> O).
Variable stops : O -> bool.
Variable agents : list O.
Hypothesis Seq : in_step u g0 publish shows next stops agents.
Hypothesis Par : par_in_step u' threads g0' publish' shows' next' stops agents.
Variable good : O -> Prop.
Hypothesis Home : Forall good agents.
Hypothesis Stays : forall g o, good o -> good (next g o).
Hypothesis Agree : forall g p g' p' o, shows g p -> shows' g' p' -> Permutation p p' -> good o -> next g o = next' g' o.

Lemma Permutation_filter {X} (f : X -> bool) l l' : Permutation l l' -> Permutation (filter f l) (filter f l').
Proof.
  induction 1 as [|x l l' _ IH|x y l|l1 l2 l3 _ IH1 _ IH2]; cbn; [constructor| | |etransitivity; eauto].
  - destruct (f x); [constructor|]; exact IH.
  - destruct (f x), (f y); try reflexivity. apply perm_swap.
Qed.

Lemma same_population : forall l chs c', length chs = length l -> (N.of_nat (length l) < 2 ^ 64)%N ->
  par_played u' threads g0' l = Some c' ->
  let c := played u g0 chs in
  exists p p', shows (found publish c) p /\ shows' (par_found publish' c') p' /\
    Permutation p p' /\ Permutation (queued (fst c)) (queued (fst c')) /\ Forall good (queued (fst c)).
Proof.
  intros l. induction l as [|[ch inter] l IH] using rev_ind; intros chs c' Le Bn E c; subst c.
  - destruct chs; [|discriminate]. destruct Seq as [(_ & S1 & S2) _]. destruct Par as [(c1 & E1 & _ & P1 & P2) _].
    rewrite E in E1. injection E1 as <-. exists agents, agents. split; [exact S1|]. split; [exact P1|]. split; [reflexivity|].
    split; [rewrite S2, P2; reflexivity|]. eapply Permutation_Forall; [symmetry; exact S2|exact Home].
  - destruct chs as [|ch0 chs] using rev_ind; [rewrite app_length in Le; cbn in Le; lia|]. clear IHchs.
    rewrite !app_length in *. cbn [length] in *. change (2 ^ 64)%N with 18446744073709551616%N in *.
    pose proof E as E0. unfold par_played in E0. rewrite par_steps_snoc in E0. fold (par_played u' threads g0' l) in E0.
    destruct (par_played u' threads g0' l) as [c1|] eqn:E1; [|discriminate]. clear E0.
    destruct (IH chs c1 ltac:(lia) ltac:(lia) eq_refl) as (p & p' & S1 & S2 & S3 & S4 & S5).
    destruct Par as [_ Par']. destruct (Par' l c1 ltac:(change (2 ^ 64)%N with 18446744073709551616%N; lia) E1) as [_ Pc].
    destruct (Pc ch inter) as (_ & _ & Pd). destruct (Pd c' E) as (new' & N1 & _ & N2 & N3).
    destruct Seq as [_ Seq']. destruct (Seq' chs ch0 ltac:(change (2 ^ 64)%N with 18446744073709551616%N; lia)) as (new & M1 & _ & M2 & M3).
    assert (X : Permutation new new').
    { rewrite M1, N1. rewrite <- S4. erewrite map_ext_in; [reflexivity|]. intros o Ho. cbv beta.
      eapply Agree; eauto. rewrite Forall_forall in S5. apply S5. exact Ho. }
    exists new, new'. split; [exact M2|]. split; [exact N2|]. split; [exact X|]. split.
    + rewrite M3, N3. apply Permutation_filter. exact X.
    + eapply Permutation_Forall; [symmetry; exact M3|]. rewrite Forall_forall in *. intros o Ho. apply filter_In in Ho. destruct Ho as [Ho _].
      eapply Permutation_in in Ho; [|exact M1]. apply in_map_iff in Ho. destruct Ho as (o1 & <- & Ho). apply Stays, S5. exact Ho.
Qed.
End Same.
