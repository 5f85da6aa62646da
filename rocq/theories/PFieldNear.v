(** * Property theorem: the exact answer of neighbour queries in the parallel build (C89) *)
From Coq Require Import List Bool ZArith NArith Arith Permutation Reals Lia Lra.
From Flocq Require Import Core.
From Verif Require Import F32 Grid DashModel DashSpec DashView ObjModel FieldModel FieldSpec FieldProofs FieldReal FieldProps FieldNearSpec FieldNear FieldNearProps.
From Verif Require Import PFieldModel PFieldSpec PFieldProofs PFieldConc PFieldProps.
Import ListNotations.
Local Open Scope R_scope.

(** Exact numbers: after any history without [update], toroidal or not, the two neighbour
    queries panic if the room they reserve is not possible; otherwise they return nothing for
    distances that are not positive, and else exactly the published placements in the cells
    they look at, as often as they look at them; the narrower query only those it selects. *)
Theorem C89_answer_partial :
  forall (O : Type) (eqo : O -> O -> bool) hash_o hash_l location osize cpus w h d t cs f rs (l : R * R) (dist : R),
    lawful eqo hash_o -> cpus_ok cpus -> usable_R w h d -> Forall (no_update RA) cs ->
    Forall (f_inside RA w h) (filter_map (as_fop RA) cs) ->
    pf_run RA eqo hash_o hash_l location osize (shards cpus) (pf_new RA cpus w h d t) cs = Some (f, rs) ->
    (room_ok RA osize w h dist (pf_num RA f) = false ->
     pf_neighbors RA hash_l location osize f l dist = None /\ pf_relax RA hash_l osize f l dist = None) /\
    (room_ok RA osize w h dist (pf_num RA f) = true ->
     (dist <= 0 -> pf_neighbors RA hash_l location osize f l dist = Some [] /\ pf_relax RA hash_l osize f l dist = Some []) /\
     (Rabs (fst l) <= 2 ^ 29 * d -> Rabs (snd l) <= 2 ^ 29 * d -> 0 < dist <= 2 ^ 29 * d ->
      exists r r' keep, pf_neighbors RA hash_l location osize f l dist = Some r /\ pf_relax RA hash_l osize f l dist = Some r' /\
        (forall o p, In (o, p) (published RA (rev cs)) -> keep (o, p) = true <-> selected t w h d l dist (location o) p) /\
        Permutation r (as_often (fun q => if keep q then visits t w h d l dist (snd q) else 0%nat) (published RA (rev cs))) /\
        Permutation r' (as_often (fun q => visits t w h d l dist (snd q)) (published RA (rev cs))))).
Proof.
  intros O eqo hash_o hash_l location osize cpus w h d t cs f rs l dist L C U NU I E.
  pose proof U as (Pw & Ph & Pd & Ps).
  destruct (C89_same_as_sequential RA O eqo hash_o hash_l location osize cpus w h d t cs f rs L C (good_size_R w h d Pw Ph Pd Ps) NU
    (calls_in_R w h d _ U I) E) as (g & rs' & Eg & Q). destruct (Q l dist) as [Q1 Q2].
  split; intros Rm; rewrite Rm in Q1, Q2; [split; assumption|]. rewrite Q1, Q2.
  pose proof (C30_answer_partial O eqo location w h d t _ g rs' l dist U I Eg) as H.
  destruct (epochs RA eqo d cs NU) as [_ Ep]. unfold readable in H. rewrite Ep in H. exact H.
Qed.
Print Assumptions C89_answer_partial.

(** Non-vacuity: one object, published; the query at its place reserves room for 24-byte
    objects and looks at its cell once. *)
Example C89_answer_concrete :
  let cs := [QSet (A := RA) 1%nat (1, 1); QLazyUpdate] in
  usable_R 3 3 1 /\ Forall (no_update RA) cs /\ Forall (f_inside RA 3 3) (filter_map (as_fop RA) cs) /\
  published RA (rev cs) = [(1%nat, (1, 1))] /\ visits false 3 3 1 (1, 1) 1 (1, 1) = 1%nat /\
  room_ok RA 24 3 3 1 1 = true.
Proof.
  intros cs. split; [exact (proj1 C30_answer_concrete)|]. split; [repeat constructor|]. split; [|split; [reflexivity|split]].
  - cbn. constructor; [|repeat constructor]. repeat split; cbn; apply Rle_bool_true; lra.
  - unfold visits, column. cbn [fst snd]. rewrite !Zceil_int, !Zfloor_int. reflexivity.
  - unfold room_ok. cbn [as_usize mul RA N.of_nat Pos.of_succ_nat]. replace (3 * 3) with (IZR 9) by (cbn; lra). replace (1 * 1) with (IZR 1) by (cbn; lra).
    rewrite !Ztrunc_IZR. reflexivity.
Qed.
