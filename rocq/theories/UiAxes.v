(** * Proofs about the axes of a plot's tab *)
From Coq Require Import Reals Lra Bool.
From Verif Require Import F32 OptModel F64 F64Real F64Ops UiModel.
From Flocq Require Import Core IEEE754.BinarySingleNaN.
#[local] Existing Instance Hprec64.
#[local] Existing Instance Hmax64.

Lemma scale_y_R : (0 <= d2R scale_y <= 1)%R.
Proof.
  assert (L : dleb d0 scale_y = true) by reflexivity. assert (R : dleb scale_y d1 = true) by reflexivity.
  apply dleb_R in L; try reflexivity. apply dleb_R in R; try reflexivity. rewrite d0_R in L. rewrite d1_R in R. split; assumption.
Qed.
Lemma dmul_add_ge y : dok y -> (0 <= d2R y)%R -> dleb y (dadd y (dmul y scale_y)) = true.
Proof.
  intros Y H. pose proof scale_y_R as S. assert (B : (0 <= drnd (d2R y * d2R scale_y) <= d2R y)%R).
  { split.
    - rewrite <- drnd_0 at 1. apply drnd_le. apply Rmult_le_pos; [exact H|apply S].
    - rewrite <- (drnd_d2R y Y) at 2. apply drnd_le. rewrite <- (Rmult_1_r (d2R y)) at 2. apply Rmult_le_compat_l; [exact H|apply S]. }
  destruct (dmul_ok y scale_y Y ltac:(split; reflexivity)) as [M1 M2].
  { eapply d_no_overflow; [exact ok0|exact Y|]. rewrite d0_R. exact B. }
  apply dadd_ge; [exact Y|exact M1|]. rewrite M2. apply B.
Qed.
