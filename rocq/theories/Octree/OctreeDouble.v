(** The precision of exact arithmetic and of doubles. *)
From Coq Require Import Reals Lra.
From Flocq Require Import Core.
From Verif.Base Require Import ZRange.
From Verif.Functor Require Import SortModel SortSpec.
From Verif.Grid Require Import CellBlockSpec.
From Verif.Octree Require Import DirectionModel OctreeModel OctreeSpec.
Local Open Scope R_scope.

Lemma exact_accurate M : accurate rndExact M 0.
Proof. intros x _. unfold rndExact. rewrite Rminus_eq_0, Rabs_R0. lra. Qed.

(** Numbers up to 2^(e+1) have an error of at most 2^(e-52). *)
Lemma double_accurate e : (-1021 <= e)%Z -> accurate rndDouble (bpow radix2 e) (bpow radix2 (e - 52)).
Proof.
  intros He x Hx. unfold rndDouble.
  eapply Rle_trans; [apply error_le_half_ulp; apply FLT_exp_valid; reflexivity|].
  apply Rle_trans with (/ 2 * ulp radix2 doubleExp (bpow radix2 (e + 1))).
  - apply Rmult_le_compat_l; [lra|]. apply ulp_le; [apply FLT_exp_valid; reflexivity|apply FLT_exp_monotone|].
    rewrite (Rabs_pos_eq (bpow _ _)) by apply bpow_ge_0. rewrite bpow_plus. change (bpow radix2 1) with 2. lra.
  - rewrite ulp_bpow. unfold doubleExp, FLT_exp. rewrite Z.max_l by lia.
    replace (e + 1 + 1 - 53)%Z with (e - 52 + 1)%Z by lia. rewrite bpow_plus. change (bpow radix2 1) with 2. lra.
Qed.

Lemma exact_precise il lo hi : 0 < il -> below lo hi -> exists M, precise rndExact M 0 il lo hi.
Proof.
  intros Hil B. destruct lo as [a b c], hi as [a' b' c'].
  exists (Rmax (Rmax (Rmax (Rabs a) (Rabs a')) (Rmax (Rabs b) (Rabs b'))) (Rmax (Rabs c) (Rabs c'))).
  set (M := Rmax _ _).
  assert (H : Rabs a <= M /\ Rabs a' <= M /\ Rabs b <= M /\ Rabs b' <= M /\ Rabs c <= M /\ Rabs c' <= M).
  { unfold M. unfold Rmax. repeat destruct (Rle_dec _ _); lra. }
  clearbody M. pose proof (Rabs_pos a). repeat split; try apply exact_accurate; try lra; try (apply B); cbn;
  unfold Rabs in H; repeat destruct (Rcase_abs _) in H; lra.
Qed.

(** Doubles: coordinates up to 2^e and an interaction length of at least 2^(e-49). *)
Lemma double_precise e il lo hi : (-969 <= e)%Z -> bpow radix2 (e - 49) <= il -> boxUpTo (bpow radix2 e) lo hi -> below lo hi ->
  precise rndDouble (bpow radix2 e) (bpow radix2 (e - 52)) il lo hi.
Proof.
  intros He Hil B1 B2. assert (E : bpow radix2 (e - 49) = 8 * bpow radix2 (e - 52)).
  { replace (e - 49)%Z with (e - 52 + 3)%Z by lia. rewrite bpow_plus. change (bpow radix2 3) with 8. lra. }
  pose proof (bpow_gt_0 radix2 (e - 52)) as Pe.
  split; [apply double_accurate; lia|]. split; [split; [lra|apply bpow_le; lia]|]. split; [lra|]. split; [lra|]. split; assumption.
Qed.
