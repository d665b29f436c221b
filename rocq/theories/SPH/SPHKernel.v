(** Proofs about the kernel and the conservation laws of the hydrodynamic force. *)
From Coq Require Import Reals List ZArith Bool Lra Lia Psatz FunctionalExtensionality.
From Coquelicot Require Import Coquelicot.
From Verif.Functor Require Import SortModel.
From Verif.Container Require Import IteratorModel ParticleModel.
From Verif.MD Require Import LJModel LJSpec.
From Verif.Flex Require Import IntegrateProofs.
From Verif.SPH Require Import SPHModel SPHSpec.
Import ListNotations.
Local Open Scope R_scope.

Local Ltac toR := match goal with |- @eq _ ?a ?b => change (@eq R a b) end.

(** The positive part. *)
Definition pp (x : R) : R := Rmax 0 x.
Lemma pp_pos x : 0 <= x -> pp x = x.
Proof. intros. apply Rmax_right. exact H. Qed.
Lemma pp_neg x : x <= 0 -> pp x = 0.
Proof. intros. apply Rmax_left. exact H. Qed.

Lemma spline_pp H r : 0 < H -> cubicSpline H r = 16 / (PI * H ^ 3) * (pp (1 - r / H) ^ 3 - 4 * pp (1 / 2 - r / H) ^ 3).
Proof.
  intros Hp. unfold cubicSpline. pose proof PI_RGT_0 as PIpos. set (q := r / H).
  destruct (Rle_dec q (1 / 2)) as [L|L].
  - rewrite !pp_pos by lra. field. split; lra.
  - destruct (Rle_dec q 1) as [M|M].
    + rewrite (pp_pos (1 - q)), (pp_neg (1 / 2 - q)) by lra. field. split; lra.
    + rewrite !pp_neg by lra. field. split; lra.
Qed.
Lemma slope_pp H r : 0 < H -> cubicSplineSlope H r = 16 / (PI * H ^ 3) * ((- 3 * pp (1 - r / H) ^ 2 + 12 * pp (1 / 2 - r / H) ^ 2) / H).
Proof.
  intros Hp. unfold cubicSplineSlope. pose proof PI_RGT_0 as PIpos. set (q := r / H).
  destruct (Rle_dec q (1 / 2)) as [L|L].
  - rewrite !pp_pos by lra. field. split; lra.
  - destruct (Rle_dec q 1) as [M|M].
    + rewrite (pp_pos (1 - q)), (pp_neg (1 / 2 - q)) by lra. field. split; lra.
    + rewrite !pp_neg by lra. field. split; lra.
Qed.

Lemma norm_nonneg dr : 0 <= l2Norm dr.
Proof. apply sqrt_pos. Qed.
Lemma dot_nonneg dr : 0 <= dot dr dr.
Proof. unfold dot. pose proof (Rle_0_sqr (rx dr)). pose proof (Rle_0_sqr (ry dr)). pose proof (Rle_0_sqr (rz dr)). unfold Rsqr in *. lra. Qed.
Lemma norm_sqr dr : l2Norm dr * l2Norm dr = dot dr dr.
Proof. apply sqrt_sqrt, dot_nonneg. Qed.

Lemma kernel_spline dr h : 0 < h -> kernelWVec dr h = cubicSpline (support h) (l2Norm dr).
Proof.
  intros Hh. assert (Hp : 0 < support h) by (unfold support; lra). rewrite spline_pp by exact Hp.
  unfold kernelWVec, kernelW. change (kernelSupportRadius * h) with (support h). change (sqrt (dot dr dr)) with (l2Norm dr).
  rewrite <- norm_sqr. pose proof (norm_nonneg dr) as Hn. pose proof PI_RGT_0 as PIpos.
  set (H := support h) in *. clearbody H. set (r := l2Norm dr) in *. clearbody r.
  destruct (Rlt_dec (r * r) (H * H)) as [L|L].
  - assert (r < H) by (apply Rnot_le_lt; intros C; apply (Rlt_not_le _ _ L), Rmult_le_compat; lra).
    assert (r / H < 1) by (apply (Rmult_lt_reg_r H); [exact Hp|]; unfold Rdiv; rewrite Rmult_assoc, Rinv_l; lra).
    rewrite (pp_pos (1 - r / H)) by lra. fold (pp (1 / 2 - r / H)). field. split; lra.
  - assert (H <= r) by (apply Rnot_lt_le; intros C; apply L, Rmult_le_0_lt_compat; lra).
    assert (1 <= r / H) by (apply (Rmult_le_reg_r H); [exact Hp|]; unfold Rdiv; rewrite Rmult_assoc, Rinv_l; lra).
    rewrite !pp_neg by lra. field. split; lra.
Qed.

Lemma spline_nonneg H r : 0 < H -> 0 <= r -> 0 <= cubicSpline H r.
Proof.
  intros Hp Hr. unfold cubicSpline. pose proof PI_RGT_0 as PIpos. assert (P3 : 0 < H ^ 3) by (apply pow_lt; exact Hp).
  assert (C : 0 <= 8 / (PI * H ^ 3)) by (apply Rlt_le, Rdiv_lt_0_compat; [lra|apply Rmult_lt_0_compat; lra]).
  assert (0 <= r / H) by (apply Rdiv_le_0_compat; lra). set (q := r / H) in *. clearbody q.
  destruct (Rle_dec q (1 / 2)) as [L|L]; [|destruct (Rle_dec q 1) as [M|M]; [|lra]]; apply Rmult_le_pos; try exact C.
  - assert (0 <= (1 - 2 * q) * (q * q)) by (apply Rmult_le_pos; [lra|apply Rmult_le_pos; lra]).
    assert (0 <= (1 / 2 - q) * (1 / 2 + q)) by (apply Rmult_le_pos; lra). nra.
  - assert (0 <= (1 - q) ^ 3) by (apply pow_le; lra). lra.
Qed.
Lemma spline_outside H r : 0 < H -> H <= r -> cubicSpline H r = 0.
Proof.
  intros Hp L. rewrite spline_pp by exact Hp.
  assert (1 <= r / H) by (apply (Rmult_le_reg_r H); [exact Hp|]; unfold Rdiv; rewrite Rmult_assoc, Rinv_l; lra).
  rewrite !pp_neg by lra. ring.
Qed.

(** ** Slope *)
Lemma pp_cube_derive x : is_derive (fun x => pp x ^ 3) x (3 * pp x ^ 2).
Proof.
  destruct (Rtotal_order x 0) as [L|[->|G]].
  - apply (is_derive_ext_loc (fun _ => 0)).
    + exists (mkposreal (- x) ltac:(lra)). intros y Hy. unfold ball in Hy. cbn in Hy. unfold AbsRing_ball, abs, minus, plus, opp in Hy. cbn in Hy.
      apply Rabs_def2 in Hy. rewrite pp_neg by lra. change (0 = 0 ^ 3). ring.
    + rewrite pp_neg by lra. replace (3 * 0 ^ 2) with 0 by ring. apply (is_derive_const 0 x).
  - rewrite pp_neg by lra. apply is_derive_Reals. intros eps He.
    assert (Hd : 0 < Rmin 1 eps) by (apply Rmin_glb_lt; lra).
    exists (mkposreal _ Hd). intros k Hk Hk'. cbn in Hk'. rewrite Rplus_0_l, (pp_neg 0) by lra.
    assert (B1 : Rabs k < 1) by (eapply Rlt_le_trans; [exact Hk'|apply Rmin_l]).
    assert (B2 : Rabs k < eps) by (eapply Rlt_le_trans; [exact Hk'|apply Rmin_r]).
    destruct (Rle_dec k 0) as [L|L].
    + rewrite pp_neg by lra. replace ((0 ^ 3 - 0 ^ 3) / k - 3 * 0 ^ 2) with 0 by (field; exact Hk). rewrite Rabs_R0. exact He.
    + rewrite pp_pos by lra. replace ((k ^ 3 - 0 ^ 3) / k - 3 * 0 ^ 2) with (k * k) by (field; exact Hk).
      rewrite Rabs_right in B1, B2 by lra. rewrite Rabs_right by (apply Rle_ge, Rmult_le_pos; lra).
      apply Rle_lt_trans with (k * 1); [apply Rmult_le_compat_l; lra|lra].
  - apply (is_derive_ext_loc (fun x => x ^ 3)).
    + exists (mkposreal x G). intros y Hy. unfold ball in Hy. cbn in Hy. unfold AbsRing_ball, abs, minus, plus, opp in Hy. cbn in Hy.
      apply Rabs_def2 in Hy. rewrite pp_pos by lra. reflexivity.
    + rewrite pp_pos by lra. auto_derive; [exact I|ring].
Qed.

Lemma spline_derive H r : 0 < H -> is_derive (cubicSpline H) r (cubicSplineSlope H r).
Proof.
  intros Hp. rewrite slope_pp by exact Hp.
  apply (is_derive_ext (fun r => 16 / (PI * H ^ 3) * (pp (1 - r / H) ^ 3 - 4 * pp (1 / 2 - r / H) ^ 3)));
    [intros t; symmetry; apply spline_pp; exact Hp|].
  assert (D : forall c, is_derive (fun r => pp (c - r / H) ^ 3) r (- / H * (3 * pp (c - r / H) ^ 2))).
  { intros c. apply (is_derive_comp (fun x => pp x ^ 3) (fun r => c - r / H)); [apply pp_cube_derive|].
    auto_derive; [exact I|field; lra]. }
  evar_last.
  - apply (is_derive_scal (fun r => pp (1 - r / H) ^ 3 - 4 * pp (1 / 2 - r / H) ^ 3)).
    apply (is_derive_minus (fun r => pp (1 - r / H) ^ 3) (fun r => 4 * pp (1 / 2 - r / H) ^ 3)); [apply D|].
    apply (is_derive_scal (fun r => pp (1 / 2 - r / H) ^ 3)). apply D.
  - cbn. unfold minus, plus, opp, scal, mult. cbn. field. split; [lra|apply PI_neq0].
Qed.

Lemma grad_slope dr h : 0 < h ->
  kernelGradW dr h = rscale dr (cubicSplineSlope (support h) (l2Norm dr) / (l2Norm dr + 1 / 2500000)).
Proof.
  intros Hh. assert (Hp : 0 < support h) by (unfold support; lra). rewrite slope_pp by exact Hp.
  unfold kernelGradW. change (kernelSupportRadius * h) with (support h). f_equal.
  pose proof (norm_nonneg dr) as Hn. pose proof PI_RGT_0 as PIpos.
  replace (l2Norm dr * support h + 1 / 1000000 * h) with (support h * (l2Norm dr + 1 / 2500000)) by (unfold support; field).
  set (H := support h) in *. clearbody H. set (r := l2Norm dr) in *. clearbody r.
  assert (P : forall x, (if Rlt_dec x 0 then 0 else x) = pp x).
  { intros x. unfold pp, Rmax. destruct (Rlt_dec x 0), (Rle_dec 0 x); lra. }
  rewrite !P. field. repeat split; lra.
Qed.

(** ** The kernel has mass one *)
Lemma spline_mass H : 0 < H -> is_RInt (fun r => 4 * PI * r ^ 2 * cubicSpline H r) 0 H 1.
Proof.
  intros Hp. pose proof PI_RGT_0 as PIpos.
  set (F1 := fun r => 32 * ((r / H) ^ 3 / 3 - 6 * (r / H) ^ 5 / 5 + (r / H) ^ 6)).
  set (F2 := fun r => 64 * ((r / H) ^ 3 / 3 - 3 * (r / H) ^ 4 / 4 + 3 * (r / H) ^ 5 / 5 - (r / H) ^ 6 / 6)).
  assert (Half : 0 < H / 2 < H) by lra.
  replace 1 with (plus (minus (F1 (H / 2)) (F1 0)) (minus (F2 H) (F2 (H / 2)))).
  2:{ unfold F1, F2, plus, minus, opp. cbn. field. lra. }
  apply (@is_RInt_Chasles R_NormedModule (fun r => 4 * PI * r ^ 2 * cubicSpline H r) 0 (H / 2) H (minus (F1 (H / 2)) (F1 0)) (minus (F2 H) (F2 (H / 2)))).
  - apply (is_RInt_ext (fun r => 32 / H * ((r / H) ^ 2 * (1 - 6 * (r / H) ^ 2 + 6 * (r / H) ^ 3)))).
    + intros r Hr. rewrite Rmin_left, Rmax_right in Hr by lra. unfold cubicSpline.
      destruct (Rle_dec (r / H) (1 / 2)) as [L|L].
      * toR. field. split; lra.
      * exfalso. apply L. apply (Rmult_le_reg_r H); [exact Hp|]. unfold Rdiv at 1. rewrite Rmult_assoc, Rinv_l; lra.
    + apply (is_RInt_derive F1).
      * intros r _. unfold F1. auto_derive; [exact I|toR; field; lra].
      * intros r _. apply (ex_derive_continuous (fun r => 32 / H * ((r / H) ^ 2 * (1 - 6 * (r / H) ^ 2 + 6 * (r / H) ^ 3)))). auto_derive. exact I.
  - apply (is_RInt_ext (fun r => 64 / H * ((r / H) ^ 2 * (1 - r / H) ^ 3))).
    + intros r Hr. rewrite Rmin_left, Rmax_right in Hr by lra. unfold cubicSpline.
      destruct (Rle_dec (r / H) (1 / 2)) as [L|L].
      * exfalso. apply (Rmult_le_compat_r H) in L; [|lra]. unfold Rdiv at 1 in L. rewrite Rmult_assoc, Rinv_l in L; lra.
      * destruct (Rle_dec (r / H) 1) as [M|M]; [toR; field; split; lra|].
        exfalso. apply M. apply (Rmult_le_reg_r H); [exact Hp|]. unfold Rdiv. rewrite Rmult_assoc, Rinv_l; lra.
    + apply (is_RInt_derive F2).
      * intros r _. unfold F2. auto_derive; [exact I|toR; field; lra].
      * intros r _. apply (ex_derive_continuous (fun r => 64 / H * ((r / H) ^ 2 * (1 - r / H) ^ 3))). auto_derive. exact I.
Qed.
