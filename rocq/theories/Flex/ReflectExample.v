(** Concrete boxes for C75 and C76. *)
From Coq Require Import Reals List Bool Lra Lia.
From Verif.Functor Require Import SortModel.
From Verif.MD Require Import LJModel.
From Verif.Flex Require Import IntegrateProofs QuatModel ReflectModel ReflectSpec ReflectProofs ReflectMulti.
Import ListNotations.
Local Open Scope R_scope.

Lemma root_bounds : 1 < Rpower 2 (1 / 6) < 2.
Proof.
  split.
  - pose proof (Rpower_lt 2 0 (1 / 6)) as H. rewrite Rpower_O in H by lra. apply H; lra.
  - pose proof (Rpower_lt 2 (1 / 6) 1) as H. rewrite Rpower_1 in H by lra. apply H; lra.
Qed.

Definition qId : quat := mkQ 1 0 0 0.
Definition exLib : library := mkLib [2; 1; 1] [1; 1; 4]
  [ [(mkR3 0 0 0, 1%nat); (mkR3 0 1 0, 1%nat)]; [(mkR3 0 0 0, 1%nat); (mkR3 0 1 0, 2%nat)] ].
Definition box0 : R3 := mkR3 0 0 0.
Definition box10 : R3 := mkR3 10 10 10.
Definition exBnd (d : dim) : boundaryType := match d with DX => reflective | DY => periodic | DZ => noBoundary end.

Lemma ex_max : fold_left Rmax (sigmas exLib) 0 = 2.
Proof. cbn. rewrite (Rmax_right 0 2), (Rmax_left 2 1) by lra. rewrite (Rmax_left 2 1) by lra. reflexivity. Qed.

Lemma ex_skin : maxReflectiveSkin exLib = Rpower 2 (1 / 6).
Proof. unfold maxReflectiveSkin. rewrite ex_max. unfold sixthRootOfTwo. field. Qed.

Lemma ex_eps i : 0 <= nth i (epsilons exLib) 0.
Proof. destruct i as [|[|[|[|i]]]]; cbn; lra. Qed.

(** Two ranks in x: the box is cut at 5. *)
Definition local0 : R3 := box0.
Definition local5 : R3 := mkR3 5 10 10.

Lemma ex_rank d : rankInterval (maxReflectiveSkin exLib) (co d box0) (co d box10) (co d local0) (co d local5).
Proof.
  rewrite ex_skin. pose proof root_bounds.
  destruct d.
  - exists [0; 5; 10], 0%nat. do 4 (split; [reflexivity|]).
    intros j a b. destruct j as [|[|[|j]]]; cbn; intros E G; try discriminate G; injection E as <-; injection G as <-; lra.
  - exists [0; 10], 0%nat. do 4 (split; [reflexivity|]).
    intros j a b. destruct j as [|[|j]]; cbn; intros E G; try discriminate G; injection E as <-; injection G as <-; lra.
  - exists [0; 10], 0%nat. do 4 (split; [reflexivity|]).
    intros j a b. destruct j as [|[|j]]; cbn; intros E G; try discriminate G; injection E as <-; injection G as <-; lra.
Qed.

(** A molecule near the wall, one far from it, and a halo molecule. *)
Definition near : mol := mkM (mkR3 1 5 5) qId (mkR3 1 2 3) rzero 0 true.
Definition far : mol := mkM (mkR3 3 1 5) qId (mkR3 1 2 3) rzero 0 true.
Definition halo : mol := mkM (mkR3 7 5 5) qId (mkR3 1 2 3) rzero 0 false.

Lemma ex_inside m : In m [near; far; halo] -> pOwned m = true ->
  forall d, co d local0 <= co d (pPos m) < co d local5 /\ co d box0 < co d (pPos m).
Proof.
  intros [<- |[<- |[<- |[]]]] O d; [destruct d; cbn; lra|destruct d; cbn; lra|discriminate O].
Qed.

Lemma wall_2_1 : wallForce 2 1 1 = 12.
Proof.
  unfold wallForce, reach. pose proof root_bounds. destruct (Rlt_dec _ _); [|lra]. field.
Qed.

Lemma ex_near : wallsForce box0 box10 exBnd (getSigma exLib 0) (nth 0 (epsilons exLib) 0) (pPos near) = mkR3 12 0 0.
Proof.
  unfold wallsForce, exBnd; cbn [co pPos near rx ry rz box0 box10 getSigma exLib sigmas epsilons nth].
  replace (1 - 0) with 1 by ring. unfold getSigma; cbn [sigmas exLib nth]. rewrite wall_2_1.
  rewrite (wallForce_far 2 1 (10 - 1)); [f_equal; ring|]. unfold reach. pose proof root_bounds. lra.
Qed.

Lemma ex_far : wallsForce box0 box10 exBnd (getSigma exLib 0) (nth 0 (epsilons exLib) 0) (pPos far) = mkR3 0 0 0.
Proof.
  unfold wallsForce, exBnd; cbn [co pPos far rx ry rz box0 box10 getSigma exLib sigmas epsilons nth].
  unfold getSigma; cbn [sigmas exLib nth]. pose proof root_bounds.
  rewrite (wallForce_far 2 1 (3 - 0)) by (unfold reach; lra). rewrite (wallForce_far 2 1 (10 - 3)) by (unfold reach; lra).
  f_equal; ring.
Qed.

Lemma ex_run : map pForce (reflectParticlesAtBoundaries exLib reflectSingle box0 box10 local0 local5 exBnd [near; far; halo])
  = [mkR3 13 2 3; mkR3 1 2 3; mkR3 1 2 3].
Proof.
  rewrite (reflect_single exLib box0 box10 local0 local5 exBnd [near; far; halo] ex_eps ex_rank ex_inside).
  cbn [map pOwned near far halo]. fold near far. cbn [pType near far]. fold near far. cbn [pForce setFT]. rewrite ex_near, ex_far.
  unfold radd; cbn. repeat f_equal; ring.
Qed.

(** A rank narrower than the reach of a wall: a molecule near the wall, but in the second rank. *)
Definition thinCut : R3 := mkR3 (/ 2) 0 0.

Lemma thin_run : reflectParticlesAtBoundaries exLib reflectSingle box0 box10 thinCut box10 exBnd [near] = [near].
Proof.
  unfold reflectParticlesAtBoundaries, reflectDim. cbn [fold_left exBnd co box0 box10 thinCut rx ry rz].
  assert (N : isNearRel (/ 2) 0 = false).
  { unfold isNearRel. destruct (Rle_dec _ _) as [H|_]; [|reflexivity]. exfalso.
    rewrite Rabs_R0 in H. replace (/ 2 - 0) with (/ 2) in H by ring.
    rewrite (Rabs_right (/ 2)) in H by lra. rewrite Rmax_left in H by lra. lra. }
  rewrite N, nearRel_refl. unfold reflect. cbn [map].
  assert (B : inBox (pPos near) (setCo DX box0 (10 - maxReflectiveSkin exLib)) box10 = false).
  { destruct (inBox _ _ _) eqn:E; [|reflexivity]. exfalso. apply inBox_true in E. specialize (E DX).
    cbn in E. rewrite ex_skin in E. pose proof root_bounds. lra. }
  unfold box0 in B. cbn [setCo ry rz] in B. cbn [setCo box0 ry rz]. rewrite B. reflexivity.
Qed.

(** ** Two sites: the second molecule type mixes site types *)
Definition rod (t : nat) : mol := mkM (mkR3 (/ 2) 5 5) qId rzero rzero t true.

Lemma ex_alike : alike exLib 0.
Proof. intros s s' [<- |[<- |[]]] [<- |[<- |[]]]; split; reflexivity. Qed.

Lemma rot_id v : rotatePosition qId v = v.
Proof. destruct v as [a b c]. unfold rotatePosition, qId; cbn. f_equal; field. Qed.

Lemma sqrt_14 : sqrt (1 * 4) = 2.
Proof. replace (1 * 4) with (2 * 2) by ring. apply sqrt_square. lra. Qed.
Lemma sqrt_41 : sqrt (4 * 1) = 2.
Proof. replace (4 * 1) with (2 * 2) by ring. apply sqrt_square. lra. Qed.

Lemma largest_rod t : (t < 2)%nat -> largestSigma (turnedSites exLib (rod t)) = 1.
Proof.
  intros H. destruct t as [|[|t]]; [| |lia]; unfold largestSigma; cbn;
    rewrite (Rmax_left 1 0) by lra; rewrite Rmax_left by lra; reflexivity.
Qed.

Lemma rod_image t e : (t < 2)%nat -> e = nth (S t) (epsilons exLib) 0 ->
  co DX (imageForce DX 0 (pPos (rod t)) (turnedSites exLib (rod t))) = 24 * (1 + e) - 24 * (2 * sqrt (1 * e)) * 3 / 64.
Proof.
  intros H ->. destruct t as [|[|t]]; [| |lia].
  - unfold imageForce, imageForces, turnedSites, sumR3, ljForce, image.
    cbn [rod pQuat pType pPos exLib molSites nth map flat_map app fst snd fold_right sigmas epsilons].
    rewrite !rot_id. cbn [co radd setCo rsub rscale dot rx ry rz rzero]. unfold dot, rsub, radd; cbn [rx ry rz].
    rewrite (sqrt_square 1) by lra. field.
  - unfold imageForce, imageForces, turnedSites, sumR3, ljForce, image.
    cbn [rod pQuat pType pPos exLib molSites nth map flat_map app fst snd fold_right sigmas epsilons].
    rewrite !rot_id. cbn [co radd setCo rsub rscale dot rx ry rz rzero]. unfold dot, rsub, radd; cbn [rx ry rz].
    rewrite (sqrt_square 1), (sqrt_square 4), sqrt_14, sqrt_41 by lra. field.
Qed.

Lemma rod_code : co DX (codeSum exLib DX 0 (rod 1)) = 24 * 5 - 24 * 5 * 3 / 64.
Proof.
  unfold codeSum, codeForce, codeSites, getSites, sumR3, LJKernel, mirrorPosition, getMixingSigmaSquared, getMixing24Epsilon, getSigma.
  cbn [rod pQuat pType pPos exLib molSites nth map flat_map app fst snd fold_right sigmas epsilons].
  rewrite !rot_id. cbn [co radd setCo rsub rscale dot rx ry rz rzero]. unfold dot, rsub, radd; cbn [rx ry rz].
  rewrite (sqrt_square 1), (sqrt_square 4) by lra. field.
Qed.

Lemma rod_near t : (t < 2)%nat -> Rabs (co DX (pPos (rod t)) - 0) < reach (largestSigma (turnedSites exLib (rod t))).
Proof.
  intros H. rewrite largest_rod by exact H. cbn. rewrite Rabs_right by lra. unfold reach. pose proof root_bounds. lra.
Qed.

Lemma rod_bounce t : (t < 2)%nat ->
  co DX (pForce (bounce exLib DX false 0 (rod t))) = 24 * (1 + nth (S t) (epsilons exLib) 0) - 24 * (2 * sqrt (1 * nth (S t) (epsilons exLib) 0)) * 3 / 64.
Proof.
  intros H. unfold bounce. destruct (Rlt_dec _ _) as [_|N]; [|destruct (N (rod_near t H))].
  rewrite (rod_image t _ H eq_refl).
  destruct (Rlt_dec _ 0) as [L|_].
  - exfalso. destruct t as [|[|t]]; [| |lia]; cbn [nth epsilons exLib] in L.
    + rewrite (sqrt_square 1) in L by lra. lra.
    + rewrite sqrt_14 in L. lra.
  - cbn [setFT pForce]. rewrite co_radd, (rod_image t _ H eq_refl). cbn. ring.
Qed.

Lemma rod_mixed : co DX (pForce (reflectMulti exLib DX false 0 (rod 1))) = 24 * 5 - 24 * 5 * 3 / 64.
Proof.
  rewrite multi_sum. destruct (Rlt_dec _ _) as [_|N].
  - rewrite rod_code. destruct (Rlt_dec _ 0) as [L|_]; [lra|]. cbn [setFT pForce]. rewrite co_radd, rod_code. cbn. ring.
  - exfalso. apply N. rewrite largest_spec. pose proof (rod_near 1 (ltac:(lia))) as H. unfold reach in H.
    unfold sixthRootOfTwo. lra.
Qed.
