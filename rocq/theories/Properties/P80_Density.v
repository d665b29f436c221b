(** * C80 - the densities of smoothed particle hydrodynamics

    Model: SPH/SPHModel.v (SPHKernels.h, SPHCalcDensityFunctor.h).  Specification: SPH/SPHSpec.v. *)

From Coq Require Import Reals List Bool Lra.
From Coquelicot Require Import Coquelicot.
From Verif.Functor Require Import SortModel.
From Verif.Container Require Import IteratorModel ParticleModel.
From Verif.MD Require Import LJModel LJSpec.
From Verif.SPH Require Import SPHModel SPHSpec SPHLayout SPHKernel SPHPhysics.
Import ListNotations.
Open Scope R_scope.

(** The kernel is the cubic spline; it is never negative and zero from the support on. *)
Theorem C80_kernel : forall dr h, 0 < h ->
  kernelWVec dr h = cubicSpline (support h) (l2Norm dr) /\ 0 <= kernelWVec dr h /\
  (support h <= l2Norm dr -> kernelWVec dr h = 0).
Proof.
  intros dr h Hh. rewrite kernel_spline by exact Hh. assert (0 < support h) by (unfold support; lra).
  split; [reflexivity|]. split; [apply spline_nonneg; [assumption|apply norm_nonneg]|apply spline_outside; assumption].
Qed.
Print Assumptions C80_kernel.

(** Its integral over space is one: in shells around the particle. *)
Theorem C80_mass : forall H, 0 < H -> is_RInt (fun r => 4 * PI * r ^ 2 * cubicSpline H r) 0 H 1.
Proof. exact spline_mass. Qed.
Print Assumptions C80_mass.

(** The gradient: the slope of the spline in the direction of the distance, up to a number of 4e-7 that is added to the
    distance. *)
Theorem C80_gradient : forall dr h, 0 < h ->
  (forall r, is_derive (cubicSpline (support h)) r (cubicSplineSlope (support h) r)) /\
  kernelGradW dr h = rscale dr (cubicSplineSlope (support h) (l2Norm dr) / (l2Norm dr + 4 / 10000000)).
Proof.
  intros dr h Hh. split; [intros r; apply spline_derive; unfold support; lra|].
  rewrite grad_slope by exact Hh. replace (4 / 10000000) with (1 / 2500000) by field. reflexivity.
Qed.
Print Assumptions C80_gradient.

(** A call for two particles adds the mass of the second, weighted with the kernel of the first, to the density of the
    first; with Newton's third law also the other way round.  Dummies do nothing, other particles keep their density. *)
Theorem C80_density : forall A (same : A -> A -> bool) part mass smth newton3 a b m, 0 < smth a -> 0 < smth b ->
  forall x, densityAoS same part mass smth newton3 a b m x = m x +
    (if isDummy (part a) || isDummy (part b) then 0
     else (if same x a then mass b * cubicSpline (support (smth a)) (distance (ppos (part a)) (ppos (part b))) else 0) +
          (if newton3 && same x b then mass a * cubicSpline (support (smth b)) (distance (ppos (part a)) (ppos (part b))) else 0)).
Proof.
  intros A same part mass smth newton3 a b m Ha Hb x. unfold densityAoS.
  destruct (isDummy (part a) || isDummy (part b)); [ring|]. cbv zeta. rewrite !kernel_spline by assumption.
  rewrite (norm_opp (ppos (part b))), norm_distance.
  destruct newton3; cbn [andb]; unfold incr; destruct (same x a); try (destruct (same x b)); ring.
Qed.
Print Assumptions C80_density.

(** Two calls without Newton's third law do what one call with it does. *)
Theorem C80_newton3 : forall A (same : A -> A -> bool) part mass smth a b m,
  densityAoS same part mass smth false b a (densityAoS same part mass smth false a b m) = densityAoS same part mass smth true a b m.
Proof. intros. apply density_newton3. Qed.
Print Assumptions C80_newton3.

(** The loops over arrays do what the calls for their pairs do: one array (whatever newton3 is), two arrays, one particle
    and its neighbours. *)
Theorem C80_layout : forall A (same : A -> A -> bool) part mass smth,
  let call := densityAoS same part mass smth in
  (forall soa m, densitySingle same part mass smth soa m = forEach (call true) (pairsOf soa) m /\
                 densitySingle same part mass smth soa m = forEach (call false) (bothWays (pairsOf soa)) m) /\
  (forall newton3 soa1 soa2 m, densityPair same part mass smth newton3 soa1 soa2 m = forEach (call newton3) (list_prod soa1 soa2) m) /\
  (forall newton3 a neighbours m, densityVerlet same part mass smth newton3 a neighbours m = forEach (call newton3) (map (pair a) neighbours) m).
Proof.
  intros A same part mass smth call. unfold call. split; [|split].
  - intros soa m.
    assert (E : densitySingle same part mass smth soa m = forEach (densityAoS same part mass smth true) (pairsOf soa) m).
    { apply (single_loop (densityAoS same part mass smth true) (densityRow same part mass smth true) (fun _ => True));
        auto using densityRow_ok. }
    split; [exact E|]. rewrite E. unfold forEach, bothWays. generalize (pairsOf soa) as ps. clear.
    intros ps. revert m. induction ps as [|p ps IH]; intros m; [reflexivity|].
    cbn [flat_map fold_left app fst snd]. rewrite density_newton3. apply IH.
  - intros newton3 l1 l2 m. apply (pair_loop (densityAoS same part mass smth newton3) (densityRow same part mass smth newton3) (fun _ => True));
      auto using densityRow_ok.
  - intros newton3 a l m. rewrite forEach_row. apply densityRow_ok.
Qed.
Print Assumptions C80_layout.

(** Two particles at distance one with different smoothing lengths: only one is in the support of the other. *)
Example C80_example : 0 < xSmth false /\ 0 < xSmth true /\
  densityAoS Bool.eqb xPart (fun _ => 1) xSmth true false true (fun _ => 0) true = 0 /\
  0 < densityAoS Bool.eqb xPart (fun _ => 1) xSmth true false true (fun _ => 0) false.
Proof.
  assert (P : 0 < xSmth false /\ 0 < xSmth true) by (unfold xSmth; lra). destruct P as [P Q]. split; [exact P|]. split; [exact Q|].
  assert (D : distance (ppos (xPart false)) (ppos (xPart true)) = 1) by exact xDistance.
  rewrite !C80_density by assumption. rewrite D. cbn [isDummy xPart pown].
  change (isDummy (xPart false) || isDummy (xPart true)) with false. cbn [Bool.eqb andb].
  unfold xSmth. split.
  - rewrite spline_outside by (unfold support; lra). ring.
  - unfold cubicSpline, support. cbv zeta. replace (1 / (5 / 2 * 1)) with (2 / 5) by field.
    destruct (Rle_dec (2 / 5) (1 / 2)) as [L|L]; [|lra]. pose proof PI_RGT_0.
    match goal with |- 0 < ?e => replace e with (/ PI * (512 / 1000 * (424 / 1000))) by (field; lra) end.
    apply Rmult_lt_0_compat; [apply Rinv_0_lt_compat; lra|lra].
Qed.
