(** * C73 - molecules with several sites stay rigid and turn with their angular velocity

    Model: Flex/QuatModel.v (Quaternion.cpp, rotational part of TimeDiscretization.cpp).
    Specification: Flex/QuatSpec.v. *)

From Coq Require Import Reals List.
From Verif.Functor Require Import SortModel.
From Verif.MD Require Import LJModel.
From Verif.Flex Require Import QuatModel QuatSpec QuatProofs QuatExample.
Import ListNotations.
Open Scope R_scope.

(** A unit quaternion rotates: it keeps scalar products and vector products, so lengths, angles and
    orientation. *)
Theorem C73_rotation : forall q a b, unit q ->
  dot (rotatePosition q a) (rotatePosition q b) = dot a b /\
  rotatePosition q (vectorProduct a b) = vectorProduct (rotatePosition q a) (rotatePosition q b).
Proof.
  intros q a b U. change vectorProduct with cross. rewrite rotate_dot, rotate_cross, U. split; [ring|].
  destruct (rotatePosition q (cross a b)). unfold rscale; cbn. f_equal; ring.
Qed.
Print Assumptions C73_rotation.

(** It is the rotation that the quaternion stands for: q (0, v) q*. *)
Theorem C73_quaternion : forall q v,
  convertQuaternionTo3DVec (qMul (qMulVec q v) (qConjugate q)) = Some (rotatePosition q v).
Proof. exact rotate_converts. Qed.
Print Assumptions C73_quaternion.

(** Rotating backwards undoes it. *)
Theorem C73_inverse : forall q v, unit q ->
  rotatePositionBackwards q (rotatePosition q v) = v /\ rotatePosition q (rotatePositionBackwards q v) = v.
Proof.
  intros q v U. rewrite rotate_back, rotate_forth, U. destruct v. unfold rscale; cbn. split; f_equal; ring.
Qed.
Print Assumptions C73_inverse.

(** Multiplication composes rotations and keeps quaternions of length one. *)
Theorem C73_compose : forall p q v,
  rotatePosition (qMul p q) v = rotatePosition p (rotatePosition q v) /\ (unit p -> unit q -> unit (qMul p q)).
Proof.
  intros p q v. split; [apply rotate_compose|]. intros P Q. unfold unit in *. rewrite norm2_mul, P, Q. ring.
Qed.
Print Assumptions C73_compose.

(** The mirrored quaternion turns the mirror image of a molecule like the image of the turned molecule. *)
Theorem C73_mirror : forall q d, (d < 3)%nat -> exists q', qMirror q d = Some q' /\
  forall v, rotatePosition q' (mirrored d v) = mirrored d (rotatePosition q v).
Proof.
  intros q d H.
  assert (E : exists q', qMirror q d = Some q').
  { destruct d as [|[|[|d]]]; [eexists; reflexivity ..|]. exfalso. apply (Nat.nlt_0_r d).
    do 3 apply Nat.succ_lt_mono. exact H. }
  destruct E as (q' & E). exists q'. split; [exact E|]. intros v. apply rotate_mirror, E.
Qed.
Print Assumptions C73_mirror.

(** One time step: half of the acceleration of the old torque, the implicit midpoint rule for the
    orientation, and half of the acceleration of the new torque. *)
Theorem C73_step : forall dt tol fuel g t m m', 0 < tol -> rotorStep dt tol fuel g t m = Some m' ->
  exists w, w = radd (rAngVel m) (rscale (angularAcceleration (rInertia m) (rQuat m) (rTorque m)) (dt / 2)) /\
  midpoint dt tol w (rQuat m) (rQuat m') /\ unit (rQuat m') /\
  rTorque m' = radd (torqueOnSites (rQuat m') (rSites m) g) t /\
  rAngVel m' = radd w (rscale (angularAcceleration (rInertia m) (rQuat m') (rTorque m')) (dt / 2)) /\
  rInertia m' = rInertia m /\ rSites m' = rSites m.
Proof. exact step_sum. Qed.
Print Assumptions C73_step.

(** The fixed-point iteration ends if a molecule turns by less than two radians per time step. *)
Theorem C73_ends : forall dt tol g t m k, 0 < tol -> unit (rQuat m) -> 0 <= k < / 2 ->
  let w := radd (rAngVel m) (rscale (angularAcceleration (rInertia m) (rQuat m) (rTorque m)) (dt / 2)) in
  dt * dt * dot w w <= 16 * (k * k) ->
  exists fuel0, forall fuel, (fuel0 <= fuel)%nat -> exists m', rotorStep dt tol fuel g t m = Some m'.
Proof. exact rotorStep_ends. Qed.
Print Assumptions C73_ends.

(** After any number of steps with any torques the molecule is rigid: the distances of its sites from each
    other and from the centre of mass are the initial ones. *)
Theorem C73_rigid : forall dt tol fuel g ts m m' i j a b a' b', 0 < tol -> unit (rQuat m) ->
  rotorRun dt tol fuel g ts m = Some m' ->
  nth_error (sitePositions m) i = Some a -> nth_error (sitePositions m) j = Some b ->
  nth_error (sitePositions m') i = Some a' -> nth_error (sitePositions m') j = Some b' ->
  dot (rsub a' b') (rsub a' b') = dot (rsub a b) (rsub a b) /\ dot a' a' = dot a a.
Proof. exact run_distances. Qed.
Print Assumptions C73_rigid.

(** A molecule with three sites, turned, with torque and under a global force, makes a step. *)
Example C73_example : unit (rQuat water) /\
  exists fuel m', rotorStep (1 / 10) tol13 fuel (mkR3 0 0 (-1)) (mkR3 1 1 1) water = Some m'.
Proof. exact water_step. Qed.
