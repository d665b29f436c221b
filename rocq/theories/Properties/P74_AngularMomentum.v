(** * C74 - a molecule on which no torque acts keeps its angular momentum

    Model: Flex/QuatModel.v (rotational part of TimeDiscretization.cpp).  Specification: Flex/QuatSpec.v.
    The statement holds for equal moments of inertia only. *)

From Coq Require Import Reals List Lra.
From Verif.Functor Require Import SortModel.
From Verif.MD Require Import LJModel.
From Verif.Flex Require Import QuatModel QuatSpec QuatProofs QuatExample.
Import ListNotations.
Open Scope R_scope.

(** Without torques the angular momentum of a molecule with equal moments of inertia is conserved. *)
Theorem C74_momentum_partial : forall dt tol fuel n m m' i, 0 < tol -> unit (rQuat m) ->
  rInertia m = mkR3 i i i -> rTorque m = rzero -> rotorRun dt tol fuel rzero (repeat rzero n) m = Some m' ->
  angularMomentum m' = angularMomentum m.
Proof. exact sphere_run. Qed.
Print Assumptions C74_momentum_partial.

(** Of other molecules it is not: the code keeps the angular velocity constant instead. *)
Theorem C74_velocity : forall dt tol fuel n m m', 0 < tol -> rTorque m = rzero ->
  rotorRun dt tol fuel rzero (repeat rzero n) m = Some m' -> rAngVel m' = rAngVel m /\ rTorque m' = rzero.
Proof. exact free_run. Qed.
Print Assumptions C74_velocity.

Theorem C74_momentum_refuted : exists m m' fuel dt, 0 < dt /\ unit (rQuat m) /\ rTorque m = rzero /\
  0 < rx (rInertia m) /\ 0 < ry (rInertia m) /\ 0 < rz (rInertia m) /\
  rotorStep dt tol13 fuel rzero rzero m = Some m' /\ rTorque m' = rzero /\
  angularMomentum m' <> angularMomentum m.
Proof. exact momentum_refuted. Qed.
Print Assumptions C74_momentum_refuted.

(** A molecule with equal moments of inertia makes such a step. *)
Example C74_example : let m := mkRotor (mkQ (3 / 5) 0 (4 / 5) 0) (mkR3 (1 / 2) 1 0) rzero (mkR3 2 2 2) [mkR3 1 0 0] in
  unit (rQuat m) /\ rInertia m = mkR3 2 2 2 /\ rTorque m = rzero /\
  exists fuel m', rotorRun (1 / 10) tol13 fuel rzero (repeat rzero 1) m = Some m'.
Proof.
  intros m. assert (U : unit (rQuat m)) by (unfold unit, norm2; cbn; field).
  split; [exact U|]. split; [reflexivity|]. split; [reflexivity|].
  assert (T : 0 < tol13) by (unfold tol13; lra).
  destruct (rotorStep_ends (1 / 10) tol13 rzero rzero m (/ 4) T U) as (f & Hf); try lra.
  { unfold angularAcceleration, dot; cbn. lra. }
  destruct (Hf f (le_n f)) as (m' & E). exists f, m'. cbn [repeat rotorRun]. rewrite E. reflexivity.
Qed.
