(** What rotations and the rotational time integration should do. *)
From Coq Require Import Reals List.
From Verif.Functor Require Import SortModel.
From Verif.MD Require Import LJModel.
From Verif.Flex Require Import QuatModel.
Import ListNotations.
Local Open Scope R_scope.

Definition norm2 (q : quat) : R := qw q * qw q + qx q * qx q + qy q * qy q + qz q * qz q.
Definition unit (q : quat) : Prop := norm2 q = 1.

(** The mirror image at the plane through the origin that is normal to dimension [d]. *)
Definition mirrored (d : nat) (v : R3) : R3 :=
  match d with
  | 0%nat => mkR3 (- rx v) (ry v) (rz v)
  | 1%nat => mkR3 (rx v) (- ry v) (rz v)
  | _ => mkR3 (rx v) (ry v) (- rz v)
  end.

(** [u] is the unit quaternion in the direction of [a]. *)
Definition direction (a u : quat) : Prop := unit u /\ exists c, 0 < c /\ a = qScale u c.

(** The orientation changes with angular velocity [w] (world frame): dq/dt = 1/2 (0, w) q. *)
Definition spin (w : R3) (q : quat) : quat := qScale (qMul (mkQ 0 (rx w) (ry w) (rz w)) q) (/ 2).

(** The implicit midpoint rule with angular velocity [w] over [dt]: the orientation [p] that gives the rate
    agrees, up to [tol], with the orientation reached by half a step of this rate. *)
Definition midpoint (dt tol : R) (w : R3) (q q' : quat) : Prop :=
  exists p p', unit p /\
    direction (qAdd q (qScale (spin w p) (dt / 2))) p' /\
    norm2 (qSub p' p) <= tol * tol /\
    direction (qAdd q (qScale (spin w p) dt)) q'.

(** The rate of the angular velocity that a torque causes, world frame. *)
Definition angularAcceleration (inertia : R3) (q : quat) (torque : R3) : R3 :=
  rotatePosition q (rdiv (rotatePositionBackwards q torque) inertia).

(** The positions of the sites relative to the centre of mass. *)
Definition sitePositions (m : rotor) : list R3 := map (rotatePosition (rQuat m)) (rSites m).

(** The vector product, and the torque of a force [g] that acts on every site. *)
Definition vectorProduct (a b : R3) : R3 :=
  mkR3 (ry a * rz b - rz a * ry b) (rz a * rx b - rx a * rz b) (rx a * ry b - ry a * rx b).
Definition torqueOnSites (q : quat) (sites : list R3) (g : R3) : R3 :=
  fold_right (fun s t => radd (vectorProduct (rotatePosition q s) g) t) rzero sites.

(** The angular momentum, world frame. *)
Definition angularMomentum (m : rotor) : R3 :=
  rotatePosition (rQuat m) (rmul (rInertia m) (rotatePositionBackwards (rQuat m) (rAngVel m))).
