(** Model of src/autopas/utils/Quaternion.cpp and of the rotational part of the time integration of
    md-flexible (examples/md-flexible/src/TimeDiscretization.cpp), exact arithmetic. *)
From Coq Require Import Reals List Bool.
From Verif.Functor Require Import SortModel.
From Verif.MD Require Import LJModel.
Import ListNotations.
Local Open Scope R_scope.

(** std::array<double, 4>: scalar part first. *)
Record quat := mkQ { qw : R; qx : R; qy : R; qz : R }.

(** Quaternion.cpp:47-76 rotatePosition. *)
Definition rotatePosition (q : quat) (pos : R3) : R3 :=
  let ww := qw q * qw q in let wx := qw q * qx q in let wy := qw q * qy q in let wz := qw q * qz q in
  let xx := qx q * qx q in let xy := qx q * qy q in let xz := qx q * qz q in
  let yy := qy q * qy q in let yz := qy q * qz q in let zz := qz q * qz q in
  let r00 := ww + xx - yy - zz in let r01 := 2 * (xy - wz) in let r02 := 2 * (xz + wy) in
  let r10 := 2 * (xy + wz) in let r11 := ww - xx + yy - zz in let r12 := 2 * (yz - wx) in
  let r20 := 2 * (xz - wy) in let r21 := 2 * (yz + wx) in let r22 := ww - xx - yy + zz in
  mkR3 (r00 * rx pos + r01 * ry pos + r02 * rz pos)
       (r10 * rx pos + r11 * ry pos + r12 * rz pos)
       (r20 * rx pos + r21 * ry pos + r22 * rz pos).

(** Quaternion.cpp:13-45 rotateVectorOfPositions: the same matrix for every position. *)
Definition rotateVectorOfPositions (q : quat) (ps : list R3) : list R3 := map (rotatePosition q) ps.

(** Quaternion.cpp:78-80. *)
Definition rotatePositionBackwards (q : quat) (pos : R3) : R3 :=
  rotatePosition (mkQ (qw q) (- qx q) (- qy q) (- qz q)) pos.

(** Quaternion.cpp:82-87. *)
Definition qMul (a b : quat) : quat :=
  mkQ (qw a * qw b - qx a * qx b - qy a * qy b - qz a * qz b)
      (qw a * qx b + qx a * qw b + qy a * qz b - qz a * qy b)
      (qw a * qy b - qx a * qz b + qy a * qw b + qz a * qx b)
      (qw a * qz b + qx a * qy b - qy a * qx b + qz a * qw b).

(** Quaternion.cpp:89-95: multiplication with a vector on the right or on the left. *)
Definition qOfVec (v : R3) : quat := mkQ 0 (rx v) (ry v) (rz v).
Definition qMulVec (q : quat) (v : R3) : quat := qMul q (qOfVec v).
Definition vecMulQ (v : R3) (q : quat) : quat := qMul (qOfVec v) q.

(** Quaternion.cpp:97. *)
Definition qConjugate (q : quat) : quat := mkQ (qw q) (- qx q) (- qy q) (- qz q).

(** Quaternion.cpp:99-105; [None] is the exception. *)
Definition convertQuaternionTo3DVec (q : quat) : option R3 :=
  if Rle_dec (Rabs (qw q)) (/ 10000000000000) then Some (mkR3 (qx q) (qy q) (qz q)) else None.

(** Quaternion.cpp:107-118; [None] is the exception. *)
Definition qMirror (q : quat) (dimensionNormalToMirror : nat) : option quat :=
  match dimensionNormalToMirror with
  | 0%nat => Some (mkQ (qw q) (qx q) (- qy q) (- qz q))
  | 1%nat => Some (mkQ (qw q) (- qx q) (qy q) (- qz q))
  | 2%nat => Some (mkQ (qw q) (- qx q) (- qy q) (qz q))
  | _ => None
  end.

(** ArrayMath.h for arrays of length 4 and 3. *)
Definition qAdd (a b : quat) : quat := mkQ (qw a + qw b) (qx a + qx b) (qy a + qy b) (qz a + qz b).
Definition qSub (a b : quat) : quat := mkQ (qw a - qw b) (qx a - qx b) (qy a - qy b) (qz a - qz b).
Definition qScale (a : quat) (s : R) : quat := mkQ (qw a * s) (qx a * s) (qy a * s) (qz a * s).
Definition qDot (a b : quat) : R := qw a * qw b + qx a * qx b + qy a * qy b + qz a * qz b.
(** ArrayMath.h:303-306 normalize; [None]: division by zero, the result is not a number. *)
Definition qNormalize (a : quat) : option quat :=
  let n := sqrt (qDot a a) in if Req_EM_T n 0 then None else Some (qScale a (1 / n)).
Definition cross (a b : R3) : R3 :=
  mkR3 (ry a * rz b - rz a * ry b) (rz a * rx b - rx a * rz b) (rx a * ry b - ry a * rx b).
Definition rdiv (a b : R3) : R3 := mkR3 (rx a / rx b) (ry a / ry b) (rz a / rz b).

(** What the rotational integration uses of a MultisiteMoleculeLJ: quaternion, angular velocity (world
    frame), torque; moment of inertia and site positions of its type. *)
Record rotor := mkRotor { rQuat : quat; rAngVel : R3; rTorque : R3; rInertia : R3; rSites : list R3 }.

Section Rotate.
  (** deltaT and the tolerance 1e-13 (TimeDiscretization.cpp:79). *)
  Variables (dt tol : R).
  Definition halfDt : R := / 2 * dt.

  (** TimeDiscretization.cpp:104-116, the while loop (25).  The fuel bounds the number of passes; the
      result holds derivativeQHalfStep.  [None]: fuel exhausted or not a number. *)
  Fixpoint halfStepLoop (fuel : nat) (q : quat) (angVelWHalf : R3) (derivative qHalf qHalfOld : quat)
    : option quat :=
    match fuel with
    | O => None
    | S fuel' =>
        let d := qSub qHalf qHalfOld in
        if Rlt_dec (tol * tol) (qDot d d) then
          let angVelMHalf := rotatePositionBackwards qHalf angVelWHalf in
          let derivative' := qScale (qMulVec qHalf angVelMHalf) (/ 2) in
          match qNormalize (qAdd q (qScale derivative' halfDt)) with
          | None => None
          | Some qHalf' => halfStepLoop fuel' q angVelWHalf derivative' qHalf' qHalf
          end
        else Some derivative
    end.

  (** TimeDiscretization.cpp:123-133: torque of the global force (if it is not zero; the comparison with the
      machine epsilon is a comparison with zero here). *)
  Definition globalTorque (q : quat) (sites : list R3) (g : R3) : R3 :=
    fold_left (fun t s => radd t (cross s g)) (rotateVectorOfPositions q sites) rzero.

  (** TimeDiscretization.cpp:83-134 for one molecule. *)
  Definition rotateStep (fuel : nat) (g : R3) (m : rotor) : option rotor :=
    let q := rQuat m in
    let angVelM := rotatePositionBackwards q (rAngVel m) in
    let torqueM := rotatePositionBackwards q (rTorque m) in
    let angMomentumM := rmul (rInertia m) angVelM in
    let derivativeAngMomentumM := rsub torqueM (cross angVelM angMomentumM) in
    let angMomentumMHalf := radd angMomentumM (rscale derivativeAngMomentumM halfDt) in
    let derivative := qScale (qMulVec q (rdiv angMomentumMHalf (rInertia m))) (/ 2) in
    match qNormalize (qAdd q (qScale derivative halfDt)) with
    | None => None
    | Some qHalf =>
        let angVelWHalf := radd (rAngVel m) (rscale (rotatePosition q (rdiv torqueM (rInertia m))) halfDt) in
        let qHalfOld := mkQ (qw qHalf + 2 * tol) (qx qHalf) (qy qHalf) (qz qHalf) in
        match halfStepLoop fuel q angVelWHalf derivative qHalf qHalfOld with
        | None => None
        | Some derivative' =>
            match qNormalize (qAdd q (qScale derivative' dt)) with
            | None => None
            | Some qFull => Some (mkRotor qFull angVelWHalf (globalTorque qFull (rSites m) g) (rInertia m) (rSites m))
            end
        end
    end.

  (** TimeDiscretization.cpp:157-187 calculateAngularVelocities for one molecule. *)
  Definition updateAngVel (m : rotor) : rotor :=
    let torqueM := rotatePositionBackwards (rQuat m) (rTorque m) in
    let torqueDivMoIW := rotatePosition (rQuat m) (rdiv torqueM (rInertia m)) in
    mkRotor (rQuat m) (radd (rAngVel m) (rscale (rscale torqueDivMoIW (/ 2)) dt)) (rTorque m) (rInertia m) (rSites m).

  (** One time step of Simulation.cpp:226-302 as far as rotation is concerned: rotate, add the torques of
      the interactions, finish the angular velocity.  [torque] is what the force computation adds. *)
  Definition rotorStep (fuel : nat) (g : R3) (torque : R3) (m : rotor) : option rotor :=
    match rotateStep fuel g m with
    | None => None
    | Some m' => Some (updateAngVel (mkRotor (rQuat m') (rAngVel m') (radd (rTorque m') torque) (rInertia m') (rSites m')))
    end.

  Fixpoint rotorRun (fuel : nat) (g : R3) (torques : list R3) (m : rotor) : option rotor :=
    match torques with
    | [] => Some m
    | t :: ts => match rotorStep fuel g t m with None => None | Some m' => rotorRun fuel g ts m' end
    end.
End Rotate.
