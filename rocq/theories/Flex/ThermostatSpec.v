(** Temperature of a component: twice its kinetic energy per degree of freedom. *)
From Coq Require Import Reals List Bool Arith.
From Verif.Functor Require Import SortModel.
From Verif.Flex Require Import ThermostatModel.
Import ListNotations.
Local Open Scope R_scope.

Definition ofType (k : nat) (p : TPart) : bool := (tType p =? k)%nat.
Definition rsum (l : list R) : R := fold_right Rplus 0 l.
(** Kinetic energy of a molecule: translation and, with several sites, rotation. *)
Definition kinetic (multiSite : bool) (mass : R) (inertia : R3) (p : TPart) : R :=
  mass * dot (tVel p) (tVel p) / 2 +
  if multiSite
  then (rx inertia * (rx (tAng p) * rx (tAng p)) + ry inertia * (ry (tAng p) * ry (tAng p)) +
        rz inertia * (rz (tAng p) * rz (tAng p))) / 2
  else 0.
Definition temperature (multiSite : bool) (mass : nat -> R) (inertia : nat -> R3) (k : nat) (ps : list TPart) : R :=
  let qs := filter (ofType k) ps in
  2 * rsum (map (kinetic multiSite (mass k) (inertia k)) qs) / (INR (length qs) * if multiSite then 6 else 3).

(** All particles of a system. *)
Definition particles (sys : System) : list TPart := concat (concat sys).
Definition ownedOf (sys : System) : list TPart := filter tOwned (particles sys).

(** [new] is [target] if it is within [|delta|] of [old], and otherwise [|delta|] away from [old]
    in the direction of [target]. *)
Definition towards (target delta old new : R) : Prop :=
  (Rabs (old - target) <= Rabs delta -> new = target) /\
  (target < old - Rabs delta -> new = old - Rabs delta) /\
  (old + Rabs delta < target -> new = old + Rabs delta).
