(** Specification vocabulary for the spatial locks. *)
From Coq Require Import Reals.
From Flocq Require Import Core.
From Verif.Base Require Import ZRange.
From Verif.Grid Require Import IndexModel.
From Verif.Functor Require Import SortModel.
Open Scope R_scope.

(** A lock exists: all indices are in range of the vectors. *)
Definition lockExists (n lock : I3) : Prop :=
  (0 <= ix lock < ix n)%Z /\ (0 <= iy lock < iy n)%Z /\ (0 <= iz lock < iz n)%Z.

(** The box with halo. *)
Definition haloLow (il : R) (bMin : R3) : R3 := mkR3 (rx bMin - il) (ry bMin - il) (rz bMin - il).
Definition haloHigh (il : R) (bMax : R3) : R3 := mkR3 (rx bMax + il) (ry bMax + il) (rz bMax + il).

(** Number of boxes with side length [il] that cover a box of size [len]: the number
    of locks before it is limited to 10^6. *)
Definition locksWanted (il : R) (len : R3) : Z :=
  (Zceil (rx len / il) * Zceil (ry len / il) * Zceil (rz len / il))%Z.
Definition boxWithHalo (il : R) (bMin bMax : R3) : R3 :=
  mkR3 (rx bMax - rx bMin + 2 * il) (ry bMax - ry bMin + 2 * il) (rz bMax - rz bMin + 2 * il).
