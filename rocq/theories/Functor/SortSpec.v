(** Specification vocabulary for the geometry of sorted cells. *)
From Coq Require Import Reals.
From Verif.Base Require Import ZRange.
From Verif.Grid Require Import IndexModel.
From Verif.Functor Require Import SortModel.
Open Scope R_scope.

(** Euclidean distance. *)
Definition dist3 (a b : R3) : R := sqrt (dot (rsub a b) (rsub a b)).

(** Closed axis-aligned box. *)
Definition inClosedBox (lo hi x : R3) : Prop :=
  rx lo <= rx x <= rx hi /\ ry lo <= ry x <= ry hi /\ rz lo <= rz x <= rz hi.

(** The direction points from box 1 to box 2: along each axis on which it has a
    component, the box it points to lies completely on that side. *)
Definition axisPoints (hi1 lo1 lo2 hi2 d : R) : Prop :=
  (0 < d -> hi1 <= lo2) /\ (d < 0 -> hi2 <= lo1).
Definition pointsFromTo (lo1 hi1 lo2 hi2 dir : R3) : Prop :=
  axisPoints (rx hi1) (rx lo1) (rx lo2) (rx hi2) (rx dir) /\
  axisPoints (ry hi1) (ry lo1) (ry lo2) (ry hi2) (ry dir) /\
  axisPoints (rz hi1) (rz lo1) (rz lo2) (rz hi2) (rz dir).

(** Cell [c] of a regular grid with the given origin and cell length. *)
Definition cellLo (origin cellLength : R3) (c : I3) : R3 :=
  mkR3 (rx origin + IZR (ix c) * rx cellLength) (ry origin + IZR (iy c) * ry cellLength)
       (rz origin + IZR (iz c) * rz cellLength).
Definition cellHi (origin cellLength : R3) (c : I3) : R3 :=
  cellLo origin cellLength (i3add c (mkI3 1 1 1)).
Definition positiveR (v : R3) : Prop := 0 < rx v /\ 0 < ry v /\ 0 < rz v.
