(** Specification vocabulary for the cell grid of a container. *)
From Coq Require Import Reals.
From Flocq Require Import Core.
From Verif.Base Require Import ZRange.
From Verif.Grid Require Import IndexModel IndexSpec.
From Verif.Functor Require Import SortModel.
Open Scope R_scope.

(** IEEE 754 binary64: format (without overflow) and rounding to nearest even. *)
Notation doubleExp := (FLT_exp (-1074) 53).
Definition isDouble (x : R) : Prop := generic_format radix2 doubleExp x.
Definition rndDouble (x : R) : R := round radix2 doubleExp ZnearestE x.
Definition rndExact (x : R) : R := x.

Definition isDouble3 (v : R3) : Prop := isDouble (rx v) /\ isDouble (ry v) /\ isDouble (rz v).

(** Half-open box. *)
Definition inBox (lo hi x : R3) : Prop :=
  (rx lo <= rx x < rx hi) /\ (ry lo <= ry x < ry hi) /\ (rz lo <= rz x < rz hi).
Definition below (lo hi : R3) : Prop := rx lo < rx hi /\ ry lo < ry hi /\ rz lo < rz hi.

Open Scope Z_scope.
(** A cell of a grid with [n] cells per dimension surrounded by [h] halo layers
    that is not a halo cell. *)
Definition innerCell (n : I3) (h : Z) (p : I3) : Prop :=
  (h <= ix p < h + ix n) /\ (h <= iy p < h + iy n) /\ (h <= iz p < h + iz n).
