(** Specification vocabulary for collecting leaving particles. *)
From Coq Require Import Reals.
From Verif.Base Require Import ZRange.
From Verif.Grid Require Import CellBlockSpec.
From Verif.Functor Require Import SortModel.
From Verif.Container Require Import IteratorModel ParticleModel.
Open Scope R_scope.

(** The box grown by [d] on every side; shrunken if [d] is negative. *)
Definition growLow (d : R) (bMin : R3) : R3 := mkR3 (rx bMin - d) (ry bMin - d) (rz bMin - d).
Definition growHigh (d : R) (bMax : R3) : R3 := mkR3 (rx bMax + d) (ry bMax + d) (rz bMax + d).
Definition inGrownBox (d : R) (bMin bMax x : R3) : Prop := inBox (growLow d bMin) (growHigh d bMax) x.

(** The box is at least [d] long in every dimension. *)
Definition atLeast (d : R) (bMin bMax : R3) : Prop :=
  rx bMin + d <= rx bMax /\ ry bMin + d <= ry bMax /\ rz bMin + d <= rz bMax.
