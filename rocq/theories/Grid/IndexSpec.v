(** Specification vocabulary for cell indices. *)
From Verif.Base Require Import ZRange.
From Verif.Grid Require Import IndexModel.

Definition positive (dims : I3) : Prop := 0 < ix dims /\ 0 < iy dims /\ 0 < iz dims.
(** [p] is a cell of a grid with extents [dims]. *)
Definition inGrid (dims p : I3) : Prop :=
  0 <= ix p < ix dims /\ 0 <= iy p < iy dims /\ 0 <= iz p < iz dims.
Definition numCells (dims : I3) : Z := ix dims * iy dims * iz dims.
