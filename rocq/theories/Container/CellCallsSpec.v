(** Specification vocabulary for the direct sum container. *)
From Coq Require Import Reals.
From Verif.Base Require Import ZRange.
From Verif.Grid Require Import CellBlockModel CellBlockSpec.
From Verif.Functor Require Import SortModel SortSpec.

(** When they are added, owned particles are in the box and halo particles are
    outside. *)
Definition validInBox {P} (isHalo : P -> bool) (added : P -> R3) (lo hi : R3) (ps : list P) : Prop :=
  Forall (fun p => isHalo p = false <-> inBox lo hi (added p)) ps.

(** The three particles are pairwise not further apart than [r]. *)
Definition pairwiseWithin {P} (pos : P -> R3) (r : R) (a b d : P) : Prop :=
  (dist3 (pos a) (pos b) <= r)%R /\ (dist3 (pos a) (pos d) <= r)%R /\ (dist3 (pos b) (pos d) <= r)%R.
