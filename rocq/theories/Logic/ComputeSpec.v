(** Specification vocabulary for one interaction computation. *)
From Coq Require Import Reals List ZArith Permutation.
From Verif.Grid Require Import CellBlockModel CellBlockSpec.
From Verif.Traversal Require Import C08Model.
From Verif.Functor Require Import SortModel.
From Verif.Container Require Import LinkedCellsModel ParticleModel.
From Verif.Logic Require Import HandlerModel ComputeModel.
Import ListNotations.

Definition exactlyOnce {A} (x : A) (l : list A) : Prop :=
  exists l1 l2, l = l1 ++ x :: l2 /\ ~ In x l1 /\ ~ In x l2.

(** The box was resized after the last update. *)
Fixpoint resizedSince (resized : bool) (es : list Event) : bool :=
  match es with
  | [] => resized
  | Resize _ _ :: r => resizedSince true r
  | Update _ :: r => resizedSince false r
  | _ :: r => resizedSince resized r
  end.

(** The traversal can be used with the container: lc_c08 processes every base cell once,
    lc_c01 is without Newton 3, and for direct sum, which sorts with the cutoff only, the
    skin is not longer than the cutoff. *)
Definition suits (cutoff spt : R) (freq : Z) (lo hi : R3) (k : Kind) (t : Traversal) (newton3 : bool) : Prop :=
  match k, t with
  | KDirectSum, DSSequential => (spt * IZR freq <= cutoff)%R
  | KLinkedCells csf, LCC08 bases =>
      let b := rebuild rndExact (cutoff + spt * IZR freq) csf lo hi in
      Permutation bases (concat (c08Colors (blockDims b) (blockOverlap rndExact (cutoff + spt * IZR freq) b)))
  | KLinkedCells _, LCC18 => True
  | KLinkedCells _, LCC01 => newton3 = false
  | _, _ => False
  end.
