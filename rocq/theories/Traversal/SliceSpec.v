(** Specification vocabulary for sliced traversals. *)
From Verif.Base Require Import ZRange.
From Verif.Grid Require Import IndexModel.
From Verif.Traversal Require Import SliceModel.

Definition zsum (l : list Z) : Z := fold_right Z.add 0 l.

(** Every slice but the last is at least [m] layers thick, the last one [m']. *)
Fixpoint thick (m m' : Z) (l : list Z) : Prop :=
  match l with
  | [] => True
  | [t] => m' <= t
  | t :: l' => m <= t /\ thick m m' l'
  end.

(** Consecutive slices of the thicknesses [t] starting at layer 0 contain every
    layer of [0, total) exactly once, in order. *)
Fixpoint slices (from : Z) (t : list Z) : list (list Z) :=
  match t with
  | [] => []
  | x :: t' => zrange from (from + x) :: slices (from + x) t'
  end.
Definition partitionsLayers (t : list Z) (total : Z) : Prop := concat (slices 0 t) = zrange 0 total.

(** The slice thicknesses the lock based traversals use on a grid. *)
Definition lockSlicing (dims ov : I3) (t : list Z) : Prop :=
  let len := comp (dimLong dims) dims in let o := comp (dimLong dims) ov in
  t = initSliceThickness len (o + 1) o true \/
  exists grow threads, (0 < threads)%nat /\ balancedSliceThickness grow (o + 1) len threads o true = Some t.

(** isApplicable, SlicedBasedTraversal.h:64-68. *)
Definition sliceable (dims ov : I3) : Prop :=
  1 <= comp (dimLong dims) dims / (comp (dimLong dims) ov + 1).
