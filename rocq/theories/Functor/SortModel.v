(** Model of the sorted cell view and of the sorting directions, over the real
    numbers (exact arithmetic; rounding of the projections is not modelled). *)
From Coq Require Import Reals Sorted.
From Verif.Base Require Import ZRange OptionM.
From Verif.Grid Require Import IndexModel.
From Verif.Traversal Require Import C08Model C18Model C01Model.
Open Scope R_scope.

Record R3 := mkR3 { rx : R; ry : R; rz : R }.

(** utils/ArrayMath.h: dot, sub, mulScalar, L2Norm. *)
Definition dot (a b : R3) : R := rx a * rx b + ry a * ry b + rz a * rz b.
Definition rsub (a b : R3) : R3 := mkR3 (rx a - rx b) (ry a - ry b) (rz a - rz b).
Definition rscale (a : R3) (s : R) : R3 := mkR3 (rx a * s) (ry a * s) (rz a * s).
Definition rmul (a b : R3) : R3 := mkR3 (rx a * rx b) (ry a * ry b) (rz a * rz b).
Definition l2Norm (a : R3) : R := sqrt (dot a a).

(** ArrayMath::normalize, ArrayMath.h:303-306. *)
Definition normalize (a : R3) : R3 := rscale a (1 / l2Norm a).

(** Conversion of an integer vector to double. *)
Definition i3R (a : I3) : R3 := mkR3 (IZR (ix a)) (IZR (iy a)) (IZR (iz a)).

Section View.
  Context {P : Type}.
  Variable pos : P -> R3.

  (** SortedCellView constructor, cells/SortedCellView.h:43-52: the projection on
      the direction; std::sort by projection (the order of equal projections is
      unspecified: any sorted permutation is a possible view). *)
  Definition projection (dir : R3) (p : P) : R := dot (pos p) dir.
  Definition isSortedView (dir : R3) (l v : list P) : Prop :=
    Permutation l v /\ StronglySorted (fun p q => projection dir p <= projection dir q) v.

  (** CellFunctor.h:230, 256, 288: [abs(p1Projection - p2Projection) > _sortingCutoff]. *)
  Definition farAlong (sortingCutoff : R) (dir : R3) (p q : P) : bool :=
    if Rlt_dec sortingCutoff (Rabs (projection dir p - projection dir q)) then true else false.
End View.

Open Scope Z_scope.

Definition i3sub (a b : I3) : I3 := mkI3 (ix a - ix b) (iy a - iy b) (iz a - iz b).

(** The sorting directions before scaling with the cell length and normalising. *)
Definition dirOrOnes (v : I3) : I3 :=
  if (ix v =? 0) && (iy v =? 0) && (iz v =? 0) then mkI3 1 1 1 else v.

(** computeSortingDirection, LCC08CellHandlerUtility.cpp:42-54: offset1 - offset2,
    {1,1,1} if that is zero; emplaced as (offset2, offset1, dir), line 134. *)
Definition c08OffsetsDir near (ov dims : I3) : list (Z * Z * I3) :=
  map (fun t => (threeToOneD (c08Offset2 ov t) dims, threeToOneD (c08Offset1 t) dims,
                 dirOrOnes (i3sub (c08Offset1 t) (c08Offset2 ov t))))
      (filter (c08Include near ov) (c08Loop ov)).

(** LCC18Traversal.h:144-157: (x, y, z), {1,1,1} if that is zero. *)
Definition c18OffsetsDir (near : Z -> Z -> Z -> bool) (ov dims : I3) (yi xi : Z) : list (Z * I3) :=
  let yArray := yi - iy ov in
  let xArray := xi - ix ov in
  flat_map (fun z => flat_map (fun y => flat_map (fun x =>
        let offset := threeToOneD (mkI3 x y z) dims in
        if offset <? 0 then []
        else if (Z.abs (yArray + y) <=? iy ov) && (Z.abs (xArray + x) <=? ix ov) &&
                near (Z.abs x) (Z.abs y) (Z.abs z) then [(offset, dirOrOnes (mkI3 x y z))] else [])
        (zrange (- ix ov) (ix ov + 1))) (zrange (- iy ov) (iy ov + 1))) (zrange 0 (iz ov + 1)).

(** LCC01Traversal.h:271-294: (ix, y, z), {1,1,1} if that is zero. *)
Section C01Dir.
  Variable near : Z -> Z -> Z -> bool.
  Variables ov dims : I3.
  Definition slicesD := Z -> list (Z * I3).
  Definition updSliceD (s : slicesD) (i : Z) (v : list (Z * I3)) : slicesD :=
    fun j => if j =? i then v else s j.
  Definition c01AddRowD (x y z : Z) (s : slicesD) : slicesD :=
    fold_left (fun s ix =>
      let entry := (threeToOneD (mkI3 ix y z) dims, dirOrOnes (mkI3 ix y z)) in
      let index := ix + Grid.IndexModel.ix ov in
      if (y =? 0) && (z =? 0) then updSliceD s index (entry :: s index)
      else updSliceD s index (s index ++ [entry]))
      (zrange x (Z.abs x + 1)) s.
  Definition c01StepD (s : slicesD) (t : Z * Z * Z) : slicesD :=
    let '(x, y, z) := t in
    if near (Z.abs x) (Z.abs y) (Z.abs z) then
      let currentOffset := threeToOneD (mkI3 x y z) dims in
      if existsb (fun e => fst e =? currentOffset) (s (x + ix ov)) then s
      else c01AddRowD x y z s
    else s.
  Definition c01AllOffsetsDir : list (Z * I3) :=
    flat_map (fold_left c01StepD (c01Loop ov) (fun _ => [])) (zrange 0 (2 * ix ov + 1)).
End C01Dir.

(** The direction passed to the cell functor: scaled by the cell length and
    normalised (LCC08CellHandlerUtility.cpp:53, LCC18Traversal.h:149-157,
    LCC01Traversal.h:278-286; for the offset zero the {1,1,1} of c18 and c01 is
    not scaled, but that entry is processed with processCell, which does not use
    the direction). *)
Definition sortingDirection (cellLength : R3) (v : I3) : R3 := normalize (rmul (i3R v) cellLength).
