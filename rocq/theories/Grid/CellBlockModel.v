(** Model of containers/CellBlock3D.h.

    Doubles are real numbers; every floating point operation of the code is
    followed by the rounding function [rnd].  With [rnd] the IEEE 754 rounding to
    nearest this is the code without overflow; with the identity it is the code in
    exact arithmetic.  The three dimensions are independent: [Dim] holds the
    members of one dimension. *)
From Coq Require Import Reals.
From Flocq Require Import Core.
From Verif.Base Require Import ZRange OptionM.
From Verif.Grid Require Import IndexModel IndexSpec.
From Verif.Functor Require Import SortModel.
Open Scope R_scope.

(** _boxMin, _boxMax, number of non-halo cells (cellsPerDim in rebuild),
    _cellsPerInteractionLength, _cellLength, _cellLengthReciprocal, _haloBoxMin,
    _haloBoxMax of one dimension, CellBlock3D.h:287-311. *)
Record Dim := mkDim {
  dMin : R; dMax : R; dCells : Z; dHalo : Z; dLen : R; dRecip : R; dHaloMin : R; dHaloMax : R }.

(** _cellsPerDimensionWithHalo, CellBlock3D.h:384. *)
Definition dWithHalo (d : Dim) : Z := (dCells d + 2 * dHalo d)%Z.

(** The whole block: one [Dim] per dimension. *)
Record Block := mkBlock { bX : Dim; bY : Dim; bZ : Dim }.
Definition blockDims (b : Block) : I3 := mkI3 (dWithHalo (bX b)) (dWithHalo (bY b)) (dWithHalo (bZ b)).

(** getHaloBoxMin, getHaloBoxMax, CellBlock3D.h:236,242. *)
Definition getHaloBoxMin (b : Block) : R3 := mkR3 (dHaloMin (bX b)) (dHaloMin (bY b)) (dHaloMin (bZ b)).
Definition getHaloBoxMax (b : Block) : R3 := mkR3 (dHaloMax (bX b)) (dHaloMax (bY b)) (dHaloMax (bZ b)).

Section Rounded.
  Variable rnd : R -> R.

  (** rebuild, CellBlock3D.h:370-374.  The result of ceil is converted to an
      unsigned integer. *)
  Definition cellsPerInteractionLength (cellSizeFactor : R) : Z :=
    if Rle_dec 1 cellSizeFactor then 1%Z else Zceil (rnd (1 / cellSizeFactor)).

  (** rebuild, CellBlock3D.h:381-382. *)
  Definition cellsPerDim (boxLength il csf : R) : Z :=
    Z.max (Zfloor (rnd (boxLength / rnd (il * csf)))) 1.

  (** rebuild, CellBlock3D.h:377-393, one dimension. *)
  Definition rebuildDim (il csf bMin bMax : R) : Dim :=
    let halo := cellsPerInteractionLength csf in
    let boxLength := rnd (bMax - bMin) in
    let n := cellsPerDim boxLength il csf in
    let len := rnd (boxLength / rnd (IZR n)) in
    let haloLen := rnd (rnd (IZR halo) * len) in
    mkDim bMin bMax n halo len (rnd (rnd (IZR n) / boxLength)) (rnd (bMin - haloLen)) (rnd (bMax + haloLen)).

  Definition rebuild (il csf : R) (bMin bMax : R3) : Block :=
    mkBlock (rebuildDim il csf (rx bMin) (rx bMax)) (rebuildDim il csf (ry bMin) (ry bMax))
            (rebuildDim il csf (rz bMin) (rz bMax)).

  (** Constructor, CellBlock3D.h:46-54: throws if the box is shorter than the
      interaction length. *)
  Definition longEnough (il bMin bMax : R) : Prop := rnd (bMin + il) <= bMax.

  (** static_cast<long>: undefined behaviour unless the value fits. *)
  Definition toLong (z : Z) : option Z :=
    if ((- 2 ^ 63 <=? z) && (z <? 2 ^ 63))%Z then Some z else None.

  (** get3DIndexOfPosition, CellBlock3D.h:327-349, one dimension. *)
  Definition cellIndexOf (d : Dim) (pos : R) : option Z :=
    match toLong (Zfloor (rnd (rnd (pos - dMin d) * dRecip d))) with
    | None => None
    | Some f =>
        let value := (f + dHalo d)%Z in
        let nonNegative := Z.max value 0 in
        let index := Z.min nonNegative (dWithHalo d - 1) in
        Some (if Rle_dec (dMax d) pos then Z.max index (dWithHalo d - dHalo d)
              else if Rlt_dec pos (dMin d) then
                if (index =? dHalo d)%Z then (index - 1)%Z
                else if (index =? dWithHalo d - dHalo d)%Z then (index - 1)%Z else index
              else if (index =? dWithHalo d - dHalo d)%Z then (index - 1)%Z
              else index)
    end.

  Definition get3DIndexOfPosition (b : Block) (pos : R3) : option I3 :=
    match cellIndexOf (bX b) (rx pos), cellIndexOf (bY b) (ry pos), cellIndexOf (bZ b) (rz pos) with
    | Some x, Some y, Some z => Some (mkI3 x y z)
    | _, _, _ => None
    end.

  (** get1DIndexOfPosition, CellBlock3D.h:314-318. *)
  Definition get1DIndexOfPosition (b : Block) (pos : R3) : option Z :=
    match get3DIndexOfPosition b pos with Some i => Some (threeToOneD i (blockDims b)) | None => None end.

  (** getCellBoundingBox, CellBlock3D.h:455-485, one dimension. *)
  Definition cellBounds (d : Dim) (i : Z) : R * R :=
    let lo := rnd (rnd (rnd (IZR i) * dLen d) + dHaloMin d) in
    let lo := if (i =? 0)%Z then dHaloMin d else if (i =? dHalo d)%Z then dMin d else lo in
    let hi := rnd (lo + dLen d) in
    if (i =? dWithHalo d - dHalo d - 1)%Z then (lo, dMax d)
    else if (i =? dWithHalo d - 1)%Z then (rnd (dHaloMax d - dLen d), dHaloMax d)
    else (lo, hi).

  Definition getCellBoundingBox (b : Block) (i : I3) : R3 * R3 :=
    let x := cellBounds (bX b) (ix i) in
    let y := cellBounds (bY b) (iy i) in
    let z := cellBounds (bZ b) (iz i) in
    (mkR3 (fst x) (fst y) (fst z), mkR3 (snd x) (snd y) (snd z)).

  (** Overlap of the traversals, cellTraversals/ColorBasedTraversal.h:47-49 and
      cellTraversals/SlicedBasedTraversal.h:184 (one dimension). *)
  Definition overlapOf (il len : R) : Z := Zceil (rnd (il / len)).
End Rounded.

Open Scope Z_scope.

(** rebuild, CellBlock3D.h:403-405. *)
Definition firstOwnedCellIndex (b : Block) : Z :=
  let c := dHalo (bX b) in
  ix (blockDims b) * iy (blockDims b) * c + ix (blockDims b) * c + c.
Definition lastOwnedCellIndex (b : Block) : Z := numCells (blockDims b) - 1 - firstOwnedCellIndex b.

(** cellCanContainHaloParticles, CellBlock3D.h:67-81. *)
Definition cellCanContainHaloParticles (b : Block) (i : Z) : bool :=
  if (i <? firstOwnedCellIndex b) || (lastOwnedCellIndex b <? i) then true
  else
    let p := oneToThreeD i (blockDims b) in
    let outside k d := (k <? dHalo d) || (dWithHalo d - dHalo d <=? k) in
    outside (ix p) (bX b) || outside (iy p) (bY b) || outside (iz p) (bZ b).

(** cellCanContainOwnedParticles, CellBlock3D.h:83-85. *)
Definition cellCanContainOwnedParticles (b : Block) (i : Z) : bool := negb (cellCanContainHaloParticles b i).

(** clearHaloCells, CellBlock3D.h:517-549: the indices of the cells that are
    cleared, in program order. *)
Definition haloSlices (d : Dim) : list Z :=
  zrange 0 (dHalo d) ++ zrange (dWithHalo d - dHalo d) (dWithHalo d).
Definition clearedCells (b : Block) : list Z :=
  let dims := blockDims b in
  flat_map (fun i => flat_map (fun j => map (fun k => threeToOneD (mkI3 i j k) dims)
    (zrange 0 (iz dims))) (zrange 0 (iy dims))) (haloSlices (bX b)) ++
  flat_map (fun i => flat_map (fun j => map (fun k => threeToOneD (mkI3 i j k) dims)
    (zrange 0 (iz dims))) (haloSlices (bY b))) (zrange 1 (ix dims - 1)) ++
  flat_map (fun i => flat_map (fun j => map (fun k => threeToOneD (mkI3 i j k) dims)
    (haloSlices (bZ b))) (zrange 1 (iy dims - 1))) (zrange 1 (ix dims - 1)).

(** [( *_cells)[index].clear()] on the vector of cells; an index out of range is
    undefined behaviour. *)
Fixpoint clearAt {A} (cells : list (list A)) (i : nat) : option (list (list A)) :=
  match cells, i with
  | [], _ => None
  | _ :: r, O => Some ([] :: r)
  | c :: r, S n => match clearAt r n with Some r' => Some (c :: r') | None => None end
  end.
Fixpoint clearAll {A} (cells : list (list A)) (is : list Z) : option (list (list A)) :=
  match is with
  | [] => Some cells
  | i :: r => if i <? 0 then None
              else match clearAt cells (Z.to_nat i) with Some c => clearAll c r | None => None end
  end.
Definition clearHaloCells {A} (b : Block) (cells : list (list A)) : option (list (list A)) :=
  clearAll cells (clearedCells b).
