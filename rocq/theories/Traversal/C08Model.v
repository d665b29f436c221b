(** Model of the lc_c08 traversal:
    containers/linkedCells/traversals/LCC08CellHandlerUtility.cpp,
    LCC08CellHandler.h, LCC08Traversal.h and cellTraversals/C08BasedTraversal.h *)
From Verif.Base Require Import ZRange.
From Verif.Grid Require Import IndexModel.
From Verif.Traversal Require Import ColorModel.

(** C08CellDirection, LCC08CellHandlerUtility.h:77-86 and ALL_DIRECTIONS 91-93. *)
Inductive C08Dir := frontLeft | backLeft | frontRight | backRight.
Definition allDirections := [frontLeft; backLeft; frontRight; backRight].

(** toMaskXY, LCC08CellHandlerUtility.cpp:13-25. *)
Definition toMaskXY (d : C08Dir) : Z * Z :=
  match d with
  | frontLeft => (0, 0) | backLeft => (0, 1) | frontRight => (1, 0) | backRight => (1, 1)
  end.

(** includeCellPair, LCC08CellHandlerUtility.cpp:27-40. *)
Definition includeCellPair (d : C08Dir) (ov : I3) (x y z : Z) : bool :=
  match d with
  | backLeft => negb (y =? iy ov) && negb (z =? 0)
  | frontRight => negb (x =? ix ov) && (negb (y =? 0) || negb (z =? 0))
  | backRight => negb (y =? iy ov) && negb (x =? ix ov) && negb (z =? 0)
  | frontLeft => true
  end.

(** computePairwiseCellOffsetsC08, LCC08CellHandlerUtility.cpp:58-149 (modes
    c08CellPairs / c08CellPairsSorting; the sorting direction is modelled in
    SortDirModel.v).  [near dx dy dz] stands for the test
    [dot(distVec, distVec) <= interactionLengthSquare] (line 115), where distVec
    is computed from the number of cells [dx dy dz] between the two cells in each
    dimension (lines 92, 107-111: [max(0, d - 1) * cellLength]).  It is an
    arbitrary boolean function, hence the model covers whatever result the
    floating point evaluation gives.  The emplaced pair is (offset2, offset1),
    in this order (lines 134/140), as flat offsets. *)
Section Offsets.
  Variable near : Z -> Z -> Z -> bool.
  Variable ov : I3.

  (** The loop nest of lines 85-95 as list of (x, y, z, direction). *)
  Definition c08Loop : list (Z * Z * Z * C08Dir) :=
    flat_map (fun x => flat_map (fun y => flat_map (fun z => map (fun d => (x, y, z, d)) allDirections)
      (zrange 0 (iz ov + 1))) (zrange 0 (iy ov + 1))) (zrange 0 (ix ov + 1)).

  (** The two conditions of lines 98 and 115. *)
  Definition c08Include (t : Z * Z * Z * C08Dir) : bool :=
    let '(x, y, z, d) := t in
    let '(maskX, maskY) := toMaskXY d in
    includeCellPair d ov x y z &&
    near ((ix ov - x) * maskX + x * (1 - maskX)) ((iy ov - y) * maskY + y * (1 - maskY)) z.

  (** The 3D offsets from which lines 89 and 103 compute the flat offsets. *)
  Definition c08Offset1 (t : Z * Z * Z * C08Dir) : I3 :=
    let '(x, y, z, d) := t in mkI3 x y 0.
  Definition c08Offset2 (t : Z * Z * Z * C08Dir) : I3 :=
    let '(x, y, z, d) := t in
    let '(maskX, maskY) := toMaskXY d in mkI3 (maskX * ix ov) (maskY * iy ov) z.

  Definition computePairwiseCellOffsetsC08 (dims : I3) : list (Z * Z) :=
    map (fun t => (threeToOneD (c08Offset2 t) dims, threeToOneD (c08Offset1 t) dims))
        (filter c08Include c08Loop).
End Offsets.

(** LCC08CellHandler::processBaseCell, LCC08CellHandler.h:111-126: the cell
    functor calls as pairs of flat cell indices; equal indices stand for
    processCell, different ones for processCellPair(cell1, cell2). *)
Definition c08ProcessBaseCell (offsets : list (Z * Z)) (baseIndex : Z) : list (Z * Z) :=
  map (fun '(o1, o2) => (baseIndex + o1, baseIndex + o2)) offsets.

(** C08BasedTraversal::c08Traversal, C08BasedTraversal.h:51-58:
    [end = dims - overlap], [stride = overlap + 1].  Simplification: the
    subtraction is on unsigned long; the theorems assume overlap <= dims. *)
Definition c08Colors (dims ov : I3) : list (list I3) :=
  colorTraversal (mkI3 (ix dims - ix ov) (iy dims - iy ov) (iz dims - iz ov))
                 (mkI3 (ix ov + 1) (iy ov + 1) (iz ov + 1)) (mkI3 0 0 0).

(** LCC08Traversal::traverseParticles, LCC08Traversal.h:69-75: for each colour
    the list of tasks, each task the list of its cell functor calls. *)
Definition c08Tasks (near : Z -> Z -> Z -> bool) (dims ov : I3) : list (list (list (Z * Z))) :=
  map (map (fun b => c08ProcessBaseCell (computePairwiseCellOffsetsC08 near ov dims) (threeToOneD b dims)))
      (c08Colors dims ov).

Definition c08Calls near dims ov : list (Z * Z) := concat (concat (c08Tasks near dims ov)).
