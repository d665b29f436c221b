(** Model of the lc_c18 traversal:
    containers/linkedCells/traversals/LCC18Traversal.h and
    containers/cellTraversals/C18BasedTraversal.h *)
From Verif.Base Require Import ZRange OptionM.
From Verif.Grid Require Import IndexModel.
From Verif.Traversal Require Import ColorModel.

(** LCC18Traversal::computeOffsets, LCC18Traversal.h:114-166: the content of
    [_cellOffsets[yi][xi]] (flat offsets; the sorting direction is modelled in
    SortDirModel.v).  [None] if [yi], [xi] are outside the table that line 116
    creates.  [near |x| |y| |z|] stands for the test of line 143. *)
Definition c18Offsets (near : Z -> Z -> Z -> bool) (ov dims : I3) (yi xi : Z) : option (list Z) :=
  if (0 <=? yi) && (yi <? 2 * iy ov + 1) && (0 <=? xi) && (xi <? 2 * ix ov + 1) then
    let yArray := yi - iy ov in
    let xArray := xi - ix ov in
    Some (flat_map (fun z => flat_map (fun y => flat_map (fun x =>
        let offset := threeToOneD (mkI3 x y z) dims in
        if offset <? 0 then []
        else if (Z.abs (yArray + y) <=? iy ov) && (Z.abs (xArray + x) <=? ix ov) &&
                near (Z.abs x) (Z.abs y) (Z.abs z) then [offset] else [])
        (zrange (- ix ov) (ix ov + 1))) (zrange (- iy ov) (iy ov + 1))) (zrange 0 (iz ov + 1)))
  else None.

(** LCC18Traversal::getIndex, LCC18Traversal.h:168-180 (unsigned arithmetic: the
    wrap-around of the intermediate [pos - cellsPerDimension] cancels). *)
Definition c18GetIndex (pos dim ov : Z) : Z :=
  if pos <? ov then pos
  else if pos <? dim - ov then ov
  else pos - dim + 2 * ov + 1.

(** LCC18Traversal::processBaseCell, LCC18Traversal.h:182-202. *)
Definition c18ProcessBaseCell near (dims ov b : I3) : option (list (Z * Z)) :=
  let baseIndex := threeToOneD b dims in
  match c18Offsets near ov dims (c18GetIndex (iy b) (iy dims) (iy ov)) (c18GetIndex (ix b) (ix dims) (ix ov)) with
  | Some offs => Some (map (fun o => (baseIndex, baseIndex + o)) offs)
  | None => None
  end.

(** C18BasedTraversal::c18Traversal<allCells = false>, C18BasedTraversal.h:57-71. *)
Definition c18Colors (dims ov : I3) : list (list I3) :=
  colorTraversal (mkI3 (ix dims) (iy dims) (iz dims - iz ov))
                 (mkI3 (2 * ix ov + 1) (2 * iy ov + 1) (iz ov + 1)) (mkI3 0 0 0).

(** LCC18Traversal::traverseParticles, LCC18Traversal.h:204-209. [None] if some
    base cell looks outside the offset table. *)
Definition c18Tasks near (dims ov : I3) : option (list (list (list (Z * Z)))) :=
  mapM (mapM (c18ProcessBaseCell near dims ov)) (c18Colors dims ov).
