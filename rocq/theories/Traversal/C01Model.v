(** Model of the lc_c01 traversal (without combined SoA buffers):
    containers/linkedCells/traversals/LCC01Traversal.h and
    containers/cellTraversals/C01BasedTraversal.h *)
From Verif.Base Require Import ZRange.
From Verif.Grid Require Import IndexModel.
From Verif.Traversal Require Import ColorModel.

Section C01.
  (** [near |x| |y| |z|]: the distance test of lines 256-262 (and 310-312, 326, 336, 342). *)
  Variable near : Z -> Z -> Z -> bool.
  Variables ov dims : I3.

  (** The vector [_cellOffsets] of 2 * overlap[0] + 1 slices (line 249), indexed
      by [x + overlap[0]].  It is modelled as a function; every index used is
      [ix + overlap[0]] with |ix| <= overlap[0] (lemma c01_slice_index_range). *)
  Definition slices := Z -> list Z.

  Definition updSlice (s : slices) (i : Z) (v : list Z) : slices :=
    fun j => if j =? i then v else s j.

  (** Lines 271-294: add the offset (ix, y, z) to the slices ix = x .. |x|. *)
  Definition c01AddRow (x y z : Z) (s : slices) : slices :=
    fold_left (fun s ix =>
      let offset := threeToOneD (mkI3 ix y z) dims in
      let index := ix + Grid.IndexModel.ix ov in
      if (y =? 0) && (z =? 0) then updSlice s index (offset :: s index)
      else updSlice s index (s index ++ [offset]))
      (zrange x (Z.abs x + 1)) s.

  (** Lines 256-295: body of the triple loop. *)
  Definition c01Step (s : slices) (t : Z * Z * Z) : slices :=
    let '(x, y, z) := t in
    if near (Z.abs x) (Z.abs y) (Z.abs z) then
      let currentOffset := threeToOneD (mkI3 x y z) dims in
      if existsb (fun e => e =? currentOffset) (s (x + ix ov)) then s
      else c01AddRow x y z s
    else s.

  Definition c01Loop : list (Z * Z * Z) :=
    flat_map (fun x => flat_map (fun y => map (fun z => (x, y, z))
      (zrange (- iz ov) (iz ov + 1))) (zrange (- iy ov) (iy ov + 1))) (zrange (- ix ov) (0 + 1)).

  (** LCC01Traversal::computePairwiseOffsets, LCC01Traversal.h:247-299 (sorting
      directions: SortDirModel.v). *)
  Definition c01PairwiseOffsets : slices := fold_left c01Step c01Loop (fun _ => []).

  (** All slices in order (line 463). *)
  Definition c01AllOffsets : list Z := flat_map c01PairwiseOffsets (zrange 0 (2 * ix ov + 1)).

  (** LCC01Traversal::processBaseCellPairwise without combineSoA,
      LCC01Traversal.h:388-389, 463-474: cell functor calls (base, other); the
      cell functor is created with bidirectional = false (line 147), so the call
      only updates particles of the first cell. *)
  Definition c01ProcessBaseCell (b : I3) : list (Z * Z) :=
    map (fun o => (threeToOneD b dims, threeToOneD b dims + o)) c01AllOffsets.

  (** C01BasedTraversal::c01Traversal, C01BasedTraversal.h:54-62: one colour
      (stride 1), offset = overlap, end = dims - overlap. *)
  Definition c01Colors : list (list I3) :=
    colorTraversal (mkI3 (ix dims - ix ov) (iy dims - iy ov) (iz dims - iz ov)) (mkI3 1 1 1) ov.

  Definition c01Tasks : list (list (list (Z * Z))) := map (map c01ProcessBaseCell) c01Colors.

  (** * Three-body version *)
  Inductive Call3B := CCell (c : Z) | CPair (c1 c2 : Z) | CTriple (c1 c2 c3 : Z).

  Definition cube : list I3 :=
    flat_map (fun x => flat_map (fun y => map (fun z => mkI3 x y z)
      (zrange (- iz ov) (iz ov + 1))) (zrange (- iy ov) (iy ov + 1))) (zrange (- ix ov) (ix ov + 1)).

  Definition near3 (a b : I3) : bool :=
    near (Z.abs (ix a - ix b)) (Z.abs (iy a - iy b)) (Z.abs (iz a - iz b)).

  (** LCC01Traversal::computeTriwiseOffsets, LCC01Traversal.h:301-367 (flat
      offset pairs; first the entry of line 316). *)
  Definition c01TriwiseOffsets : list (Z * Z) :=
    (0, 0) ::
    flat_map (fun o1 =>
      if negb (near3 (mkI3 0 0 0) o1) then [] else
      flat_map (fun o2 =>
        if negb (near3 o1 o2) then [] else
        if negb (near3 (mkI3 0 0 0) o2) then [] else
        let offset1 := threeToOneD o1 dims in
        let offset2 := threeToOneD o2 dims in
        if offset2 <=? offset1 then [] else [(offset1, offset2)]) cube) cube.

  (** LCC01Traversal::processBaseCellTriwise, LCC01Traversal.h:478-503. *)
  Definition c01ProcessBaseCell3B (b : I3) : list Call3B :=
    let baseIndex := threeToOneD b dims in
    map (fun '(offset1, offset2) =>
      let o1 := baseIndex + offset1 in
      let o2 := baseIndex + offset2 in
      if (baseIndex =? o1) && (baseIndex =? o2) then CCell baseIndex
      else if (baseIndex =? o1) && negb (baseIndex =? o2) then CPair baseIndex o2
      else if negb (baseIndex =? o1) && (baseIndex =? o2) then CPair baseIndex o1
      else if negb (baseIndex =? o1) && (o1 =? o2) then CPair baseIndex o1
      else CTriple baseIndex o1 o2) c01TriwiseOffsets.

  Definition c01Calls3B : list Call3B := flat_map c01ProcessBaseCell3B (concat c01Colors).
End C01.
