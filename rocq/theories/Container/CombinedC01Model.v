(** Model of lc_c01_combined_SoA: LCC01Traversal with combineSoA = true,
    containers/linkedCells/traversals/LCC01Traversal.h.  Every thread keeps one
    SoA buffer per slice of cells along x and updates the buffers while it walks
    along x. *)
From Verif.Base Require Import ZRange.
From Verif.Grid Require Import IndexModel.
From Verif.Functor Require Import CellFunctorModel.
From Verif.Traversal Require Import ColorModel C01Model.
From Verif.Utils Require Import SoAModel.

Section CombinedC01.
  Context {P : Type}.
  Variable isHalo : P -> bool.
  Variable view : list P -> list P.
  Variable far : P -> P -> bool.
  (** A default row, with which resizeArrays fills up. *)
  Variable zeroP : P.
  Variable cf : CFSettings.
  Variable near : Z -> Z -> Z -> bool.
  Variables ov dims : I3.
  Variable cells : list (Cell P).

  (** The rows of cells[i]._particleSoABuffer.  Without Newton 3 only the base cell
      is written (CellFunctor.h:303-316 with bidirectional = false), and the
      attributes copied by appendNeeded (LCC01Traversal.h:193-196) are those the
      functor reads, so a row is represented by its particle.  DataLayoutConverter
      loaded the buffers from the cells (SoAModel.v). *)
  Definition cellRows (i : Z) : list P :=
    match nth_error cells (Z.to_nat i) with Some c => parts c | None => [] end.

  (** _cellOffsets (computePairwiseOffsets, C01Model.v) and its size, line 389. *)
  Definition cOff : slices := c01PairwiseOffsets near ov dims.
  Definition cOffSize : Z := 2 * ix ov + 1.

  (** Per thread: _combinationSlices[threadID] and _currentSlices[threadID *
      _cacheOffset], lines 394-396; the vector of [cOffSize] buffers (resizeBuffers,
      lines 505-516) as function of the index. *)
  Record Ring := mkRing { buf : Z -> list P; cur : Z }.
  Definition setBuf (b : Z -> list P) (i : Z) (v : list P) : Z -> list P := fun j => if j =? i then v else b j.

  (** appendNeeded for a list of offsets (lines 404-409, 428-432, 437-442). *)
  Definition appendCells (base : Z) (offsets : list Z) (b : Z -> list P) (slice : Z) : Z -> list P :=
    fold_left (fun b o => setBuf b slice (b slice ++ cellRows (base + o))) offsets b.

  (** Lines 399-410: the first cell of a line fills all buffers. *)
  Definition c01cInit (base : Z) (b : Z -> list P) : Ring :=
    mkRing (fold_left (fun b slice => appendCells base (cOff slice) (setBuf b slice []) slice) (zrange 0 cOffSize) b) 0.

  (** [for (slice = from; slice != to; ++slice %= cOffSize, ++i)], as the list of
      pairs (slice, i).  There are at most cOffSize different values of slice. *)
  Fixpoint ringLoop (fuel : nat) (slice to i : Z) : list (Z * Z) :=
    match fuel with
    | O => []
    | S n => if slice =? to then [] else (slice, i) :: ringLoop n ((slice + 1) mod cOffSize) to (i + 1)
    end.

  (** Lines 416-422. *)
  Definition c01cReduce (base : Z) (b : Z -> list P) (e : Z * Z) : Z -> list P :=
    let '(slice, i) := e in
    let newSize := fold_left (fun n o => (n + length (cellRows (base + o)))%nat) (cOff i) O in
    setBuf b slice (resizeList P zeroP newSize (b slice)).

  (** Lines 425-433. *)
  Definition c01cAppend (base : Z) (b : Z -> list P) (e : Z * Z) : Z -> list P :=
    let '(slice, i) := e in
    appendCells base (skipn (length (cOff ((i + 1) mod cOffSize))) (cOff i)) b slice.

  (** Lines 411-445: a further cell of the line. *)
  Definition c01cAdvance (base : Z) (r : Ring) : Ring :=
    let fuel := Z.to_nat cOffSize in
    let midSlice := (cur r + ix ov + 1) mod cOffSize in
    let l1 := ringLoop fuel ((cur r + 1) mod cOffSize) midSlice 0 in
    let b1 := fold_left (c01cReduce base) l1 (buf r) in
    let l2 := ringLoop fuel midSlice (cur r) (Z.of_nat (length l1)) in
    let b2 := fold_left (c01cAppend base) l2 b1 in
    let b3 := appendCells base (cOff (cOffSize - 1)) (setBuf b2 (cur r) []) (cur r) in
    mkRing b3 ((cur r + 1) mod cOffSize).

  (** Lines 447-461: the interactions.  A combination slice is a cell that may own
      particles (ParticleCell.h:189); no sorting direction is passed. *)
  Definition c01cInteract (baseCell : Cell P) (r : Ring) : list (Call P) :=
    flat_map (fun slice =>
      if slice =? (cur r + ix ov) mod cOffSize then
        soaPair false (parts baseCell) (skipn (length (parts baseCell)) (buf r slice)) ++
        processCell isHalo view far cf baseCell
      else processCellPair view far cf false baseCell (mkCell (buf r slice) true))
      (zrange 0 cOffSize).

  (** processBaseCellPairwise with combineSoA, lines 384-461. *)
  Definition c01cProcessBaseCell (r : Ring) (b : I3) : Ring * list (Call P) :=
    let base := threeToOneD b dims in
    let r' := if ix b =? ix ov then c01cInit base (buf r) else c01cAdvance base r in
    (r', match nth_error cells (Z.to_nat base) with Some c => c01cInteract c r' | None => [] end).

  (** A thread handles iterations of the collapsed z/y loop; in each it walks along
      x (ColorBasedTraversal.h:151-160 with collapse depth 2,
      LCC01Traversal.h:81; C01BasedTraversal.h:54-62). *)
  Definition c01Line (yz : Z * Z) : list I3 :=
    map (fun x => mkI3 x (fst yz) (snd yz)) (zsteps (ix ov) (ix dims - ix ov) 1).
  Definition c01Lines : list (Z * Z) :=
    flat_map (fun z => map (fun y => (y, z)) (zsteps (iy ov) (iy dims - iy ov) 1)) (zsteps (iz ov) (iz dims - iz ov) 1).

  Fixpoint c01cRun (r : Ring) (bases : list I3) : list (Call P) :=
    match bases with
    | [] => []
    | b :: rest => let '(r', calls) := c01cProcessBaseCell r b in calls ++ c01cRun r' rest
    end.

  (** One thread with the buffers [r] left over from before and the lines it gets
      from the dynamic schedule. *)
  Definition c01cThread (r : Ring) (lines : list (Z * Z)) : list (Call P) := c01cRun r (flat_map c01Line lines).
  (** All threads: the functor calls of each. *)
  Definition c01cThreads (threads : list (Ring * list (Z * Z))) : list (list (Call P)) :=
    map (fun t => c01cThread (fst t) (snd t)) threads.
End CombinedC01.
