(** The container specific parts of iteration: which cells an iterator looks at. *)
From Coq Require Import Reals.
From Verif.Base Require Import ZRange.
From Verif.Grid Require Import IndexModel IndexSpec CellBlockModel.
From Verif.Functor Require Import SortModel.
From Verif.Container Require Import IteratorModel.

Section Containers.
  Context {P : Type}.
  Variable ownership : P -> Z.
  Variable behavior numThreads : Z.
  (** forceSequential switches the stride and the thread number,
      LinkedCells.h:258-259, 493, ContainerIterator.h:236, 335. *)
  Definition itStride : Z := if hasFlag behavior bhForceSequential then 1 else numThreads.
  Definition itThread (t : Z) : Z := if hasFlag behavior bhForceSequential then 0 else t.

  (** The ownership part of cellIsRelevant, LinkedCells.h:497-501. *)
  Definition lcRelevant (b : Block) (c : Z) : bool :=
    (hasFlag behavior bhOwned && cellCanContainOwnedParticles b c) ||
    (hasFlag behavior bhHalo && cellCanContainHaloParticles b c).

  (** LinkedCells::getParticle without a region, LinkedCells.h:205-214, 242-256.
      [marking] is None for LinkedCells; LinkedCellsReferences has the same
      iteration (LinkedCellsReferences.h:199-278) and marks deleted particles. *)
  Definition lcConf (b : Block) (numberOfCells : Z) (marking : option (P -> P)) (t : Z) : Conf P :=
    let start := if hasFlag behavior bhHalo then 0 else firstOwnedCellIndex b in
    let end_ := if hasFlag behavior bhHalo then numberOfCells - 1 else lastOwnedCellIndex b in
    mkConf (lcRelevant b) start end_ end_ itStride (itThread t)
      (fun x => fulfills behavior true (ownership x)) marking.

  (** DirectSum, DirectSum.h:390-478, without ... *)
  Definition dsStart : Z := if hasFlag behavior bhHalo then (if hasFlag behavior bhOwned then 0 else 1) else 0.
  Definition dsEnd (numberOfCells : Z) : Z := if hasFlag behavior bhHalo then numberOfCells - 1 else 0.
  Definition dsConf (numberOfCells : Z) (t : Z) : Conf P :=
    mkConf (fun _ => true) dsStart (dsEnd numberOfCells) (numberOfCells - 1) itStride (itThread t)
      (fun x => fulfills behavior true (ownership x)) None.

  Section Region.
    Variable pos : P -> R3.
    (** utils/inBox.h:24-36. *)
    Definition inBoxb (lo hi x : R3) : bool :=
      let inside l h v := (if Rle_dec l v then true else false) && (if Rlt_dec v h then true else false) in
      inside (rx lo) (rx hi) (rx x) && inside (ry lo) (ry hi) (ry x) && inside (rz lo) (rz hi) (rz x).
    (** utils/inBox.h:67-74. *)
    Definition boxesOverlap (aLow aHigh bLow bHigh : R3) : bool :=
      let overlap al ah bl bh := (if Rlt_dec bl ah then true else false) && (if Rlt_dec al bh then true else false) in
      overlap (rx aLow) (rx aHigh) (rx bLow) (rx bHigh) && overlap (ry aLow) (ry aHigh) (ry bLow) (ry bHigh) &&
      overlap (rz aLow) (rz aHigh) (rz bLow) (rz bHigh).

    (** The constructor of ContainerIterator clamps the region to the box with halo,
        ContainerIterator.h:243-249 (exact arithmetic). *)
    Definition clampLow (il : R) (bMin lo : R3) : R3 :=
      mkR3 (Rmax (rx lo) (rx bMin - il)) (Rmax (ry lo) (ry bMin - il)) (Rmax (rz lo) (rz bMin - il)).
    Definition clampHigh (il : R) (bMax hi : R3) : R3 :=
      mkR3 (Rmin (rx hi) (rx bMax + il)) (Rmin (ry hi) (ry bMax + il)) (Rmin (rz hi) (rz bMax + il)).

    Definition shift (v : R3) (s : R) : R3 := mkR3 (rx v + s)%R (ry v + s)%R (rz v + s)%R.

    (** LinkedCells::getParticleImpl<true>, LinkedCells.h:228-247, 487-510.  [lo],
        [hi] is the clamped region, [margin] is _skinPerTimestep *
        getStepsSinceLastRebuild().  None: the cast in get1DIndexOfPosition is
        undefined. *)
    Definition lcRegionConf (rnd : R -> R) (b : Block) (margin : R) (lo hi : R3) (marking : option (P -> P)) (t : Z)
      : option (Conf P) :=
      let loM := shift lo (- margin) in
      let hiM := shift hi margin in
      match get1DIndexOfPosition rnd b loM, get1DIndexOfPosition rnd b hiM with
      | Some start, Some end_ =>
          Some (mkConf
            (fun c => lcRelevant b c &&
               (let '(cLow, cHigh) := getCellBoundingBox rnd b (oneToThreeD c (blockDims b)) in
                boxesOverlap cLow cHigh loM hiM))
            start end_ end_ itStride (itThread t)
            (fun x => fulfills behavior (inBoxb lo hi (pos x)) (ownership x)) marking)
      | _, _ => None
      end.

    (** ... and with a region: a region strictly inside the box changes the start
        cell to 0, which it is already if the behaviour contains owned. *)
    Definition dsRegionConf (numberOfCells : Z) (lo hi : R3) (t : Z) : Conf P :=
      mkConf (fun _ => true) dsStart (dsEnd numberOfCells) (numberOfCells - 1) itStride (itThread t)
        (fun x => fulfills behavior (inBoxb lo hi (pos x)) (ownership x)) None.
  End Region.
End Containers.
