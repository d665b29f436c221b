(** C30: particles in the buffers interact with everything. *)
From Coq Require Import Reals List.
From Verif.Base Require Import ZRange.
From Verif.Grid Require Import IndexModel IndexSpec CellBlockModel CellBlockSpec.
From Verif.Functor Require Import SortModel.
From Verif.Container Require Import LinkedCellsSpec IteratorModel IteratorSpec ParticleModel CollectSpec UpdateExample ForEachModel.
From Verif.Logic Require Import RemainderModel RemainderSpec RemainderContainers RemainderExample.
Import ListNotations.
Local Open Scope Z_scope.

(** With linked cells, in exact arithmetic.  The particles in the container were
    sorted into the cells at positions [old] and moved by at most the skin since then.
    Buffered particles are at most one interaction length away from the box. *)
Theorem C30_linked_cells : forall cutoff skin csf bMin bMax cells old bufs halos newton3 numLocks,
  let il := (cutoff + skin)%R in let b := rebuild rndExact il csf bMin bMax in
  validGrid il csf bMin bMax -> (0 < cutoff)%R -> (0 <= skin)%R ->
  size cells = numCells (blockDims b) ->
  (forall k p, In p (nth k cells []) -> validState (pown p) /\
     (pown p = 1 -> cellCanContainOwnedParticles b (Z.of_nat k) = true) /\
     (pown p = 2 -> cellCanContainHaloParticles b (Z.of_nat k) = true) /\
     (pown p <> 0 -> inBox (getHaloBoxMin b) (getHaloBoxMax b) (old p) /\
        get1DIndexOfPosition rndExact b (old p) = Some (Z.of_nat k) /\ movedWithin old ppos skin p)) ->
  NoDup (concat bufs ++ concat halos ++ concat cells) ->
  (forall p, In p (concat bufs) -> pown p = 1 /\ inGrownBox il bMin bMax (ppos p)) ->
  (forall p, In p (concat halos) -> pown p = 2 /\ inGrownBox il bMin bMax (ppos p)) ->
  length bufs = length halos -> (length bufs <= numLocks)%nat ->
  exists calls,
    remainder2B rndExact newton3 cutoff (fun behavior lo hi => lcForEachInRegion rndExact b skin behavior lo hi cells) numLocks bufs halos = Some calls /\
    remainderCorrect cutoff (concat bufs ++ concat halos) (concat cells) (flat_map forces calls).
Proof. exact remainder_linked_cells. Qed.
Print Assumptions C30_linked_cells.

(** With direct sum. *)
Theorem C30_direct_sum : forall cutoff cells bufs halos newton3 numLocks,
  (0 < cutoff)%R -> length cells = 7%nat ->
  (forall k p, In p (nth k cells []) -> validState (pown p) /\ (k = 0%nat -> pown p <> 2) /\ (k <> 0%nat -> pown p <> 1)) ->
  NoDup (concat bufs ++ concat halos ++ concat cells) ->
  (forall p, In p (concat bufs) -> pown p = 1) -> (forall p, In p (concat halos) -> pown p = 2) ->
  length bufs = length halos -> (length bufs <= numLocks)%nat ->
  exists calls,
    remainder2B rndExact newton3 cutoff (fun behavior lo hi => dsForEachInRegion behavior lo hi cells) numLocks bufs halos = Some calls /\
    remainderCorrect cutoff (concat bufs ++ concat halos) (concat cells) (flat_map forces calls).
Proof. exact remainder_direct_sum. Qed.
Print Assumptions C30_direct_sum.

(** Finding: for particles exactly one cutoff apart, which functors let interact, the
    force is missing or not depending on the direction.  The buffered particle is at
    (1,1,1), the cutoff is 1, the others are at (2,1,1) and (0,1,1). *)
Theorem C30_boundary_refuted :
  let cells := [[exAtCutoff; exAtCutoffBelow]; []; []; []; []; []; []] in
  exists calls, remainder2B rndExact true 1 (fun behavior lo hi => dsForEachInRegion behavior lo hi cells) 1 [[exBuf]] [[]] = Some calls /\
    flat_map forces calls = [(exBuf, exAtCutoffBelow); (exAtCutoffBelow, exBuf)].
Proof. exact remainder_boundary. Qed.
Print Assumptions C30_boundary_refuted.

(** Two threads, an owned and a halo particle in buffers, both near an owned particle
    in the container that has left the box. *)
Example C30_nonvacuous :
  let il := (4 / 5 + 1 / 5)%R in let b := rebuild rndExact il 1 (mkR3 0 0 0) (mkR3 3 3 3) in
  validGrid il 1 (mkR3 0 0 0) (mkR3 3 3 3) /\ size exLC = numCells (blockDims b) /\
  (forall k p, In p (nth k exLC []) -> validState (pown p) /\
     (pown p = 1 -> cellCanContainOwnedParticles b (Z.of_nat k) = true) /\
     (pown p = 2 -> cellCanContainHaloParticles b (Z.of_nat k) = true) /\
     (pown p <> 0 -> inBox (getHaloBoxMin b) (getHaloBoxMax b) (exWas p) /\
        get1DIndexOfPosition rndExact b (exWas p) = Some (Z.of_nat k) /\ movedWithin exWas ppos (1 / 5) p)) /\
  NoDup (concat [[exB]; []] ++ concat [[]; [exH]] ++ concat exLC) /\
  (forall p, In p (concat [[exB]; []]) -> pown p = 1 /\ inGrownBox il (mkR3 0 0 0) (mkR3 3 3 3) (ppos p)) /\
  (forall p, In p (concat [[]; [exH]]) -> pown p = 2 /\ inGrownBox il (mkR3 0 0 0) (mkR3 3 3 3) (ppos p)) /\
  In exLeft (concat exLC) /\ closer (4 / 5) (ppos exLeft) (ppos exB) /\ closer (4 / 5) (ppos exLeft) (ppos exH).
Proof. exact ex_remainder. Qed.
Example C30_direct_sum_nonvacuous :
  (forall k p, In p (nth k exDS []) -> validState (pown p) /\ (k = 0%nat -> pown p <> 2) /\ (k <> 0%nat -> pown p <> 1)) /\
  NoDup (concat [[exB]; []] ++ concat [[]; [exH]] ++ concat exDS) /\ In exLeft (concat exDS).
Proof. exact ex_remainder_ds. Qed.
