(** C33: updating a container whose neighbour lists need not stay valid. *)
From Coq Require Import Reals Permutation.
From Verif.Base Require Import ZRange.
From Verif.Grid Require Import IndexModel IndexSpec CellBlockModel CellBlockSpec CellBlockFloat.
From Verif.Functor Require Import SortModel.
From Verif.Container Require Import LinkedCellsSpec IteratorModel IteratorSpec ParticleModel UpdateModel UpdateProofs UpdateExample.
From Verif.Octree Require Import OctreeModel OctreeSpec OctreeContainerModel OctreeContainer OctreeExample OctreeContainerExample.
From Verif.Cluster Require Import TowerModel TowerSpec BlockModel ListsExample
  ClusterContainerModel ClusterContainerSpec ClusterUpdate ClusterContainerExample.
Local Open Scope Z_scope.

(** Linked cells, for all contents and all positions: the update never fails, exactly
    the owned particles in the box stay, each in the cell of its position, and exactly
    the owned particles outside of the box are returned, all of them as often as they
    were there.  [order] is the order in which the threads reinsert particles. *)
Theorem C33_linked_cells : forall il csf bMin bMax cells,
  let b := rebuild rndExact il csf bMin bMax in
  validGrid il csf bMin bMax -> Z.of_nat (length cells) = numCells (blockDims b) ->
  (forall k p, In p (nth k cells []) -> validState (pown p) /\
     (pown p = 1 -> cellCanContainOwnedParticles b (Z.of_nat k) = true) /\
     (pown p = 2 -> cellCanContainHaloParticles b (Z.of_nat k) = true)) ->
  exists stays leaves cells1 moved,
    (forall p, stays p = true <-> pown p = 1 /\ inBox bMin bMax (ppos p)) /\
    (forall p, leaves p = true <-> pown p = 1 /\ ~ inBox bMin bMax (ppos p)) /\
    lcUpdateSweep rndExact b cells = Some (cells1, moved) /\
    forall order, Permutation order moved ->
    exists cells' out, lcReinsert rndExact b bMin bMax cells1 order = Some (cells', out) /\
      length cells' = length cells /\
      Permutation (concat cells') (filter stays (concat cells)) /\
      Permutation out (filter leaves (concat cells)) /\
      (forall k p, In p (nth k cells' []) -> get1DIndexOfPosition rndExact b (ppos p) = Some (Z.of_nat k)).
Proof. exact lc_update_props. Qed.
Print Assumptions C33_linked_cells.

(** In IEEE arithmetic: no owned particle is lost or duplicated, all returned ones
    are outside the box, and all others are in cells for owned particles, in the
    cell of their position or in one whose bounding box contains them. *)
Theorem C33_linked_cells_double : forall il csf bMin bMax cells,
  let b := rebuild rndDouble il csf bMin bMax in
  floatGrid il csf bMin bMax -> Z.of_nat (length cells) = numCells (blockDims b) ->
  (forall k p, In p (nth k cells []) -> validState (pown p) /\
     (pown p = 1 -> cellCanContainOwnedParticles b (Z.of_nat k) = true) /\
     (pown p = 2 -> cellCanContainHaloParticles b (Z.of_nat k) = true)) ->
  exists owned cells1 moved,
    (forall p, owned p = true <-> pown p = 1) /\
    lcUpdateSweep rndDouble b cells = Some (cells1, moved) /\
    forall order, Permutation order moved ->
    exists cells' out, lcReinsert rndDouble b bMin bMax cells1 order = Some (cells', out) /\
      length cells' = length cells /\
      Permutation (concat cells' ++ out) (filter owned (concat cells)) /\
      (forall p, In p out -> ~ inBox bMin bMax (ppos p)) /\
      (forall k p, In p (nth k cells' []) -> cellCanContainOwnedParticles b (Z.of_nat k) = true /\
         (get1DIndexOfPosition rndDouble b (ppos p) = Some (Z.of_nat k) \/
          let box := getCellBoundingBox rndDouble b (oneToThreeD (Z.of_nat k) (blockDims b)) in inBox (fst box) (snd box) (ppos p))).
Proof. exact lc_update_double. Qed.
Print Assumptions C33_linked_cells_double.

(** Direct sum. *)
Theorem C33_direct_sum : forall bMin bMax cells, length cells = 7%nat ->
  (forall c l x, nth_error cells c = Some l -> In x l ->
     validState (pown x) /\ (c = 0%nat -> pown x <> 2) /\ (c <> 0%nat -> pown x <> 1)) ->
  exists stays leaves owned out,
    (forall p, stays p = true <-> pown p = 1 /\ inBox bMin bMax (ppos p)) /\
    (forall p, leaves p = true <-> pown p = 1 /\ ~ inBox bMin bMax (ppos p)) /\
    dsUpdate bMin bMax cells = Some ([owned; []; []; []; []; []; []], out) /\
    Permutation owned (filter stays (concat cells)) /\ Permutation out (filter leaves (concat cells)).
Proof. exact ds_update_props. Qed.
Print Assumptions C33_direct_sum.

(** Octree, for all shapes, contents and positions and every arithmetic that is
    [precise] (exact arithmetic and doubles are, C41): the update ends, the new tree has
    been built from exactly the owned particles in the box (so C41 and C42 hold for it),
    and exactly the owned particles outside of the box are returned. *)
Theorem C33_octree : forall rnd threshold il bMin bMax M eps owned halo,
  precise rnd M eps il bMin bMax -> boxMin owned = bMin -> boxMax owned = bMax ->
  (forall p, In p (collectAllParticles owned) -> validState (pown p) /\ pown p <> 2) ->
  (forall p, In p (collectAllParticles halo) -> validState (pown p) /\ pown p <> 1) ->
  exists stays leaves owned' halo' out fuel0,
    (forall p, stays p = true <-> pown p = 1 /\ inBox bMin bMax (ppos p)) /\
    (forall p, leaves p = true <-> pown p = 1 /\ ~ inBox bMin bMax (ppos p)) /\
    (forall fuel, (fuel0 <= fuel)%nat -> otUpdate rnd threshold il fuel bMin bMax owned halo = Some (owned', halo', out)) /\
    builtBy ppos rnd threshold il bMin bMax (filter stays (collectAllParticles owned)) owned' /\
    builtBy ppos rnd threshold il (boxMin halo) (boxMax halo) [] halo' /\
    Permutation (collectAllParticles owned' ++ collectAllParticles halo') (filter stays (collectAllParticles owned ++ collectAllParticles halo)) /\
    Permutation out (filter leaves (collectAllParticles owned ++ collectAllParticles halo)).
Proof. exact ot_update. Qed.
Print Assumptions C33_octree.

(** Cluster lists, for every schedule of the threads: [all] are the particles in the towers
    and in _particlesToAdd, [before] says whether a thread deleted a halo particle from a
    tower it saw before (it depends on the distribution of the towers).  The update never
    accesses anything out of range, it ends, exactly the owned particles in the box stay,
    and exactly the owned particles outside of the box are returned.  (The particles that
    left are still there, marked as dummies.) *)
Theorem C33_cluster_lists : forall old g bMin bMax numThreads T before towers toAdd valid,
  loopThreads 1 numThreads T -> inTowers pown old g (map collectAllActualParticles towers) -> Forall padded towers ->
  vclBuffers pown 0 0 valid toAdd -> toAdd <> [] ->
  let all := concat (map collectAllActualParticles towers) ++ concat toAdd in
  exists stays leaves live towers1 toAdd1 valid1,
    (forall p, stays p = true <-> pown p = 1 /\ inBox bMin bMax (ppos p)) /\
    (forall p, leaves p = true <-> pown p = 1 /\ ~ inBox bMin bMax (ppos p)) /\
    (forall p, live p = true <-> pown p <> 0) /\
    vclUpdateStart before towers toAdd valid = Some (towers1, toAdd1, valid1) /\
    forall schedule, exists st ths,
      vclUpdateLoop g bMin bMax numThreads T towers1 toAdd1 valid1 schedule = Some (st, ths) /\
      ((forall t, (t < T)%nat -> (2 * length all + 1 < count_occ Nat.eq_dec schedule t)%nat) -> Forall finished ths) /\
      (Forall finished ths ->
        Permutation (filter live (contents st)) (filter stays all) /\
        Permutation (flat_map (leavers bMin bMax) ths) (filter leaves all)).
Proof. exact vcl_update_props. Qed.
Print Assumptions C33_cluster_lists.

Example C33_cluster_lists_nonvacuous : let g := initialGrid lMin lMax 1 in
  loopThreads 1 2 2 /\ Forall padded [emptyTower] /\ inTowers pown ppos g (map collectAllActualParticles [emptyTower]) /\
  vclBuffers pown 0 0 false vAdd /\ vAdd <> [] /\ vclGather 1 0 0 false (mkStore [[]] vAdd) <> [] /\
  inBox lMin lMax (ppos vIn) /\ ~ inBox lMin lMax (ppos vOut).
Proof. exact vExample. Qed.

(** A split tree with a particle that has left the box and a deleted one. *)
Example C33_octree_nonvacuous : exists M, precise rndExact M 0 1 exLo exHi /\
  let t := treeMap oxNow oxTree in boxMin t = exLo /\ boxMax t = exHi /\ (length (collectAllParticles t) = 2)%nat /\
  (forall p, In p (collectAllParticles t) -> validState (pown p) /\ pown p <> 2%Z).
Proof. exact ox_update. Qed.

(** A container with an owned particle that has left the box, a halo particle that
    has entered it and a deleted particle. *)
Example C33_nonvacuous :
  let b := rebuild rndExact 1 1 (mkR3 0 0 0) (mkR3 3 3 3) in
  validGrid 1 1 (mkR3 0 0 0) (mkR3 3 3 3) /\ Z.of_nat (length exLC) = numCells (blockDims b) /\
  (forall k p, In p (nth k exLC []) -> validState (pown p) /\
     (pown p = 1 -> cellCanContainOwnedParticles b (Z.of_nat k) = true) /\
     (pown p = 2 -> cellCanContainHaloParticles b (Z.of_nat k) = true)) /\
  In exLeft (concat exLC) /\ In exEntered (concat exLC).
Proof. exact (conj (proj1 ex_update) (conj (proj1 (proj1 (proj2 ex_update))) (conj (proj2 (proj1 (proj2 ex_update))) (proj2 (proj2 ex_update))))). Qed.
