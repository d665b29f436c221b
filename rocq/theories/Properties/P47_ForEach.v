(** C47: iteration with a lambda function. *)
From Coq Require Import Reals List Permutation.
From Verif.Base Require Import ZRange.
From Verif.Grid Require Import IndexModel IndexSpec CellBlockModel CellBlockSpec.
From Verif.Functor Require Import SortModel.
From Verif.Container Require Import LinkedCellsSpec IteratorModel IteratorContainers IteratorSpec ParticleModel UpdateExample ForEachModel ForEachProofs.
From Verif.Cluster Require Import TowerModel TowerSpec TowerExample BlockModel ListsExample
  ClusterContainerModel ClusterContainerSpec ClusterUpdate ClusterForEach ClusterContainerExample.
From Verif.Octree Require Import OctreeModel OctreeSpec OctreeContainerModel OctreeContainer OctreeExample OctreeContainerExample.
From Verif.Logic Require Import RemainderExample HandlerModel HandlerSpec HandlerExample.
Import ListNotations.
Local Open Scope Z_scope.

(** LinkedCells::forEach visits exactly the particles asked for: [behavior] is 1 owned,
    2 halo, 3 both, 4 dummy, 7 all. *)
Theorem C47_linked_cells : forall b cells,
  (forall k p, In p (nth k cells []) -> validState (pown p) /\
     (pown p = 1 -> cellCanContainOwnedParticles b (Z.of_nat k) = true) /\
     (pown p = 2 -> cellCanContainHaloParticles b (Z.of_nat k) = true)) ->
  forall behavior, behavior = 1 \/ behavior = 2 \/ behavior = 3 \/ behavior = 4 \/ behavior = 7 ->
  lcForEach b behavior cells = Some (filter (fun p => wantedb behavior (pown p)) (concat cells)).
Proof. exact lc_for_each. Qed.
Print Assumptions C47_linked_cells.

(** LinkedCells::forEachInRegion, exact arithmetic, particles that moved by at most the
    skin since they were sorted into the cells; the region, grown by the skin, reaches
    at most two interaction lengths beyond the box. *)
Theorem C47_linked_cells_region : forall il csf bMin bMax, validGrid il csf bMin bMax ->
  let b := rebuild rndExact il csf bMin bMax in
  forall cells, size cells = numCells (blockDims b) ->
  (forall k p, In p (nth k cells []) -> validState (pown p) /\
     (pown p = 1 -> cellCanContainOwnedParticles b (Z.of_nat k) = true) /\
     (pown p = 2 -> cellCanContainHaloParticles b (Z.of_nat k) = true)) ->
  forall skin old,
  (forall k p, In p (nth k cells []) -> pown p <> 0 ->
     inBox (getHaloBoxMin b) (getHaloBoxMax b) (old p) /\ get1DIndexOfPosition rndExact b (old p) = Some (Z.of_nat k) /\
     movedWithin old ppos skin p) ->
  forall behavior lo hi, (behavior = 1 \/ behavior = 2 \/ behavior = 3 \/ behavior = 4 \/ behavior = 7) -> behavior <> 4 -> behavior <> 7 ->
    (rx bMin - 2 * il <= rx lo - skin)%R -> (ry bMin - 2 * il <= ry lo - skin)%R -> (rz bMin - 2 * il <= rz lo - skin)%R ->
    (rx hi + skin <= rx bMax + 2 * il)%R -> (ry hi + skin <= ry bMax + 2 * il)%R -> (rz hi + skin <= rz bMax + 2 * il)%R ->
    (rx lo - skin <= rx hi + skin)%R -> (ry lo - skin <= ry hi + skin)%R -> (rz lo - skin <= rz hi + skin)%R ->
    exists l, lcForEachInRegion rndExact b skin behavior lo hi cells = Some l /\
      Permutation l (filter (fun p => wantedb behavior (pown p) && inBoxb lo hi (ppos p)) (concat cells)).
Proof. exact lc_for_each_in_region. Qed.
Print Assumptions C47_linked_cells_region.

(** DirectSum::forEach, as long as no particle is marked as deleted (or if all are asked
    for). *)
Theorem C47_direct_sum : forall behavior cells, behavior = 1 \/ behavior = 2 \/ behavior = 3 \/ behavior = 7 -> length cells = 7%nat ->
  (forall k p, In p (nth k cells []) -> validState (pown p) /\ (k = 0%nat -> pown p <> 2) /\ (k <> 0%nat -> pown p <> 1) /\ (behavior <> 7 -> pown p <> 0)) ->
  dsForEach behavior cells = Some (filter (fun p => wantedb behavior (pown p)) (concat cells)).
Proof. exact ds_for_each. Qed.
Print Assumptions C47_direct_sum.

(** DirectSum::forEachInRegion, any region. *)
Theorem C47_direct_sum_region : forall behavior lo hi cells,
  (behavior = 1 \/ behavior = 2 \/ behavior = 3 \/ behavior = 4 \/ behavior = 7) -> behavior <> 4 -> behavior <> 7 -> length cells = 7%nat ->
  (forall k p, In p (nth k cells []) -> validState (pown p) /\ (k = 0%nat -> pown p <> 2) /\ (k <> 0%nat -> pown p <> 1)) ->
  exists l, dsForEachInRegion behavior lo hi cells = Some l /\
    Permutation l (filter (fun p => wantedb behavior (pown p) && inBoxb lo hi (ppos p)) (concat cells)).
Proof. exact ds_for_each_in_region. Qed.
Print Assumptions C47_direct_sum_region.

(** Octree::forEach: [now p] is what the inserted particle [p] has become.  No particle is
    marked as deleted. *)
Theorem C47_octree : forall threshold il lo hi hlo hhi, (0 < il)%R -> below lo hi -> below hlo hhi ->
  forall ps qs owned halo, builtBy ppos rndExact threshold il lo hi ps owned -> builtBy ppos rndExact threshold il hlo hhi qs halo ->
  forall now,
  (forall p, In p ps -> validState (pown (now p)) /\ pown (now p) <> 2) -> (forall p, In p qs -> validState (pown (now p)) /\ pown (now p) <> 1) ->
  forall behavior, behavior = 1 \/ behavior = 2 \/ behavior = 3 ->
  (forall p, In p (ps ++ qs) -> pown (now p) <> 0) ->
  exists l, otForEach behavior (treeMap now owned) (treeMap now halo) = Some l /\
    Permutation l (filter (fun p => wantedb behavior (pown p)) (map now (ps ++ qs))).
Proof. exact ot_for_each. Qed.
Print Assumptions C47_octree.

(** Octree::forEachInRegion, any region, as long as no particle has left its leaf. *)
Theorem C47_octree_region : forall threshold il lo hi hlo hhi, (0 < il)%R -> below lo hi -> below hlo hhi ->
  forall ps qs owned halo, builtBy ppos rndExact threshold il lo hi ps owned -> builtBy ppos rndExact threshold il hlo hhi qs halo ->
  forall now,
  (forall p, In p ps -> validState (pown (now p)) /\ pown (now p) <> 2) -> (forall p, In p qs -> validState (pown (now p)) /\ pown (now p) <> 1) ->
  (forall path l h c p, leafAt owned path l h c -> In p c -> pown (now p) <> 0 -> inBox l h (ppos (now p))) ->
  (forall path l h c p, leafAt halo path l h c -> In p c -> pown (now p) <> 0 -> inBox l h (ppos (now p))) ->
  forall behavior rlo rhi, behavior = 1 \/ behavior = 2 \/ behavior = 3 ->
  exists l, otForEachInRegion rndExact behavior rlo rhi (treeMap now owned) (treeMap now halo) = Some l /\
    Permutation l (filter (fun p => wantedb behavior (pown p) && inBoxb rlo rhi (ppos p)) (map now (ps ++ qs))).
Proof. exact ot_for_each_in_region. Qed.
Print Assumptions C47_octree_region.

Example C47_octree_nonvacuous : (0 < 1)%R /\ below exLo exHi /\ below (exP (-1)) (exP 5) /\
  builtBy ppos rndExact 1 1 exLo exHi [oxA; oxB] oxTree /\ builtBy ppos rndExact 1 1 (exP (-1)) (exP 5) [] oxHalo /\
  (forall p, In p [oxA; oxB] -> validState (pown (oxShift p)) /\ pown (oxShift p) <> 2) /\
  (forall path l h c p, leafAt oxTree path l h c -> In p c -> pown (oxShift p) <> 0 -> inBox l h (ppos (oxShift p))).
Proof. exact ox_region. Qed.

(** VerletClusterLists::forEach: the particles of the towers and those to add, and no
    padding. *)
Theorem C47_cluster_lists : forall towers toAdd behavior, Forall padded towers ->
  (forall p, In p (concat (map collectAllActualParticles towers) ++ concat toAdd) -> validState (pown p)) ->
  behavior = 1 \/ behavior = 2 \/ behavior = 3 ->
  vclForEach behavior towers toAdd =
    Some (filter (fun p => wantedb behavior (pown p)) (concat (map collectAllActualParticles towers) ++ concat toAdd)).
Proof. exact vcl_for_each. Qed.
Print Assumptions C47_cluster_lists.

(** VerletClusterLists::forEachInRegion, any region, particles that moved by at most half
    the skin since the last rebuild. *)
Theorem C47_cluster_lists_region : forall old g skin towers toAdd behavior lo hi, Forall padded towers ->
  inTowers pown old g (map collectAllActualParticles towers) ->
  (forall l p, In l toAdd -> In p l -> validState (pown p)) ->
  (forall t p, In t towers -> In p (collectAllActualParticles t) -> pown p <> 0 -> movedWithin old ppos (skin * / 2) p) ->
  behavior = 1 \/ behavior = 2 \/ behavior = 3 ->
  vclForEachInRegion g skin behavior lo hi towers toAdd =
    Some (filter (fun p => wantedb behavior (pown p) && inBoxb lo hi (ppos p)) (concat (map collectAllActualParticles towers) ++ concat toAdd)).
Proof. exact vcl_for_each_in_region. Qed.
Print Assumptions C47_cluster_lists_region.

Example C47_cluster_lists_nonvacuous : let g := estimatedGrid lMin lMax 1 1 in
  let towers := map (finalTower insertionSort 4 g [] lAdd) (seq 0 (numNew g)) in
  loopThreads 1 2 2 /\ inTowers pown ppos g (map collectAllActualParticles towers) /\ Forall padded towers /\
  vclBuffers pown 0 0 true [[]] /\ Permutation (concat (map collectAllActualParticles towers)) lAdd.
Proof. exact vRebuiltTowers. Qed.

(** Finding: Octree::forEachInRegion compares the region with the boxes of the nodes
    without growing it by the skin: a particle that has left its leaf is missed, no
    matter how little it has moved. *)
Theorem C47_octree_moved_refuted : exists threshold il lo hi hlo hhi ps owned halo now,
  (0 < il)%R /\ below lo hi /\ below hlo hhi /\
  builtBy ppos rndExact threshold il lo hi ps owned /\ builtBy ppos rndExact threshold il hlo hhi [] halo /\
  (forall p, In p ps -> pown (now p) = 1 /\ movedWithin ppos (fun p => ppos (now p)) (il / 4) p) /\
  exists rlo rhi p, In p (map now ps) /\ inBox rlo rhi (ppos p) /\
    otForEachInRegion rndExact 1 rlo rhi (treeMap now owned) (treeMap now halo) = Some [].
Proof. exact ox_moved. Qed.
Print Assumptions C47_octree_moved_refuted.

(** Finding: Octree::forEach also visits deleted particles. *)
Theorem C47_octree_dummies_refuted : exists owned halo p,
  builtBy ppos rndExact 1 1 exLo exHi [oxA; oxB] owned /\ builtBy ppos rndExact 1 1 (exP (-1)) (exP 5) [] halo /\
  let now := fun q => if pid q =? 1 then withOwn 0 q else q in
  p = now oxA /\ otForEach 1 (treeMap now owned) (treeMap now halo) = Some [p; oxB] /\ wantedb 1 (pown p) = false.
Proof. exact ox_dummy. Qed.
Print Assumptions C47_octree_dummies_refuted.

(** Finding: DirectSum::forEach also visits deleted particles. *)
Theorem C47_direct_sum_dummies_refuted :
  dsForEach 1 [[exLeft; exDeleted]; []; []; []; []; []; []] = Some [exLeft; exDeleted] /\ wantedb 1 (pown exDeleted) = false.
Proof. exact ds_for_each_dummies. Qed.
Print Assumptions C47_direct_sum_dummies_refuted.

(** Finding: LinkedCells::forEachInRegion does not clamp the region, so the conversion
    to a cell index is undefined for far away corners. *)
Theorem C47_far_region_refuted : exists il csf bMin bMax lo hi,
  validGrid il csf bMin bMax /\ (rx lo <= rx bMin /\ ry lo <= ry bMin /\ rz lo <= rz bMin)%R /\ hi = bMax /\
  forall skin behavior cells, (0 <= skin <= 1)%R -> lcForEachInRegion rndExact (rebuild rndExact il csf bMin bMax) skin behavior lo hi cells = None.
Proof. exact far_region. Qed.
Print Assumptions C47_far_region_refuted.

(** Finding: the lambda iterations of AutoPas (AutoPasDecl.h:287-440) only ask the
    container; a particle that was added while neighbour lists are valid is in a buffer. *)
Theorem C47_buffer_refuted : exists cutoff spt freq s h s1 p,
  validOptions cutoff spt freq /\ validStart cutoff spt freq s /\ properHistory cutoff spt freq s h s1 /\ disciplined spt false (map fst h) /\
  In p (ownedParticles s1) /\ dsForEach 1 (ccells (cont s1)) = Some [].
Proof.
  exists (1 / 2)%R, (1 / 4)%R, 2, (initial (1 / 2) (1 / 4) 2 KDirectSum xLo xHi 1).
  destruct buffer_refuted as (h & s1 & R). exists h, s1, xB. exact (conj x_opt R).
Qed.
Print Assumptions C47_buffer_refuted.

Example C47_nonvacuous :
  let b := rebuild rndExact 1 1 (mkR3 0 0 0) (mkR3 3 3 3) in
  validGrid 1 1 (mkR3 0 0 0) (mkR3 3 3 3) /\ size exLC = numCells (blockDims b) /\
  (forall k p, In p (nth k exLC []) -> validState (pown p) /\
     (pown p = 1 -> cellCanContainOwnedParticles b (Z.of_nat k) = true) /\
     (pown p = 2 -> cellCanContainHaloParticles b (Z.of_nat k) = true)) /\
  In exLeft (concat exLC) /\ In exEntered (concat exLC).
Proof. exact (conj (proj1 UpdateExample.ex_update) (conj (proj1 (proj1 (proj2 UpdateExample.ex_update))) (conj (proj2 (proj1 (proj2 UpdateExample.ex_update))) (proj2 (proj2 UpdateExample.ex_update))))). Qed.
