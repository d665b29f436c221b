(** C51, C52, C53: the traversals of the cluster lists. *)
From Coq Require Import Reals.
From Verif.Base Require Import ZRange.
From Verif.Grid Require Import IndexModel CellBlockSpec.
From Verif.Functor Require Import SortModel SortSpec.
From Verif.Container Require Import ParticleModel IteratorModel IteratorContainers.
From Verif.Traversal Require Import ColorModel SliceModel SliceSpec LockModel.
From Verif.Cluster Require Import TowerModel TowerSpec TowerExample BlockModel BlockBuild ListsSpec ListsExample.
From Verif.Cluster Require Import ClusterTraversalModel TraversalSpec PartitionProofs TraversalProps.
Local Open Scope Z_scope.

(** C51: after a rebuild (in exact arithmetic, see [validRebuild]) every traversal of the
    cluster lists makes every particle receive the contribution of every other particle at
    most once, and exactly once if the particle is owned and they were within the
    interaction length, until the next rebuild. *)
Theorem C51_c06 : forall sortZ cs bMin bMax il opt old toAdd newton3, validRebuild sortZ cs bMin bMax il opt old toAdd ->
  let g := estimatedGrid bMin bMax il opt in
  let towers := finalTower sortZ cs g old toAdd in
  computesPairsOnce sortZ cs bMin bMax il opt old toAdd newton3 (concat (concat (c06Tasks g (byXY g towers) newton3))).
Proof. intros. now apply c06_once. Qed.
Print Assumptions C51_c06.

Theorem C51_cluster_iteration : forall sortZ cs bMin bMax il opt old toAdd, validRebuild sortZ cs bMin bMax il opt old toAdd ->
  let g := estimatedGrid bMin bMax il opt in
  let towers := finalTower sortZ cs g old toAdd in
  computesPairsOnce sortZ cs bMin bMax il opt old toAdd false (concat (concat (clusterIterationTasks g (byXY g towers) false))).
Proof. intros. now apply iteration_once. Qed.
Print Assumptions C51_cluster_iteration.

(** For every number of threads, every target load, all list lengths, and whatever the
    partition held before. *)
Theorem C51_c01_balanced : forall sortZ cs bMin bMax il opt old toAdd, validRebuild sortZ cs bMin bMax il opt old toAdd ->
  let g := estimatedGrid bMin bMax il opt in
  let towers := finalTower sortZ cs g old toAdd in
  forall listSize pairsPerThread threads ranges, (0 < threads)%nat ->
  let partition := fillClusterRanges (towerRanges g towers) listSize pairsPerThread threads ranges in
  computesPairsOnce sortZ cs bMin bMax il opt old toAdd false
    (concat (map (fun r => map (clusterAt g) (threadClusters (towerRanges g towers) r)) partition)).
Proof. intros. now apply balanced_once. Qed.
Print Assumptions C51_c01_balanced.

(** In whatever order the threads of a lock based sliced traversal have processed layers
    ([done]) when nothing can go on any more, if the number of particles has not changed
    since the rebuild (so that the traversal is given the dimensions of the grid). *)
Theorem C51_sliced : forall sortZ cs bMin bMax il opt old toAdd newton3, validRebuild sortZ cs bMin bMax il opt old toAdd ->
  let g := estimatedGrid bMin bMax il opt in
  let towers := finalTower sortZ cs g old toAdd in
  let dims := selectorDims bMin bMax il opt in
  let len := comp (dimLong dims) dims in
  let ov := comp (dimLong dims) (vclOverlap il (selectorSize bMin bMax il opt)) in
  forall t k done st, vclSlicing len ov t -> ov + 1 <= len ->
  let n := Z.of_nat (length t) in
  reach n (initState (sliceProg t ov)) k done st -> (forall s ev st', ~ step n st s ev st') ->
  computesPairsOnce sortZ cs bMin bMax il opt old toAdd newton3 (flat_map (layerClusters (byXY g towers) newton3 dims) done).
Proof. intros sortZ cs bMin bMax il opt old toAdd newton3 V g towers dims len ov t k done st T L n R. exact (proj1 (sliced_once sortZ cs bMin bMax il opt old toAdd V newton3 t k done st T L R)). Qed.
Print Assumptions C51_sliced.

Theorem C51_sliced_c02 : forall sortZ cs bMin bMax il opt old toAdd newton3, validRebuild sortZ cs bMin bMax il opt old toAdd ->
  let g := estimatedGrid bMin bMax il opt in
  let towers := finalTower sortZ cs g old toAdd in
  let dims := selectorDims bMin bMax il opt in
  let len := comp (dimLong dims) dims in
  let ov := comp (dimLong dims) (vclOverlap il (selectorSize bMin bMax il opt)) in
  ov <= len ->
  let tasks := map (map (flat_map (layerClusters (byXY g towers) newton3 dims))) (c02Tasks (initSliceThickness len ov ov false)) in
  computesPairsOnce sortZ cs bMin bMax il opt old toAdd newton3 (concat (concat tasks)).
Proof. intros. now apply c02_once. Qed.
Print Assumptions C51_sliced_c02.

(** If the number of particles has changed since the rebuild, the sliced traversals are
    given the numbers of towers of another grid and miss towers: box of side 4, 256
    particles when the grid was built, 32 now.  Whatever the towers hold, no cluster of
    the tower of a position in the box is processed. *)
Theorem C51_changed_number_refuted : forall t newton3 k,
  let g := estimatedGrid lMin lMax 1 1 in
  isOptimal lMin lMax 256 4 1 /\ isOptimal lMin lMax 32 4 2 /\
  let dims := selectorDims lMin lMax 1 2 in
  inBox lMin lMax dPos /\
  ~ In (towerAt g dPos, k) (flat_map (layerClusters (byXY g t) newton3 dims) (zrange 0 (comp (dimLong dims) dims))).
Proof. exact changed_number. Qed.
Print Assumptions C51_changed_number_refuted.

(** C52: tasks of one phase never change particles of the same cluster. *)
Theorem C52_c06 : forall sortZ cs bMin bMax il opt old toAdd newton3, validRebuild sortZ cs bMin bMax il opt old toAdd ->
  let g := estimatedGrid bMin bMax il opt in
  let towers := finalTower sortZ cs g old toAdd in
  let lists := neighborList cs g (byXY g (movedTower sortZ cs g old toAdd)) newton3 in
  Forall (separate newton3 lists) (c06Tasks g (byXY g towers) newton3).
Proof. intros. now apply c06_once. Qed.
Print Assumptions C52_c06.

Theorem C52_cluster_iteration : forall sortZ cs bMin bMax il opt old toAdd, validRebuild sortZ cs bMin bMax il opt old toAdd ->
  let g := estimatedGrid bMin bMax il opt in
  let towers := finalTower sortZ cs g old toAdd in
  let lists := neighborList cs g (byXY g (movedTower sortZ cs g old toAdd)) false in
  Forall (separate false lists) (clusterIterationTasks g (byXY g towers) false).
Proof. intros. now apply iteration_once. Qed.
Print Assumptions C52_cluster_iteration.

Theorem C52_c01_balanced : forall sortZ cs bMin bMax il opt old toAdd, validRebuild sortZ cs bMin bMax il opt old toAdd ->
  let g := estimatedGrid bMin bMax il opt in
  let towers := finalTower sortZ cs g old toAdd in
  let lists := neighborList cs g (byXY g (movedTower sortZ cs g old toAdd)) false in
  forall listSize pairsPerThread threads ranges, (0 < threads)%nat ->
  let partition := fillClusterRanges (towerRanges g towers) listSize pairsPerThread threads ranges in
  separate false lists (map (fun r => map (clusterAt g) (threadClusters (towerRanges g towers) r)) partition).
Proof. intros. now apply balanced_once. Qed.
Print Assumptions C52_c01_balanced.

(** At every moment of every execution of a lock based sliced traversal. *)
Theorem C52_sliced : forall sortZ cs bMin bMax il opt old toAdd newton3, validRebuild sortZ cs bMin bMax il opt old toAdd ->
  let g := estimatedGrid bMin bMax il opt in
  let towers := finalTower sortZ cs g old toAdd in
  let lists := neighborList cs g (byXY g (movedTower sortZ cs g old toAdd)) newton3 in
  let dims := selectorDims bMin bMax il opt in
  let len := comp (dimLong dims) dims in
  let ov := comp (dimLong dims) (vclOverlap il (selectorSize bMin bMax il opt)) in
  forall t k done st, vclSlicing len ov t -> ov + 1 <= len ->
  let n := Z.of_nat (length t) in
  reach n (initState (sliceProg t ov)) k done st ->
  forall s1 s2 l1 l2 c, 0 <= s1 < n -> 0 <= s2 < n -> s1 <> s2 -> processing st s1 l1 -> processing st s2 l2 ->
    changes newton3 lists (layerClusters (byXY g towers) newton3 dims l1) c ->
    changes newton3 lists (layerClusters (byXY g towers) newton3 dims l2) c -> False.
Proof. intros sortZ cs bMin bMax il opt old toAdd newton3 V g towers lists dims len ov t k done st T L n R. exact (proj2 (sliced_once sortZ cs bMin bMax il opt old toAdd V newton3 t k done st T L R)). Qed.
Print Assumptions C52_sliced.

Theorem C52_sliced_c02 : forall sortZ cs bMin bMax il opt old toAdd newton3, validRebuild sortZ cs bMin bMax il opt old toAdd ->
  let g := estimatedGrid bMin bMax il opt in
  let towers := finalTower sortZ cs g old toAdd in
  let lists := neighborList cs g (byXY g (movedTower sortZ cs g old toAdd)) newton3 in
  let dims := selectorDims bMin bMax il opt in
  let len := comp (dimLong dims) dims in
  let ov := comp (dimLong dims) (vclOverlap il (selectorSize bMin bMax il opt)) in
  ov <= len ->
  Forall (separate newton3 lists) (map (map (flat_map (layerClusters (byXY g towers) newton3 dims))) (c02Tasks (initSliceThickness len ov ov false))).
Proof. intros. now apply c02_once. Qed.
Print Assumptions C52_sliced_c02.

(** C53: the partition for vcl_c01_balanced has one range per thread, and the threads
    together process exactly the owned clusters, each once and in their order. *)
Theorem C53_partition : forall listSize pairsPerThread threads, (0 < threads)%nat -> forall towers ranges,
  concat (map (threadClusters towers) (fillClusterRanges towers listSize pairsPerThread threads ranges)) = ownedClusters towers /\
  length (fillClusterRanges towers listSize pairsPerThread threads ranges) = threads.
Proof. exact partition_complete. Qed.
Print Assumptions C53_partition.

(** The hypotheses hold for two owned particles in different towers and a halo particle;
    six towers per dimension in two slices. *)
Example C51_example : validRebuild insertionSort 4 lMin lMax 1 1 [] lAdd /\
  (forall p, In p lAdd -> inBox (haloMin (estimatedGrid lMin lMax 1 1)) (haloMax (estimatedGrid lMin lMax 1 1)) (ppos p)) /\
  (dist3 (ppos (lP 1 (9 / 10) 1 1 stOwned)) (ppos (lP 2 (11 / 10) 1 1 stOwned)) <= 1)%R /\
  sameParticles 4 (estimatedGrid lMin lMax 1 1) (finalTower insertionSort 4 (estimatedGrid lMin lMax 1 1) [] lAdd)
    (fun '(x, y, k) => clusterOf 4 (byXY (estimatedGrid lMin lMax 1 1) (finalTower insertionSort 4 (estimatedGrid lMin lMax 1 1) [] lAdd) x y) k) /\
  selectorDims lMin lMax 1 1 = mkI3 6 6 1 /\
  comp (dimLong (selectorDims lMin lMax 1 1)) (vclOverlap 1 (selectorSize lMin lMax 1 1)) = 2 /\
  vclSlicing 6 2 [3; 3] /\ 2 + 1 <= 6.
Proof. exact valid_example. Qed.

(** Three threads and four towers, the second one empty. *)
Example C53_example : map (threadClusters [(0, 3); (1, 1); (1, 4); (0, 2)]%nat) (fillClusterRanges [(0, 3); (1, 1); (1, 4); (0, 2)]%nat (fun _ k => 2 + k)%nat 9 3 []) =
  [[(0, 0); (0, 1); (0, 2)]; [(2, 1); (2, 2); (2, 3)]; [(3, 0); (3, 1)]]%nat.
Proof. vm_compute. reflexivity. Qed.
