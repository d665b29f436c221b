(** Model of the traversals of the cluster lists,
    containers/verletClusterLists/traversals/, and of the cluster thread partition of
    VerletClusterLists.h.

    A traversal is described by the clusters it processes: a list of phases (separated by
    barriers), each a list of concurrent tasks, each the list of the clusters the task
    processes in this order. *)
From Coq Require Import Reals.
From Flocq Require Import Core.
From Verif.Base Require Import ZRange.
From Verif.Grid Require Import IndexModel.
From Verif.Functor Require Import SortModel CellFunctorModel.
From Verif.Container Require Import ParticleModel.
From Verif.Traversal Require Import ColorModel SliceModel.
From Verif.Cluster Require Import TowerModel BlockModel.

Section ClusterFunctor.
  (** _useNewton3 and _dataLayout, VCLClusterFunctor.h:30-31; the particles
      cluster[0], ..., cluster[clusterSize - 1] and the neighbour list of a cluster. *)
  Variable newton3 : bool.
  Variable layout : Layout.
  Variable content : ClusterId -> list Particle.
  Variable neighbors : ClusterId -> list ClusterId.

  (** traverseCluster, VCLClusterFunctor.h:55-71 (SoAFunctorSingle by its contract, see
      CellFunctorModel.v). *)
  Definition traverseCluster (c : ClusterId) : list (Call Particle) :=
    match layout with
    | AoS => flat_map (fun '(p, q) => if newton3 then [mkCall p q true] else [mkCall p q false; mkCall q p false])
               (laterPairs (fun _ l => l) (content c))
    | SoA => soaSingle (content c)
    end.

  (** traverseClusterPair, VCLClusterFunctor.h:78-88. *)
  Definition traverseClusterPair (c d : ClusterId) : list (Call Particle) :=
    match layout with
    | AoS => flat_map (fun p => map (fun q => mkCall p q newton3) (content d)) (content c)
    | SoA => soaPair newton3 (content c) (content d)
    end.

  (** processCluster, VCLClusterFunctor.h:38-49.  (For an empty list line 44 reads the
      first element, which does not exist: see the findings in DESIGN.md.) *)
  Definition processCluster (c : ClusterId) (isHalo : bool) : list (Call Particle) :=
    (if negb isHalo then traverseCluster c else []) ++ flat_map (traverseClusterPair c) (neighbors c).
End ClusterFunctor.

Section Traversals.
  Variable g : Grid.
  Variable tower : Z -> Z -> Tower.
  Variable newton3 : bool.

  (** The loop over the clusters of a tower, VCLC06Traversal.h:146-155,
      VCLSlicedTraversal.h:40-48. *)
  Definition towerClusters (x y : Z) : list ClusterId :=
    let t := tower x y in
    map (fun k => (x, y, k))
      (if newton3 then seq 0 (tClusters t) else seq (tFirstOwned t) (tFirstTail t - tFirstOwned t)).

  (** traverseParticles and processColorCell of VCLC06Traversal.h:91-110, 124-158. *)
  Definition coloringCells (n : Z) : Z := Zceil (IZR n / IZR (gNIL g)).
  Definition colorCellClusters (cell : I3) : list ClusterId :=
    flat_map (fun yInner => flat_map (fun xInner =>
      let y := (iy cell * gNIL g + yInner)%Z in
      let x := (ix cell * gNIL g + xInner)%Z in
      if (gNX g <=? x)%Z || (gNY g <=? y)%Z then [] else towerClusters x y)
      (zrange 0 (gNIL g))) (zrange 0 (gNIL g)).
  Definition c06Tasks : list (list (list ClusterId)) :=
    map (map colorCellClusters)
      (colorTraversal (mkI3 (coloringCells (gNX g)) (coloringCells (gNY g)) 1) (mkI3 3 2 1) (mkI3 0 0 0)).

  (** VCLClusterIterationTraversal.h:61-69 with traverseClustersParallel,
      VerletClusterLists.h:1035-1052: one task per tower, only without Newton 3. *)
  Definition clusterIterationTasks : list (list (list ClusterId)) :=
    [flat_map (fun x => map (fun y => towerClusters x y) (zrange 0 (gNY g))) (zrange 0 (gNX g))].

  (** The sliced traversals: VCLSlicedTraversal.h, VCLSlicedC02Traversal.h,
      VCLSlicedBalancedTraversal.h, with SlicedBasedTraversal.h:180-187.  [dims] are the
      numbers of towers given to the constructor; the slices and layers are those of
      SliceModel.v with spaciallyForward = false. *)
  Definition layerClusters (dims : I3) (layer : Z) : list ClusterId :=
    flat_map (fun i => towerClusters (ix i) (iy i)) (layerCells dims (mkI3 0 0 0) layer).
End Traversals.

(** _overlap, SlicedBasedTraversal.h:181-187, for base steps in both directions. *)
Definition vclOverlap (il : R) (cellLength : R3) : I3 :=
  mkI3 (Zceil (il / rx cellLength) * 2) (Zceil (il / ry cellLength) * 2) (Zceil (il / rz cellLength) * 2).

(** getTraversalSelectorInfo, VerletClusterLists.h:389-399: the numbers and the size of
    the towers as estimated at the moment of the call ([opt] for the current number of
    particles). *)
Definition selectorDims (bMin bMax : R3) (il opt : R) : I3 :=
  mkI3 (numTowers (rx bMax - rx bMin) opt il) (numTowers (ry bMax - ry bMin) opt il) 1.
Definition selectorSize (bMin bMax : R3) (il opt : R) : R3 :=
  mkR3 (sideLength (rx bMax - rx bMin) opt) (sideLength (ry bMax - ry bMin) opt) ((rz bMax + il) - (rz bMin - il)).

(** The cluster thread partition. *)
Record ClusterRange := mkRange { startTower : nat; startIndex : nat; numClusters : nat }.

Section Partition.
  (** The towers in storage order: first owned and first tail halo cluster. *)
  Variable towers : list (nat * nat).
  (** Length of the neighbour list of a cluster (tower, index). *)
  Variable listSize : nat -> nat -> nat.
  (** Arguments of fillClusterRanges. *)
  Variable pairsPerThread numThreads : nat.

  (** The owned clusters in the order of the loops, VerletClusterLists.h:1098-1107. *)
  Definition ownedClusters : list (nat * nat) :=
    concat (map (fun '(i, (fo, ft)) => map (fun k => (i, k)) (seq fo (ft - fo))) (combine (seq 0 (length towers)) towers)).

  (** Local variables of the loop, VerletClusterLists.h:1092-1096: the partition, the
      current thread, the clusters to add, the pairs so far, whether the thread is
      initialised. *)
  Record FillState := mkFill {
    partition : list ClusterRange; currentThread : nat; toAddN : nat; pairsTotal : nat; initialized : bool }.

  Fixpoint setRange (l : list ClusterRange) (i : nat) (r : ClusterRange) : list ClusterRange :=
    match l, i with
    | [], _ => []
    | _ :: t, O => r :: t
    | x :: t, S j => x :: setRange t j r
    end.
  Definition addTo (l : list ClusterRange) (i n : nat) : list ClusterRange :=
    match nth_error l i with
    | Some r => setRange l i (mkRange (startTower r) (startIndex r) (numClusters r + n))
    | None => l
    end.

  (** The body of the loops, VerletClusterLists.h:1108-1137. *)
  Definition fillStep (s : FillState) (c : nat * nat) : FillState :=
    let '(t, k) := c in
    let part := if initialized s then partition s else setRange (partition s) (currentThread s) (mkRange t k 0) in
    let n := S (toAddN s) in
    let pairs := (pairsTotal s + listSize t k)%nat in
    if (pairsPerThread * (currentThread s + 1) <=? pairs)%nat then
      let part' := addTo part (currentThread s) n in
      if (numThreads <=? S (currentThread s))%nat then mkFill part' (currentThread s) 0 pairs true
      else mkFill part' (S (currentThread s)) 0 pairs false
    else mkFill part (currentThread s) n pairs true.

  (** fillClusterRanges, VerletClusterLists.h:1082-1150.  (The resize keeps the old
      ranges; they are overwritten before they are used: [old].) *)
  Definition fillClusterRanges (old : list ClusterRange) : list ClusterRange :=
    let start := mkFill (firstn numThreads (old ++ repeat (mkRange 0 0 0) numThreads)) 0 0 0 false in
    let s := fold_left fillStep ownedClusters start in
    let part := if initialized s then partition s else setRange (partition s) (currentThread s) (mkRange 0 0 0) in
    let part := if (toAddN s =? 0)%nat then part else addTo part (currentThread s) (toAddN s) in
    fold_left (fun p i => setRange p i (mkRange 0 0 0)) (seq (S (currentThread s)) (numThreads - S (currentThread s))) part.

  (** The loops of one thread, VCLC01BalancedTraversal.h:66-86: the clusters it
      processes; [count] is clusterCount. *)
  Definition rangeInTower (r : ClusterRange) (count i : nat) (fo ft : nat) : list (nat * nat) :=
    let start := if (count =? 0)%nat then startIndex r else fo in
    map (fun k => (i, k)) (firstn (numClusters r - count) (seq start (ft - start))).
  Fixpoint rangeClusters (r : ClusterRange) (count i : nat) (ts : list (nat * nat)) : list (nat * nat) :=
    match ts with
    | [] => []
    | (fo, ft) :: rest =>
      if (count <? numClusters r)%nat then
        let l := rangeInTower r count i fo ft in
        l ++ rangeClusters r (count + length l) (S i) rest
      else []
    end.
  Definition threadClusters (r : ClusterRange) : list (nat * nat) :=
    rangeClusters r 0 (startTower r) (skipn (startTower r) towers).
End Partition.
