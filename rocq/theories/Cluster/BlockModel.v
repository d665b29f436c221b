(** Model of the grid of towers, containers/verletClusterLists/ClusterTowerBlock2D.h, and
    of VerletClusterListsRebuilder.h, over the real numbers (exact arithmetic: rounding
    is not modelled). *)
From Coq Require Import Reals.
From Flocq Require Import Core.
From Verif.Base Require Import ZRange.
From Verif.Functor Require Import SortModel.
From Verif.Container Require Import ParticleModel IteratorModel IteratorContainers.
From Verif.Cluster Require Import TowerModel.
Local Open Scope Z_scope.

(** Members of ClusterTowerBlock2D, ClusterTowerBlock2D.h:384-440: box, interaction
    length, _towerSideLength, _towersPerDim, _numTowersPerInteractionLength. *)
Record Grid := mkGrid {
  gMin : R3; gMax : R3; gIL : R;
  gSideX : R; gSideY : R;
  gNX : Z; gNY : Z;
  gNIL : Z
}.

(** _haloBoxMin, _haloBoxMax, ClusterTowerBlock2D.h:41-42. *)
Definition haloMin (g : Grid) : R3 := mkR3 (rx (gMin g) - gIL g) (ry (gMin g) - gIL g) (rz (gMin g) - gIL g).
Definition haloMax (g : Grid) : R3 := mkR3 (rx (gMax g) + gIL g) (ry (gMax g) + gIL g) (rz (gMax g) + gIL g).

(** estimateOptimalGridSideLength, ClusterTowerBlock2D.h:140-166, one dimension: number
    of towers in the box, side length, number of towers with halo.  [opt] is
    optimalSideLength. *)
Definition ownedTowers (boxSize opt : R) : Z := Zceil (boxSize / opt).
Definition sideLength (boxSize opt : R) : R := (boxSize / IZR (ownedTowers boxSize opt))%R.
Definition haloTowers (il side : R) : Z := Zceil (il / side).
Definition numTowers (boxSize opt il : R) : Z := ownedTowers boxSize opt + 2 * haloTowers il (sideLength boxSize opt).

(** resize with the result of the estimate for at least one particle,
    ClusterTowerBlock2D.h:89-114: the maximum of both dimensions is used. *)
Definition estimatedGrid (bMin bMax : R3) (il opt : R) : Grid :=
  let sx := sideLength (rx bMax - rx bMin) opt in
  let sy := sideLength (ry bMax - ry bMin) opt in
  mkGrid bMin bMax il sx sy (numTowers (rx bMax - rx bMin) opt il) (numTowers (ry bMax - ry bMin) opt il)
    (Z.max (haloTowers il sx) (haloTowers il sy)).

(** The estimate for no particles: one tower, ClusterTowerBlock2D.h:149-151. *)
Definition emptyGrid (bMin bMax : R3) (il : R) : Grid :=
  let sx := (rx bMax - rx bMin)%R in
  let sy := (ry bMax - ry bMin)%R in
  mkGrid bMin bMax il sx sy 1 1 (Z.max (haloTowers il sx) (haloTowers il sy)).

(** [opt] is cbrt(clusterSize / (numParticles / volume)),
    ClusterTowerBlock2D.h:153-157. *)
Definition isOptimal (bMin bMax : R3) (numParticles cs : nat) (opt : R) : Prop :=
  (opt * opt * opt = INR cs / (INR numParticles / ((rx bMax - rx bMin) * (ry bMax - ry bMin) * (rz bMax - rz bMin))))%R.

(** towerIndex2DTo1D, ClusterTowerBlock2D.h:280. *)
Definition tower1D (g : Grid) (x y : Z) : Z := x + y * gNX g.

(** getTowerIndex2DAtPosition, ClusterTowerBlock2D.h:218-243, one dimension. *)
Definition towerDim (g : Grid) (lo hi side : R) (n : Z) (v : R) : Z :=
  let towerDimIndex := Zfloor ((v - lo) * (1 / side)) + gNIL g in
  let clamped := Z.min (Z.max towerDimIndex 0) (n - 1) in
  if Rle_dec (hi + gIL g) v then n - 1
  else if Rlt_dec v (lo - gIL g) then 0
  else clamped.
Definition towerAt (g : Grid) (p : R3) : Z * Z :=
  if gNX g * gNY g =? 1 then (0, 0)
  else (towerDim g (rx (gMin g)) (rx (gMax g)) (gSideX g) (gNX g) (rx p),
        towerDim g (ry (gMin g)) (ry (gMax g)) (gSideY g) (gNY g) (ry p)).

(** getTowerBoundingBox(index2D), ClusterTowerBlock2D.h:190-211. *)
Definition towerLo (g : Grid) (x y : Z) : R3 :=
  mkR3 (rx (gMin g) - gSideX g * IZR (gNIL g) + gSideX g * IZR x)
       (ry (gMin g) - gSideY g * IZR (gNIL g) + gSideY g * IZR y)
       (rz (haloMin g)).
Definition towerHi (g : Grid) (x y : Z) : R3 :=
  mkR3 (rx (towerLo g x y) + gSideX g) (ry (towerLo g x y) + gSideY g) (rz (haloMax g)).

(** cellCanContainOwnedParticles, ClusterTowerBlock2D.h:367-382, with
    _firstOwnedTowerIndex and _lastOwnedTowerIndex, lines 111-113.  (The last one is the
    index of the first halo tower of the upper halo in both dimensions.) *)
Definition firstOwnedTower (g : Grid) : Z := tower1D g (gNIL g) (gNIL g).
Definition lastOwnedTower (g : Grid) : Z := tower1D g (gNX g - gNIL g) (gNY g - gNIL g).
Definition canContainOwned (g : Grid) (i : Z) : bool :=
  if (i <? firstOwnedTower g) || (lastOwnedTower g <? i) then false
  else
    let isHalo v n := (v <? gNIL g) || (n - gNIL g <=? v) in
    negb (isHalo (i mod gNX g) (gNX g) || isHalo (i / gNX g) (gNY g)).

(** rebuildTowersAndClusters, VerletClusterListsRebuilder.h:66-140.  [old] are the
    towers before, [toAdd] _particlesToAdd. *)
Section Rebuild.
  Variable sortZ : list Particle -> list Particle.
  Variable cs : nat.
  Variable g : Grid.
  Variable old : list Tower.
  Variable toAdd : list Particle.

  (** Line 69-71. *)
  Definition oldTowers : list Tower := map deleteDummyParticles old.
  Definition numNew : nat := Z.to_nat (gNX g * gNY g).

  (** Tower [i] after the resize, lines 105-107, and collectOutOfBoundsParticles for it,
      lines 110, 198-206. *)
  Definition resized (i : nat) : Tower := nth i oldTowers emptyTower.
  Definition xOf (i : nat) : Z := Z.of_nat i mod gNX g.
  Definition yOf (i : nat) : Z := Z.of_nat i / gNX g.
  Definition collected (i : nat) : Tower * list Particle :=
    collectOutOfBoundsParticles (towerLo g (xOf i) (yOf i)) (towerHi g (xOf i) (yOf i)) (resized i).

  (** invalidParticles: particles to add, particles of the surplus towers, lines
      97-103, and the particles that are not in the box of their tower. *)
  Definition invalidParticles : list Particle :=
    toAdd ++ flat_map tParts (skipn numNew oldTowers) ++ flat_map (fun i => snd (collected i)) (seq 0 numNew).

  (** sortParticlesIntoTowers, lines 216-231: the particles of the box with halo are
      appended to their towers, in any order between the threads. *)
  Definition sortedInto (i : nat) : list Particle :=
    filter (fun p => inBoxb (haloMin g) (haloMax g) (ppos p) &&
                     ((fst (towerAt g (ppos p)) =? xOf i) && (snd (towerAt g (ppos p)) =? yOf i)))
      invalidParticles.

  (** generateClusters for every tower, lines 131-139. *)
  Definition filledTower (i : nat) : Tower := withParts (fst (collected i)) (tParts (fst (collected i)) ++ sortedInto i).
  Definition orEmpty (t : option Tower) : Tower := match t with Some t => t | None => emptyTower end.
  Definition builtTower (i : nat) : Tower := orEmpty (generateClusters sortZ cs (filledTower i)).
  Definition builtTowers : list Tower := map builtTower (seq 0 numNew).

  (** rebuildNeighborListsAndFillClusters, VerletClusterListsRebuilder.h:152-162: the
      towers while the lists are made (clearNeighborListsAndMoveDummiesIntoClusters,
      168-176) and afterwards. *)
  Definition movedTower (i : nat) : Tower := orEmpty (setDummyParticlesToLastActualParticle cs (builtTower i)).
  Definition finalTower (i : nat) : Tower :=
    orEmpty (setDummyValues cs (1000 * rx (haloMax g) + INR i * (gIL g * 2)) (gIL g * 2) (movedTower i)).
End Rebuild.

(** A cluster: index of the tower in x and y, and of the cluster in the tower. *)
Definition ClusterId : Type := (Z * Z * nat)%type.
Definition eqCluster (a b : ClusterId) : bool :=
  let '(xa, ya, ka) := a in let '(xb, yb, kb) := b in (xa =? xb) && (ya =? yb) && (ka =? kb)%nat.

Section Lists.
  Variable cs : nat.
  Variable g : Grid.
  (** getTowerByIndex2D *)
  Variable tower : Z -> Z -> Tower.
  Variable newton3 : bool.

  (** get1DInteractionCellIndexForTower, VerletClusterListsRebuilder.h:314-323: the
      quotient in ceil is exact. *)
  Definition interactionCell (x y : Z) : Z :=
    x / gNIL g + Zceil (IZR (gNX g) / IZR (gNIL g)) * (y / gNIL g).
  (** isForwardNeighbor, VerletClusterListsRebuilder.h:338-353. *)
  Definition isForward (x y nx ny : Z) : bool :=
    let c := interactionCell x y in
    let n := interactionCell nx ny in
    if c <? n then true
    else if n <? c then false
    else tower1D g x y <=? tower1D g nx ny.

  (** distBetweenTowersXYsqr <= _interactionLengthSqr,
      VerletClusterListsRebuilder.h:284-296. *)
  Definition towersNear (x y nx ny : Z) : bool :=
    let dy := (IZR (Z.max 0 (Z.abs (y - ny) - 1)) * gSideY g)%R in
    let dx := (IZR (Z.max 0 (Z.abs (x - nx) - 1)) * gSideX g)%R in
    if Rle_dec (dx * dx + dy * dy) (gIL g * gIL g) then true else false.

  (** ArrayMath::boxDistanceSquared, ArrayMath.h:663-673. *)
  Definition boxDistanceSquared (aMin aMax bMin bMax : R3) : R :=
    let m a b := Rmax 0 (a - b) in
    let aToB := mkR3 (m (rx aMin) (rx bMax)) (m (ry aMin) (ry bMax)) (m (rz aMin) (rz bMax)) in
    let bToA := mkR3 (m (rx bMin) (rx aMax)) (m (ry bMin) (ry aMax)) (m (rz bMin) (rz aMax)) in
    (dot aToB aToB + dot bToA bToA)%R.
  Definition clustersNear (a b : list Particle) : bool :=
    match boundingBox a, boundingBox b with
    | Some (aMin, aMax), Some (bMin, bMax) =>
      if Rle_dec (boxDistanceSquared aMin aMax bMin bMax) (gIL g * gIL g) then true else false
    | _, _ => false
    end.

  (** isHaloCluster, VerletClusterListsRebuilder.h:376-378. *)
  Definition isHaloCluster (t : Tower) (k : nat) : bool := (k <? tFirstOwned t)%nat || (tFirstTail t <=? k)%nat.

  (** The clusters that have a list, VerletClusterListsRebuilder.h:132-133 and 380-381. *)
  Definition hasList (t : Tower) (k : nat) : bool :=
    if newton3 then (k <? tClusters t)%nat else (tFirstOwned t <=? k)%nat && (k <? tFirstTail t)%nat.

  (** calculateNeighborsBetweenTowers, VerletClusterListsRebuilder.h:365-412: what is
      added to the list of cluster [ka] of the first tower. *)
  Definition neighborsInTower (xa ya : Z) (ka : nat) (xb yb : Z) : list ClusterId :=
    let ta := tower xa ya in
    let tb := tower xb yb in
    let sameTower := (xa =? xb) && (ya =? yb) in
    let a := clusterOf cs ta ka in
    if clusterEmpty a then []
    else
      let start := if sameTower && newton3 then S ka else 0%nat in
      flat_map (fun kb =>
        let b := clusterOf cs tb kb in
        if sameTower && (ka =? kb)%nat then []
        else if isHaloCluster ta ka && isHaloCluster tb kb then []
        else if clusterEmpty b then []
        else if clustersNear a b then [(xb, yb, kb)] else [])
        (seq start (tClusters tb - start)).

  (** updateNeighborLists and iterateNeighborTowers, VerletClusterListsRebuilder.h:236-257,
      278-304: the list of a cluster.  Only the iteration for its own tower appends to it. *)
  Definition neighborList (c : ClusterId) : list ClusterId :=
    let '(x, y, k) := c in
    if hasList (tower x y) k then
      flat_map (fun ny => flat_map (fun nx =>
        if newton3 && negb (isForward x y nx ny) then []
        else if towersNear x y nx ny then neighborsInTower x y k nx ny else [])
        (zrange (Z.max (x - gNIL g) 0) (Z.min (x + gNIL g) (gNX g - 1) + 1)))
        (zrange (Z.max (y - gNIL g) 0) (Z.min (y + gNIL g) (gNY g - 1) + 1))
    else [].
End Lists.
