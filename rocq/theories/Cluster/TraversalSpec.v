(** Specification vocabulary for the traversals of the cluster lists. *)
From Coq Require Import Reals.
From Verif.Base Require Import ZRange.
From Verif.Grid Require Import CellBlockSpec.
From Verif.Functor Require Import SortModel SortSpec CellFunctorModel FunctorSpec.
From Verif.Container Require Import ParticleModel.
From Verif.Traversal Require Import SliceModel.
From Verif.Cluster Require Import TowerModel TowerSpec BlockModel BlockBuild ListsSpec ClusterTraversalModel.

(** Cluster [c] holds a particle the container owns, according to the cluster ranges. *)
Definition inOwnedRange (g : Grid) (t : nat -> Tower) (c : ClusterId) : Prop :=
  let '(x, y, k) := c in (tFirstOwned (byXY g t x y) <= k < tFirstTail (byXY g t x y))%nat.
Definition haloOf (g : Grid) (t : nat -> Tower) (c : ClusterId) : bool :=
  let '(x, y, k) := c in isHaloCluster (byXY g t x y) k.

(** [order] has every cluster that is to be processed exactly once and no other: with
    Newton 3 all clusters, without it those in the owned range. *)
Definition processesAll (g : Grid) (t : nat -> Tower) (newton3 : bool) (order : list ClusterId) : Prop :=
  NoDup order /\
  forall c, In c order <-> isCluster g t c /\ (newton3 = true \/ inOwnedRange g t c).

(** The particles of a cluster now: particles may have moved since the towers [t] were
    built, but a cluster holds the same particles (in the same slots). *)
Definition sameParticles (cs : nat) (g : Grid) (t : nat -> Tower) (now : ClusterId -> list Particle) : Prop :=
  forall x y k, isCluster g t (x, y, k) -> map pid (now (x, y, k)) = map pid (clusterOf cs (byXY g t x y) k).

(** The functor calls made for the clusters of [order]. *)
Definition callsOf (newton3 : bool) (layout : Layout) (now : ClusterId -> list Particle) (lists : ClusterId -> list ClusterId)
    (halo : ClusterId -> bool) (order : list ClusterId) : list (Call Particle) :=
  flat_map (fun c => processCluster newton3 layout now lists c (halo c)) order.

(** Processing clusters changes the particles of the clusters, and with Newton 3 those of
    the clusters in their lists. *)
Definition changes (newton3 : bool) (lists : ClusterId -> list ClusterId) (task : list ClusterId) (d : ClusterId) : Prop :=
  exists c, In c task /\ (d = c \/ (newton3 = true /\ In d (lists c))).

(** No two tasks that may run at the same time change the same cluster. *)
Definition separate (newton3 : bool) (lists : ClusterId -> list ClusterId) (tasks : list (list ClusterId)) : Prop :=
  forall i j a b d, i <> j -> nth_error tasks i = Some a -> nth_error tasks j = Some b ->
    changes newton3 lists a d -> changes newton3 lists b d -> False.

(** The slicings of the lock based sliced traversals (vcl_sliced, vcl_sliced_balanced with
    any load estimates and numbers of threads) for [len] layers with overlap [ov]. *)
Definition vclSlicing (len ov : Z) (t : list Z) : Prop :=
  t = initSliceThickness len (ov + 1) ov false \/
  exists grow threads, (0 < threads)%nat /\ balancedSliceThickness grow (ov + 1) len threads ov false = Some t.

(** The towers in storage order for the thread partition, and its clusters as in the lists. *)
Definition towerRanges (g : Grid) (t : nat -> Tower) : list (nat * nat) :=
  map (fun i => (tFirstOwned (t i), tFirstTail (t i))) (seq 0 (numNew g)).
Definition clusterAt (g : Grid) (c : nat * nat) : ClusterId := (xOf g (fst c), yOf g (fst c), snd c).

(** A rebuild of the towers and lists for the particles [before old toAdd] in exact
    arithmetic: equally many halo towers in x and y, exactly the particles inside the box
    are owned, and all ids are different (and not that of the padding particles). *)
Definition validRebuild (sortZ : list Particle -> list Particle) (cs : nat) (bMin bMax : R3) (il opt : R)
    (old : list Tower) (toAdd : list Particle) : Prop :=
  sortsByZ sortZ /\ (0 < cs)%nat /\ below bMin bMax /\ (0 < il)%R /\ (0 < opt)%R /\
  haloTowers il (sideLength (rx bMax - rx bMin) opt) = haloTowers il (sideLength (ry bMax - ry bMin) opt) /\
  Forall (fun p => isDummy p = false) toAdd /\
  (forall p, In p (before old toAdd) -> (isOwned p = true <-> inBox bMin bMax (ppos p))) /\
  distinctIds pid (before old toAdd) /\
  Forall (fun p => pid p <> (2 ^ 64 - 1)%Z) (before old toAdd).

(** When the clusters of [order] are processed, at any time until the next rebuild, every
    particle receives the contribution of every other one at most once, and exactly once
    if it is owned and the distance at the time of the rebuild was at most the interaction
    length. *)
Definition computesPairsOnce (sortZ : list Particle -> list Particle) (cs : nat) (bMin bMax : R3) (il opt : R)
    (old : list Tower) (toAdd : list Particle) (newton3 : bool) (order : list ClusterId) : Prop :=
  let g := estimatedGrid bMin bMax il opt in
  let towers := finalTower sortZ cs g old toAdd in
  let lists := neighborList cs g (byXY g (movedTower sortZ cs g old toAdd)) newton3 in
  forall layout now p q, sameParticles cs g towers now ->
    In p (before old toAdd) -> In q (before old toAdd) -> pid p <> pid q ->
    inBox (haloMin g) (haloMax g) (ppos p) -> inBox (haloMin g) (haloMax g) (ppos q) ->
    let times := received pid (callsOf newton3 layout now lists (haloOf g towers) order) p q in
    (times <= 1)%nat /\
    (isOwned p = true -> (dist3 (ppos p) (ppos q) <= il)%R -> times = 1%nat).
