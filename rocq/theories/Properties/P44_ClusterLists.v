(** C44: the neighbour lists of the cluster lists. *)
From Coq Require Import Reals Lra Permutation.
From Verif.Base Require Import ZRange Occ.
From Verif.Functor Require Import SortModel SortSpec.
From Verif.Grid Require Import CellBlockSpec.
From Verif.Container Require Import ParticleModel IteratorModel IteratorContainers.
From Verif.Cluster Require Import TowerModel TowerSpec TowerExample BlockModel BlockBuild ListsSpec ListsProofs ListsExample.
Local Open Scope nat_scope.

(** A rebuild keeps all particles except those that are outside the box with halo, for
    every grid of towers: the particles before it ([before]: the particles of the old
    towers that are not dummies, and those to be added) are exactly the particles in the
    new towers and the dropped ones. *)
Theorem C44_rebuild_keeps_particles : forall sortZ cs g old toAdd, sortsByZ sortZ -> 0 < cs -> (1 <= gNX g)%Z -> (1 <= gNY g)%Z ->
  exists dropped,
    Permutation (before old toAdd) (flat_map (fun i => actual (finalTower sortZ cs g old toAdd i)) (seq 0 (numNew g)) ++ dropped) /\
    Forall (fun p => ~ inBox (haloMin g) (haloMax g) (ppos p)) dropped.
Proof. intros sortZ cs g old toAdd S C X Y. eexists. exact (rebuild_keeps sortZ cs g old toAdd S C X Y). Qed.
Print Assumptions C44_rebuild_keeps_particles.

(** Hence every particle inside the box with halo is in a cluster. *)
Theorem C44_every_particle_has_a_cluster : forall sortZ cs g old toAdd p, sortsByZ sortZ -> 0 < cs -> (1 <= gNX g)%Z -> (1 <= gNY g)%Z ->
  Forall (fun p => isDummy p = false) toAdd -> In p (before old toAdd) -> inBox (haloMin g) (haloMax g) (ppos p) ->
  exists c, inCluster cs g (finalTower sortZ cs g old toAdd) c p.
Proof. exact has_cluster. Qed.
Print Assumptions C44_every_particle_has_a_cluster.

(** Without Newton 3: after a rebuild the cluster of every owned particle lists, exactly
    once, every other cluster with a particle within the interaction length.  For every
    old state of the container, in exact arithmetic, if there are equally many halo towers
    in x and y and exactly the particles inside the box are owned. *)
Theorem C44_lists_complete : forall sortZ cs bMin bMax il opt old toAdd,
  sortsByZ sortZ -> 0 < cs -> below bMin bMax -> (0 < il)%R -> (0 < opt)%R ->
  haloTowers il (sideLength (rx bMax - rx bMin) opt) = haloTowers il (sideLength (ry bMax - ry bMin) opt) ->
  Forall (fun p => isDummy p = false) toAdd ->
  (forall p, In p (before old toAdd) -> (isOwned p = true <-> inBox bMin bMax (ppos p))) ->
  let g := estimatedGrid bMin bMax il opt in
  let list := neighborList cs g (byXY g (movedTower sortZ cs g old toAdd)) false in
  forall a b p q, a <> b ->
    inCluster cs g (finalTower sortZ cs g old toAdd) a p -> inCluster cs g (finalTower sortZ cs g old toAdd) b q ->
    isOwned p = true -> (dist3 (ppos p) (ppos q) <= il)%R -> occ (eqCluster b) (list a) = 1.
Proof. intros sortZ cs bMin bMax il opt old toAdd S C B I O H N W g list a b p q NE P Q. exact (lists_complete sortZ cs bMin bMax il opt old toAdd false S C B I O H N W a b p q eq_refl NE P Q). Qed.
Print Assumptions C44_lists_complete.

(** With Newton 3: exactly one of two clusters that have particles within the interaction
    length, one of them owned, lists the other one, and only once. *)
Theorem C44_lists_complete_newton3 : forall sortZ cs bMin bMax il opt old toAdd,
  sortsByZ sortZ -> 0 < cs -> below bMin bMax -> (0 < il)%R -> (0 < opt)%R ->
  haloTowers il (sideLength (rx bMax - rx bMin) opt) = haloTowers il (sideLength (ry bMax - ry bMin) opt) ->
  Forall (fun p => isDummy p = false) toAdd ->
  (forall p, In p (before old toAdd) -> (isOwned p = true <-> inBox bMin bMax (ppos p))) ->
  let g := estimatedGrid bMin bMax il opt in
  let list := neighborList cs g (byXY g (movedTower sortZ cs g old toAdd)) true in
  forall a b p q, a <> b ->
    inCluster cs g (finalTower sortZ cs g old toAdd) a p -> inCluster cs g (finalTower sortZ cs g old toAdd) b q ->
    (isOwned p = true \/ isOwned q = true) -> (dist3 (ppos p) (ppos q) <= il)%R ->
    occ (eqCluster b) (list a) + occ (eqCluster a) (list b) = 1.
Proof. intros sortZ cs bMin bMax il opt old toAdd S C B I O H N W g list a b p q NE P Q. exact (lists_complete_n3 sortZ cs bMin bMax il opt old toAdd true S C B I O H N W a b p q eq_refl NE P Q). Qed.
Print Assumptions C44_lists_complete_newton3.

(** Lists have no entry twice, only existing clusters, and never the cluster itself.  With
    Newton 3 no two clusters list each other. *)
Theorem C44_lists_sound : forall sortZ cs bMin bMax il opt old toAdd newton3,
  sortsByZ sortZ -> 0 < cs -> below bMin bMax -> (0 < il)%R -> (0 < opt)%R ->
  haloTowers il (sideLength (rx bMax - rx bMin) opt) = haloTowers il (sideLength (ry bMax - ry bMin) opt) ->
  Forall (fun p => isDummy p = false) toAdd ->
  (forall p, In p (before old toAdd) -> (isOwned p = true <-> inBox bMin bMax (ppos p))) ->
  let g := estimatedGrid bMin bMax il opt in
  let list := neighborList cs g (byXY g (movedTower sortZ cs g old toAdd)) newton3 in
  let final := finalTower sortZ cs g old toAdd in
  forall a b, isCluster g final a ->
    occ (eqCluster b) (list a) <= 1 /\ (occ (eqCluster b) (list a) = 1 -> isCluster g final b /\ a <> b) /\
    (newton3 = true -> isCluster g final b -> occ (eqCluster b) (list a) + occ (eqCluster a) (list b) <= 1).
Proof. exact lists_sound. Qed.
Print Assumptions C44_lists_sound.

(** The hypotheses hold for four towers per dimension, two owned particles in different
    clusters and a halo particle. *)
Example C44_example : let g := estimatedGrid lMin lMax 1 1 in
  sortsByZ insertionSort /\ below lMin lMax /\
  haloTowers 1 (sideLength (rx lMax - rx lMin) 1) = haloTowers 1 (sideLength (ry lMax - ry lMin) 1) /\
  Forall (fun p => isDummy p = false) lAdd /\
  (forall p, In p (before [] lAdd) -> (isOwned p = true <-> inBox lMin lMax (ppos p))) /\
  (forall p, In p lAdd -> inBox (haloMin g) (haloMax g) (ppos p)) /\
  (dist3 (ppos (lP 1 (9 / 10) 1 1 stOwned)) (ppos (lP 2 (11 / 10) 1 1 stOwned)) <= 1)%R /\
  exists a b, a <> b /\ inCluster 4 g (finalTower insertionSort 4 g [] lAdd) a (lP 1 (9 / 10) 1 1 stOwned) /\
    inCluster 4 g (finalTower insertionSort 4 g [] lAdd) b (lP 2 (11 / 10) 1 1 stOwned).
Proof. exact lExample. Qed.

(** With different numbers of halo towers in x and y the container takes towers with
    particles of the box for halo towers: an iteration over the owned particles skips
    them.  (The code logs a warning.) *)
Theorem C44_unequal_halo_towers_refuted : let g := estimatedGrid lMin uMax 1 1 in
  isOptimal lMin uMax 44 4 1 /\ inBox lMin uMax uPos /\
  canContainOwned g (tower1D g (fst (towerAt g uPos)) (snd (towerAt g uPos))) = false.
Proof. exact unequal_refuted. Qed.
Print Assumptions C44_unequal_halo_towers_refuted.
