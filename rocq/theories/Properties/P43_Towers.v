(** C43: the towers of the cluster lists. *)
From Coq Require Import Reals Permutation.
From Verif.Base Require Import ZRange.
From Verif.Functor Require Import SortModel.
From Verif.Container Require Import ParticleModel IteratorModel.
From Verif.Cluster Require Import TowerModel TowerSpec TowerProofs TowerProps TowerExample.
Local Open Scope nat_scope.

(** Generating the clusters of a tower and giving the dummies their values never fails
    (no access out of bounds).  Afterwards every cluster is full, the tower has exactly the
    particles it had before, sorted by z, and dummies behind them, fewer than a cluster.
    Every cluster has a particle, and every particle is in a cluster. *)
Theorem C43_clusters_hold_the_particles : forall sortZ cs t x dz, sortsByZ sortZ -> 0 < cs -> tDummies t = 0 ->
  exists t1 t2, generateClusters sortZ cs t = Some t1 /\ setDummyValues cs x dz t1 = Some t2 /\
    fullClusters cs t2 /\ Permutation (tParts t) (actual t2) /\ zSorted (actual t2) /\
    (forall k, k < tClusters t2 -> exists p, In p (clusterOf cs t2 k) /\ In p (tParts t)) /\
    (forall p, In p (tParts t) -> exists k, k < tClusters t2 /\ In p (clusterOf cs t2 k)).
Proof. exact tower_generate. Qed.
Print Assumptions C43_clusters_hold_the_particles.

(** If the owned particles of the tower are not separated by halo particles, the owned
    clusters the tower reports are exactly those with an owned particle. *)
Theorem C43_owned_clusters : forall sortZ cs t x dz t1 t2, sortsByZ sortZ -> 0 < cs -> tDummies t = 0 ->
  ownedTogether (tParts t) ->
  generateClusters sortZ cs t = Some t1 -> setDummyValues cs x dz t1 = Some t2 ->
  forall k, k < tClusters t2 ->
    ((exists p, In p (clusterOf cs t2 k) /\ isOwned p = true) <-> tFirstOwned t2 <= k < tFirstTail t2).
Proof. exact tower_owned_range. Qed.
Print Assumptions C43_owned_clusters.

(** Otherwise an owned cluster may be reported as a halo cluster. *)
Theorem C43_owned_clusters_mixed_refuted : forall sortZ, sortsByZ sortZ ->
  exists t1 t2, generateClusters sortZ 1 mixedTower = Some t1 /\
  setDummyValues 1 0 1 t1 = Some t2 /\ 2 < tClusters t2 /\
  (exists p, In p (clusterOf 1 t2 2) /\ isOwned p = true) /\ ~ (tFirstOwned t2 <= 2 < tFirstTail t2).
Proof. exact mixed_refuted. Qed.
Print Assumptions C43_owned_clusters_mixed_refuted.

(** Whatever the user does to the particles of the tower ([changed]), collecting them
    returns them and no dummies, and removing the dummies leaves the particles that have
    not been deleted. *)
Theorem C43_collect_returns_the_particles : forall cs t changed, fullClusters cs t -> length changed = numActual t ->
  let t' := withParts t (changed ++ padding t) in
  collectAllActualParticles t' = changed /\
  tParts (deleteDummyParticles t') = filter (fun p => negb (isDummy p)) changed /\ tDummies (deleteDummyParticles t') = 0.
Proof. exact tower_collect. Qed.
Print Assumptions C43_collect_returns_the_particles.

(** Between rebuilds the dummies are set to the last particle and back to dummies: in
    between all padding is a copy of the last particle, afterwards dummies again, and the
    particles do not change. *)
Theorem C43_refill_keeps_the_particles : forall cs t changed x dz, 0 < cs -> fullClusters cs t -> length changed = numActual t ->
  exists t1 t2, setDummyParticlesToLastActualParticle cs (withParts t (changed ++ padding t)) = Some t1 /\
    (forall p, In p (padding t1) -> nth_error changed (length changed - 1) = Some p) /\ actual t1 = changed /\
    setDummyValues cs x dz t1 = Some t2 /\ fullClusters cs t2 /\ actual t2 = changed.
Proof. exact tower_refill. Qed.
Print Assumptions C43_refill_keeps_the_particles.

(** Deleting a particle removes it and no other. *)
Theorem C43_delete_removes_one : forall cs t i p, fullClusters cs t -> nth_error (actual t) i = Some p ->
  exists t', deleteByIndex i t = Some t' /\ Permutation (actual t) (p :: actual t') /\ tDummies t' = tDummies t /\
    Forall (fun q => isDummy q = true) (padding t').
Proof. exact tower_delete. Qed.
Print Assumptions C43_delete_removes_one.

(** There is a sorting function, and a tower with owned and halo particles that meets
    the hypotheses. *)
Example C43_example : sortsByZ insertionSort /\ tDummies exTower = 0 /\ ownedTogether (tParts exTower) /\
  length (tParts exTower) = 5.
Proof. split; [exact insertionSort_ok|]. split; [reflexivity|]. split; [exact exTower_together|reflexivity]. Qed.
