(** Specification vocabulary for the neighbour lists of clusters. *)
From Coq Require Import Reals.
From Verif.Base Require Import ZRange.
From Verif.Functor Require Import SortModel SortSpec.
From Verif.Container Require Import ParticleModel IteratorModel.
From Verif.Cluster Require Import TowerModel BlockModel.

(** The towers by x and y. *)
Definition byXY (g : Grid) (t : nat -> Tower) (x y : Z) : Tower := t (Z.to_nat (tower1D g x y)).

(** [c] is a cluster of the grid with the towers [t], and [p] is a particle (no dummy) in it. *)
Definition isCluster (g : Grid) (t : nat -> Tower) (c : ClusterId) : Prop :=
  let '(x, y, k) := c in
  (0 <= x < gNX g)%Z /\ (0 <= y < gNY g)%Z /\ (k < tClusters (byXY g t x y))%nat.
Definition inCluster (cs : nat) (g : Grid) (t : nat -> Tower) (c : ClusterId) (p : Particle) : Prop :=
  let '(x, y, k) := c in
  isCluster g t c /\ isDummy p = false /\ In p (clusterOf cs (byXY g t x y) k).
