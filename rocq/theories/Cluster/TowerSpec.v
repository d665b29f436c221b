(** Specification vocabulary for the towers. *)
From Coq Require Import Reals Sorted Permutation.
From Verif.Base Require Import ZRange.
From Verif.Functor Require Import SortModel.
From Verif.Container Require Import ParticleModel IteratorModel.
From Verif.Cluster Require Import TowerModel.

(** Sorted by z; [sortZ] is a sorting function (any: equal z in any order). *)
Definition zSorted (l : list Particle) : Prop :=
  StronglySorted (fun p q => (rz (ppos p) <= rz (ppos q))%R) l.
Definition sortsByZ (sortZ : list Particle -> list Particle) : Prop :=
  forall l, Permutation l (sortZ l) /\ zSorted (sortZ l).

(** The particles of a tower, and the padding behind them. *)
Definition actual (t : Tower) : list Particle := firstn (numActual t) (tParts t).
Definition padding (t : Tower) : list Particle := skipn (numActual t) (tParts t).

(** Between two owned particles (in z) there are only owned ones. *)
Definition ownedTogether (l : list Particle) : Prop :=
  forall p q r, In p l -> In q l -> In r l -> isOwned p = true -> isOwned r = true ->
    (rz (ppos p) <= rz (ppos q) <= rz (ppos r))%R -> isOwned q = true.

(** All clusters are full, the padding is shorter than a cluster and consists of dummies. *)
Definition fullClusters (cs : nat) (t : Tower) : Prop :=
  length (tParts t) = (cs * tClusters t)%nat /\ (tDummies t < cs)%nat /\ (tDummies t <= length (tParts t))%nat /\
  Forall (fun p => isDummy p = true) (padding t).
