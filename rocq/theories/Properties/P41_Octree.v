(** C41, C42: the octree. *)
From Coq Require Import Reals Lra Permutation.
From Flocq Require Import Core.
From Verif.Base Require Import ZRange.
From Verif.Functor Require Import SortModel SortSpec.
From Verif.Grid Require Import CellBlockModel CellBlockSpec.
From Verif.Container Require Import IteratorModel IteratorContainers.
From Verif.Octree Require Import DirectionModel OctreeModel OctreeSpec OctreeDouble OctreeProps OctreeExample.
Local Open Scope R_scope.

(** C41, for every rounding: inserting particles that are in the box of the tree keeps
    all of them, each once, and every leaf has only particles in its box. *)
Theorem C41_octree_keeps_particles : forall (P : Type) (pos : P -> R3) (rnd : R -> R) (threshold : nat) (il : R) lo hi ps t,
  builtBy pos rnd threshold il lo hi ps t ->
  Permutation (collectAllParticles t) ps /\
  (forall path l h c p, leafAt t path l h c -> In p c -> inBox l h (pos p)).
Proof. exact @built_keeps. Qed.
Print Assumptions C41_octree_keeps_particles.

(** C41, with sufficient precision: every insertion sequence gives a tree (the recursive
    splitting ends), and only one.  In it every point of the box is in exactly one leaf, a leaf has
    exactly the particles that are in its box, and no leaf that a split has produced is
    narrower than the interaction length (up to rounding). *)
Theorem C41_octree_leaves_partition : forall (P : Type) (pos : P -> R3) (rnd : R -> R) (threshold : nat) (il M eps : R) lo hi ps,
  precise rnd M eps il lo hi -> Forall (fun p => inBox lo hi (pos p)) ps ->
  exists t, builtBy pos rnd threshold il lo hi ps t /\
    (forall t', builtBy pos rnd threshold il lo hi ps t' -> t' = t) /\
    (forall x, inBox lo hi x -> exists! path, exists l h c, leafAt t path l h c /\ inBox l h x) /\
    (forall path l h c, leafAt t path l h c -> Permutation c (filter (fun p => inBoxb l h (pos p)) ps)) /\
    (forall path l h c, leafAt t path l h c -> path <> [] -> wideBox (il - 3 * eps) l h).
Proof.
  intros P pos rnd threshold il M eps lo hi ps Pr F. destruct (built_total pos rnd threshold il lo hi ps M eps Pr F) as (t & B).
  exists t. split; [exact B|]. split; [intros t' B'; exact (built_unique pos rnd threshold il lo hi ps t' t B' B)|].
  exact (proj2 (built_leaves pos rnd threshold il lo hi ps t M eps Pr B)).
Qed.
Print Assumptions C41_octree_leaves_partition.

(** Exact arithmetic is sufficiently precise for every box and interaction length. *)
Theorem C41_exact_is_precise : forall il lo hi, 0 < il -> below lo hi -> exists M, precise rndExact M 0 il lo hi.
Proof. exact exact_precise. Qed.
Print Assumptions C41_exact_is_precise.

(** Doubles are, if the coordinates are at most 2^e and the interaction length is at
    least 2^(e-49). *)
Theorem C41_double_is_precise : forall e il lo hi, (-969 <= e)%Z -> bpow radix2 (e - 49) <= il ->
  boxUpTo (bpow radix2 e) lo hi -> below lo hi ->
  precise rndDouble (bpow radix2 e) (bpow radix2 (e - 52)) il lo hi.
Proof. exact double_precise. Qed.
Print Assumptions C41_double_is_precise.

Example C41_example : exists M, precise rndExact M 0 1 exLo exHi /\ Forall (fun p => inBox exLo exHi (self p)) [exP 1; exP 3; exP (7 / 2)].
Proof.
  destruct (exact_precise 1 exLo exHi) as (M & H); [lra|unfold below, exLo, exHi; cbn; lra|]. exists M. split; [exact H|].
  repeat constructor; unfold inBox, self, exLo, exHi, exP; cbn; lra.
Qed.
Example C41_example_split : exists t, builtBy self rndExact 1 1 exLo exHi [exP 1; exP 3; exP (7 / 2)] t /\
  (exists l h, leafAt t [LDB] l h [exP 1]) /\ (exists l h, leafAt t [LDB; RUF] l h []) /\
  (exists l h, leafAt t [RUF; RUF] l h [exP (7 / 2); exP 3]).
Proof. exact example_tree. Qed.

(** C42: the neighbour leaves reported for a leaf are exactly the other leaves whose
    boxes touch its box. *)
Theorem C42_octree_neighbors : forall (P : Type) (pos : P -> R3) (rnd : R -> R) (threshold : nat) (il : R) lo hi ps t (M eps : R) p q l h c,
  precise rnd M eps il lo hi -> builtBy pos rnd threshold il lo hi ps t -> leafAt t p l h c ->
  (In q (getNeighborLeaves t p) <-> q <> p /\ exists l' h' c', leafAt t q l' h' c' /\ touching l h l' h').
Proof. exact @built_neighbors. Qed.
Print Assumptions C42_octree_neighbors.

(** No leaf is reported twice. *)
Theorem C42_octree_neighbors_once : forall (P : Type) (t : Tree P) p, NoDup (getNeighborLeaves t p).
Proof. intros. apply NoDup_nodup. Qed.
Print Assumptions C42_octree_neighbors_once.

(** The leaf [0,2]^3 and the smaller leaf [2,3]^3 of the tree above have a corner in common. *)
Example C42_example : exists M t l h, precise rndExact M 0 1 exLo exHi /\
  builtBy self rndExact 1 1 exLo exHi [exP 1; exP 3; exP (7 / 2)] t /\ leafAt t [LDB] l h [exP 1] /\ In [LDB; RUF] (getNeighborLeaves t [LDB]).
Proof. exact example_neighbors. Qed.
