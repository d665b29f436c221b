(** Specification vocabulary for the Verlet list containers. *)
From Coq Require Import Reals.
From Verif.Base Require Import ZRange.
From Verif.Grid Require Import IndexModel CellBlockSpec.
From Verif.Functor Require Import CellFunctorModel FunctorSpec SortModel SortSpec.
From Verif.Container Require Import LinkedCellsSpec.
From Verif.Verlet Require Import VerletModel.
Open Scope R_scope.

(** Every particle moved less than half the skin since the lists were built: what
    the dynamic rebuild criterion guarantees, and the static one assumes. *)
Definition movedLess {P} (old now : P -> R3) (skin : R) (ps : list P) : Prop :=
  Forall (fun p => dist3 (now p) (old p) < skin / 2) ps.

Section Spec.
  Context {P : Type}.
  Variables (pid : P -> Z) (isHalo : P -> bool) (now : P -> R3) (cut : R) (ps : list P).

  (** The functor calls handle every pair of particles at most once for each
      partner, and exactly once if the particles are now within the cutoff and one
      of them is owned. *)
  Definition everyPairOnce (calls : list (Call P)) : Prop :=
    forall a c, In a ps -> In c ps -> a <> c ->
      (received pid calls a c <= 1)%nat /\
      (isHalo a = false \/ isHalo c = false -> dist3 (now a) (now c) <= cut -> received pid calls a c = 1%nat).

  (** The same for traversals that update owned particles only. *)
  Definition everyOwnedPairOnce (calls : list (Call P)) : Prop :=
    forall a c, In a ps -> In c ps -> a <> c ->
      (received pid calls a c <= 1)%nat /\
      (isHalo a = false -> dist3 (now a) (now c) <= cut -> received pid calls a c = 1%nat).
End Spec.

(** A task writes to particle [p]: the first argument of the functor, with Newton 3
    also the second. *)
Definition writes {P} (task : list (Call P)) (p : P) : Prop :=
  exists c, In c task /\ (fstP c = p \/ (n3 c = true /\ sndP c = p)).

(** Tasks that run at the same time never write to the same particle. *)
Definition noSharedWrites {P} (tasks : list (list (Call P))) : Prop :=
  forall i j t1 t2 p, i <> j -> nth_error tasks i = Some t1 -> nth_error tasks j = Some t2 ->
    writes t1 p -> writes t2 p -> False.

(** The situation in which the containers are used.  The box is one the container
    accepts for the interaction length cutoff + skin; the particles [ps] were added
    at positions [old] with pairwise different addresses, the owned ones inside the
    box and the halo ones outside; the lists are built from these positions; now
    they are at [now].  [view] is the sorting of the cell functor that builds the
    lists, [cf] are its settings: it handles both directions of a pair of cells. *)
Definition verletSetup {P} (pid : P -> Z) (isHalo : P -> bool) (old now : P -> R3) (view : R3 -> list P -> list P)
    (cf : CFSettings) (cut skin csf : R) (bMin bMax : R3) (ps : list P) : Prop :=
  0 < cut /\ 0 <= skin /\ validGrid (cut + skin) (Rmax 1 csf) bMin bMax /\
  distinctIds pid ps /\ validParticles isHalo old (verletBlock rndExact cut skin csf bMin bMax) bMin bMax ps /\
  movedLess old now skin ps /\
  (forall dir l, isSortedView old dir l (view dir l)) /\ useNewton3 cf || bidirectional cf = true.
