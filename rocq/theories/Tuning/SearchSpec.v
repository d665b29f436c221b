(** * What the search space should be *)

From Coq Require Import Reals List Bool.
From Verif.Tuning Require Import SearchModel.
Import ListNotations.
Open Scope R_scope.

(** A domain that can occur: at least one cell per dimension, positive lengths. *)
Definition validGeometry (g : geometry) : Prop :=
  let '(nx, ny, nz) := gCells g in let '(lx, ly, lz) := gLength g in
  (1 <= nx)%nat /\ (1 <= ny)%nat /\ (1 <= nz)%nat /\ 0 < lx /\ 0 < ly /\ 0 < lz /\ 0 < gInteraction g.

(** A configuration can be used on some domain: there is a class for the traversal, the container takes
    its objects, and on some domain the traversal declares itself applicable. *)
Definition usable (c : config) : Prop :=
  selectorCreates (cInteraction c) (cTraversal c) = true /\
  acceptsInterface (cContainer c) (interfaceOf (cTraversal c)) = true /\
  exists g, validGeometry g /\
    isApplicable (cInteraction c) (cTraversal c) (cLayout c) (cNewton3 c) g = true.

(** Usable combinations that are deliberately not offered: three-body interactions on linked cells with
    references, and load estimators on linked cells with references and on pairwise Verlet lists. *)
Definition offersTriwise (c : container) : Prop := c <> linkedCellsReferences.
Definition offersEstimators (c : container) : Prop := c <> linkedCellsReferences /\ c <> pairwiseVerletLists.

(** The load estimator of a configuration, given the estimators that the user allows: a balanced
    traversal gets each allowed one that the container implements, or none if there is no such;
    other traversals get none. *)
Definition estimatorFits (allowed : list loadEstimator) (c : config) : Prop :=
  if isBalanced (cTraversal c) then
    (offersEstimators (cContainer c) /\ In (cLoadEstimator c) allowed /\
     implementsEstimator (cContainer c) (cLoadEstimator c) = true) \/
    (cLoadEstimator c = leNone /\
     (~ offersEstimators (cContainer c) \/
      forall le, In le allowed -> implementsEstimator (cContainer c) le = false))
  else cLoadEstimator c = leNone.

(** The configurations that the user asked for and that can be used. *)
Definition wanted (containers : list container) (traversals : list traversal)
  (loadEstimators : list loadEstimator) (layouts : list dataLayout) (n3s : list newton3)
  (factors : list R) (i : interaction) (c : config) : Prop :=
  In (cContainer c) containers /\ In (cTraversal c) traversals /\ In (cLayout c) layouts /\
  In (cNewton3 c) n3s /\ In (cFactor c) factors /\ cInteraction c = i /\
  estimatorFits loadEstimators c /\ usable c /\ (i = triwise -> offersTriwise (cContainer c)).

(** The number of cells of length at least [csf * interactionLength] in a domain (CellBlock3D.h). *)
Definition cellsFor (domainLength interactionLength csf : R) (n : nat) : Prop :=
  INR n <= domainLength / (interactionLength * csf) < INR n + 1.
