(** * C72 - the search space holds exactly the usable configurations among those the user allows

    Model: Tuning/SearchModel.v.  Specification: Tuning/SearchSpec.v. *)

From Coq Require Import Reals List Bool Lra Lia.
From Verif.Tuning Require Import SearchModel SearchSpec SearchProofs SearchExample.
Import ListNotations.
Open Scope R_scope.

(** For any allowed options, the search space is the set of wanted configurations; an exception is thrown
    exactly if there is none. *)
Theorem C72_exact : forall containers traversals loadEstimators layouts n3s factors i,
  match cartesianProduct containers traversals loadEstimators layouts n3s (Finite factors) i with
  | Some s => NoDup s /\ s <> [] /\
              forall c, In c s <-> wanted containers traversals loadEstimators layouts n3s factors i c
  | None => forall c, ~ wanted containers traversals loadEstimators layouts n3s factors i c
  end.
Proof. exact product_exact. Qed.
Print Assumptions C72_exact.

(** So is the search space that init hands to the tuning strategies. *)
Theorem C72_init : forall containers traversals loadEstimators layouts n3s factors cutoff skin frequency box i,
  match initSearchSpace containers traversals loadEstimators layouts n3s (Finite factors) cutoff skin frequency box i with
  | Some s => NoDup s /\ s <> [] /\
              forall c, In c s <-> wanted containers traversals loadEstimators layouts n3s factors i c
  | None => forall c, ~ wanted containers traversals loadEstimators layouts n3s factors i c
  end.
Proof. intros. apply product_exact. Qed.
Print Assumptions C72_init.

(** Continuous cell size factors are refused. *)
Theorem C72_interval : forall containers traversals loadEstimators layouts n3s min max i,
  cartesianProduct containers traversals loadEstimators layouts n3s (Interval min max) i = None.
Proof. reflexivity. Qed.
Print Assumptions C72_interval.

(** hasCompatibleValues accepts a configuration exactly if it can be used on some domain and its load
    estimator is one that some choice of the user gives. *)
Theorem C72_compatible : forall c,
  hasCompatibleValues c = Some true <->
  usable c /\ (cInteraction c = triwise -> offersTriwise (cContainer c)) /\
  exists allowed, estimatorFits allowed c.
Proof. exact compatible_exact. Qed.
Print Assumptions C72_compatible.

(** The relevant cell size factors are exactly those in the interval for which the domain has a whole
    number of cells. *)
Theorem C72_factors : forall min max interactionLength domainLength f,
  0 < min <= max -> 0 < interactionLength -> 0 < domainLength ->
  In f (relevantCsfs min max interactionLength domainLength) <->
  exists n, (0 < n)%nat /\ min <= f <= max /\ domainLength / (interactionLength * f) = INR n.
Proof. exact relevant_iff. Qed.
Print Assumptions C72_factors.

(** They do not give all numbers of cells that the interval gives. *)
Theorem C72_factors_refuted : exists min max interactionLength domainLength f n,
  0 < min <= max /\ 0 < interactionLength /\ 0 < domainLength /\ min <= f <= max /\
  cellsFor domainLength interactionLength f n /\
  forall f', In f' (relevantCsfs min max interactionLength domainLength) ->
    ~ cellsFor domainLength interactionLength f' n.
Proof. exact factors_refuted. Qed.
Print Assumptions C72_factors_refuted.

(** At start-up an interval of cell size factors is not replaced by the relevant factors: the interaction
    length is computed as the product of cutoff and skin instead of their sum.  Factors are tried that
    do not fit the domain and that give the same grid; without skin the computation is undefined. *)
Theorem C72_init_refuted : exists min max cutoff skinPerTimestep frequency box fs f f' n,
  0 < min <= max /\ 0 < cutoff /\ 0 < skinPerTimestep /\ (0 < frequency)%nat /\ 0 < box /\
  initFactors (Interval min max) cutoff skinPerTimestep frequency box = Some fs /\
  In f fs /\ In f' fs /\ f <> f' /\
  let interactionLength := cutoff + skinPerTimestep * INR frequency in
  cellsFor box interactionLength f n /\ cellsFor box interactionLength f' n /\
  box / (interactionLength * f) <> INR n /\ box / (interactionLength * f') <> INR n.
Proof. exact init_refuted. Qed.
Print Assumptions C72_init_refuted.

Theorem C72_init_undefined_refuted : forall min max cutoff frequency box,
  initFactors (Interval min max) cutoff 0 frequency box = None.
Proof. exact init_undefined. Qed.
Print Assumptions C72_init_undefined_refuted.

(** Two usable configurations that no choice of options gives: three-body interactions, and a load estimator
    that the container implements, on linked cells with references. *)
Theorem C72_references_refuted :
  exists c c', usable c /\ usable c' /\
  isBalanced (cTraversal c') = true /\ implementsEstimator (cContainer c') (cLoadEstimator c') = true /\
  forall containers traversals loadEstimators layouts n3s factors i s,
    cartesianProduct containers traversals loadEstimators layouts n3s factors i = Some s -> ~ In c s /\ ~ In c' s.
Proof. exact references_refuted. Qed.
Print Assumptions C72_references_refuted.

(** A non-trivial case: two containers, a traversal that needs SoA and one without Newton 3. *)
Example C72_example : exists s,
  cartesianProduct [linkedCells; octree] [lc_c04_combined_SoA; lc_sliced_balanced; ot_c01; vlc_c18]
    [squaredParticlesPerCell; neighborListLength] [aos; soa] [n3Disabled; n3Enabled] (Finite [1; 2]) pairwise = Some s /\
  In (Config linkedCells 2 lc_c04_combined_SoA leNone soa n3Enabled pairwise) s /\
  In (Config linkedCells 1 lc_sliced_balanced squaredParticlesPerCell aos n3Enabled pairwise) s /\
  ~ In (Config linkedCells 1 lc_sliced_balanced leNone aos n3Enabled pairwise) s /\
  ~ In (Config linkedCells 2 lc_c04_combined_SoA leNone aos n3Enabled pairwise) s /\
  ~ In (Config octree 1 ot_c01 leNone soa n3Enabled pairwise) s.
Proof. exact example_space. Qed.

Example C72_nothing : 
  cartesianProduct [octree] [ot_c01] [leNone] [soa] [n3Enabled] (Finite [1]) pairwise = None.
Proof. exact example_nothing. Qed.
