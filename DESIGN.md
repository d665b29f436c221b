# Formal model of AutoPas in Rocq (Coq 8.16.1)

## Layout

* `properties.jsonl` – the properties (generated by `tools/gen_properties.py`).
* `rocq/theories/<Area>/<X>Model.v` – the model: total Gallina functions, one per
  modelled C++ function, each with a comment citing the file and lines in `/repo`.
* `rocq/theories/<Area>/<X>Spec.v` – small specification vocabulary, written
  without using the model.
* `rocq/theories/<Area>/<X>Proofs.v` – lemmas.
* `rocq/theories/Properties/*.v` – the property theorems only. Each is closed by
  `exact lemma`, followed by `Print Assumptions`, and accompanied by an `Example`
  that shows that a concrete non-trivial case meets the hypotheses.
* `MANIFEST.json` – property -> theorem names.
* `seeded/LOG.jsonl` – wrong-program experiments.

## Modelling conventions

* Unsigned counters / indices are `nat` or `Z`; wrap-around is written out when a
  property is about it, otherwise the statement says that it is not modelled.
* Loops are folds, structural recursion or fuelled recursion that returns an
  explicit error when the fuel ends (theorems exclude that outcome).
* Undefined behaviour (out-of-range index, `back()` of an empty vector,
  dereferencing `end()`) and exceptions are distinct results in the model.
* Coordinates: where only comparisons matter the position type is an arbitrary
  type with boolean tests, or `Z`; geometry that needs division uses Coq's `R`
  (exact arithmetic); rounding is modelled with Flocq (`round radix2 (FLT_exp ..)`).
* Threads: a parallel region is either a set of tasks whose footprints must be
  disjoint, or an interleaving transition system (locks).

## Plan per property

| id | model | proof |
|----|-------|-------|
| C01 | `threeToOneD`, `oneToThreeD` on Z, second version mod 2^64 | div/mod arithmetic |
| C02 | `get3DIndexOfPosition` on Flocq-rounded doubles | monotonicity of rounding, case analysis of the corrections |
| C03 | cell grid in R | floor lemmas |
| C04 | `clearHaloCells` as loop over slices on a cell array | membership characterisation |
| C05 | `rebuild` in R | floor/ceil lemmas |
| C06 | c08 offsets and loop nest | bijection of pairs -> (base, offset pair); NoDup/count |
| C07 | colour loops | modular arithmetic on strides |
| C08, C09 | c18 offsets with the border special cases | same technique |
| C10, C11 | c04 packs | residue case analysis, finite sweep lifted to Z |
| C12 | c04HCP bricks | same |
| C13, C14 | c01 offsets | same |
| C15, C18 | slice thickness computations | induction on slices/loads |
| C16, C17 | slices as processes with locks, interleaving semantics | invariant over reachable states, rank argument for progress |
| C19, C20, C21 | cell functors as list of functor calls | count of calls; sortedness; Cauchy-Schwarz in R |
| C22 | composition of C02/C03, C06, C19 | refinement to "all pairs" spec |
| C23-C25 | iterator index machine of linked cells, direct sum and cluster lists; the octree iterator with its decimal cell numbers | simulation against list of matching particles; the octree iterator is simulated by an iterator over the list of its leaves (Container/IteratorGeneric, Octree/OctreeIterate) |
| C26, C27 | LogicHandler as state machine over histories | invariant/refinement to multiset |
| C28 | rebuild counters | invariant |
| C29 | trajectories in R | triangle inequality, induction over steps |
| C30 | remainder traversal as list of functor calls | counting |
| C31 | `balanceVectors` | permutation + size invariant |
| C32 | halo volumes | order reasoning |
| C33 | updateContainer loops | permutation |
| C34 | lock grid | bounds; expected refutation after `resizeBox` |
| C35, C36 | AutoTuner state machine | invariant; expected refutations |
| C37-C40, C49 | MPI distribution, serialisation, buckets (Tuning/DistributeModel, Tuning/MpiModel) | iterators refine the lexicographic enumeration, block arithmetic; sorted lists |
| C41, C42 | octree with a rounding function for the splitting point (Octree/OctreeModel); the neighbour search by directions (Octree/DirectionModel) | structural induction over the tree; the direction tables per axis as bit strings |
| C50 | octree traversals as lists of pairs of leaves (Octree/OctreeTraversalModel), cell functor of C19 | gap between leaves that do not touch, counting |
| C51–C53 | cluster list traversals as phases of tasks of clusters (Cluster/ClusterTraversalModel), slices and locks of C16–C18, the thread partition | every cluster processed once, list entries of C44, received contributions counted; invariant of the partition loop |
| C54, C55 | list building as the functor calls of C19/C22 that push into lists, the containers' list structures (Verlet/VerletModel), slices and locks of C16–C18; exact arithmetic | every pair within cutoff + skin pushed once (C22), lists partition the pushes, triangle inequality for the movement; writes of a task lie in the neighbourhood of its cell |
| C56 | lists of cell functor calls with sorting directions (Container/CellCallsModel), cell functors of C19–C21; exact arithmetic | what a pair or triplet receives from a call depends only on the cells of its particles; counting the calls for these cells (direct sum: finite, c01: C14) |
| C57 | the threads' rotating buffers (Container/CombinedC01Model, CombinedC04Model), rows with the contributions they hold; c04: events of the threads interleave freely | invariant: buffers and cells together represent the rows of all cells; every base cell performs the pairs of the c08 base step; steps of different lines of a colour use disjoint cells |
| C58 | one computeInteractions after a history (Logic/ComputeModel): container selection, traversal of linked cells or direct sum on the slots where particles are stored, remainder traversal; the result is the list of (target, source) pairs | invariant over histories: every stored particle is within half of the skin, times the steps since the last rebuild, of a position in its cell (Logic/HandlerDrift); then C22, C56 for the slots and C30 for the buffers |
| C59 | one computeInteractions with a three-body functor after a history (Logic/Remainder3Model): container selection, three-body traversal of linked cells (c01) or direct sum on the slots, the three loops of the three-body remainder traversal with forEachInRegion and nested region iterators; the result is the list of (target, two sources) | C58's invariant; the region iterators deliver every container particle of the region once (C25), so the nested loops deliver every pair once; the loops partition the triples with a buffer particle by where the three are stored (Logic/Remainder3Core); container triples as in C56. The number of stored particles is at most the number of additions (Logic/HandlerSize), so indices do not overflow |
| C60 | the Lennard-Jones functor (MD/LJModel) and the particle properties library (MD/MixingModel) in exact arithmetic, all memory as a function from addresses to forces; a division by zero has no value | every loop adds to each address a sum over its pairs; sums are compared; the kernel equals the derivative of the potential (Coquelicot's auto_derive); induction over the registrations. That a dummy at the place of a particle gives NaN is computed with Flocq's binary64 (MD/LJFloat) |
| C61 | the functor calls of one computeInteractions (MD/LJComputeModel): those of the traversal of the container as AoSFunctor calls, those of the remainder traversal through the interface the code uses; executed one after the other in any order, each by any thread with its own sums | every call has the effect of its pairs (C60); the pairs are those of C58; every pair that contributes is in the list exactly once, and the list contains no pair of other particles (Logic/RemainderMembers); sums over lists with the same members are equal. Assumes that no two particles are at the same place or exactly at the cutoff distance (`C61_at_cutoff_refuted`); exact arithmetic |
| C62 | the Axilrod-Teller functor (MD/ATModel) and its parameters in the particle properties library (MD/MixingModel), exact arithmetic; a division by zero has no value | the potential is a power form in one coordinate whose derivative is computed once and instantiated for x, y, z (MD/ATPhysics); the forces on the other two particles are the first one with the roles rotated (polynomial identities); induction over calls, threads and registrations |
| C63 | the functor calls of one computeInteractions with a three-body functor (MD/ATComputeModel), executed in any order, each by any thread with its own sums; AoS layout only, because the functor has no SoA functions | every call has the effect of its triple (C62); the triples are those of C59; every contributing triple with a given first particle occurs in exactly one of its two orders, and the list contains no triple of other particles; sums over ordered couples are twice the sums over calls. Assumes that no two particles are at the same place or exactly at the cutoff distance, as in C61; exact arithmetic |
| C64 | Flex/DomainModel.v (DomainTools.cpp, the boxes of RegularGridDecomposition.cpp); Flex/DomainSpec.v says what a division of the global box by planes is and which boxes load balancing can reach. Factorisation by invariants of the trial division; covering and balancing by induction over the balancing steps. Refuted: no divisible dimension with several ranks; boxes narrower than two interaction lengths. |
| C65 | Flex/ExchangeModel.v models all ranks together, one round of messages per dimension; Flex/HaloProofs.v shows for every dimension that the particles known to a rank are the images in its widened box, with the boundary planes continued periodically. Refuted: walls in a divided dimension after an exchanged one; narrow boxes. |
| C66 | Flex/MigrationProofs.v follows every particle with the rank that holds it; a step changes the rank by one towards its subdomain; the lists of the ranks are this multiset. Refuted: without boundary treatment a particle comes back at the opposite side. |
| C67 | MD/AVXModel.v models registers of four lanes, masked loads and stores, gather buffers, the early exit and horizontal sums. MD/AVXProofs.v: a kernel call with n live lanes has the effect of n pairs; loops over blocks by induction on the number of blocks; MD/AVXVerlet.v: the gather buffers. The reversed outer loop calls the same pairs in the other direction. |
| C68 | Refs/RefModel.v models the vector with its buffer, capacity and dirty index and pointers as (buffer, index); dereferencing a pointer into an old buffer or behind the end is undefined behaviour. Refs/RefSpec.v says what a container holds after a history. Invariant over all histories: pointers valid, distinct, covering all live particles, kinds match cells (Refs/RefProofs, RefSweep, RefAdd, RefTheorem); Refs/RefExact instantiates the grid. Refuted: deleteAllParticles, lone deleteHaloParticles. |
| C69 | Flex/IntegrateModel.v models the loop of Simulation::run with its tuning and pause flags, the position and velocity updates and the speed check; interaction, boundary and re-entry are arbitrary functions of positions, the results of computeInteractions (tuning or not) an arbitrary stream. Flex/IntegrateSpec.v: the Störmer–Verlet recurrences. Loop invariant with a case for paused states (Flex/IntegrateProofs), control flow, termination, reversal, momentum, displacement (Flex/IntegrateTheorem, IntegrateResult), counterexamples (Flex/IntegrateExample). |
| C70 | Flex/ThermostatModel.v models calcTemperatureComponent (thread aggregates, critical section, Allreduce) and apply; not finite numbers are an error outcome. Flex/ThermostatSpec.v defines the temperature from kinetic energies and the step towards the target. By induction over the aggregation and algebra of the scaling (Flex/ThermostatProofs, ThermostatTheorem). |
| C71 | Rules/RuleModel.v models the visitor (parse tree to syntax tree), the code generation with its context, the virtual machine with range-checked stack, and applyRules/optimizeSuggestions/reset. Rules/RuleSpec.v gives the rule language a big-step meaning, scopes, types and the meaning of patterns. Compiler correctness by induction over expressions and statements with an invariant that relates stack cells to variables and stack height to the counted maximum; then patterns and the queue (Rules/RuleProofs, RuleTheorem, RuleTuning). |
| C72 | Tuning/SearchModel.v models the tables of compatible traversals and load estimators, hasCompatibleValues, cartesianProduct, calculateRelevantCsfs and the part of init that calls it, and beside them what the tables are about: which traversal classes exist for an interaction type, the interface each implements, the interface each container casts to, and isApplicable of every traversal. Tuning/SearchSpec.v defines the wanted configurations from the latter only. The tables are compared with the classes by evaluation over the finite enumerations; the product by induction over the lists of allowed options. |
| C73 | Flex/QuatModel.v models Quaternion.cpp, calculateQuaternionsAndResetTorques and calculateAngularVelocities for one molecule (molecules do not influence each other there; the torques that the force computation adds are a parameter). Rotation by polynomial identities; the step by invariants of the loop; its end by contraction: normalising brings vectors closer relative to their lengths, so each pass reduces the distance of successive orientations by k/(1-k), k a quarter of the angle per step. |
| C74 | Same model. Equal moments of inertia: momentum is inertia times angular velocity. Refutation: for a concrete asymmetric top the orientation after one step is bounded by interval arithmetic from the midpoint rule, and the third component of the momentum becomes positive. |
| C75 | Flex/ReflectModel.v: reflectParticlesAtBoundaries line by line, one list of molecules per rank. Specification: potential and force of a wall, ranks as pieces between cut points. Proof: the pass over a wall changes nothing beyond the searched slab, ranks not at the wall are out of reach; the loop is composed dimension by dimension; the derivative is glued at the reach. |
| C76 | Same model with the multi-site kernel. The nested loops are sums over pairs of sites and images; compared with the mirror image with mixed parameters. Refutation: two sites with epsilon 1 and 4. |
| C77 | MD/MultisiteModel.v: AoSFunctor of LJMultisiteFunctor.h line by line. Specification MD/MultisiteSpec.v: sites placed in space, sums of ljForce (C60) over all pairs of sites. Proof: states form a commutative monoid, every call adds one element; components are nested sums, swapped for the second molecule. Conservation: force along the displacement of the sites. |
| C78 | Same model: the three SoA functions with their flat arrays of sites, masks and reductions. Proof: an accumulated array of site forces stands for an element of the monoid (reduced); each innermost step adds the effect of one pair of sites, so the loops add what the AoS calls add. |
| C79 | Cluster/ListsBufferModel.v: NeighborListsBuffer with resize, growth and generation of its storage, and the loop of rebuildTowersAndClusters that hands out lists. Specification: histories of rebuilds and writes. Proof: exact capacity after clear; sum of rounded-up quotients against the reserved estimate. Refutation: eleven lists of a new buffer; a key used twice. |
| C80 | SPH/SPHModel.v: SPHKernels W and gradW, the density functor in all layouts. Specification SPH/SPHSpec.v: the text-book cubic spline and its slope. Proof: positive parts of cubes are differentiable everywhere; integral by antiderivatives on the two pieces (Coquelicot); loops accumulate with commuting updates. |
| C81 | SPH/SPHModel.v: the hydrodynamic force functor in all layouts. Proof: contributions of a pair to both particles in closed form; loops as in C80, with the maximum of signal velocities. Refutation: two particles of smoothing lengths 1 and 1/5 at distance 1. |
| C82 | Tuning/PredictiveModel.v: reset of the prediction strategy over an arbitrary method of extrapolation, the methods lastResult and (reuse only) newtonPolynomial. Proof: membership invariants of the loops over the queue, sortedness and permutation of the sort, minimum of the predictions; induction on phases for lastResult. Refutations: by the description of the queue; index arithmetic modulo 2^64. |
| C83 | Fuzzy/FuzzyModel.v: membership functions, composed sets as a tree, rules, both methods of defuzzification with a bounded loop over the samples. Proof: case analysis for the functions; induction on sets; the union by induction on the rules; the loop visits exactly the grid; invariants of the running maximum. Refutations: no antecedent fulfilled; range of one point. |
| C84 | Fuzzy/FuzzyTuningModel.v: closest mapping, both interpretations of the outputs, over any configurations, patterns and predictions. Proof: invariant of the first minimum; composition of filters; the loop with break over the sorted list equals a filter. Refutation: negative suitabilities. |
| C43, C44 | cluster towers (Cluster/TowerModel), grid of towers, rebuild and neighbour lists (Cluster/BlockModel), exact arithmetic | sorted lists, permutations; geometry of towers, counting of list entries |
| C45 | safe arithmetic on integers and on Flocq's binary64 (Utils/SafeMathModel) | lia, Flocq's correctness theorems |
| C46 | SoA loader and extractor (Utils/SoAModel) | writes in any order commute |
| C48 | AutoTuner::willRebuildNeighborLists | from the invariant of C35 |
| C47 | forEach, forEachInRegion of linked cells, direct sum, octree and cluster lists | list lemmas, reuse of C25 geometry |

## Trusted base

* Coq 8.16.1's kernel (`coqc`, checked with `coqchk`).
* The faithfulness of the model: the C++ code is not executed; each definition
  cites what it models.
* Axioms. Only axioms of the standard library occur: those of its real numbers
  (`ClassicalDedekindReals.sig_forall_dec`, `sig_not_dec`), functional
  extensionality, and, through Flocq's proofs, `Classical_Prop.classic`.
  `Print Assumptions` gives, for the theorems of `theories/Properties`
  (this list is written by `tools/gen_assumptions.py`):

<!-- assumptions begin -->
* closed under the global context (no axioms):
  C01_three_one_three, C01_one_three_one, C01_u64_no_wrap, C01_injective, C06_c08_exactly_once, C06_c08_at_most_once, C07_c08_race_free, C08_c18_exactly_once, C09_c18_race_free, C10_c04_exactly_once, C11_c04_race_free, C12_hcp_exactly_once, C12_hcp_race_free, C13_c01_exactly_once, C13_c01_writes_own_cell, C14_c01_triplets, C15_sliced_partition, C15_balanced_partition, C16_sliced_mutual_exclusion, C16_sliced_distance, C17_sliced_no_deadlock, C17_sliced_terminates, C16_sliced_exactly_once, C18_c02_sliced, C19_cell, C19_cell_only_own_pairs, C19_pair, C19_pair_only_own_pairs, C20_directions, C21_cell, C21_pair_two_one, C21_pair_one_two, C21_triple, C21_only_own_triplets, C23_direct_sum, C24_direct_sum_partial, C24_direct_sum_empty_buffers_partial, C24_restart_refuted, C24_late_begin_refuted, C31_balanced, C31_sizes, C35_phases, C35_estimate, C35_estimate_refuted, C35_interval_refuted, C35_retune_refuted, C36_never_fails_partial, C36_reject_refuted, C36_interval_refuted, C36_random_refuted, C48_rebuild_on_change_partial, C48_phase_start_refuted, C37_distribution, C37_rank_options, C37_search_space_size, C37_useless_container_refuted, C37_round_robin, C39_roundtrip, C39_gather, C49_globally_best, C42_octree_neighbors_once, C43_collect_returns_the_particles, C43_delete_removes_one, C45_integers, C45_pow, C46_loader, C46_extractor, C46_roundtrip, C46_roundtrip_parallel, C46_append, C46_not_needed_refuted, C47_linked_cells, C47_direct_sum, C47_cluster_lists, C53_partition, C64_grid, C64_undivided_refuted, C64_numbers, C71_queue, C71_reset, C71_typed, C71_total, C71_clash, C71_parentheses_refuted, C71_skipped_refuted, C71_same_refuted, C71_factor_refuted, C72_interval, C79_cluster_lists, C79_stays, C79_capacity, C79_growth_refuted, C79_keys, C79_unknown_key_refuted, C79_key_refuted, C82_measured, C82_rejected, C82_last_result, C82_last_result_refuted, C83_samples
* `ClassicalDedekindReals.sig_forall_dec`:
  C43_clusters_hold_the_particles, C43_refill_keeps_the_particles
* `ClassicalDedekindReals.sig_forall_dec`, `FunctionalExtensionality.functional_extensionality_dep`:
  C03_monotone_exact, C03_bounding_box, C03_bounding_boxes_disjoint, C05_halo_suffices, C23_cluster_lists, C23_cluster_lists_rebuilt, C24_cluster_lists_partial, C24_cluster_lists_empty_buffers_partial, C25_linked_cells, C25_linked_cells_any_region, C25_linked_cells_far_region_refuted, C25_direct_sum, C25_cluster_lists, C25_cluster_lists_rebuilt, C23_octree, C24_octree_partial, C24_octree_empty_buffers_partial, C25_octree, C25_octree_flat_region_refuted, C26_conserved, C26_exact, C26_no_failure, C26_resize_refuted, C27_owned, C27_halo, C27_halo_content, C27_twice_refuted, C28_schedule, C28_wraparound_refuted, C28_switch_refuted, C30_linked_cells, C30_direct_sum, C30_boundary_refuted, C32_linked_cells, C32_direct_sum, C32_far_halo_refuted, C33_linked_cells, C33_direct_sum, C33_octree, C33_cluster_lists, C38_intervals_partial, C38_remainder_refuted, C38_equal_refuted, C38_cover_refuted, C40_buckets, C40_equal, C40_mixed_refuted, C41_octree_keeps_particles, C41_octree_leaves_partition, C41_exact_is_precise, C42_octree_neighbors, C43_owned_clusters, C43_owned_clusters_mixed_refuted, C44_rebuild_keeps_particles, C44_every_particle_has_a_cluster, C44_lists_sound, C44_unequal_halo_towers_refuted, C47_linked_cells_region, C47_direct_sum_region, C47_octree, C47_octree_region, C47_cluster_lists_region, C47_octree_moved_refuted, C47_octree_dummies_refuted, C47_direct_sum_dummies_refuted, C47_far_region_refuted, C47_buffer_refuted, C50_exact_is_precise, C51_changed_number_refuted, C60_parameters, C60_single, C60_pair, C60_verlet, C62_parameters, C64_boxes, C64_narrow_refuted, C65_halo, C65_history, C65_walls_refuted, C65_narrow_refuted, C66_migration, C66_load_balancing, C66_open_boundary_refuted, C68_history, C68_delete_all_refuted, C68_delete_halo_refuted, C69_trajectory, C69_ends, C69_reversible, C69_momentum, C69_reflective_pause_refuted, C69_pause_refuted, C69_zero_start_refuted, C70_measured, C72_exact, C72_init, C72_compatible, C72_factors, C72_factors_refuted, C72_init_refuted, C72_init_undefined_refuted, C72_references_refuted, C73_rotation, C73_quaternion, C73_inverse, C73_compose, C73_mirror, C77_conserved, C78_single_partial, C78_pair_partial, C78_verlet_partial, C78_no_mixing_refuted, C82_queue, C82_due_kept, C82_nonempty, C82_defined, C82_untested_refuted, C82_removed_refuted, C82_newton_beyond_refuted, C82_newton_nodes_refuted, C83_operators, C83_gravity, C83_maximum, C83_silent_refuted, C83_point_refuted, C84_individual, C84_suitability, C84_best, C84_negative_refuted
* `ClassicalDedekindReals.sig_forall_dec`, `ClassicalDedekindReals.sig_not_dec`, `FunctionalExtensionality.functional_extensionality_dep`:
  C20_sorted_cell, C20_sorted_pair, C20_large_skin_refuted, C21_sorted_cell, C21_sorted_cells, C22_c08, C22_c18, C22_c01, C29_complete, C29_boundary_refuted, C44_lists_complete, C44_lists_complete_newton3, C50_c18, C50_c01, C51_c06, C51_cluster_iteration, C51_c01_balanced, C51_sliced, C51_sliced_c02, C52_c06, C52_cluster_iteration, C52_c01_balanced, C52_sliced, C52_sliced_c02, C54_verlet_lists_aos, C54_verlet_lists_soa, C55_verlet_lists_aos, C55_verlet_lists_soa, C54_lists_per_cell_built, C54_lists_per_cell_c01, C54_lists_per_cell_c18, C54_lists_per_cell_sliced, C54_lists_per_cell_sliced_c02, C55_lists_per_cell_c01, C55_lists_per_cell_c18, C55_lists_per_cell_sliced, C55_lists_per_cell_sliced_c02, C55_sliced_progress, C54_lists_per_cell_c08_built, C54_lists_per_cell_c08, C55_lists_per_cell_c08, C54_lists_per_cell_pair_built, C54_lists_per_cell_pair_c01, C54_lists_per_cell_pair_c18, C54_lists_per_cell_pair_sliced, C54_lists_per_cell_pair_sliced_c02, C54_lists_per_cell_pair_c08, C55_lists_per_cell_pair_c01, C55_lists_per_cell_pair_c18, C55_lists_per_cell_pair_sliced, C55_lists_per_cell_pair_sliced_c02, C55_lists_per_cell_pair_c08, C54_var_verlet_lists, C55_var_verlet_lists, C56_direct_sum_pairs, C56_direct_sum_triplets, C56_c01_triplets, C57_c01_combined, C57_c04_combined, C58_exactly_once, C59_exactly_once, C60_forces, C60_globals, C61_forces, C61_at_cutoff_refuted, C67_single, C67_pair, C67_calls, C67_globals, C69_displacement, C69_tiny_skin_refuted, C70_apply, C70_converges, C70_halo_refuted, C70_rest_refuted, C73_step, C73_ends, C73_rigid, C74_momentum_partial, C74_velocity, C74_momentum_refuted, C77_pair, C77_newton3, C80_kernel, C80_density, C80_newton3, C80_layout, C81_conserved, C81_newton3_partial, C81_newton3_refuted, C81_layout, C81_single_refuted, C83_shapes
* `ClassicalDedekindReals.sig_forall_dec`, `ClassicalDedekindReals.sig_not_dec`, `Classical_Prop.classic`, `FunctionalExtensionality.functional_extensionality_dep`:
  C02_inside, C02_outside, C03_monotone_double, C04_clear_halo, C05_rounding_refuted, C05_rounding_c08_refuted, C23_linked_cells, C23_linked_cells_added, C24_linked_cells_partial, C24_linked_cells_empty_buffers_partial, C32_disjoint, C32_cover, C33_linked_cells_double, C34_pairwise, C34_pairwise_double, C34_rounding_refuted, C34_thin_box_refuted, C34_triwise_partial, C34_resize_refuted, C34_limited_refuted, C40_buckets_double, C41_double_is_precise, C45_doubles, C54_var_verlet_lists_rounding_refuted, C60_mixing, C60_gradient, C60_dummy_refuted, C62_mixing, C62_gradient, C62_newton3, C62_forces, C62_globals, C63_forces, C75_reflection, C75_range, C75_repels, C75_conservative, C75_narrow_rank_refuted, C76_image_partial, C76_inward, C76_mixed_refuted, C80_mass, C80_gradient, C83_membership
<!-- assumptions end -->

## What is modelled, and what is not

See also the comment at each definition.

| code in /repo/src/autopas | model | left out |
|---|---|---|
| utils/ThreeDimensionalMapping.h | Grid/IndexModel | – |
| containers/CellBlock3D.h | Grid/CellBlockModel, with a rounding function (identity or binary64) | checkInHalo (getNearbyHaloCells is in Logic/HandlerModel) |
| containers/cellTraversals, linkedCells/traversals (c01, c04, c04HCP, c08, c18, sliced, c02 sliced, balanced slices) | Traversal/*Model | OpenMP scheduling within a colour (tasks of a colour are unordered); combined-SoA variants |
| sliced traversal locks | Traversal/LockModel, interleaving semantics | weak memory effects |
| baseFunctors/CellFunctor.h, CellFunctor3B.h, SortedCellView.h | Functor/*Model | the functors themselves: a functor call is an event; SoA and AoS calls are events on particle sets |
| applicationLibrary/molecularDynamics/molecularDynamicsLibrary: LJFunctor.h, LJFunctorAVX.h, AxilrodTellerFunctor.h, ParticlePropertiesLibrary.h (sites) | MD/LJModel, MD/AVXModel, MD/ATModel, MD/MixingModel, exact arithmetic; MD/LJFloat for one kernel in binary64 | rounding of the sums; the SVE variant of the functor, denormal numbers in the comparison of ownership states (AVX), multi-site molecules, FLOP numbers derived from the counters |
| examples/md-flexible/src: Simulation.cpp (run loop, updateInteractionForces, updateSimulationPauseState), TimeDiscretization.cpp (positions, velocities), particles/ParticleBase.h (distance check) | Flex/IntegrateModel, exact arithmetic; all ranks' molecules in one list; interaction, boundary force and periodic re-entry as parameters | quaternions and torques, thermostat, output, timers, load balancing (see C64) |
| examples/md-flexible/src/Thermostat.h (calcTemperatureComponent, apply) | Flex/ThermostatModel, exact arithmetic | calcTemperature (used by tests only), addBrownianMotion |
| src/autopas/tuning/tuningStrategy/ruleBasedTuning: RuleBasedProgramParser.cpp, RuleBasedProgramTree.h/.cpp, RuleVM.h, RuleBasedTuning.cpp | Rules/RuleModel, for any arithmetic of doubles; the stack pointer is an integer instead of a wrapping size_t; sets in patterns are lists | the lexer and parser generated by ANTLR (the model starts from the parse tree), reading the file, texts for logs, the check of measured times in verify mode, collecting live infos |
| src/autopas/tuning/utils/SearchSpaceGenerators.cpp, Configuration.cpp hasCompatibleValues, containers/CompatibleTraversals.h, CompatibleLoadEstimators.h, isApplicable of all traversals, AutoPasImpl.h init (cell size factors) | Tuning/SearchModel.v | the order of the set, modes of the exception handler other than throwing, numbers of cells beyond 2^32, inferOptionDimensions, printing |
| src/autopas/utils/Quaternion.cpp, examples/md-flexible/src/TimeDiscretization.cpp (rotation) | Flex/QuatModel.v | rounding; the comparison of the global force with the machine epsilon (zero in the model) |
| examples/md-flexible/src/domainDecomposition/RegularGridDecomposition.cpp: reflectParticlesAtBoundaries, maximal skin of the constructor | Flex/ReflectModel.v | exact arithmetic; division by zero for a site on the wall not distinguished; the region iterator is a filter (C17, C18) |
| src/autopas/containers/NeighborListsBuffer.h, VerletClusterListsRebuilder.h: handing out of lists | Cluster/ListsBufferModel | capacity of vectors (a resize to more lists counts as a move), growth factors as any function that does not shrink |
| tuning/tuningStrategy/PredictiveTuning.cpp: reset, calculatePredictions, addEvidence, rejectConfiguration, lastResult, reuse in newtonPolynomial | Tuning/PredictiveModel; set and map as lists, any method of extrapolation, a cast beyond long is undefined | linePrediction, linearRegression, first computation in newtonPolynomial (covered only as arbitrary methods); overflow checks of newtonPolynomial; floating point |
| tuning/tuningStrategy/fuzzyTuning/fuzzyController: FuzzySet, FuzzySetFactory, FuzzyRule, FuzzyControlSystem, CrispSet | Fuzzy/FuzzyModel, exact arithmetic; a loop that needs more steps than any bound, an exception and undefined behaviour are all None | rounding (with doubles the last sample may be missed), fewer than two samples, names and printing, settings, the rule file parser |
| tuning/tuningStrategy/fuzzyTuning: FuzzyTuning.cpp (updateQueue...), OutputMapper.cpp | Fuzzy/FuzzyTuningModel; predictions of the systems as arbitrary values (C83 says which) | parsing of the rule file, live info, ConfigurationPattern::matches (an arbitrary function), logging |
| applicationLibrary/sph: SPHKernels.h, SPHCalcDensityFunctor.h, SPHCalcHydroForceFunctor.h | SPH/SPHModel, exact arithmetic; the functors read fixed attributes and write separate maps | SPHParticle.h (integration, equation of state, serialization), division by zero (density or smoothing length zero), FLOP counts |
| applicationLibrary/molecularDynamics: LJMultisiteFunctor.h | MD/MultisiteModel, exact arithmetic; AoSFunctor, SoAFunctorSingle, SoAFunctorPair, SoAFunctorVerlet, endTraversal | vectors written beyond their size (undefined behaviour, modelled as arrays of the reserved capacity), division by zero for coinciding sites, threads, FLOP counts, the reduction without mixing (not reached) |
| examples/md-flexible/src/domainDecomposition: DomainTools.cpp, RegularGridDecomposition.cpp | Flex/DomainModel, Flex/ExchangeModel, exact arithmetic; all ranks together, one round of messages per send step; MPI delivers in order | the ALL library (its boxes are any division by planes), serialization of messages (C39), rounding of positions at boundaries except nextafter, MPI itself |
| linkedCells/LinkedCells.h (add, traversal, iteration) | Container/LinkedCellsModel, Container/Iterator* | |
| linkedCells/LinkedCellsReferences.h, ParticleVector.h, cells/ReferenceParticleCell.h | Refs/RefModel, exact arithmetic | the locks; sorting of cells (as in C07); its iterators and traversals beyond what the pointers show (they are those of LinkedCells) |
| directSum/DirectSum.h (iteration) | Container/IteratorContainers | |
| LogicHandler.h: spatial locks | Logic/LocksModel, with a rounding function | the lock objects (C18-style interleavings are not needed: only the index is modelled) |
| utils/ArrayUtils.h: balanceVectors | Logic/BalanceModel | overflow of the int sum |
| containers/LeavingParticleCollector.h | Container/CollectModel, with a rounding function for the volumes; every interleaving of the threads | |
| computeRemainderInteractions2B and its helpers, LogicHandler.h:1127-1316 | Logic/RemainderModel | functor calls as a multiset; what a call adds is the documented meaning of AoSFunctor, SoAFunctorSingle and SoAFunctorPair; the SoA loading is C46 |
| LogicHandler.h: add, delete, update, resize, container selection, compute; ContainerSelector.h | Logic/HandlerModel: one transition per API call, for linked cells and direct sum, exact arithmetic | interactions themselves (C22, C30), measurements, logging; what the tuner selects is arbitrary; overflow of the particle counters |
| computeInteractions (pairwise), LogicHandler.h:1041-1101, for linked cells (c08 and every order of its base cells, c18, c01) and direct sum | Logic/ComputeModel: selection, container traversal, remainder traversal | the other containers (C51, C54, C50 cover their traversals between rebuilds); measurements; functor init and end |
| computeInteractions (triwise) and computeRemainderInteractions3B, LogicHandler.h:1318-1504 | Logic/Remainder3Model | the locks of the remainder loops (C34); the other containers have no three-body traversal |
| forEach and forEachInRegion of LinkedCells.h and DirectSum.h | Container/ForEachModel | the sequence of particles handed to the lambda |
| updateContainer of LinkedCells.h and DirectSum.h | Container/UpdateModel | the threads' reinsertions are atomic (the code locks the cells) and come in any order |
| tuning/AutoTuner.cpp, searchSpace/EvidenceCollection.cpp, selectors/OptimumSelector.h; selectConfiguration and computeInteractionsPipeline of LogicHandler.h | Tuning/TunerModel: the state machine; strategies are functions on the queue (RandomSearch, SortByName are given) | LOESS smoothing (off), loggers, energy sensors, live info, the other strategies, overflow of times |
| utils/ConfigurationAndRankIteratorHandler.cpp, utils/AutoPasConfigurationCommunicator.cpp, MPIParallelizedStrategy::reset | Tuning/DistributeModel, Tuning/MpiModel | MPI itself: the collectives do what the standard says; int overflow of sizes |
| utils/Math.h: safeAdd, safeSub, safeMul, pow | Utils/SafeMathModel | – |
| utils/SoA.h, loader and extractor of baseFunctors/Functor.h | Utils/SoAModel: a load is a list of writes, parallel loads any order of them | conversions between value types |
| containers/octree: OctreeDirection.h, OctreeNodeInterface.h, OctreeInnerNode.h, OctreeLeafNode.h | Octree/DirectionModel, Octree/OctreeModel: trees as an inductive type, nodes addressed by paths from the root | pointers, locks, serialisation to JSON |
| containers/octree/Octree.h: updateContainer, forEach, forEachInRegion; OctreeNodeWrapper.h | Octree/OctreeContainerModel | neighbour list flag, counters |
| containers/octree/Octree.h: getParticle, getParticleImpl, advanceIteratorIndices, getLeafCellByIndex, deleteParticle(cell, index) | Octree/OctreeIteratorModel over Container/IteratorGenericModel | loops have fuel, which the theorems show to suffice |
| containers/octree/traversals/OTC01Traversal.h, OTC18Traversal.h | Octree/OctreeTraversalModel | the order of std::set (any order) |
| containers/verletClusterLists: ClusterTower.h, Cluster.h, ClusterTowerBlock2D.h, VerletClusterListsRebuilder.h | Cluster/TowerModel, Cluster/BlockModel | rounding; the buffer that stores the lists (NeighborListsBuffer); std::sort is any sorting function |
| containers/verletClusterLists/VerletClusterLists.h: begin, getRegionIterator, getParticle, deleteParticle, deleteHaloParticles, updateContainer(false), forEach, forEachInRegion | Cluster/ClusterContainerModel | rounding; the exception for particles added to a valid container; deleteParticle by reference; updateHaloParticle |
| containers/verletClusterLists/traversals/* (VCLC06, VCLClusterIteration, VCLC01Balanced, VCLSliced, VCLSlicedBalanced, VCLSlicedC02, VCLClusterFunctor), VerletClusterLists.h: traverseClusters, fillClusterRanges, getTraversalSelectorInfo | Cluster/ClusterTraversalModel | the SoA functors (by contract), loading and extracting the SoA buffers, the load estimators (arbitrary numbers) |
| containers/directSum: DirectSum.h (constructor, addParticle, addHaloParticle, computeInteractions), DSSequentialTraversal.h; LCC01Traversal.h (three-body) with sorting directions | Container/CellCallsModel | rounding; loading and storing of SoA buffers (C46) |
| LCC01Traversal.h with combineSoA; LCC04CombinedSoATraversal.h, LCC04SoACellHandler.h, C04BasedTraversal.h | Container/CombinedC01Model, CombinedC04Model: the threads' buffers, offsets and current slice; for c04 one event per processed base cell | the functor is its contract (which rows receive which contributions); interleaving inside the processing of one base cell; OpenMP itself |
| containers/verletListsCellBased: VerletLists, VarVerletLists (VerletNeighborListAsBuild), VerletListsCells (VLCAllCellsNeighborList, VLCCellPairNeighborList), their generator functors and traversals (vl_list_iteration, vlc_c01, vlc_c18, vlc_sliced, vlc_sliced_balanced, vlc_sliced_c02, vlc_c08 with rebuildNeighborListsC08 and buildC08BaseStep, vlp_*, vlp_c08, vvl_as_built) | Verlet/VerletModel, Verlet/VerletC08Model: a hash map is an association list, buckets in any distribution; the lists are built by the functor calls of the linked cells inside; None: at() throws or an index is out of range | rounding (but see `C54_var_verlet_lists_rounding_refuted`); reserving capacities and the estimates behind it (arbitrary); loading and extracting the SoA buffers; checkNeighborListValidity |
| iterators/ContainerIterator.h | Container/IteratorModel | copy/move assignment, `dummy`-only behaviour |

## Findings

Places where the faithful model does not have the property, with the theorem
that shows it:

* C05: with IEEE rounding the overlap in CellBlock3D can exceed the number of
  halo layers (`C05_rounding_refuted`, `C05_rounding_c08_refuted`).
* C20: sorted early termination with a large skin (`C20_large_skin_refuted`).
* C24: deleting the last particle that is visited makes the iterator start
  again when all additional buffers are empty (`C24_restart_refuted`), and a
  thread that calls `begin()` after another thread emptied a buffer iterates over
  a shorter list of buffers (`C24_late_begin_refuted`).
* C34: the triwise lock index ignores the actual number of locks, so it is out of
  range after `resizeBox`, which makes locks for the box without halo
  (`C34_resize_refuted`), and when the number of locks is limited
  (`C34_limited_refuted`). Limiting can leave no lock at all
  (`C34_thin_box_refuted`). In IEEE arithmetic the pairwise index can be one too
  large at the last position before the end of the halo (`C34_rounding_refuted`).
* C32: the six volumes reach half a skin beyond the halo box "because particles can
  drift", but region iterators clamp every region to the halo box, so a halo
  particle on its upper end or beyond is never discarded (`C32_far_halo_refuted`).
* C30: the search region around a buffered particle is half open, so a pair at
  distance exactly the cutoff interacts or not depending on the direction
  (`C30_boundary_refuted`).
* C47: `DirectSum::forEach` and `reduce` ignore the ownership state within a cell and
  hand deleted particles to the lambda (`C47_direct_sum_dummies_refuted`);
  `LinkedCells::forEachInRegion` does not clamp the region, so it is undefined for far
  corners (`C47_far_region_refuted`). All lambda iterations of `AutoPas` skip the
  particles in the buffers of the LogicHandler (`C47_buffer_refuted`).
* C26: `resizeBox` does not look at the buffers, so a particle in a buffer can stay
  outside of the new box without being returned (`C26_resize_refuted`). It is
  returned by the next update.
* C27: a halo particle that is passed twice between two updates is stored once but
  counted twice (`C27_twice_refuted`).
* C28: `_functorCalls` is an unsigned int; when it wraps to zero, `updateContainer`
  does not count steps, and lists are used without bound (`C28_wraparound_refuted`).
  A computation may replace the container while the lists are flagged valid, e.g. with
  a pairwise and a triwise functor whose tuners chose different containers; then the
  new container never builds its lists (`C28_switch_refuted`). VerletLists::
  computeInteractions does not check its own flag either.
* C29: list generation takes pairs with distance strictly below cutoff plus skin, so a
  pair that ends up at the cutoff exactly can be missing (`C29_boundary_refuted`).
* C35: if tuning takes longer than the tuning interval, the phase counter advances during
  tuning, and the optimum is taken only over the configurations measured after that
  (`C35_interval_refuted`). After `forceRetune` within an interval, evidence of the
  aborted or earlier phase with the same number competes with the new one
  (`C35_retune_refuted`). Without samples that include a rebuild, the rebuild time is
  taken to be zero (`C35_estimate_refuted`).
* C36: rejecting the last queued configuration accesses `back()` of an empty queue
  (`C36_reject_refuted`). If sampling takes exactly the tuning interval, there is no
  evidence in the new phase, and `getOptimalConfiguration` throws
  (`C36_interval_refuted`). RandomSearch accesses `back()` of an empty queue if the search
  space is smaller than the requested evidence (`C36_random_refuted`).
* C48: when a tuning phase starts, the tuner changes the configuration, but asks for a
  rebuild only if the iterations since the last phase happen to be a multiple of the
  rebuild frequency (`C48_phase_start_refuted`). The new container is then used without
  lists being built.
* C37: a container for which no allowed traversal is applicable makes
  `distributeConfigurations` dereference an end iterator
  (`C37_useless_container_refuted`).
* C38: the intervals of cell size factors leave the allowed interval if the number of
  ranks is not a multiple of the number of configurations (`C38_remainder_refuted`) or not
  larger than it (`C38_equal_refuted`); with fewer ranks than configurations the upper part
  of the interval is lost (`C38_cover_refuted`).
* C40: ranks with invalid values call `MPI_Comm_split` while the others call
  `MPI_Allgather` first: if only some ranks are invalid, the collectives do not match
  (`C40_mixed_refuted`).
* C41: an inner node of the octree silently drops a particle that is not in its box,
  while the wrapper counts it (lemma `insert_outside_dropped`). Such insertions are not
  reachable through `addParticle`, which checks the box first, but a particle that has
  moved out of its leaf is lost if a later insertion splits that leaf. With doubles the
  recursive splitting need not end if the interaction length is below the spacing of
  doubles at the coordinates; the hypothesis `precise` excludes it.
* C43: `ClusterTower::setDummyValues` and `collectOutOfBoundsParticles` form references to
  elements that do not exist if the tower is empty (lines 153, 239). If owned particles of
  a tower are separated by halo particles, clusters with owned particles behind a pure halo
  cluster are taken for halo clusters (`C43_owned_clusters_mixed_refuted`).
* C44: the number of halo towers is the maximum over x and y, but the grid is padded per
  dimension. If they differ (the code logs a warning), towers of the box are taken for halo
  towers (`C44_unequal_halo_towers_refuted`). Not in the model: `VerletClusterLists::
  computeInteractions` tests `_isValid == cellsAndListsValid` before it throws "lists are not
  valid", and nothing ever sets that state, so invalid lists are not noticed;
  `NeighborListsBuffer::getNewNeighborList` grows the buffer one entry too late.
* C51: the sliced traversals of the cluster lists take the numbers of towers from
  `getTraversalSelectorInfo`, which estimates them anew from the current number of
  particles. If particles were deleted or added since the rebuild the numbers may differ
  from those of the grid, and whole towers are left out (`C51_changed_number_refuted`).
* Cluster lists, not in the model: `VCLClusterFunctor::processCluster` reads the first
  element of a possibly empty list; `NeighborListsBuffer::reserveNeighborLists` may shrink,
  and growing moves the lists while clusters keep pointers to them; when only the lists are
  rebuilt (not the towers), lists of halo clusters are not cleared, so that with Newton 3
  they would hold entries twice; dummies are put at 1000 times the upper halo corner, which
  is inside the domain if the corner's x is not positive and the box reaches there;
  `generateClusters` keeps list pointers of reused clusters; `VCLC01Balanced` skips ranges
  if OpenMP provides fewer threads than asked for.
* C47, octree: `Octree::forEach` hands deleted particles (dummies) to the lambda
  (`C47_octree_dummies_refuted`). `forEachInRegion` descends by the boxes of the nodes
  and does not grow them by the skin, so it misses particles that moved out of the box
  of their leaf since the last update (`C47_octree_moved_refuted`).
* Octree, not modelled: `Octree::deleteParticle(cellIndex, particleIndex)` does not
  update the counter of the tree wrapper, so `getNumberOfParticles` is off afterwards;
  `deleteParticle(Particle&)` descends by the current position, so it fails for a
  particle that left the box of its leaf; the iterator calls `getChild(8)` if a
  degenerate region overlaps no child of a node.
* C25, octree: a region without volume (low and high corner equal in one dimension) that lies
  exactly on the centre of a node overlaps the node but none of its children. The iterator then
  accesses child 8 before it checks the index (`C25_octree_flat_region_refuted`; Octree.h,
  `advanceIteratorIndices`).
* C25, linked cells: the constructor of the region iterator limits the lower corner from below
  and the upper corner from above only. For a region beyond the box the lower corner is converted
  to a cell index as it is, which is undefined if the result does not fit into a long
  (`C25_linked_cells_far_region_refuted`). For nearer regions outside of the box iteration is
  correct (`C25_linked_cells_any_region`).
* C23, octree: the number of a leaf is a decimal number with one digit per level in a size_t. Trees
  deeper than 18 levels overflow it; `otFits` excludes them.
* C54, VarVerletLists: the lists are stored in an array of 8 colours
  (`VerletNeighborListAsBuild`), which is the number of colours of c08 with an overlap of one
  cell. With doubles the cell length can be a rounding error smaller than cutoff + skin; then
  the overlap is 2, c08 has 27 colours, and the pairs of the colours from 8 on are written past
  the end of the array (`C54_var_verlet_lists_rounding_refuted`: cutoff 1.3, skin 0, box 11.7).
* C54, PairwiseVerletLists, not proved: in the same situation the number of lists per cell that
  is reserved with Newton 3 can be one too small (40 for 41 neighbour cells).
* Verlet lists, not in the model: `_particleToCellMap` of `VLCAllCellsNeighborList` is never cleared
  (harmless: `C54_lists_per_cell_built` holds for every earlier content);
  `VerletNeighborListAsBuild::getNumberOfNeighborPairs` counts particles with a list instead of
  pairs; the sliced traversals of the lists per cell override `isApplicable` to be always true
  (harmless: the dimensions are at least 2·overlap + 1); `std::inclusive_scan` with an int start
  value overflows for more than 2^31 particles.
* lc_c04_combined_SoA: `processBaseCell` uses `_offsets[(slice + currentSlice) % numSlices]`. Slot
  `slice` of the ring holds the cells with x offset `(slice - currentSlice) % numSlices`; the two
  agree for two slices, i.e. an overlap of one cell, which is the only case `isApplicable` allows
  (the reason given there is issue #354).
* lc_c01_combined_SoA calls the functor directly, without the cell functor's test for owned
  cells. If the halo is wider than the overlap it also computes contributions to halo
  particles (harmless).
* C60: the vectorised loops of the Lennard-Jones functor evaluate the kernel for dummies too and
  multiply by a mask. For a dummy exactly at the place of a particle 1/dr2 is infinite and 0·inf is
  not a number, so the particle's force becomes NaN; AoSFunctor adds nothing
  (`C60_dummy_refuted`). The theorems about the SoA interfaces assume that no row is at the place of
  a particle before it. The blocked part of SoAFunctorVerlet also lacks the test for the particle
  itself that the remainder loop has (harmless: the lists do not contain it).
* ParticlePropertiesLibrary::calculateMixingCoefficients without site types creates an exception object
  and does not throw it.
* C61: a pair exactly at the cutoff distance, one particle in the container and one in a buffer,
  interacts or not depending on which of them is on the lower side, because the remainder traversal
  selects partners with a half-open region while the functor includes the cutoff
  (`C61_at_cutoff_refuted`). Both particles in the container: they always interact.
* C62: the comment of AxilrodTellerFunctor.h (lines 65-70) gives as force on particle 1 the expression
  of the force on particle 2; the code uses the right one for each (`C62_forces`, `C62_gradient`).
  The virial of a triple is f_i * r_i with absolute positions, summed over owned particles only: the
  part of a halo particle is missing, so a triple across a periodic boundary contributes
  another virial than the same triple inside the box (observed by reading, not formalised). The theorems
  state exactly what is reported.
* C64: if `subdivideDimension` forbids all dimensions and there are several ranks, generateDecomposition
  reads front() of an empty list (`C64_undivided_refuted`); the parser accepts this input. Balancing
  keeps boxes at least two interaction lengths wide only if they were; otherwise it makes boxes
  narrower than the interaction length, which AutoPas rejects with an exception
  (`C64_narrow_refuted`). If two planes of ranks report no work at all, the new boundary is 0/0
  (the model yields no box; the theorems assume positive work).
* C64 (observed by reading, not modelled): RegularGridDecomposition.h:216 initialises
  `std::vector<int> _periods{_dimensionCount, 1}`, which is the two-element list {3, 1}, not three
  ones. MPI_Cart_create and MPI_Cart_get access three elements.
* C65: halo particles received along an earlier dimension are forwarded without regard to the
  boundary type, so with walls in a divided dimension a rank at one wall gets halo particles from the
  opposite wall (`C65_walls_refuted`, RegularGridDecomposition.cpp:201-226). A received particle is
  forwarded to the left or to the right, never to both, so in boxes narrower than two interaction
  lengths images across edges are missing (`C65_narrow_refuted`); AutoPas accepts boxes of one
  interaction length.
* C66: particles are wrapped around at the global boundary even if its type is "none": with two or more
  ranks in this dimension a particle that leaves the domain comes back at the opposite side
  (`C66_open_boundary_refuted`); with one rank in this dimension it is dropped.
* C67: the AVX functor masks by a bitwise "and", so a dummy at the place of a particle does no harm,
  unlike in the scalar functor (`C60_dummy_refuted`). It compares ownership states (integers 0, 1, 2) as
  doubles, where 1 and 2 are denormal: if the processor treats denormals as zero (as -ffast-math may
  switch on) all particles count as dummies. It writes the forces of a block of neighbours back by
  assignment, so a neighbour that is twice in a block would lose an update; AutoPas' lists have no
  repetitions (C29).
* C68: `LinkedCellsReferences` inherits `deleteAllParticles` from `CellBasedParticleContainer`, which
  clears the cells but not the vector the particles are in. The container then looks empty, but the
  next `updateContainer` (or an `addParticle` that reallocates the vector) brings all deleted particles
  back (`C68_delete_all_refuted`).
* C68: `LinkedCellsReferences::deleteHaloParticles` erases from the vector, which moves the particles
  behind the erased ones, but clears only the halo cells. Until the next renewal of the references the
  other cells point to wrong particles or behind the end (`C68_delete_halo_refuted`). Inside of
  `updateContainer` the renewal follows immediately, so `LogicHandler` is not affected.
* C69: with `pauseSimulationDuringTuning` and reflective boundaries, `updateSimulationPauseState` resets
  all forces to the global force at the end of a tuning phase and recomputes only the interactions: the
  force of the boundary is lost in this step (`C69_reflective_pause_refuted`).
* C69: the force computation repeated at the end of a tuning phase overwrites
  `_currentIterationIsTuningIteration`. If it is the first iteration of the next tuning phase, the
  simulation is not paused in that phase (`C69_pause_refuted`).
* C69: generated particles start with zero forces and the first position and velocity update use them,
  so the first step ignores the forces at the initial positions (`C69_zero_start_refuted`).
* C69: `setRDistanceCheck` treats every bound of at most 1e-12 (squared) as zero, so with
  verletSkinPerTimestep at most 2e-6 fast particles are never reported (`C69_tiny_skin_refuted`).
* Not formalised: in Verlet list containers a halo particle that the user deletes before the lists are
  built is not in any list (VerletListHelpers.h:67 and the VLC generator functors skip dummies). A later
  `addHaloParticle` with the same ID revives the deleted slot through `updateHaloParticle`, which
  matches by ID only and reports success, so the particle is not buffered and interacts with nothing
  until the next rebuild.
* C70: `Thermostat` iterates with `begin()`, whose default visits halo particles too. At the time of the
  call the halo copies still have the velocities of the last exchange while the owned particles have been
  updated, so measured temperature and scaling factor are biased: the owned particles do not reach the
  target (`C70_halo_refuted`). `calcTemperature` sums over owned and halo particles but divides by the
  number of owned ones.
* C70: a component with all velocities zero (generated particles without Brownian motion) has
  temperature 0; `sqrt(target / 0)` is infinite and the velocities become NaN (`C70_rest_refuted`).
* C71: a parenthesised expression in a rule file dereferences a null pointer. `visitExpression` asks
  `ctx->op->getText()` for every expression that is neither a literal nor a variable nor has two
  operands, but for `'(' expression ')'` the parser assigns no operator token and `op` stays `nullptr`
  (`C71_parentheses_refuted`).
* C71: `ConfigurationPattern::add` drops values of type size_t, and the grammar reads `2` as unsigned.
  `[dataLayout="AoS", cellSizeFactor=2]` therefore matches all AoS configurations, whatever their cell
  size factor; only `2.0` works (`C71_factor_refuted`). Likewise the name of the property is ignored:
  `[container="AoS"]` restricts the data layout.
* C71: an order removes every configuration that matches its right-hand side. Neither the left-hand side
  nor `with same` is consulted, so a configuration is removed even if the queue has none that the order
  states to be better (`C71_same_refuted`). They are only used to report contradictions in verify mode.
* C71: a variable defined inside an `if` is known to the compiler behind it. If the body was skipped, the
  variable reads as `false` without any error (`C71_skipped_refuted`).
* C71: `and`/`or` of the virtual machine look at the right operand first and skip the type check of the
  left one if that decides the result.
* C72: `AutoPas::init` computes the interaction length for an interval of cell size factors as
  `cutoff * verletSkinPerTimestep * rebuildFrequency` (AutoPasImpl.h:91), a product where the sum
  `cutoff + skin` is meant. The factors tried do not fit the domain, and many of them give the same grid
  (`C72_init_refuted`); without skin the number of cells is infinity converted to unsigned int
  (`C72_init_undefined_refuted`).
* C72: `calculateRelevantCsfs` rounds the smallest number of cells up. The coarsest grid that a factor of
  the interval gives is missed unless the upper bound divides the domain (`C72_factors_refuted`).
* C72: linked cells with references accept the traversals of linked cells, with three-body interactions
  and load estimators, but the tables leave them out; likewise the load estimators of pairwise Verlet lists
  (`C72_references_refuted`).
* C72 (not formalised): `Octree::computeInteractions` ignores a traversal of the wrong type silently, other
  containers throw. lc_c04 with cell size factors of at most 1/2 is in the search space although it is
  never applicable.
* C74: calculateQuaternionsAndResetTorques updates the angular velocity in the world frame by the torque
  divided by the moment of inertia only (TimeDiscretization.cpp:102, "equivalent to (24)"). The equation it
  stands for updates the angular momentum; the term -w x (I w) is missing. A free molecule with different
  moments of inertia turns with constant angular velocity (`C74_velocity`) and its angular momentum changes
  (`C74_momentum_refuted`).
* C73: the torque of the global force is added once per site with the whole force, while the force itself is
  added once per molecule (TimeDiscretization.cpp:123-133, 36).
* C75: reflectParticlesAtBoundaries reflects only on ranks that touch the global boundary. If a rank is narrower
  than 2^(1/6) * sigma / 2, particles of the next rank that are within reach of the wall are not reflected
  (`C75_narrow_rank_refuted`). A particle exactly on the lower boundary coincides with its image, the force is
  then 0 * infinity.
* C76: reflectParticlesAtBoundaries (lines 404-405) asks for the mixed sigma and epsilon of `siteTypes[site]` with
  itself; the second argument should be the type of the mirror site. Molecules with different sites get another
  force than that of their mirror image (`C76_mixed_refuted`).
* C78: SoAFunctorSingle, SoAFunctorPairImpl and SoAFunctorVerletImpl of LJMultisiteFunctor (lines 445, 983, 1248
  and 1328) call `_PPLibrary->getNumSites` and `getSiteTypes` also without mixing, where `_PPLibrary` is null
  (`C78_no_mixing_refuted`).
* C78 (not reached because of the above): in the reduction without mixing, line 1481 adds the z component of the torque to
  `txptr` instead of `tzptr`.
* C78: the vectors of site positions, types and forces are reserved and then written with `operator[]` beyond their
  size, which is undefined behaviour; the model treats them as arrays of that capacity.
* C79: NeighborListsBuffer::getNewNeighborList grows the buffer if `_lastValidListIndex >= size` before it adds one to the
  index; it should compare the next index. The list after the last one is written out of bounds
  (`C79_growth_refuted`: the eleventh of a new buffer). VerletClusterLists is safe because it reserves enough lists
  and the first call after clear() doubles them. After clear() every first call grows the buffer even if it is large
  enough. reserveNeighborLists shrinks the buffer although its comment says that nothing happens. A key that is
  assigned a new list keeps the old one (`C79_key_refuted`).
* C79: getNeighborListRef(key) for a key without a list silently inserts the key with index 0, the list of another key
  (`C79_unknown_key_refuted`).
* C80: gradW adds `1e-6 * h` to `drabs * H`, which has another unit; the gradient is too small by the factor
  r / (r + 4e-7), and this factor is not independent of the unit of length.
* C81: AoSFunctor and the SoA functions of SPHCalcHydroForceFunctor skip a pair by the smoothing length of the first particle
  only, although the force uses the kernels of both. If only one of two particles is in the support of the other, then
  results depend on newton3, on the order of the two particles and, since SoAFunctorSingle ignores newton3, on the
  data layout; without newton3 momentum is not conserved (`C81_newton3_refuted`, `C81_single_refuted`). The functor allows both
  newton3 modes, so tuning may change the results.
* C81: the SoA functions start the largest signal velocity with 0, so a negative one is raised to 0; AoSFunctor does not.
* C82: PredictiveTuning::reset clears the queue and puts back only configurations with predictions or on the waiting list. A
  configuration without any evidence is on neither, so it is never measured once another one has a prediction
  (`C82_untested_refuted`), e.g. if tuning was cut short or an earlier strategy held it back in the first phases.
* C82: the waiting list is not restricted to the queue: configurations removed by an earlier strategy come back
  (`C82_removed_refuted`).
* C82: lastResult decides by the phase of the last evidence whether to reuse the stored value; if the configuration was not in the
  queue in the phase right after its measurement the new measurement is ignored (`C82_last_result_refuted`).
* C82: newtonPolynomial reuses coefficients with index size - 1 - min + j, but computed them with size - min + j. With exactly min
  measurements the index wraps around and the access is beyond the vector (`C82_newton_beyond_refuted`); with more the nodes are
  shifted by one (`C82_newton_nodes_refuted`).
* C83: centerOfGravity returns 0 if no rule fires, even if 0 is not in the range of the output (`C83_silent_refuted`); meanOfMaximum
  returns the middle of the range in this case.
* C83: with equal boundaries of the output the step of the sampling loops is 0 and they never end (`C83_point_refuted`); nothing
  rejects such a linguistic variable.
* C84: the limit best * (1 - threshold) is above the best suitability if that is negative, so the best system is dropped as well and
  the queue becomes empty (`C84_negative_refuted`); AutoTuner then restores the queue with a warning, so nothing is selected.
