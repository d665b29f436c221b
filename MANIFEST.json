{
 "claims": [
  {
   "property": "C01",
   "status": "proved",
   "theorems": [
    "C01_three_one_three",
    "C01_one_three_one",
    "C01_u64_no_wrap",
    "C01_injective"
   ],
   "note": "Flat cell index is a bijection"
  },
  {
   "property": "C02",
   "status": "proved",
   "theorems": [
    "C02_inside",
    "C02_outside"
   ],
   "note": "Owned positions go to owned cells, halo positions to halo cells, despite rounding"
  },
  {
   "property": "C03",
   "status": "proved",
   "theorems": [
    "C03_monotone_double",
    "C03_monotone_exact",
    "C03_bounding_box",
    "C03_bounding_boxes_disjoint"
   ],
   "note": "A position lies in the bounding box of the cell it is sorted into; lookup is monotone"
  },
  {
   "property": "C04",
   "status": "proved",
   "theorems": [
    "C04_clear_halo"
   ],
   "note": "Halo clearing removes exactly the halo cells' content"
  },
  {
   "property": "C05",
   "status": "proved",
   "theorems": [
    "C05_halo_suffices",
    "C05_rounding_refuted",
    "C05_rounding_c08_refuted"
   ],
   "note": "Proved in exact arithmetic. With IEEE rounding the claim is false: C05_rounding_refuted and C05_rounding_c08_refuted give a box (length 11.7, interaction length 1.3) for which the overlap is 2 but there is one halo layer, and c08 then skips owned cells."
  },
  {
   "property": "C06",
   "status": "proved",
   "theorems": [
    "C06_c08_exactly_once",
    "C06_c08_at_most_once"
   ],
   "note": "c08 traversal processes every relevant cell pair exactly once"
  },
  {
   "property": "C07",
   "status": "proved",
   "theorems": [
    "C07_c08_race_free"
   ],
   "note": "c08 traversal is race free"
  },
  {
   "property": "C08",
   "status": "proved",
   "theorems": [
    "C08_c18_exactly_once"
   ],
   "note": "c18 traversal processes every relevant cell pair exactly once"
  },
  {
   "property": "C09",
   "status": "proved",
   "theorems": [
    "C09_c18_race_free"
   ],
   "note": "c18 traversal is race free and in bounds"
  },
  {
   "property": "C10",
   "status": "proved",
   "theorems": [
    "C10_c04_exactly_once"
   ],
   "note": "c04 traversal covers every base cell exactly once"
  },
  {
   "property": "C11",
   "status": "proved",
   "theorems": [
    "C11_c04_race_free"
   ],
   "note": "c04 traversal is race free"
  },
  {
   "property": "C12",
   "status": "proved",
   "theorems": [
    "C12_hcp_exactly_once",
    "C12_hcp_race_free"
   ],
   "note": "c04HCP traversal covers every base cell exactly once and is race free"
  },
  {
   "property": "C13",
   "status": "proved",
   "theorems": [
    "C13_c01_exactly_once",
    "C13_c01_writes_own_cell"
   ],
   "note": "c01 traversal covers every ordered pair and writes only the own cell"
  },
  {
   "property": "C14",
   "status": "proved",
   "theorems": [
    "C14_c01_triplets"
   ],
   "note": "c01 three-body traversal covers every cell triplet"
  },
  {
   "property": "C15",
   "status": "proved",
   "theorems": [
    "C15_sliced_partition",
    "C15_balanced_partition"
   ],
   "note": "Slicing partitions the domain"
  },
  {
   "property": "C16",
   "status": "proved",
   "theorems": [
    "C16_sliced_mutual_exclusion",
    "C16_sliced_distance",
    "C16_sliced_exactly_once"
   ],
   "note": "Locked slicing never lets two threads touch the same layer concurrently"
  },
  {
   "property": "C17",
   "status": "proved",
   "theorems": [
    "C17_sliced_no_deadlock",
    "C17_sliced_terminates"
   ],
   "note": "Locked slicing never deadlocks and releases all locks"
  },
  {
   "property": "C18",
   "status": "proved",
   "theorems": [
    "C18_c02_sliced"
   ],
   "note": "Two-colour slicing is race free"
  },
  {
   "property": "C19",
   "status": "proved",
   "theorems": [
    "C19_cell",
    "C19_cell_only_own_pairs",
    "C19_pair",
    "C19_pair_only_own_pairs"
   ],
   "note": "Cell functor handles every pair within a cell exactly once"
  },
  {
   "property": "C20",
   "status": "proved",
   "theorems": [
    "C20_sorted_cell",
    "C20_sorted_pair",
    "C20_directions",
    "C20_large_skin_refuted"
   ],
   "note": "Sorted early termination never drops an interacting pair"
  },
  {
   "property": "C21",
   "status": "proved",
   "theorems": [
    "C21_cell",
    "C21_pair_two_one",
    "C21_pair_one_two",
    "C21_triple",
    "C21_only_own_triplets",
    "C21_sorted_cell",
    "C21_sorted_cells"
   ],
   "note": "Three-body cell functor handles every triplet exactly once"
  },
  {
   "property": "C22",
   "status": "proved",
   "theorems": [
    "C22_c08",
    "C22_c18",
    "C22_c01"
   ],
   "note": "Linked cells compute every interaction exactly once"
  },
  {
   "property": "C23",
   "status": "proved",
   "theorems": [
    "C23_linked_cells",
    "C23_linked_cells_added",
    "C23_direct_sum",
    "C23_cluster_lists",
    "C23_cluster_lists_rebuilt",
    "C23_octree"
   ],
   "note": "Linked cells (IEEE arithmetic), direct sum, cluster lists (exact arithmetic), octree (any arithmetic, leaves at depth at most 18)."
  },
  {
   "property": "C24",
   "status": "partial",
   "theorems": [
    "C24_linked_cells_partial",
    "C24_direct_sum_partial",
    "C24_linked_cells_empty_buffers_partial",
    "C24_direct_sum_empty_buffers_partial",
    "C24_cluster_lists_partial",
    "C24_cluster_lists_empty_buffers_partial",
    "C24_restart_refuted",
    "C24_late_begin_refuted",
    "C24_octree_partial",
    "C24_octree_empty_buffers_partial"
   ],
   "note": "False in general: C24_restart_refuted and C24_late_begin_refuted. Proved for all deletion patterns if a non-empty buffer takes part and all iterators are created before the first deletion; with empty buffers every particle is visited and exactly the chosen ones are deleted, but survivors may be visited twice."
  },
  {
   "property": "C25",
   "status": "proved",
   "theorems": [
    "C25_linked_cells",
    "C25_linked_cells_any_region",
    "C25_linked_cells_far_region_refuted",
    "C25_direct_sum",
    "C25_cluster_lists",
    "C25_cluster_lists_rebuilt",
    "C25_octree",
    "C25_octree_flat_region_refuted"
   ],
   "note": "Linked cells: exact arithmetic, every region whose corners can be converted to cell indices (others: C25_linked_cells_far_region_refuted). Direct sum and cluster lists (exact arithmetic): all regions. Octree (exact or IEEE splitting): all regions with a volume (flat ones: C25_octree_flat_region_refuted)."
  },
  {
   "property": "C26",
   "status": "proved",
   "theorems": [
    "C26_conserved",
    "C26_exact",
    "C26_no_failure",
    "C26_resize_refuted"
   ],
   "note": "Linked cells and direct sum, exact arithmetic, what the tuner selects is arbitrary. resizeBox can leave a buffered particle outside of the box without returning it (C26_resize_refuted); the next update returns it."
  },
  {
   "property": "C27",
   "status": "proved",
   "theorems": [
    "C27_owned",
    "C27_halo",
    "C27_halo_content",
    "C27_twice_refuted"
   ],
   "note": "Owned: every history. Halo: each ID is one image that moves by at most the skin per step (movingImages). A halo particle passed twice is counted twice (C27_twice_refuted)."
  },
  {
   "property": "C28",
   "status": "proved",
   "theorems": [
    "C28_schedule",
    "C28_wraparound_refuted",
    "C28_switch_refuted"
   ],
   "note": "For fewer than 2^32 computations; beyond that it is false (C28_wraparound_refuted). Whether lists exist at all after a change of the container is a different matter (C28_switch_refuted)."
  },
  {
   "property": "C29",
   "status": "proved",
   "theorems": [
    "C29_complete",
    "C29_boundary_refuted"
   ],
   "note": "Pairs strictly closer than the cutoff; for pairs at exactly the cutoff see C29_boundary_refuted."
  },
  {
   "property": "C30",
   "status": "proved",
   "theorems": [
    "C30_linked_cells",
    "C30_direct_sum",
    "C30_boundary_refuted"
   ],
   "note": "Pairwise remainder traversal with linked cells and direct sum, exact arithmetic, pairs strictly closer than the cutoff. At distance exactly the cutoff the result depends on the direction: C30_boundary_refuted."
  },
  {
   "property": "C31",
   "status": "proved",
   "theorems": [
    "C31_balanced",
    "C31_sizes"
   ],
   "note": "Buffer balancing is a permutation"
  },
  {
   "property": "C32",
   "status": "partial",
   "theorems": [
    "C32_disjoint",
    "C32_cover",
    "C32_linked_cells",
    "C32_direct_sum",
    "C32_far_halo_refuted"
   ],
   "note": "Volumes: IEEE arithmetic. Collection: exact arithmetic, any interleaving; halo particles at or beyond the clamping box of region iterators are not discarded (C32_far_halo_refuted)."
  },
  {
   "property": "C33",
   "status": "proved",
   "theorems": [
    "C33_linked_cells",
    "C33_linked_cells_double",
    "C33_direct_sum",
    "C33_octree",
    "C33_cluster_lists"
   ],
   "note": "Linked cells (exact and IEEE arithmetic), direct sum, octree (exact arithmetic and any rounding that keeps the tree precise), cluster lists (exact arithmetic, every schedule)."
  },
  {
   "property": "C34",
   "status": "partial",
   "theorems": [
    "C34_pairwise",
    "C34_pairwise_double",
    "C34_rounding_refuted",
    "C34_thin_box_refuted",
    "C34_triwise_partial",
    "C34_resize_refuted",
    "C34_limited_refuted"
   ],
   "note": "False in general: C34_rounding_refuted (IEEE, last position before the upper halo end), C34_thin_box_refuted (no locks), C34_resize_refuted and C34_limited_refuted (triwise). Proved: pairwise before and after resizing in exact arithmetic, pairwise in IEEE arithmetic away from the upper halo end, triwise before resizing if the number of locks is not limited."
  },
  {
   "property": "C35",
   "status": "proved",
   "theorems": [
    "C35_phases",
    "C35_estimate",
    "C35_estimate_refuted",
    "C35_interval_refuted",
    "C35_retune_refuted"
   ],
   "note": "Strategies that reorder the queue (none, sort by name); tuning shorter than the tuning interval; no smoothing. Otherwise false: C35_interval_refuted, C35_retune_refuted; the estimate itself is too small without a rebuild sample (C35_estimate_refuted)."
  },
  {
   "property": "C36",
   "status": "partial",
   "theorems": [
    "C36_never_fails_partial",
    "C36_reject_refuted",
    "C36_interval_refuted",
    "C36_random_refuted"
   ],
   "note": "False in general: C36_reject_refuted, C36_interval_refuted, C36_random_refuted. Proved if tuning is shorter than the tuning interval, strategies only reorder, and the configuration tried last is applicable."
  },
  {
   "property": "C37",
   "status": "proved",
   "theorems": [
    "C37_distribution",
    "C37_rank_options",
    "C37_search_space_size",
    "C37_useless_container_refuted",
    "C37_round_robin"
   ],
   "note": "For option sets in which every container has an applicable traversal; otherwise an end iterator is dereferenced (C37_useless_container_refuted). Also the round robin distribution of MPIParallelizedStrategy."
  },
  {
   "property": "C38",
   "status": "partial",
   "theorems": [
    "C38_intervals_partial",
    "C38_remainder_refuted",
    "C38_equal_refuted",
    "C38_cover_refuted"
   ],
   "note": "False in general: C38_remainder_refuted, C38_equal_refuted, C38_cover_refuted. Proved if the number of ranks is a proper multiple of the number of configurations."
  },
  {
   "property": "C39",
   "status": "proved",
   "theorems": [
    "C39_roundtrip",
    "C39_gather"
   ],
   "note": "Options as enum values that fit in a byte, doubles as bit patterns."
  },
  {
   "property": "C40",
   "status": "proved",
   "theorems": [
    "C40_buckets",
    "C40_buckets_double",
    "C40_equal",
    "C40_mixed_refuted"
   ],
   "note": "For every rounding that keeps zero and the sign (IEEE included), threshold and weight not negative, all ranks valid. Ranks of which only some are invalid call different collectives (C40_mixed_refuted)."
  },
  {
   "property": "C41",
   "status": "proved",
   "theorems": [
    "C41_octree_keeps_particles",
    "C41_octree_leaves_partition",
    "C41_exact_is_precise",
    "C41_double_is_precise"
   ],
   "note": "Octree stores every inserted particle exactly once, in the leaf containing it"
  },
  {
   "property": "C42",
   "status": "proved",
   "theorems": [
    "C42_octree_neighbors",
    "C42_octree_neighbors_once"
   ],
   "note": "Octree neighbour search finds every touching leaf"
  },
  {
   "property": "C43",
   "status": "proved",
   "theorems": [
    "C43_clusters_hold_the_particles",
    "C43_owned_clusters",
    "C43_owned_clusters_mixed_refuted",
    "C43_collect_returns_the_particles",
    "C43_refill_keeps_the_particles",
    "C43_delete_removes_one"
   ],
   "note": "For every function that sorts by z."
  },
  {
   "property": "C44",
   "status": "proved",
   "theorems": [
    "C44_rebuild_keeps_particles",
    "C44_every_particle_has_a_cluster",
    "C44_lists_complete",
    "C44_lists_complete_newton3",
    "C44_lists_sound",
    "C44_unequal_halo_towers_refuted"
   ],
   "note": "Exact arithmetic; equally many halo towers in x and y (otherwise C44_unequal_halo_towers_refuted)."
  },
  {
   "property": "C45",
   "status": "proved",
   "theorems": [
    "C45_integers",
    "C45_doubles",
    "C45_pow"
   ],
   "note": "Integers of every width, and doubles with Flocq's binary64."
  },
  {
   "property": "C46",
   "status": "proved",
   "theorems": [
    "C46_loader",
    "C46_extractor",
    "C46_roundtrip",
    "C46_roundtrip_parallel",
    "C46_append",
    "C46_not_needed_refuted"
   ],
   "note": "If the computed attributes are among the needed ones, as in all functors of the repository; otherwise C46_not_needed_refuted."
  },
  {
   "property": "C47",
   "status": "partial",
   "theorems": [
    "C47_linked_cells",
    "C47_linked_cells_region",
    "C47_direct_sum",
    "C47_direct_sum_region",
    "C47_octree",
    "C47_octree_region",
    "C47_cluster_lists",
    "C47_cluster_lists_region",
    "C47_octree_moved_refuted",
    "C47_octree_dummies_refuted",
    "C47_direct_sum_dummies_refuted",
    "C47_far_region_refuted",
    "C47_buffer_refuted"
   ],
   "note": "Proved for linked cells, octree and cluster lists (forEach, forEachInRegion) and direct sum (forEachInRegion). False for DirectSum::forEach (C47_direct_sum_dummies_refuted), for deleted particles in the octree (C47_octree_dummies_refuted), for moved particles in the octree (C47_octree_moved_refuted) and for regions far beyond the box (C47_far_region_refuted)."
  },
  {
   "property": "C48",
   "status": "partial",
   "theorems": [
    "C48_rebuild_on_change_partial",
    "C48_phase_start_refuted"
   ],
   "note": "False in general: C48_phase_start_refuted. Proved if the number of iterations between tuning phases is a multiple of the rebuild frequency."
  },
  {
   "property": "C49",
   "status": "proved",
   "theorems": [
    "C49_globally_best"
   ],
   "note": "All ranks agree on the globally best configuration"
  },
  {
   "property": "C50",
   "status": "proved",
   "theorems": [
    "C50_c18",
    "C50_c01",
    "C50_exact_is_precise"
   ],
   "note": "The octree traversals consider every pair of particles within the cutoff exactly once"
  },
  {
   "property": "C51",
   "status": "proved",
   "theorems": [
    "C51_c06",
    "C51_cluster_iteration",
    "C51_c01_balanced",
    "C51_sliced",
    "C51_sliced_c02",
    "C51_changed_number_refuted"
   ],
   "note": "Exact arithmetic and equally many halo towers in x and y, as in C44. The sliced traversals need the number of particles at the rebuild (otherwise C51_changed_number_refuted). SoA functors by their contract."
  },
  {
   "property": "C52",
   "status": "proved",
   "theorems": [
    "C52_c06",
    "C52_cluster_iteration",
    "C52_c01_balanced",
    "C52_sliced",
    "C52_sliced_c02"
   ],
   "note": "Same hypotheses as C51."
  },
  {
   "property": "C53",
   "status": "proved",
   "theorems": [
    "C53_partition"
   ],
   "note": "The partition of the clusters among threads is exact"
  },
  {
   "property": "C54",
   "status": "proved",
   "theorems": [
    "C54_verlet_lists_aos",
    "C54_verlet_lists_soa",
    "C54_lists_per_cell_built",
    "C54_lists_per_cell_c01",
    "C54_lists_per_cell_c18",
    "C54_lists_per_cell_sliced",
    "C54_lists_per_cell_sliced_c02",
    "C54_lists_per_cell_c08_built",
    "C54_lists_per_cell_c08",
    "C54_lists_per_cell_pair_built",
    "C54_lists_per_cell_pair_c01",
    "C54_lists_per_cell_pair_c18",
    "C54_lists_per_cell_pair_sliced",
    "C54_lists_per_cell_pair_sliced_c02",
    "C54_lists_per_cell_pair_c08",
    "C54_var_verlet_lists",
    "C54_var_verlet_lists_rounding_refuted"
   ],
   "note": "Exact arithmetic, all traversals. With IEEE rounding VarVerletLists may write past the end of its array (C54_var_verlet_lists_rounding_refuted)."
  },
  {
   "property": "C55",
   "status": "proved",
   "theorems": [
    "C55_verlet_lists_aos",
    "C55_verlet_lists_soa",
    "C55_lists_per_cell_c01",
    "C55_lists_per_cell_c18",
    "C55_lists_per_cell_sliced",
    "C55_lists_per_cell_sliced_c02",
    "C55_sliced_progress",
    "C55_lists_per_cell_c08",
    "C55_lists_per_cell_pair_c01",
    "C55_lists_per_cell_pair_c18",
    "C55_lists_per_cell_pair_sliced",
    "C55_lists_per_cell_pair_sliced_c02",
    "C55_lists_per_cell_pair_c08",
    "C55_var_verlet_lists"
   ],
   "note": "Exact arithmetic, all traversals."
  },
  {
   "property": "C56",
   "status": "proved",
   "theorems": [
    "C56_direct_sum_pairs",
    "C56_direct_sum_triplets",
    "C56_c01_triplets"
   ],
   "note": "Direct sum and three-body traversals compute every pair and triplet within the cutoff exactly once"
  },
  {
   "property": "C57",
   "status": "proved",
   "theorems": [
    "C57_c01_combined",
    "C57_c04_combined"
   ],
   "note": "The traversals with combined SoA buffers compute every pair within the cutoff exactly once, in every schedule"
  },
  {
   "property": "C58",
   "status": "proved",
   "theorems": [
    "C58_exactly_once"
   ],
   "note": "After any history of API calls, an interaction computation adds every force exactly once"
  },
  {
   "property": "C59",
   "status": "proved",
   "theorems": [
    "C59_exactly_once"
   ],
   "note": "After any history of API calls, a three-body interaction computation adds every force exactly once"
  },
  {
   "property": "C60",
   "status": "proved",
   "theorems": [
    "C60_parameters",
    "C60_mixing",
    "C60_gradient",
    "C60_single",
    "C60_pair",
    "C60_verlet",
    "C60_forces",
    "C60_globals",
    "C60_dummy_refuted"
   ],
   "note": "The Lennard-Jones functor computes the Lennard-Jones interaction through every interface"
  },
  {
   "property": "C61",
   "status": "proved",
   "theorems": [
    "C61_forces",
    "C61_at_cutoff_refuted"
   ],
   "note": "After any history of API calls, computeInteractions with the Lennard-Jones functor yields the forces of all other particles"
  },
  {
   "property": "C62",
   "status": "proved",
   "theorems": [
    "C62_parameters",
    "C62_mixing",
    "C62_gradient",
    "C62_newton3",
    "C62_forces",
    "C62_globals"
   ],
   "note": "The Axilrod-Teller functor computes the forces of the Axilrod-Teller potential"
  },
  {
   "property": "C63",
   "status": "proved",
   "theorems": [
    "C63_forces"
   ],
   "note": "After any history of API calls, computeInteractions with the Axilrod-Teller functor yields the forces of all other pairs of particles"
  },
  {
   "property": "C64",
   "status": "proved",
   "theorems": [
    "C64_grid",
    "C64_undivided_refuted",
    "C64_numbers",
    "C64_boxes",
    "C64_narrow_refuted"
   ],
   "note": "md-flexible divides the global box among all ranks"
  },
  {
   "property": "C65",
   "status": "proved",
   "theorems": [
    "C65_halo",
    "C65_history",
    "C65_walls_refuted",
    "C65_narrow_refuted"
   ],
   "note": "The halo exchange of md-flexible delivers every image exactly once"
  },
  {
   "property": "C66",
   "status": "proved",
   "theorems": [
    "C66_migration",
    "C66_load_balancing",
    "C66_open_boundary_refuted"
   ],
   "note": "The migration of md-flexible neither loses nor duplicates particles"
  },
  {
   "property": "C67",
   "status": "proved",
   "theorems": [
    "C67_single",
    "C67_pair",
    "C67_calls",
    "C67_globals"
   ],
   "note": "The AVX Lennard-Jones functor computes the same interaction as the scalar one for every number of particles"
  },
  {
   "property": "C68",
   "status": "proved",
   "theorems": [
    "C68_history",
    "C68_delete_all_refuted",
    "C68_delete_halo_refuted"
   ],
   "note": "Exact arithmetic. False for deleteAllParticles and for deleteHaloParticles outside of updateContainer (C68_delete_all_refuted, C68_delete_halo_refuted)."
  },
  {
   "property": "C69",
   "status": "proved",
   "theorems": [
    "C69_trajectory",
    "C69_ends",
    "C69_reversible",
    "C69_momentum",
    "C69_displacement",
    "C69_reflective_pause_refuted",
    "C69_pause_refuted",
    "C69_zero_start_refuted",
    "C69_tiny_skin_refuted"
   ],
   "note": "Exact arithmetic, single-site molecules, no thermostat; container and ranks enter as functions of the positions (C58-C66). Refuted: reflective boundaries together with pausing, pausing across adjacent tuning phases, reversibility from zero initial forces, speed check with a tiny skin."
  },
  {
   "property": "C70",
   "status": "proved",
   "theorems": [
    "C70_apply",
    "C70_converges",
    "C70_measured",
    "C70_halo_refuted",
    "C70_rest_refuted"
   ],
   "note": "Exact arithmetic. Temperature is that of all visited particles, halo particles included (C70_halo_refuted); a component at rest is excluded (C70_rest_refuted)."
  },
  {
   "property": "C71",
   "status": "proved",
   "theorems": [
    "C71_queue",
    "C71_reset",
    "C71_typed",
    "C71_total",
    "C71_clash",
    "C71_parentheses_refuted",
    "C71_skipped_refuted",
    "C71_same_refuted",
    "C71_factor_refuted"
   ],
   "note": "From the parse tree on (ANTLR not modelled), for any arithmetic of doubles. Refuted: parentheses, cell size factors without decimal point, orders without a better configuration in the queue, variables with skipped definitions."
  },
  {
   "property": "C72",
   "status": "proved",
   "theorems": [
    "C72_exact",
    "C72_init",
    "C72_interval",
    "C72_compatible",
    "C72_factors",
    "C72_factors_refuted",
    "C72_init_refuted",
    "C72_init_undefined_refuted",
    "C72_references_refuted"
   ],
   "note": "Exact in both directions for finite cell size factors. Refuted: init uses cutoff times skin as interaction length for intervals, the coarsest grid of an interval is missed, linked cells with references are left out for three-body interactions and load estimators."
  },
  {
   "property": "C73",
   "status": "proved",
   "theorems": [
    "C73_rotation",
    "C73_quaternion",
    "C73_inverse",
    "C73_compose",
    "C73_mirror",
    "C73_step",
    "C73_ends",
    "C73_rigid"
   ],
   "note": "Exact arithmetic; the while loop has fuel and is proved to end for less than two radians per step."
  },
  {
   "property": "C74",
   "status": "partial",
   "theorems": [
    "C74_momentum_partial",
    "C74_velocity",
    "C74_momentum_refuted"
   ],
   "note": "Proved for equal moments of inertia. Refuted in general by a step of a free asymmetric top: the gyroscopic term is missing in the angular velocity (TimeDiscretization.cpp:102)."
  },
  {
   "property": "C75",
   "status": "proved",
   "theorems": [
    "C75_reflection",
    "C75_range",
    "C75_repels",
    "C75_conservative",
    "C75_narrow_rank_refuted"
   ],
   "note": "Exact arithmetic, single-site molecules; particles exactly on the lower boundary (division by zero) are excluded. C75_narrow_rank_refuted: with ranks narrower than the reach of a wall, particles of the second rank are not reflected."
  },
  {
   "property": "C76",
   "status": "partial",
   "theorems": [
    "C76_image_partial",
    "C76_inward",
    "C76_mixed_refuted"
   ],
   "note": "Proved for molecules whose sites share sigma and epsilon; C76_mixed_refuted: lines 404-405 mix the parameters of a site with itself instead of the mirror site. C76_inward holds for all molecules."
  },
  {
   "property": "C77",
   "status": "proved",
   "theorems": [
    "C77_pair",
    "C77_newton3",
    "C77_conserved"
   ],
   "note": "Exact arithmetic. Two interacting sites at the same place are excluded. Mixing parameters are those of C60. Threads have their own sums; only one call at a time is modelled."
  },
  {
   "property": "C78",
   "status": "partial",
   "theorems": [
    "C78_single_partial",
    "C78_pair_partial",
    "C78_verlet_partial",
    "C78_no_mixing_refuted"
   ],
   "note": "Proved for functors with mixing. Without mixing the three functions dereference the null pointer _PPLibrary (C78_no_mixing_refuted), so the full statement is false. Vectors that are reserved and written beyond their size are modelled as arrays of that capacity."
  },
  {
   "property": "C79",
   "status": "proved",
   "theorems": [
    "C79_cluster_lists",
    "C79_stays",
    "C79_capacity",
    "C79_growth_refuted",
    "C79_keys",
    "C79_unknown_key_refuted",
    "C79_key_refuted"
   ],
   "note": "Rebuilds always clear and reserve first (VerletClusterLists::rebuildNeighborLists); the public rebuildTowersAndClusters called alone, without clear, is not covered. C79_growth_refuted and C79_key_refuted are findings about the buffer class used on its own."
  },
  {
   "property": "C80",
   "status": "proved",
   "theorems": [
    "C80_kernel",
    "C80_mass",
    "C80_gradient",
    "C80_density",
    "C80_newton3",
    "C80_layout"
   ],
   "note": "Exact arithmetic. gradW is the gradient up to the number 4e-7 added to the distance in the denominator, as stated in the theorem."
  },
  {
   "property": "C81",
   "status": "partial",
   "theorems": [
    "C81_conserved",
    "C81_newton3_partial",
    "C81_newton3_refuted",
    "C81_layout",
    "C81_single_refuted"
   ],
   "note": "Conservation and equality of layouts are proved in general; independence of Newton's third law is proved for pairs that are both or neither within the support of each other (for example equal smoothing lengths) and refuted otherwise (C81_newton3_refuted, C81_single_refuted), so the full statement is false of the code."
  },
  {
   "property": "C82",
   "status": "proved",
   "theorems": [
    "C82_queue",
    "C82_due_kept",
    "C82_nonempty",
    "C82_measured",
    "C82_rejected",
    "C82_defined",
    "C82_last_result",
    "C82_last_result_refuted",
    "C82_untested_refuted",
    "C82_removed_refuted",
    "C82_newton_beyond_refuted",
    "C82_newton_nodes_refuted"
   ],
   "note": "The description of the queue is proved for every method of extrapolation. Four defects of the code outside this statement are shown by the theorems ending in _refuted."
  },
  {
   "property": "C83",
   "status": "proved",
   "theorems": [
    "C83_membership",
    "C83_shapes",
    "C83_operators",
    "C83_gravity",
    "C83_maximum",
    "C83_samples",
    "C83_silent_refuted",
    "C83_point_refuted"
   ],
   "note": "Exact arithmetic; the loop over samples is shown to end after as many steps as samples. Two defects outside the statement are shown by the theorems ending in _refuted."
  },
  {
   "property": "C84",
   "status": "proved",
   "theorems": [
    "C84_individual",
    "C84_suitability",
    "C84_best",
    "C84_negative_refuted"
   ],
   "note": "Both interpretations are proved for all predictions; the effect of negative suitabilities is shown by C84_negative_refuted."
  }
 ]
}