{
 "C05": {
  "note": "Proved in exact arithmetic. With IEEE rounding the claim is false: C05_rounding_refuted and C05_rounding_c08_refuted give a box (length 11.7, interaction length 1.3) for which the overlap is 2 but there is one halo layer, and c08 then skips owned cells."
 },
 "C24": {
  "status": "partial",
  "note": "False in general: C24_restart_refuted and C24_late_begin_refuted. Proved for all deletion patterns if a non-empty buffer takes part and all iterators are created before the first deletion; with empty buffers every particle is visited and exactly the chosen ones are deleted, but survivors may be visited twice."
 },
 "C25": {
  "note": "Linked cells: exact arithmetic, every region whose corners can be converted to cell indices (others: C25_linked_cells_far_region_refuted). Direct sum and cluster lists (exact arithmetic): all regions. Octree (exact or IEEE splitting): all regions with a volume (flat ones: C25_octree_flat_region_refuted)."
 },
 "C34": {
  "status": "partial",
  "note": "False in general: C34_rounding_refuted (IEEE, last position before the upper halo end), C34_thin_box_refuted (no locks), C34_resize_refuted and C34_limited_refuted (triwise). Proved: pairwise before and after resizing in exact arithmetic, pairwise in IEEE arithmetic away from the upper halo end, triwise before resizing if the number of locks is not limited."
 },
 "C32": {
  "status": "partial",
  "note": "Volumes: IEEE arithmetic. Collection: exact arithmetic, any interleaving; halo particles at or beyond the clamping box of region iterators are not discarded (C32_far_halo_refuted)."
 },
 "C33": {
  "note": "Linked cells (exact and IEEE arithmetic), direct sum, octree (exact arithmetic and any rounding that keeps the tree precise), cluster lists (exact arithmetic, every schedule)."
 },
 "C30": {
  "note": "Pairwise remainder traversal with linked cells and direct sum, exact arithmetic, pairs strictly closer than the cutoff. At distance exactly the cutoff the result depends on the direction: C30_boundary_refuted."
 },
 "C47": {
  "status": "partial",
  "note": "Proved for linked cells, octree and cluster lists (forEach, forEachInRegion) and direct sum (forEachInRegion). False for DirectSum::forEach (C47_direct_sum_dummies_refuted), for deleted particles in the octree (C47_octree_dummies_refuted), for moved particles in the octree (C47_octree_moved_refuted) and for regions far beyond the box (C47_far_region_refuted)."
 },
 "C26": {
  "note": "Linked cells and direct sum, exact arithmetic, what the tuner selects is arbitrary. resizeBox can leave a buffered particle outside of the box without returning it (C26_resize_refuted); the next update returns it."
 },
 "C27": {
  "note": "Owned: every history. Halo: each ID is one image that moves by at most the skin per step (movingImages). A halo particle passed twice is counted twice (C27_twice_refuted)."
 },
 "C28": {
  "note": "For fewer than 2^32 computations; beyond that it is false (C28_wraparound_refuted). Whether lists exist at all after a change of the container is a different matter (C28_switch_refuted)."
 },
 "C29": {
  "note": "Pairs strictly closer than the cutoff; for pairs at exactly the cutoff see C29_boundary_refuted."
 },
 "C35": {
  "note": "Strategies that reorder the queue (none, sort by name); tuning shorter than the tuning interval; no smoothing. Otherwise false: C35_interval_refuted, C35_retune_refuted; the estimate itself is too small without a rebuild sample (C35_estimate_refuted)."
 },
 "C36": {
  "status": "partial",
  "note": "False in general: C36_reject_refuted, C36_interval_refuted, C36_random_refuted. Proved if tuning is shorter than the tuning interval, strategies only reorder, and the configuration tried last is applicable."
 },
 "C48": {
  "status": "partial",
  "note": "False in general: C48_phase_start_refuted. Proved if the number of iterations between tuning phases is a multiple of the rebuild frequency."
 },
 "C37": {
  "note": "For option sets in which every container has an applicable traversal; otherwise an end iterator is dereferenced (C37_useless_container_refuted). Also the round robin distribution of MPIParallelizedStrategy."
 },
 "C38": {
  "status": "partial",
  "note": "False in general: C38_remainder_refuted, C38_equal_refuted, C38_cover_refuted. Proved if the number of ranks is a proper multiple of the number of configurations."
 },
 "C39": {
  "note": "Options as enum values that fit in a byte, doubles as bit patterns."
 },
 "C40": {
  "note": "For every rounding that keeps zero and the sign (IEEE included), threshold and weight not negative, all ranks valid. Ranks of which only some are invalid call different collectives (C40_mixed_refuted)."
 },
 "C45": {
  "note": "Integers of every width, and doubles with Flocq's binary64."
 },
 "C46": {
  "note": "If the computed attributes are among the needed ones, as in all functors of the repository; otherwise C46_not_needed_refuted."
 },
 "C43": {
  "note": "For every function that sorts by z."
 },
 "C44": {
  "note": "Exact arithmetic; equally many halo towers in x and y (otherwise C44_unequal_halo_towers_refuted)."
 },
 "C51": {
  "note": "Exact arithmetic and equally many halo towers in x and y, as in C44. The sliced traversals need the number of particles at the rebuild (otherwise C51_changed_number_refuted). SoA functors by their contract."
 },
 "C52": {
  "note": "Same hypotheses as C51."
 },
 "C23": {
  "note": "Linked cells (IEEE arithmetic), direct sum, cluster lists (exact arithmetic), octree (any arithmetic, leaves at depth at most 18)."
 },
 "C54": {
  "status": "proved",
  "note": "Exact arithmetic, all traversals. With IEEE rounding VarVerletLists may write past the end of its array (C54_var_verlet_lists_rounding_refuted)."
 },
 "C55": {
  "status": "proved",
  "note": "Exact arithmetic, all traversals."
 },
 "C68": {
  "note": "Exact arithmetic. False for deleteAllParticles and for deleteHaloParticles outside of updateContainer (C68_delete_all_refuted, C68_delete_halo_refuted)."
 },
 "C69": {
  "note": "Exact arithmetic, single-site molecules, no thermostat; container and ranks enter as functions of the positions (C58-C66). Refuted: reflective boundaries together with pausing, pausing across adjacent tuning phases, reversibility from zero initial forces, speed check with a tiny skin."
 },
 "C70": {
  "note": "Exact arithmetic. Temperature is that of all visited particles, halo particles included (C70_halo_refuted); a component at rest is excluded (C70_rest_refuted)."
 },
 "C71": {
  "note": "From the parse tree on (ANTLR not modelled), for any arithmetic of doubles. Refuted: parentheses, cell size factors without decimal point, orders without a better configuration in the queue, variables with skipped definitions."
 },
 "C72": {
  "note": "Exact in both directions for finite cell size factors. Refuted: init uses cutoff times skin as interaction length for intervals, the coarsest grid of an interval is missed, linked cells with references are left out for three-body interactions and load estimators."
 },
 "C73": {
  "note": "Exact arithmetic; the while loop has fuel and is proved to end for less than two radians per step."
 },
 "C74": {
  "note": "Proved for equal moments of inertia. Refuted in general by a step of a free asymmetric top: the gyroscopic term is missing in the angular velocity (TimeDiscretization.cpp:102)."
 },
 "C75": {
  "note": "Exact arithmetic, single-site molecules; particles exactly on the lower boundary (division by zero) are excluded. C75_narrow_rank_refuted: with ranks narrower than the reach of a wall, particles of the second rank are not reflected."
 },
 "C76": {
  "note": "Proved for molecules whose sites share sigma and epsilon; C76_mixed_refuted: lines 404-405 mix the parameters of a site with itself instead of the mirror site. C76_inward holds for all molecules."
 },
 "C77": {
  "note": "Exact arithmetic. Two interacting sites at the same place are excluded. Mixing parameters are those of C60. Threads have their own sums; only one call at a time is modelled."
 },
 "C78": {
  "note": "Proved for functors with mixing. Without mixing the three functions dereference the null pointer _PPLibrary (C78_no_mixing_refuted), so the full statement is false. Vectors that are reserved and written beyond their size are modelled as arrays of that capacity."
 },
 "C79": {
  "note": "Rebuilds always clear and reserve first (VerletClusterLists::rebuildNeighborLists); the public rebuildTowersAndClusters called alone, without clear, is not covered. C79_growth_refuted and C79_key_refuted are findings about the buffer class used on its own."
 },
 "C80": {
  "note": "Exact arithmetic. gradW is the gradient up to the number 4e-7 added to the distance in the denominator, as stated in the theorem."
 },
 "C81": {
  "note": "Conservation and equality of layouts are proved in general; independence of Newton's third law is proved for pairs that are both or neither within the support of each other (for example equal smoothing lengths) and refuted otherwise (C81_newton3_refuted, C81_single_refuted), so the full statement is false of the code."
 },
 "C82": {
  "note": "The description of the queue is proved for every method of extrapolation. Four defects of the code outside this statement are shown by the theorems ending in _refuted."
 },
 "C83": {
  "note": "Exact arithmetic; the loop over samples is shown to end after as many steps as samples. Two defects outside the statement are shown by the theorems ending in _refuted."
 },
 "C84": {
  "note": "Both interpretations are proved for all predictions; the effect of negative suitabilities is shown by C84_negative_refuted."
 }
}