{"id": "C01", "title": "Flat cell index is a bijection", "statement": "For a grid of any positive extents, converting a 3D cell index to the flat index and back yields the same 3D index, converting a flat index below the number of cells to 3D and back yields the same flat index, and every in-range 3D index lands below the number of cells; no 64-bit wrap-around occurs when the number of cells fits in 64 bits.", "quantifier": "all positive grid extents, all indices in range", "why_tests_cant": "Extents and indices are unbounded; tests pick a few grids.", "anchors": ["src/autopas/utils/ThreeDimensionalMapping.h: threeToOneD, oneToThreeD"]}
{"id": "C02", "title": "Owned positions go to owned cells, halo positions to halo cells, despite rounding", "statement": "Whatever box, cutoff, cell size factor and position (all IEEE doubles without overflow), a position inside the half-open domain box is sorted into a cell that may hold owned particles and a position outside is sorted into a cell that may hold halo particles, although the cell index is computed with rounded arithmetic.", "quantifier": "all boxes, interaction lengths, cell size factors and positions representable as doubles (no overflow)", "why_tests_cant": "Rounding failures happen only for rare adversarial doubles near a face; no test set covers them.", "anchors": ["src/autopas/containers/CellBlock3D.h: get3DIndexOfPosition, cellCanContainHaloParticles, rebuild"]}
{"id": "C03", "title": "A position lies in the bounding box of the cell it is sorted into; lookup is monotone", "statement": "In exact arithmetic the cell returned for a position inside the halo box has a bounding box that contains the position, bounding boxes of different cells are disjoint, and moving a position upwards in a coordinate never lowers its cell index in that dimension.", "quantifier": "all boxes, interaction lengths, cell size factors, positions", "why_tests_cant": "Continuous input space.", "anchors": ["src/autopas/containers/CellBlock3D.h: get3DIndexOfPosition, getCellBoundingBox, rebuild"]}
{"id": "C04", "title": "Halo clearing removes exactly the halo cells' content", "statement": "Deleting halo particles empties every cell that can hold halo particles and leaves the content of every other cell untouched.", "quantifier": "all grid extents, halo thicknesses and cell contents", "why_tests_cant": "Number of cells and layers is unbounded.", "anchors": ["src/autopas/containers/CellBlock3D.h: clearHaloCells, cellCanContainHaloParticles"]}
{"id": "C05", "title": "Cell layers of the halo suffice for the interaction length", "statement": "In exact arithmetic, for any cell size factor, the number of halo cell layers is at least the number of cells an interaction length can span, and the halo layers extend at least one interaction length beyond the box, so no interaction partner of an owned particle lies outside the grid. (With IEEE doubles this is false: see C05_rounding_refuted.)", "quantifier": "all boxes at least one interaction length long, all interaction lengths and cell size factors", "why_tests_cant": "Continuous parameters.", "anchors": ["src/autopas/containers/CellBlock3D.h: rebuild", "src/autopas/containers/cellTraversals/CBasedTraversal / ColorBasedTraversal.h: overlap"]}
{"id": "C06", "title": "c08 traversal processes every relevant cell pair exactly once", "statement": "One pass of the c08 traversal hands every cell and every unordered pair of distinct cells that are within the interaction length and of which at least one may hold owned particles to the cell functor exactly once, and never hands out any pair twice.", "quantifier": "all grid extents, overlaps and cell lengths", "why_tests_cant": "Grid size, overlap and geometry are unbounded.", "anchors": ["src/autopas/containers/linkedCells/traversals/LCC08CellHandlerUtility.cpp: computePairwiseCellOffsetsC08", "src/autopas/containers/linkedCells/traversals/LCC08Traversal.h"]}
{"id": "C07", "title": "c08 traversal is race free", "statement": "Any two base cells that the c08 traversal may process concurrently (same colour) access disjoint sets of cells, for any number of threads and any schedule, and no accessed cell index is out of range.", "quantifier": "all grid extents, overlaps, all pairs of same-colour base cells, all schedules", "why_tests_cant": "Races depend on schedule; tests see few interleavings.", "anchors": ["src/autopas/containers/cellTraversals/ColorBasedTraversal.h: colorTraversal", "src/autopas/containers/cellTraversals/C08BasedTraversal.h"]}
{"id": "C08", "title": "c18 traversal processes every relevant cell pair exactly once", "statement": "One pass of the c18 traversal hands each cell and each unordered pair of distinct cells within interaction length, at least one possibly owned, to the cell functor exactly once.", "quantifier": "all grid extents, overlaps and cell lengths", "why_tests_cant": "Unbounded grids; boundary special cases.", "anchors": ["src/autopas/containers/linkedCells/traversals/LCC18Traversal.h: computeOffsets, processBaseCell, getIndex"]}
{"id": "C09", "title": "c18 traversal is race free and in bounds", "statement": "Two base cells of the same colour of the c18 traversal never access a common cell and never an index outside the grid.", "quantifier": "all grid extents, overlaps, same-colour base cells", "why_tests_cant": "Schedule dependent.", "anchors": ["src/autopas/containers/cellTraversals/C18BasedTraversal.h", "src/autopas/containers/linkedCells/traversals/LCC18Traversal.h"]}
{"id": "C10", "title": "c04 traversal covers every base cell exactly once", "statement": "The 32-cell packs of the c04 traversal visited in its four colours cover every base cell of the grid exactly once.", "quantifier": "all grid extents", "why_tests_cant": "Tiling must hold for every extent, including the ones not divisible by four.", "anchors": ["src/autopas/containers/linkedCells/traversals/LCC04Traversal.h: traverseParticles, traverseSingleColor, processBasePack32"]}
{"id": "C11", "title": "c04 traversal is race free", "statement": "Two packs of the same colour of the c04 traversal access disjoint cells.", "quantifier": "all pairs of packs of one colour, all grid extents", "why_tests_cant": "Schedule dependent.", "anchors": ["src/autopas/containers/linkedCells/traversals/LCC04Traversal.h"]}
{"id": "C12", "title": "c04HCP traversal covers every base cell exactly once and is race free", "statement": "The hexagonally packed 6-cell bricks visited by the c04HCP traversal cover every base cell exactly once, and bricks of one colour access disjoint cells.", "quantifier": "all grid extents, all pairs of bricks of one colour", "why_tests_cant": "Tiling with shifted rows has many boundary cases.", "anchors": ["src/autopas/containers/linkedCells/traversals/LCC04HCPTraversal.h"]}
{"id": "C13", "title": "c01 traversal covers every ordered pair and writes only the own cell", "statement": "Without Newton's third law the c01 traversal pairs every owned-capable base cell with each cell within interaction length (including itself) exactly once and only modifies particles of the base cell, so concurrent base cells never write the same particle.", "quantifier": "all grid extents, overlaps, geometries", "why_tests_cant": "Unbounded grids, any schedule.", "anchors": ["src/autopas/containers/linkedCells/traversals/LCC01Traversal.h: computePairwiseOffsets"]}
{"id": "C14", "title": "c01 three-body traversal covers every cell triplet", "statement": "For three-body functors the c01 traversal combines every base cell with every unordered pair of cells of which all three are pairwise within the interaction length exactly once.", "quantifier": "all grid extents, overlaps, geometries", "why_tests_cant": "Unbounded grids.", "anchors": ["src/autopas/containers/linkedCells/traversals/LCC01Traversal.h: computeTriwiseOffsets"]}
{"id": "C15", "title": "Slicing partitions the domain", "statement": "For any number of slices the slice thicknesses are positive, at least as large as required by the overlap, and sum up so that every base-cell layer belongs to exactly one slice; this holds for equal slicing and for load-balanced slicing with arbitrary load estimates and thread counts.", "quantifier": "all extents, overlaps, thread counts, load vectors", "why_tests_cant": "Load vectors and extents are unbounded.", "anchors": ["src/autopas/containers/cellTraversals/SlicedBasedTraversal.h", "src/autopas/containers/cellTraversals/SlicedBalancedBasedTraversal.h", "src/autopas/containers/cellTraversals/SlicedC02BasedTraversal.h"]}
{"id": "C16", "title": "Locked slicing never lets two threads touch the same layer concurrently", "statement": "In every interleaving of the slices of the sliced (locked) traversal no two slices process base-cell layers whose accessed layers overlap at the same time.", "quantifier": "all interleavings, all slice counts, thicknesses and overlaps", "why_tests_cant": "Exponentially many interleavings.", "anchors": ["src/autopas/containers/cellTraversals/SlicedLockBasedTraversal.h: slicedTraversal"]}
{"id": "C17", "title": "Locked slicing never deadlocks and releases all locks", "statement": "From every reachable state of the sliced (locked) traversal some slice can make a step until all slices are finished, and when finished all locks are free and every layer was processed exactly once.", "quantifier": "all interleavings, slice counts, thicknesses, overlaps", "why_tests_cant": "Deadlocks need specific interleavings.", "anchors": ["src/autopas/containers/cellTraversals/SlicedLockBasedTraversal.h: slicedTraversal"]}
{"id": "C18", "title": "Two-colour slicing is race free", "statement": "Slices of equal parity in the c02 sliced traversal access disjoint layers.", "quantifier": "all extents, overlaps, slice counts", "why_tests_cant": "Schedule dependent.", "anchors": ["src/autopas/containers/cellTraversals/SlicedC02BasedTraversal.h"]}
{"id": "C19", "title": "Cell functor handles every pair within a cell exactly once", "statement": "Processing a cell or a pair of cells hands every particle pair that can interact to the functor: once with Newton 3, once in each direction without it, and never more often, whether or not the particles are sorted for early termination.", "quantifier": "all cell contents, sorting thresholds, directions and cutoffs", "why_tests_cant": "Particle configurations are a continuum; sorting only triggers above a size threshold.", "anchors": ["src/autopas/baseFunctors/CellFunctor.h: processCellAoS, processCellPairAoSN3, processCellPairAoSNoN3", "src/autopas/cells/SortedCellView.h"]}
{"id": "C20", "title": "Sorted early termination never drops an interacting pair", "statement": "When particles are sorted along the cell connection direction and the inner loop stops at the first particle whose projected distance exceeds the sorting cutoff, all particle pairs closer than that cutoff are still processed.", "quantifier": "all particle positions that are in (or at most half a skin outside) their cells, all cutoffs and directions used by the traversals", "why_tests_cant": "Continuous configurations.", "anchors": ["src/autopas/baseFunctors/CellFunctor.h: processCellPairAoSN3", "src/autopas/cells/SortedCellView.h"]}
{"id": "C21", "title": "Three-body cell functor handles every triplet exactly once", "statement": "Processing a cell, a cell pair or a cell triplet with a three-body functor hands each unordered particle triplet of the respective shape to the functor exactly once with Newton 3, and without Newton 3 updates each particle of the triplet exactly once per cell in charge.", "quantifier": "all cell contents", "why_tests_cant": "Cell contents are unbounded.", "anchors": ["src/autopas/baseFunctors/CellFunctor3B.h"]}
{"id": "C22", "title": "Linked cells compute every interaction exactly once", "statement": "After sorting particles into linked cells, computing interactions with the c08 traversal and Newton 3 calls the functor exactly once for every pair of particles closer than the interaction length of which at least one is owned.", "quantifier": "all particle configurations, boxes, interaction lengths and cell size factors", "why_tests_cant": "Composition of many pieces over continuous inputs.", "anchors": ["src/autopas/containers/linkedCells/LinkedCells.h", "src/autopas/containers/CellBlock3D.h", "src/autopas/containers/linkedCells/traversals/LCC08Traversal.h"]}
{"id": "C23", "title": "Iteration visits every matching particle exactly once across threads", "statement": "Iterating a container (linked cells, direct sum, cluster lists or octree, plus additional buffers) in a parallel region with any number of threads delivers every stored particle whose ownership matches the behaviour to exactly one thread exactly once, and no other particle.", "quantifier": "all container contents, behaviours (owned, halo, ownedOrHalo), thread counts, buffers", "why_tests_cant": "Thread counts and contents are unbounded.", "anchors": ["src/autopas/iterators/ContainerIterator.h", "src/autopas/containers/linkedCells/LinkedCells.h: getParticleImpl, advanceIteratorIndices", "src/autopas/containers/directSum/DirectSum.h: getParticleImpl"]}
{"id": "C24", "title": "Deleting while iterating neither skips nor repeats particles", "statement": "If the particle the iterator points at is deleted through the iterator, then continuing the iteration still visits each surviving matching particle exactly once.", "quantifier": "all container contents and all deletion patterns", "why_tests_cant": "Exponentially many deletion patterns.", "anchors": ["src/autopas/iterators/ContainerIterator.h: deleteCurrentParticle", "src/autopas/containers/linkedCells/LinkedCells.h: deleteParticle"]}
{"id": "C25", "title": "Region iteration finds exactly the particles in the region", "statement": "A region iterator delivers exactly the stored particles of matching ownership whose current position is inside the half-open region, even if particles moved since they were sorted in, as long as they moved at most the allowed distance.", "quantifier": "all contents, regions with a volume whose corners are not astronomically far away, admissible displacements", "why_tests_cant": "Continuous positions and regions.", "anchors": ["src/autopas/containers/linkedCells/LinkedCells.h: getParticleImpl", "src/autopas/utils/inBox.h: boxesOverlap"]}
{"id": "C26", "title": "No owned particle is lost or duplicated by the API", "statement": "For every history of adding, deleting, moving particles, container updates, container changes and box changes, the multiset of owned particles stored by the object equals what was added minus what was deleted or returned as leaving; the exact particles returned are those outside the box.", "quantifier": "all histories of API calls", "why_tests_cant": "Histories are unbounded.", "anchors": ["src/autopas/LogicHandler.h: addParticle, updateContainer, collectLeavingParticlesFromBuffer, deleteParticle, resizeBox"]}
{"id": "C27", "title": "The particle counters are exact", "statement": "After any history of API calls the number of owned particles reported equals the number of owned particles stored; the reported number of halo particles equals the number stored, and the halo particles stored are exactly those passed since the last update and not deleted, as long as no halo particle is passed twice between two updates.", "quantifier": "all histories of API calls", "why_tests_cant": "Histories are unbounded.", "anchors": ["src/autopas/LogicHandler.h: getNumberOfParticlesOwned, decreaseParticleCounter, addHaloParticle"]}
{"id": "C28", "title": "Neighbour lists are rebuilt in time", "statement": "In every history of update/compute calls the number of steps for which neighbour lists are reused never exceeds the rebuild frequency.", "quantifier": "all histories, rebuild frequencies, tuner behaviours", "why_tests_cant": "Histories are unbounded.", "anchors": ["src/autopas/LogicHandler.h: neighborListsAreValid, updateContainer, computeInteractions"]}
{"id": "C29", "title": "Skin guarantees complete neighbour lists", "statement": "If lists contain all pairs within cutoff plus skin at rebuild time and no particle moves more than half the per-step skin per step, then while the lists are reused every pair within cutoff is in the lists.", "quantifier": "all trajectories, rebuild frequencies, cutoffs, skins", "why_tests_cant": "Continuous trajectories.", "anchors": ["src/autopas/LogicHandler.h", "src/autopas/containers/verletListsCellBased/verletLists/VerletListHelpers.h"]}
{"id": "C30", "title": "Buffered particles interact with everything exactly once", "statement": "Particles that were added while neighbour lists are valid and therefore live in buffers interact with every owned or halo particle in the container and in all other buffers exactly once per unordered pair (each owned particle of the pair gets its force exactly once).", "quantifier": "all buffer and container contents, thread counts", "why_tests_cant": "Contents are unbounded.", "anchors": ["src/autopas/LogicHandler.h: computeRemainderInteractions2B, remainderHelperBufferContainer, remainderHelperBufferBuffer, remainderHelperBufferHaloBuffer"]}
{"id": "C31", "title": "Buffer balancing is a permutation", "statement": "Balancing the thread buffers keeps exactly the same particles and afterwards the buffer sizes differ by at most one.", "quantifier": "all buffer contents and buffer counts", "why_tests_cant": "Contents are unbounded.", "anchors": ["src/autopas/utils/ArrayUtils.h: balanceVectors"]}
{"id": "C32", "title": "Leaving particles and halos are collected exactly once", "statement": "The six boundary regions scanned when lists stay valid are pairwise disjoint and cover everything outside the shrunken inner box up to the extended halo box, so each leaving particle is returned exactly once and each halo particle is discarded.", "quantifier": "all boxes, interaction lengths and skins with box length at least the skin, all positions", "why_tests_cant": "Continuous positions.", "anchors": ["src/autopas/containers/LeavingParticleCollector.h: calculateHaloVolumes, collectParticlesAndMarkNonOwnedAsDummy"]}
{"id": "C33", "title": "Container updates keep every owned particle", "statement": "Re-sorting a container after particles moved keeps every owned particle that is still inside the box in the cell of its position, returns every owned particle outside the box exactly once, and removes halo and dummy particles.", "quantifier": "all container contents and displacements", "why_tests_cant": "Unbounded contents; swap-delete loops.", "anchors": ["src/autopas/containers/linkedCells/LinkedCells.h: updateContainer", "src/autopas/containers/directSum/DirectSum.h: updateContainer", "src/autopas/containers/octree/Octree.h: updateContainer"]}
{"id": "C34", "title": "Spatial locks of the remainder traversal are addressed in range", "statement": "For every box, interaction length and particle inside the halo box the lock chosen for a position exists.", "quantifier": "all boxes, interaction lengths, positions in the halo box, before and after changing the box", "why_tests_cant": "Out-of-range access depends on extreme aspect ratios or later box changes.", "anchors": ["src/autopas/LogicHandler.h: initSpacialLocks, getSpacialLock, resizeBox, remainderHelperBufferBufferContainer"]}
{"id": "C35", "title": "Tuner ends a phase with the fastest measured configuration", "statement": "When a tuning phase ends, the configuration selected is one whose evidence value in that phase is minimal; and every configuration is sampled the requested number of times.", "quantifier": "all search spaces, evidence values, histories", "why_tests_cant": "Histories are unbounded.", "anchors": ["src/autopas/tuning/AutoTuner.cpp", "src/autopas/tuning/searchSpace/EvidenceCollection.cpp"]}
{"id": "C36", "title": "Tuner never fails while a valid configuration remains", "statement": "As long as at least one configuration of the search space is applicable, asking the tuner for a configuration and rejecting inapplicable ones always yields a configuration.", "quantifier": "all search spaces, sample counts, tuning intervals, rejection patterns", "why_tests_cant": "Failure needs particular combinations of queue length and interval.", "anchors": ["src/autopas/tuning/AutoTuner.cpp: getNextConfig, tuneConfiguration, rejectConfig, bumpIterationCounters"]}
{"id": "C37", "title": "MPI distribution hands every configuration to some rank", "statement": "Distributing the configurations over the ranks assigns every configuration to at least one rank, assigns every rank at least one configuration, in contiguous blocks whose sizes differ by at most one.", "quantifier": "all numbers of configurations and ranks", "why_tests_cant": "Unbounded sizes.", "anchors": ["src/autopas/utils/ConfigurationAndRankIteratorHandler.cpp: advanceIterators, reset"]}
{"id": "C38", "title": "Cell size factor intervals handed to ranks stay in the allowed interval", "statement": "When an infinite cell size factor interval is split among ranks, the sub-intervals lie within the interval and together cover it.", "quantifier": "all numbers of ranks and configurations, all intervals", "why_tests_cant": "Specific divisibility patterns.", "anchors": ["src/autopas/utils/AutoPasConfigurationCommunicator.cpp: generateDistribution"]}
{"id": "C39", "title": "Configuration serialisation round-trips", "statement": "Serialising a list of configurations to bytes and deserialising yields the same list, including after gathering from all ranks.", "quantifier": "all lists of configurations", "why_tests_cant": "Unbounded lists.", "anchors": ["src/autopas/utils/AutoPasConfigurationCommunicator.cpp: serializeConfiguration(s), deserializeConfiguration(s)"]}
{"id": "C40", "title": "Similar ranks share a bucket", "statement": "Ranks with equal similarity metric are put in the same bucket, and two ranks are in the same bucket iff no relative gap larger than the threshold separates their metrics.", "quantifier": "all metric vectors and thresholds", "why_tests_cant": "Continuous inputs.", "anchors": ["src/autopas/utils/AutoPasConfigurationCommunicator.cpp: distributeRanksInBuckets"]}
{"id": "C41", "title": "Octree stores every inserted particle exactly once, in the leaf containing it", "statement": "Inserting particles located inside the tree's box into an octree keeps all particles, each in the leaf whose box contains it; the leaf boxes partition the root box and no split produces a leaf smaller than the interaction length.", "quantifier": "all insertion sequences, thresholds, boxes", "why_tests_cant": "Unbounded sequences.", "anchors": ["src/autopas/containers/octree/OctreeLeafNode.h: insert", "src/autopas/containers/octree/OctreeInnerNode.h"]}
{"id": "C42", "title": "Octree neighbour search finds every touching leaf", "statement": "The neighbour leaves reported for a leaf are exactly the other leaves whose boxes touch its box (by face, edge or corner).", "quantifier": "all octrees, all leaves", "why_tests_cant": "Trees of unbounded depth.", "anchors": ["src/autopas/containers/octree/OctreeNodeInterface.h: GTEQ_*_NEIGHBOR, getNeighborLeaves", "src/autopas/containers/octree/OctreeDirection.h"]}
{"id": "C43", "title": "Cluster towers keep the particles and pad with dummies", "statement": "Generating clusters in a tower keeps exactly the particles that were put in, sorted by z, padded with dummy particles to full clusters, and collecting them back returns exactly the original non-dummy particles.", "quantifier": "all tower contents and cluster sizes", "why_tests_cant": "Unbounded contents.", "anchors": ["src/autopas/containers/verletClusterLists/ClusterTower.h"]}
{"id": "C44", "title": "Cluster neighbour lists are complete", "statement": "After a rebuild of the cluster lists every pair of particles within the interaction length is either in one cluster or in two clusters one of which lists the other (both list each other without Newton 3).", "quantifier": "all particle configurations, tower grids, cluster sizes", "why_tests_cant": "Continuous configurations.", "anchors": ["src/autopas/containers/verletClusterLists/VerletClusterListsRebuilder.h"]}
{"id": "C45", "title": "Saturating integer arithmetic is exact or saturates", "statement": "safeAdd, safeSub and safeMul return the mathematically exact result if it is representable, the overflow value if it is too large and the underflow value if it is too small.", "quantifier": "all pairs of machine integers (signed or unsigned), any width", "why_tests_cant": "2^128 input pairs.", "anchors": ["src/autopas/utils/Math.h: safeAdd, safeSub, safeMul"]}
{"id": "C46", "title": "SoA buffers round-trip particles", "statement": "Loading the particles of a cell into the SoA buffer and extracting them again leaves all particle attributes unchanged except those written by the functor.", "quantifier": "all cell contents and offsets", "why_tests_cant": "Unbounded contents.", "anchors": ["src/autopas/baseFunctors/Functor.h: SoALoader, SoAExtractor", "src/autopas/utils/SoA.h"]}
{"id": "C47", "title": "Iteration with a lambda function visits every matching particle exactly once", "statement": "forEach, forEachInRegion, reduce and reduceInRegion call the function exactly once with every particle of the container that has a matching ownership state and is in the region, and with no other.", "quantifier": "all particle sets, behaviours, regions", "why_tests_cant": "Unbounded contents and continuous regions.", "anchors": ["src/autopas/AutoPasDecl.h: forEach, forEachInRegion", "src/autopas/containers/linkedCells/LinkedCells.h: forEach, forEachInRegion", "src/autopas/containers/directSum/DirectSum.h: forEach, forEachInRegion", "src/autopas/options/IteratorBehavior.h: contains"]}
{"id": "C48", "title": "Neighbour lists are rebuilt whenever the configuration changes", "statement": "If two consecutive computations use different configurations, the neighbour lists are rebuilt before the second of them.", "quantifier": "all search spaces, measured times, tuning intervals, numbers of samples, rebuild frequencies, histories", "why_tests_cant": "The rebuild rhythm and the tuning interval only clash for certain combinations, and only after a full tuning interval.", "anchors": ["src/autopas/tuning/AutoTuner.cpp: willRebuildNeighborLists, bumpIterationCounters, tuneConfiguration", "src/autopas/LogicHandler.h: neighborListsAreValid"]}
{"id": "C49", "title": "All ranks agree on the globally best configuration", "statement": "Finding the globally best configuration returns on every rank the same configuration, namely that of a rank whose time is the smallest of all.", "quantifier": "all numbers of ranks, local optima and times", "why_tests_cant": "The result depends on the values of all ranks; tests run with few ranks and without ties.", "anchors": ["src/autopas/utils/AutoPasConfigurationCommunicator.cpp: findGloballyBestConfiguration, serializeConfiguration, deserializeConfiguration"]}
{"id": "C50", "title": "The octree traversals consider every pair of particles within the cutoff exactly once", "statement": "With an octree as container, an iteration with Newton 3 (ot_c18) calls the functor exactly once for every pair of particles within the cutoff one of which is owned and never twice for any pair; without Newton 3 (ot_c01) every owned particle receives the contribution of every particle within the cutoff exactly once.", "quantifier": "all boxes, interaction lengths, split thresholds, sets of owned and halo particles, movements of up to half the skin since the insertion, iteration orders of the sets of leaves", "why_tests_cant": "The leaves adapt to the particles: leaves of all sizes are neighbours of each other, and particles at any distance from the faces of their leaf.", "anchors": ["src/autopas/containers/octree/traversals/OTC18Traversal.h: traverseParticles", "src/autopas/containers/octree/traversals/OTC01Traversal.h: traverseParticles", "src/autopas/containers/octree/OctreeNodeInterface.h: getNeighborLeaves", "src/autopas/containers/octree/OctreeInnerNode.h: getLeavesInRange"]}
{"id": "C51", "title": "The cluster list traversals compute every pair exactly once", "statement": "Until the next rebuild every traversal of the cluster lists (c06, cluster iteration, c01 balanced, sliced, sliced balanced, sliced c02) makes every particle receive the contribution of every other particle at most once, and exactly once if the particle is owned and their distance at the rebuild was at most the interaction length.", "quantifier": "all particle configurations, boxes, cluster sizes, numbers of threads, slicings and schedules, with and without Newton 3", "why_tests_cant": "Continuous configurations and unbounded numbers of clusters, threads and interleavings.", "anchors": ["src/autopas/containers/verletClusterLists/traversals", "src/autopas/containers/verletClusterLists/VerletClusterLists.h: traverseClusters, fillClusterRanges", "src/autopas/containers/cellTraversals/SlicedBasedTraversal.h"]}
{"id": "C52", "title": "The cluster list traversals are free of data races", "statement": "Two tasks of a traversal of the cluster lists that may run at the same time never change a particle of the same cluster.", "quantifier": "all particle configurations, boxes, cluster sizes, numbers of threads, slicings and schedules, with and without Newton 3", "why_tests_cant": "A race shows up only in particular interleavings.", "anchors": ["src/autopas/containers/verletClusterLists/traversals", "src/autopas/containers/cellTraversals/SlicedLockBasedTraversal.h"]}
{"id": "C53", "title": "The partition of the clusters among threads is exact", "statement": "The static partition used by the balanced traversal gives every owned cluster to exactly one thread, for every distribution of the lengths of the neighbour lists.", "quantifier": "all towers, list lengths, numbers of threads, target loads", "why_tests_cant": "Unbounded numbers of towers and clusters; the loop has many corner cases (empty towers, early and late ends).", "anchors": ["src/autopas/containers/verletClusterLists/VerletClusterLists.h: calculateClusterThreadPartition, fillClusterRanges", "src/autopas/containers/verletClusterLists/traversals/VCLC01BalancedTraversal.h"]}
{"id": "C54", "title": "The Verlet list containers compute every pair within the cutoff exactly once", "statement": "With VerletLists, VarVerletLists, VerletListsCells or PairwiseVerletLists as container and any of their traversals, between two rebuilds during which no particle moves more than half the skin, the functor handles every pair of particles within the cutoff one of which is owned exactly once and no pair twice (without Newton 3 once per direction).", "quantifier": "all boxes, cutoffs, skins, cell size factors, sets of owned and halo particles, movements below half the skin, data layouts, numbers of threads, slicings, schedules", "why_tests_cant": "Continuous configurations, unbounded numbers of particles and cells, and every assignment of cells to threads while the lists are built.", "anchors": ["src/autopas/containers/verletListsCellBased/verletLists/VerletLists.h", "src/autopas/containers/verletListsCellBased/verletLists/traversals/VLListIterationTraversal.h", "src/autopas/containers/verletListsCellBased/varVerletLists", "src/autopas/containers/verletListsCellBased/verletListsCells"]}
{"id": "C55", "title": "The Verlet list traversals are free of data races", "statement": "Two tasks of a traversal of VerletLists, VarVerletLists, VerletListsCells or PairwiseVerletLists that may run at the same time never change the same particle.", "quantifier": "all boxes, cutoffs, skins, cell size factors, particle sets, data layouts, numbers of threads, slicings, schedules", "why_tests_cant": "A race shows up only in particular interleavings.", "anchors": ["src/autopas/containers/verletListsCellBased/verletListsCells/traversals", "src/autopas/containers/verletListsCellBased/verletLists/traversals/VLListIterationTraversal.h", "src/autopas/containers/verletListsCellBased/varVerletLists/traversals/VVLAsBuildTraversal.h", "src/autopas/containers/cellTraversals/SlicedLockBasedTraversal.h"]}
{"id": "C56", "title": "Direct sum and three-body traversals compute every pair and triplet within the cutoff exactly once", "statement": "With the direct sum container every pair and every triplet of particles within the cutoff that involves an owned particle contributes exactly once to that particle, whichever of the other particles are halo particles; with the linked cells container and the c01 traversal the same holds for triplets. No contribution is computed twice.", "quantifier": "all boxes, sets of owned and halo particles, positions, movements since the last rebuild, data layouts, Newton 3, sorting thresholds, cell size factors", "why_tests_cant": "Continuous configurations; the triplets are spread over calls for one, two and three cells and cut short by sorting.", "anchors": ["src/autopas/containers/directSum/DirectSum.h", "src/autopas/containers/directSum/traversals/DSSequentialTraversal.h", "src/autopas/containers/linkedCells/traversals/LCC01Traversal.h: computeTriwiseOffsets, processBaseCellTriwise", "src/autopas/baseFunctors/CellFunctor3B.h"]}
{"id": "C57", "title": "The traversals with combined SoA buffers compute every pair within the cutoff exactly once, in every schedule", "statement": "lc_c01_combined_SoA and lc_c04_combined_SoA copy the particles of several cells into buffers of the threads, let the functor work on parts of these buffers and (c04) write them back. Whatever the schedule and whatever the buffers contain from before, every pair of particles within the cutoff that involves an owned particle contributes exactly once (c01: to every owned particle), no contribution is lost when buffers are written back, and the cells hold the same particles afterwards.", "quantifier": "all boxes, particle sets, movements since the last rebuild, assignments of lines to threads, interleavings, previous buffer contents, with and without Newton 3", "why_tests_cant": "The buffers are reused from cell to cell and rotate; an error shows only for particular cell fillings and schedules.", "anchors": ["src/autopas/containers/linkedCells/traversals/LCC01Traversal.h: processBaseCell (combineSoA)", "src/autopas/containers/linkedCells/traversals/LCC04CombinedSoATraversal.h", "src/autopas/containers/linkedCells/traversals/LCC04SoACellHandler.h", "src/autopas/containers/cellTraversals/C04BasedTraversal.h"]}
{"id": "C58", "title": "After any history of API calls, an interaction computation adds every force exactly once", "statement": "Particles are added, deleted, moved by at most half of the skin per time step and images of particles are put into the halo; the container is updated in every step. Whenever computeInteractions is then called with a pairwise functor, whatever container, traversal, data layout, Newton 3 mode and cell size factor the tuner chooses for this call, it does not fail and every owned particle receives the force of every other owned or halo particle closer than the cutoff exactly once, and never a force of itself, no matter whether the particles are in the container or in one of the buffers.", "quantifier": "all histories of API calls, boxes, cutoffs, skins, rebuild frequencies, numbers of threads, choices of the tuner, positions", "why_tests_cant": "Where a particle is stored depends on the whole history: containers are replaced, lists reused, particles wait in buffers, halo particles are overwritten in place.", "anchors": ["src/autopas/LogicHandler.h: computeInteractions, computeRemainderInteractions2B, updateContainer, addParticle, addHaloParticle", "src/autopas/containers/linkedCells/LinkedCells.h: computeInteractions", "src/autopas/containers/directSum/DirectSum.h: computeInteractions", "src/autopas/containers/linkedCells/traversals"]}
{"id": "C59", "title": "After any history of API calls, a three-body interaction computation adds every force exactly once", "statement": "Particles are added, deleted, moved by at most half of the skin per time step and images of particles are put into the halo; the container is updated in every step. Whenever computeInteractions is then called with a three-body functor, whatever container, data layout, Newton 3 mode and configuration the tuner selects, it does not fail and every owned particle receives the force of any two other owned or halo particles exactly once if the three are pairwise within the cutoff, wherever the particles are stored, and never the force of a triple that contains a particle twice.", "quantifier": "all histories of API calls, boxes, cutoffs, skins, rebuild frequencies, numbers of threads, choices of the tuner, positions", "why_tests_cant": "A triple can be spread over the container and the buffers in many ways, each with its own loop; where a particle is stored depends on the whole history.", "anchors": ["src/autopas/LogicHandler.h: computeInteractions, computeRemainderInteractions3B, remainderHelper3bBufferBufferBuffer, remainderHelper3bBufferBufferContainer, remainderHelper3bBufferContainerContainer", "src/autopas/containers/linkedCells/LinkedCells.h: computeInteractions, getRegionIterator", "src/autopas/containers/directSum/DirectSum.h: computeInteractions, getRegionIterator"]}
{"id": "C60", "title": "The Lennard-Jones functor computes the Lennard-Jones interaction through every interface", "statement": "Called through AoSFunctor, SoAFunctorSingle, SoAFunctorPair or SoAFunctorVerlet, with or without Newton 3, the functor adds to a particle the Lennard-Jones force of each partner it is called for that is within the cutoff, and nothing for dummies; the force is the negative gradient of the potential; parameters of different types are mixed by the Lorentz-Berthelot rules, whatever the history of registrations. With Newton 3 the two forces are opposite. The potential energy and virial reported after the traversal are half of the sums over the owned particles and their partners, however the calls are divided among threads.", "quantifier": "all particles, ownership states, types, parameters, call sequences, SoA sizes, neighbour lists, vector lengths, numbers of threads", "why_tests_cant": "Real arithmetic over all configurations; the loops are vectorised with masks, blocks and remainders whose effect depends on list lengths.", "anchors": ["applicationLibrary/molecularDynamics/molecularDynamicsLibrary/LJFunctor.h: AoSFunctor, SoAFunctorSingle, SoAFunctorPairImpl, SoAFunctorVerletImpl, endTraversal", "applicationLibrary/molecularDynamics/molecularDynamicsLibrary/ParticlePropertiesLibrary.h: calculateMixingCoefficients, calcShift6"]}
{"id": "C61", "title": "After any history of API calls, computeInteractions with the Lennard-Jones functor yields the forces of all other particles", "statement": "After a history as in C58, whatever container, traversal, data layout, Newton 3 mode and cell size factor the tuner chooses, computeInteractions with the Lennard-Jones functor adds to every owned particle exactly the sum of the Lennard-Jones forces of all other owned and halo particles within the cutoff, and the functor reports half of the sum of the pair energies and virials of the owned particles, however the work is ordered and distributed to threads.", "quantifier": "all histories of API calls, boxes, cutoffs, skins, rebuild frequencies, choices of the tuner, particle types and parameters, positions, schedules and numbers of threads", "why_tests_cant": "Continuous configurations and unbounded histories and schedules; a wrong combination of functor, traversal and buffers shows as a small error of a sum.", "anchors": ["src/autopas/LogicHandler.h: computeInteractions, computeRemainderInteractions2B", "applicationLibrary/molecularDynamics/molecularDynamicsLibrary/LJFunctor.h", "src/autopas/containers/linkedCells/LinkedCells.h: computeInteractions", "src/autopas/containers/directSum/DirectSum.h: computeInteractions"]}
{"id": "C62", "title": "The Axilrod-Teller functor computes the forces of the Axilrod-Teller potential", "statement": "Called for three particles, with or without Newton 3, the functor adds to the first particle (with Newton 3 to all three) the negative gradient of the Axilrod-Teller potential of the triple if the three are pairwise within the cutoff and none is a dummy, and nothing otherwise. The three forces add up to zero. The parameter of three types is the geometric mean of their parameters, whatever the history of registrations. The potential energy reported after the traversal is a third of the sum, and the virial the sum, over the owned particles and the pairs they were called for, however the calls are divided among threads.", "quantifier": "all particles, ownership states, types, parameters, registrations, call sequences, numbers of threads", "why_tests_cant": "Real arithmetic over all configurations; the force is a long expression of scalar products that is written twice with different roles and completed by the third law.", "anchors": ["applicationLibrary/molecularDynamics/molecularDynamicsLibrary/AxilrodTellerFunctor.h: AoSFunctor, initTraversal, endTraversal", "applicationLibrary/molecularDynamics/molecularDynamicsLibrary/ParticlePropertiesLibrary.h: addATParametersToSite, calculateMixingCoefficients, getMixingNu"]}
{"id": "C63", "title": "After any history of API calls, computeInteractions with the Axilrod-Teller functor yields the forces of all other pairs of particles", "statement": "After a history as in C59, whatever container, traversal, Newton 3 mode and cell size factor the tuner chooses, computeInteractions with the Axilrod-Teller functor adds to every owned particle exactly the sum of the Axilrod-Teller forces of every two other owned and halo particles with which it is pairwise within the cutoff, however the functor calls are ordered and distributed to threads; the reported potential energy and virial are the sums over the owned particles.", "quantifier": "all histories of API calls, boxes, cutoffs, skins, rebuild frequencies, choices of the tuner, particle types and parameters, positions, schedules and numbers of threads", "why_tests_cant": "Continuous configurations and unbounded histories and schedules; a triple counted twice or missed at a seam between container and buffers shows as a small error of a sum.", "anchors": ["src/autopas/LogicHandler.h: computeInteractions, computeRemainderInteractions3B", "applicationLibrary/molecularDynamics/molecularDynamicsLibrary/AxilrodTellerFunctor.h", "src/autopas/containers/linkedCells/LinkedCells.h: computeInteractions", "src/autopas/containers/directSum/DirectSum.h: computeInteractions"]}
{"id": "C64", "title": "md-flexible divides the global box among all ranks", "statement": "For any number of ranks, if at least one dimension may be subdivided, the domain decomposition has exactly as many subdomains as ranks and divides only the chosen dimensions. Ranks and grid positions correspond one to one and neighbours are the adjacent subdomains of the periodic grid. Initially and after any number of load balancing steps (inverted pressure) every position of the global box lies in the local box of exactly one rank, every local box is at least two interaction lengths wide, and a balancing step moves no position beyond the neighbouring subdomains.", "quantifier": "all numbers of ranks and choices of dimensions; all global boxes wide enough; all sequences of load balancing steps with any positive work of the ranks; all positions", "why_tests_cant": "The boxes after load balancing depend on the measured work of all ranks in all previous steps; tests use a few numbers of ranks and no sequences of balancing steps.", "anchors": ["examples/md-flexible/src/domainDecomposition/DomainTools.cpp: generateDecomposition, balanceAdjacentDomains, convertIdToIndex, convertIndexToId", "examples/md-flexible/src/domainDecomposition/RegularGridDecomposition.cpp: initializeLocalBox, initializeNeighborIndices, balanceWithInvertedPressureLoadBalancer"]}
{"id": "C65", "title": "The halo exchange of md-flexible delivers every image exactly once", "statement": "If all particles of a rank lie in its local box, then exchangeHaloParticles ends on every rank and gives the rank as halo particles exactly the images, through the periodic boundaries, of the particles of all ranks that lie within cutoff plus skin around its local box, each exactly once, including images across edges and corners.", "quantifier": "all numbers of ranks and grids of subdomains; all boxes reached by load balancing; all boundary types per dimension (if divided dimensions with walls come before exchanged ones); all particle positions", "why_tests_cant": "Images over edges and corners are forwarded by other ranks in several rounds; tests use few particles and one grid of ranks.", "anchors": ["examples/md-flexible/src/domainDecomposition/RegularGridDecomposition.cpp: exchangeHaloParticles, collectHaloParticlesForLeftNeighbor, collectHaloParticlesForRightNeighbor, sendAndReceiveParticlesLeftAndRight"]}
{"id": "C66", "title": "The migration of md-flexible neither loses nor duplicates particles", "statement": "Particles that left the local box of their rank (by moving, or because load balancing changed the box) are delivered by exchangeMigratingParticles: the exchange ends on every rank without an exception, every particle, wrapped into the global box through periodic boundaries, is inserted on exactly one rank and lies in the local box of this rank.", "quantifier": "all numbers of ranks and grids of subdomains; all boxes reached by load balancing; all sets of leaving particles that do not cross walls and are not further than a neighbouring subdomain (or anywhere, with one send step per subdomain)", "why_tests_cant": "A particle may change its rank in all three dimensions at once, across the boundary of the global box; which ranks forward it depends on all positions.", "anchors": ["examples/md-flexible/src/domainDecomposition/RegularGridDecomposition.cpp: exchangeMigratingParticles, categorizeParticlesIntoLeftAndRightNeighbor, sendAndReceiveParticlesLeftAndRight"]}
{"id": "C67", "title": "The AVX Lennard-Jones functor computes the same interaction as the scalar one for every number of particles", "statement": "Called through AoSFunctor, SoAFunctorSingle, SoAFunctorPair or SoAFunctorVerlet in any order, with or without Newton 3, for SoAs and neighbour lists of any length, the AVX variant of the functor adds to every particle exactly the Lennard-Jones forces of the partners it is called for that are within the cutoff, nothing for dummies wherever they are, and reads and writes nothing outside the given rows; the reported potential energy and virial are half of the sums over the owned particles and their partners, however the calls are divided among threads.", "quantifier": "all SoAs and neighbour lists without repeated particles, of any length and alignment; all positions, ownership states, types and parameters; all sequences of calls and numbers of threads", "why_tests_cant": "Whether the remainder mask, the stale entries of the gather buffers and the early exit are right depends on the length modulo the vector width and on which lanes are dummies or out of range; tests compare a few lengths.", "anchors": ["applicationLibrary/molecularDynamics/molecularDynamicsLibrary/LJFunctorAVX.h: SoAKernel, SoAFunctorSingleImpl, SoAFunctorPairImpl, SoAFunctorVerletImpl, AoSFunctor, endTraversal"]}
{"id": "C68", "title": "The container of particle references shows exactly its particles after any history", "statement": "In LinkedCellsReferences all particles are in one growing vector and the cells hold pointers into it. After any history of adding owned and halo particles, updating halo particles, moving and deleting particles through iterators, container updates and list rebuilds, with any reallocations of the vector in between, every pointer is valid, no particle is reached twice, and iterating shows exactly the particles that were added and not deleted, with their current values, owned ones in cells of the box and halo particles in halo cells. updateContainer returns exactly the owned particles outside of the box, drops halo particles and leaves every remaining particle in the cell of its position. (deleteAllParticles and a lone deleteHaloParticles violate this, see the refuted statements.)", "quantifier": "all boxes, interaction lengths, cell size factors and skins; all histories of calls; all growth strategies of the vector; all orders in which threads reinsert particles", "why_tests_cant": "Pointers become dangling only when the vector happens to reallocate or to be compacted; which call does this depends on the whole history, and reading a dangling pointer often shows the right values by accident.", "anchors": ["src/autopas/containers/linkedCells/LinkedCellsReferences.h: addParticleImpl, addHaloParticleImpl, updateHaloParticle, deleteHaloParticles, updateDirtyParticleReferences, updateContainer, deleteParticle", "src/autopas/containers/linkedCells/ParticleVector.h", "src/autopas/cells/ReferenceParticleCell.h", "src/autopas/containers/CellBasedParticleContainer.h: deleteAllParticles"]}
{"id": "C69", "title": "md-flexible moves all molecules by the Stoermer-Verlet scheme, whatever is tuned and whenever it pauses", "statement": "Positions, velocities and forces after n time steps are those of the Stoermer-Verlet scheme applied n times to the initial positions, velocities and forces, with the sum of global, boundary and interaction forces at the current positions, whichever iterations are tuning iterations and whether or not the simulation pauses during tuning (when pausing, without reflective boundaries). A simulation that ends is not paused and has done exactly the requested number of steps, and it ends if every tuning phase does. Reversing the velocities and running as long again returns to the start (without periodic re-entry, and if the initial forces belong to the initial positions). With interactions obeying Newton's third law and no boundary force, total momentum changes by the global force times the elapsed time only. If fast particles raise an exception and the simulation goes on, no molecule has moved half the skin per time step or more in any step (if that is more than 1e-6).", "quantifier": "all numbers of molecules, masses, states, step lengths, global forces, force laws and boundary forces; all sequences of tuning and non-tuning iterations; all numbers of passes of the loop", "why_tests_cant": "When tuning starts and ends depends on measured times; a force added twice or lost around a pause changes the trajectory only slightly, and tests have no exact trajectory to compare with.", "anchors": ["examples/md-flexible/src/Simulation.cpp: run, updateInteractionForces, updateSimulationPauseState, needsMoreIterations", "examples/md-flexible/src/TimeDiscretization.cpp: calculatePositionsAndResetForces, calculateVelocities", "src/autopas/particles/ParticleBase.h: setRDistanceCheck, addRDistanceCheck"]}
{"id": "C70", "title": "The thermostat brings every component to the target temperature", "statement": "If every component that has particles has a positive temperature and every particle a registered type, one application of the thermostat of md-flexible brings the temperature of each component to the target if it is at most |delta| away and otherwise changes it by exactly |delta| towards the target, by multiplying all (angular) velocities of a component with the same non-negative factor and changing nothing else. After n applications the distance to the target is the initial distance minus n |delta|, or zero. The result does not depend on the distribution of particles over ranks and threads. (Halo particles count as particles: with stale halo copies the owned particles miss the target, see the refuted statement; a component at rest gets velocities that are not finite.)", "quantifier": "all numbers of components, ranks, threads and particles; all masses, moments of inertia and velocities; single- and multi-site molecules; all targets and step widths", "why_tests_cant": "Temperatures are sums over all particles of all ranks; tests use one rank, one grid of particles and a few temperatures.", "anchors": ["examples/md-flexible/src/Thermostat.h: calcTemperatureComponent, apply", "src/autopas/AutoPasDecl.h: begin"]}
{"id": "C71", "title": "A rule file keeps exactly the configurations that no applied order declares worse", "statement": "For every rule file whose variables and lists are defined above their use and that has no parentheses, and for all live infos, rule-based tuning compiles and executes the rules such that exactly those configuration orders are applied, in the order of the text, whose enclosing conditions are true: variables have the values of their definitions, numbers are computed as 64-bit unsigned integers or doubles, division by zero gives the greatest number, and/or/not and comparisons have their usual meaning. The queue then holds, without duplicates, exactly the configurations of the queue before that the right-hand pattern of no applied order describes; it is unchanged in verify mode and if nothing would be left before anything was measured. The execution always ends and never leaves its stack; a program in which every expression has a type never fails. (Parentheses crash, a variable whose definition is skipped reads as false, cell size factors without decimal point are ignored, and an order also removes configurations that it compares with none in the queue, see the refuted statements.)", "quantifier": "all rule programs (any nesting and length), live infos, arithmetic of doubles, queues and states of the strategy", "why_tests_cant": "Rule files are programs written by users: unbounded nesting, any operators on any values; whether stack size, addresses and jump targets are right depends on the whole program, tests run a handful of files.", "anchors": ["src/autopas/tuning/tuningStrategy/ruleBasedTuning/RuleBasedProgramParser.cpp: TranslationVisitor", "src/autopas/tuning/tuningStrategy/ruleBasedTuning/RuleBasedProgramTree.cpp: generateCode, CodeGenerationContext", "src/autopas/tuning/tuningStrategy/ruleBasedTuning/RuleVM.h: execute, executeInstruction", "src/autopas/tuning/tuningStrategy/ruleBasedTuning/RuleBasedTuning.cpp: applyRules, optimizeSuggestions, reset"]}
{"id": "C72", "title": "The search space holds exactly the usable configurations among those the user allows", "statement": "For any allowed containers, traversals, load estimators, data layouts, Newton 3 options, finite cell size factors and any interaction type, the search space has no duplicates and holds a configuration exactly if each of its options is allowed, there is a traversal class for the interaction type whose objects the container accepts and which is applicable with the data layout and Newton 3 option on some domain, and its load estimator is one of the allowed ones that the container implements (none if there is no such, or if the traversal is not load balanced); an exception is thrown exactly if there is no such configuration. The factors that replace an interval of cell size factors are those in the interval for which the domain is a whole number of cells long. (Three-body interactions and load estimators on linked cells with references and load estimators on pairwise Verlet lists are left out; init passes cutoff times skin instead of their sum as interaction length, see the refuted statements.)", "quantifier": "all sets of allowed options of every kind, all interaction types, all domains", "why_tests_cant": "There are 2^9 sets of containers, 2^33 of traversals and so on; tests compare the sizes of a few spaces. A configuration that is missing is never noticed: the tuner only picks another one.", "anchors": ["src/autopas/tuning/utils/SearchSpaceGenerators.cpp: cartesianProduct, calculateRelevantCsfs", "src/autopas/tuning/Configuration.cpp: hasCompatibleValues", "src/autopas/containers/CompatibleTraversals.h", "src/autopas/containers/CompatibleLoadEstimators.h", "src/autopas/AutoPasImpl.h: init"]}
{"id": "C73", "title": "Molecules with several sites stay rigid and turn with their angular velocity", "statement": "A unit quaternion turns positions such that scalar and vector products are kept, turning backwards undoes it, products of quaternions compose, and mirrored quaternions turn mirror images. In each time step of md-flexible the orientation of a multi-site molecule changes by the implicit midpoint rule (up to the tolerance of the iteration) with the angular velocity after half a step, the angular velocity by half the acceleration of the old and half of the new torque; the iteration ends if the molecule turns by less than two radians per step. After any number of steps with any torques the quaternion has length one and the sites have their initial distances from each other and from the centre of mass.", "quantifier": "all quaternions and positions; all moments of inertia, angular velocities, torques, global forces, step lengths; all numbers of sites and time steps", "why_tests_cant": "Drift of the orientation shows only after many steps; whether the iteration ends depends on real numbers; tests compare one step with a reference implementation.", "anchors": ["src/autopas/utils/Quaternion.cpp", "examples/md-flexible/src/TimeDiscretization.cpp: calculateQuaternionsAndResetTorques, calculateAngularVelocities"]}
{"id": "C74", "title": "A molecule on which no torque acts keeps its angular momentum", "statement": "Without torques and global force the angular momentum of a multi-site molecule is the same after any number of time steps. (Proved for molecules with equal moments of inertia; refuted for others: the code keeps the angular velocity constant instead.)", "quantifier": "all orientations, angular velocities, moments of inertia, step lengths and numbers of steps", "why_tests_cant": "Tests look at a single step or at molecules for which angular velocity and angular momentum are parallel.", "anchors": ["examples/md-flexible/src/TimeDiscretization.cpp: calculateQuaternionsAndResetTorques, calculateAngularVelocities"]}
{"id": "C75", "title": "Reflective boundaries push particles back with a conservative force", "statement": "Whatever the decomposition of the box into ranks at least as wide as the reach of the walls, one pass over the reflective boundaries adds to the force of each owned particle exactly the force of all reflective walls of the whole box: within half of 2^(1/6) sigma the wall repels like the mirror image of the particle, beyond it does nothing. This force is the derivative of a potential without jump at the reach. Positions, halo particles and everything else stay. (Refuted for ranks narrower than the reach.)", "quantifier": "all particles (positions, types, forces), sigmas and epsilons, boxes, boundary types per dimension, decompositions into ranks", "why_tests_cant": "Which rank searches which slab depends on decomposition, box and all sigmas together; tests place single particles in one box on one rank.", "anchors": ["examples/md-flexible/src/domainDecomposition/RegularGridDecomposition.cpp: RegularGridDecomposition, reflectParticlesAtBoundaries", "src/autopas/utils/Math.cpp: isNearRel"]}
{"id": "C76", "title": "A reflective boundary acts on a molecule with several sites like the mirror image of the molecule, and never pulls", "statement": "At each reflective wall within reach, an owned molecule with several sites gets the forces and torques of all images of its sites on all its sites with mixed parameters, unless the sum pulls it to the wall; then nothing changes. No wall ever pulls a molecule. (The force is proved for molecules whose sites have the same parameters and refuted for others: the code mixes the parameters of a site with themselves.)", "quantifier": "all molecules (numbers of sites, orientations, positions), site types, boxes, boundary types, decompositions", "why_tests_cant": "Tests use molecules with sites of one type or compare with the same formula.", "anchors": ["examples/md-flexible/src/domainDecomposition/RegularGridDecomposition.cpp: reflectParticlesAtBoundaries", "applicationLibrary/molecularDynamics/molecularDynamicsLibrary/ParticlePropertiesLibrary.h: getMoleculesLargestSigma, getMixing24Epsilon, getMixingSigmaSquared"]}
{"id": "C77", "title": "Molecules with several sites act on each other with the Lennard-Jones forces of their sites", "statement": "A call of the multi-site functor for two molecules whose centres of mass are within the cutoff adds to the force of the first molecule the sum of the Lennard-Jones forces of all pairs of sites (placed by position and orientation), to its torque the torque of these forces about its centre of mass, with Newton's third law also the force and torque of the first on the second, and nothing for any other molecule; energy and virial grow by the share of the owned molecules. Farther molecules and dummies do nothing. Two calls without Newton's third law equal one call with it, and such a call changes neither the momentum nor the angular momentum of the two molecules together.", "quantifier": "all molecules (positions, orientations, numbers and types of sites), parameters, cutoffs, mixing or not, shifted or not, globals or not, all forces and torques already there", "why_tests_cant": "Tests compare a few molecules in a few orientations with a second implementation of the same loops; conservation of angular momentum is not tested.", "anchors": ["applicationLibrary/molecularDynamics/molecularDynamicsLibrary/LJMultisiteFunctor.h: AoSFunctor, setParticleProperties, endTraversal"]}
{"id": "C78", "title": "The multi-site functor gives the same results in both data layouts", "statement": "For one cell, for two cells and for a molecule with its neighbour list, the structure-of-arrays functions leave the forces, torques, energy and virial that the array-of-structures calls for the same pairs of molecules leave, with and without Newton's third law, with dummies in the cells. (Proved with mixing; refuted without: the functions read the library, which is then a null pointer.)", "quantifier": "all cells and neighbour lists (numbers of molecules and sites, orientations, ownership), parameters, forces and torques already there", "why_tests_cant": "Offsets of sites in the arrays depend on the numbers of sites of all molecules before; tests use a few cells.", "anchors": ["applicationLibrary/molecularDynamics/molecularDynamicsLibrary/LJMultisiteFunctor.h: SoAFunctorSingle, SoAFunctorPairImpl, SoAFunctorVerletImpl"]}
{"id": "C79", "title": "Every cluster gets its own neighbour list, after any history", "statement": "Whenever the container of cluster lists rebuilds its lists, after any history of rebuilds with any numbers of particles, towers and clusters and of writes to the lists, each cluster that needs a neighbour list gets a list of its own: no access beyond the buffer of lists, all lists different and empty, and references to them valid until the next rebuild. (The buffer by itself, used without reserving lists, hands out an eleventh list beyond its end, and a key keeps its first list: both shown.)", "quantifier": "all histories of rebuilds and writes; all cluster sizes, numbers of towers, particles per tower, and clusters that need lists", "why_tests_cant": "Whether the buffer is large enough depends on the estimate of the number of clusters and on what earlier rebuilds left; accesses beyond the end may go unnoticed in tests.", "anchors": ["src/autopas/containers/NeighborListsBuffer.h: NeighborListsBuffer", "src/autopas/containers/verletClusterLists/VerletClusterListsRebuilder.h: rebuildTowersAndClusters", "src/autopas/containers/verletClusterLists/VerletClusterLists.h: rebuildNeighborLists", "src/autopas/containers/verletClusterLists/ClusterTower.h: generateClusters"]}
{"id": "C80", "title": "Densities of smoothed particle hydrodynamics are sums of kernel-weighted masses, in both data layouts", "statement": "A call of the density functor for two particles adds to the density of the first the mass of the second times the cubic spline kernel of the first at their distance, with Newton's third law also the other way round; dummies do nothing. The kernel is never negative, zero outside its support, has integral one over space, and its gradient function is the slope of the kernel in the direction of the distance (up to 4e-7 added to the distance). Two calls without the third law equal one with it, and the loops over one array, two arrays and a neighbour list do what the calls for their pairs do.", "quantifier": "all particles (positions, masses, smoothing lengths, ownership), densities already there, arrays and neighbour lists", "why_tests_cant": "Tests compare a few numbers; that the integral of the kernel is one, and equality for all arrays, cannot be tested.", "anchors": ["applicationLibrary/sph/SPHLibrary/SPHKernels.h: W, gradW", "applicationLibrary/sph/SPHLibrary/SPHCalcDensityFunctor.h: AoSFunctor, SoAFunctorSingle, SoAFunctorPair, SoAFunctorVerlet"]}
{"id": "C81", "title": "The hydrodynamic force conserves momentum and energy and does not depend on Newton's third law or the data layout", "statement": "A call of the hydrodynamic force functor with Newton's third law changes neither the rate of the total momentum nor the rate of the total energy of the two particles, and nothing of others. Two calls without the third law equal one call with it. The loops over one array, two arrays and a neighbour list do what the calls for their pairs do if no signal velocity was negative before. (Independence of the third law is proved for pairs that are both or neither in the support of each other, and refuted for others: the functor looks at the smoothing length of the first particle only.)", "quantifier": "all particles (positions, velocities, masses, smoothing lengths, densities, pressures, sound speeds, ownership), accelerations already there, arrays and neighbour lists", "why_tests_cant": "Tests use particles of equal smoothing lengths, for which the difference does not show.", "anchors": ["applicationLibrary/sph/SPHLibrary/SPHCalcHydroForceFunctor.h: AoSFunctor, SoAFunctorSingle, SoAFunctorPair, SoAFunctorVerlet", "applicationLibrary/sph/SPHLibrary/SPHKernels.h: gradW"]}
{"id": "C82", "title": "The prediction strategy keeps exactly the promising and the due configurations", "statement": "At the start of a tuning phase, for every method of extrapolation: if no configuration of the queue has a prediction the queue is unchanged; otherwise it holds the configurations whose prediction is at most the best prediction times the relative optimum range, sorted so that the best one is tried first, and before them those that wait for a new measurement because their last one is at least the maximal number of phases old or because they have too few. None twice, none due lost, and the queue is never emptied. A measured configuration stops waiting. With the method that takes the last result, used in each phase, the prediction is the last measurement. (Shown as well: configurations never measured are dropped once any other has a prediction; waiting ones that an earlier strategy removed come back; the last-result method repeats an old value after a phase without prediction; the Newton polynomial, when it reuses coefficients, reads beyond the measurements or takes the wrong ones.)", "quantifier": "all configurations, evidence, states of the strategy, methods of extrapolation, ranges of at least one and limits on phases; all histories of measurements for the last-result method", "why_tests_cant": "Tests use a handful of configurations with one method and a few phases; what is kept depends on the whole history.", "anchors": ["src/autopas/tuning/tuningStrategy/PredictiveTuning.cpp: reset, calculatePredictions, lastResult, newtonPolynomial, addEvidence, rejectConfiguration"]}
{"id": "C83", "title": "The fuzzy controller predicts the centre, or the mean of the maximum, of the strongest suggestions of its rules", "statement": "Membership functions (triangle, trapezoid, Gaussian, sigmoid, finite sigmoid) have values from 0 to 1 for all parameters and the shapes their names say; sets composed with or, and, not have memberships from 0 to 1, De Morgan's laws hold. For rules about one output dimension, at least two samples and a proper range, prediction ends and gives, of the strongest suggestions of the rules at equidistant samples of the whole range, the centre of gravity, or the mean of the samples with the strongest suggestion (tolerance 1e-5); both are within the range of the output if any rule suggests anything. (Shown as well: if no antecedent is fulfilled the centre of gravity is 0 even if the range does not contain 0; if the range is a single point prediction never ends.)", "quantifier": "all membership functions and parameters, composed sets, rules, data, ranges and numbers of samples", "why_tests_cant": "Tests evaluate a few sets at a few points; bounds and termination must hold for every rule file and every input.", "anchors": ["src/autopas/tuning/tuningStrategy/fuzzyTuning/fuzzyController/FuzzySet.cpp: evaluate_membership, centerOfGravity, meanOfMaximum, operator||, operator&&, operator!", "src/autopas/tuning/tuningStrategy/fuzzyTuning/fuzzyController/FuzzySetFactory.cpp: triangleFunction, trapezoidFunction, gaussianFunction, sigmoidFunction, sigmoidFiniteFunction", "src/autopas/tuning/tuningStrategy/fuzzyTuning/fuzzyController/FuzzyRule.cpp: apply", "src/autopas/tuning/tuningStrategy/fuzzyTuning/fuzzyController/FuzzyControlSystem.cpp: applyRules, predict"]}
{"id": "C84", "title": "The fuzzy tuning strategy keeps exactly the configurations its control systems select", "statement": "Interpreted as individual systems, a configuration stays in the queue exactly if for every control system it matches one of the patterns mapped to the value closest to the prediction (the first of equally close ones). Interpreted as suitability, it stays exactly if it matches the pattern of a system whose prediction is at least the best prediction times one minus the threshold; if the best prediction is not negative, whatever matches the best system stays. Nothing is added or duplicated; the order is reversed. (Shown as well: if all predictions are negative and the threshold is positive everything is removed, even what matches the best system.)", "quantifier": "all queues, control systems with any predictions, output mappings, patterns and thresholds", "why_tests_cant": "Tests use two or three configurations and one rule file; ties, breaks of sorted loops and signs are not covered.", "anchors": ["src/autopas/tuning/tuningStrategy/fuzzyTuning/FuzzyTuning.cpp: updateQueueInterpretOutputAsIndividualSystems, updateQueueInterpretOutputAsSuitability", "src/autopas/tuning/tuningStrategy/fuzzyTuning/OutputMapper.cpp: getClosestConfigurationPatterns"]}
