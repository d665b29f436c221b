(** C23 - C25: iterating over the particles.  Particles are in the cells of the
    container and in buffers; [ownership] is 0 dummy, 1 owned, 2 halo.  All threads
    of a parallel region run the loop
      for (auto it = autoPas.begin(behavior); it.isValid(); ++it)
    and [schedule] lists which thread makes the next round of its loop. *)
From Coq Require Import Reals.
From Verif.Base Require Import ZRange.
From Verif.Grid Require Import IndexModel IndexSpec CellBlockModel CellBlockSpec CellBlockFloat.
From Verif.Functor Require Import CellFunctorModel SortModel.
From Verif.Container Require Import LinkedCellsModel LinkedCellsSpec IteratorModel IteratorContainers IteratorSpec
  IteratorRegion IteratorRestart IteratorGrid IteratorProps IteratorExample ParticleModel.
From Verif.Cluster Require Import TowerModel TowerSpec TowerExample BlockModel BlockBuild ListsExample
  ClusterContainerModel ClusterContainerSpec ClusterIterate ClusterUpdate ClusterRebuilt ClusterContainerExample.
From Verif.Functor Require Import SortSpec.
From Verif.Logic Require Import RemainderExample.
From Verif.Container Require Import IteratorGenericModel.
From Verif.Octree Require Import OctreeModel OctreeSpec OctreeContainerExample OctreeExample OctreeIteratorModel OctreeIterateSpec OctreeRegion OctreeIterateExample.
Open Scope Z_scope.

(** C23, linked cells, IEEE grid.  Whatever the schedule, nothing is accessed out of
    range, the store is unchanged, every loop ends if its thread gets enough steps,
    and then all threads together visited exactly the particles asked for. *)
Theorem C23_linked_cells : forall (P : Type) (ownership : P -> Z) (il csf : R) (bMin bMax : R3)
    (behavior numThreads : Z) (nOwned T : nat) (st : Store P) (schedule : list nat),
  let b := rebuild rndDouble il csf bMin bMax in
  (0 < csf)%R -> loopThreads behavior numThreads T ->
  lcPlaced ownership b (cells st) -> validBuffers ownership nOwned (buffers st) ->
  exists ths,
    runParallel (lcConf ownership behavior numThreads b (size (cells st)) None) (gather behavior nOwned)
      (fun _ _ _ => false) schedule st (repeat NotStarted T) = Some (st, ths) /\
    (fairSchedule T st schedule -> Forall finished ths) /\
    (Forall finished ths ->
     Permutation (visited T ths) (filter (fun x => wantedb behavior (ownership x)) (contents st))).
Proof. exact @lc_visits_all. Qed.
Print Assumptions C23_linked_cells.

(** The same from the empty container: particles [ps] are added, owned ones inside
    the box and halo particles outside, then the loops run. *)
Theorem C23_linked_cells_added : forall (P : Type) (ownership : P -> Z) (pos : P -> R3) (il csf : R) (bMin bMax : R3)
    (behavior numThreads : Z) (nOwned T : nat) (ps : list P) (bufs : list (list P)) (schedule : list nat),
  let b := rebuild rndDouble il csf bMin bMax in
  floatGrid il csf bMin bMax ->
  (forall p, In p ps -> (ownership p = 1 /\ inBox bMin bMax (pos p)) \/
     (ownership p = 2 /\ ~ inBox bMin bMax (pos p) /\ get1DIndexOfPosition rndDouble b (pos p) <> None)) ->
  numCells (blockDims b) < sizeMax -> size ps < sizeMax ->
  loopThreads behavior numThreads T -> validBuffers ownership nOwned bufs ->
  exists cs, lcAddAll (fun p => ownership p =? 2) rndDouble b pos (lcEmpty b) ps = Some cs /\
  let st := mkStore (map (@parts P) cs) bufs in
  exists ths,
    runParallel (lcConf ownership behavior numThreads b (size (cells st)) None) (gather behavior nOwned)
      (fun _ _ _ => false) schedule st (repeat NotStarted T) = Some (st, ths) /\
    (fairSchedule T st schedule -> Forall finished ths) /\
    (Forall finished ths ->
     Permutation (visited T ths) (filter (fun x => wantedb behavior (ownership x)) (ps ++ concat bufs))).
Proof. exact @lc_added_visits_all. Qed.
Print Assumptions C23_linked_cells_added.

(** C23, direct sum. *)
Theorem C23_direct_sum : forall (P : Type) (ownership : P -> Z)
    (behavior numThreads : Z) (nOwned T : nat) (st : Store P) (schedule : list nat),
  loopThreads behavior numThreads T ->
  dsPlaced ownership (cells st) -> validBuffers ownership nOwned (buffers st) ->
  exists ths,
    runParallel (dsConf ownership behavior numThreads (size (cells st))) (gather behavior nOwned)
      (fun _ _ _ => false) schedule st (repeat NotStarted T) = Some (st, ths) /\
    (fairSchedule T st schedule -> Forall finished ths) /\
    (Forall finished ths ->
     Permutation (visited T ths) (filter (fun x => wantedb behavior (ownership x)) (contents st))).
Proof. exact @ds_visits_all. Qed.
Print Assumptions C23_direct_sum.

(** C23, cluster lists in exact arithmetic, before the first rebuild, after a rebuild, or
    after one without particles ([inTowers], where [old] is the position of a particle at
    the last rebuild).  [valid]: the neighbour lists are valid. *)
Theorem C23_cluster_lists : forall (P : Type) (ownership : P -> Z) (old : P -> R3) (g : Grid)
    (behavior numThreads : Z) (nOwned nHandler T : nat) (valid : bool) (mark : P -> P) (st : Store P) (schedule : list nat),
  loopThreads behavior numThreads T -> inTowers ownership old g (cells st) ->
  vclBuffers ownership nOwned nHandler valid (buffers st) -> (forall x, ownership (mark x) = 0) ->
  exists ths,
    runParallel (vclConf ownership behavior numThreads g (size (cells st)) mark) (vclGather behavior nOwned nHandler valid)
      (fun _ _ _ => false) schedule st (repeat NotStarted T) = Some (st, ths) /\
    (fairSchedule T st schedule -> Forall finished ths) /\
    (Forall finished ths ->
     Permutation (visited T ths) (filter (fun x => wantedb behavior (ownership x)) (contents st))).
Proof. exact @vcl_visits_all. Qed.
Print Assumptions C23_cluster_lists.

(** The same after a rebuild, from the particles that were in the towers and in
    _particlesToAdd before ([before]): all are visited but those outside of the box with
    halo, which the rebuild drops.  [bufs] are the buffers of the logic handler. *)
Theorem C23_cluster_lists_rebuilt : forall sortZ cs bMin bMax il opt old toAdd behavior numThreads nOwned T n bufs schedule,
  let g := estimatedGrid bMin bMax il opt in
  let towers := map (finalTower sortZ cs g old toAdd) (seq 0 (numNew g)) in
  let st := mkStore (map collectAllActualParticles towers) (bufs ++ repeat [] n) in
  sortsByZ sortZ -> (0 < cs)%nat -> below bMin bMax -> (0 < il)%R -> (0 < opt)%R ->
  haloTowers il (sideLength (rx bMax - rx bMin) opt) = haloTowers il (sideLength (ry bMax - ry bMin) opt) ->
  (forall p, In p (before old toAdd) -> validState (pown p) /\ (pown p = 1 -> inBox bMin bMax (ppos p))) ->
  gNX g * gNY g < sizeMax -> size (before old toAdd) < sizeMax -> size bufs + Z.of_nat n < sizeMax ->
  loopThreads behavior numThreads T -> validBuffers pown nOwned bufs ->
  exists ths lost,
    runParallel (vclConf pown behavior numThreads g (size (cells st)) markDeleted) (vclGather behavior nOwned (length bufs) true)
      (fun _ _ _ => false) schedule st (repeat NotStarted T) = Some (st, ths) /\
    (fairSchedule T st schedule -> Forall finished ths) /\
    (Forall finished ths ->
     Permutation (visited T ths ++ lost) (filter (fun x => wantedb behavior (pown x)) (before old toAdd ++ concat bufs))) /\
    Forall (fun p => ~ inBox (haloMin g) (haloMax g) (ppos p)) lost.
Proof. exact rebuilt_visits_all. Qed.
Print Assumptions C23_cluster_lists_rebuilt.

Example C23_cluster_lists_nonvacuous : let g := estimatedGrid lMin lMax 1 1 in
  let towers := map (finalTower insertionSort 4 g [] lAdd) (seq 0 (numNew g)) in
  loopThreads 1 2 2 /\ inTowers pown ppos g (map collectAllActualParticles towers) /\ Forall padded towers /\
  vclBuffers pown 0 0 true [[]] /\ Permutation (concat (map collectAllActualParticles towers)) lAdd.
Proof. exact vRebuiltTowers. Qed.

Example C23_linked_cells_nonvacuous :
  let b := rebuild rndDouble 1 1 (mkR3 0 0 0) (mkR3 10 10 10) in
  let ps := [1; 101; 7; 3] in
  floatGrid 1 1 (mkR3 0 0 0) (mkR3 10 10 10) /\
  (forall p, In p ps -> (exOwner p = 1 /\ inBox (mkR3 0 0 0) (mkR3 10 10 10) (exPosition p)) \/
    (exOwner p = 2 /\ ~ inBox (mkR3 0 0 0) (mkR3 10 10 10) (exPosition p) /\
     get1DIndexOfPosition rndDouble b (exPosition p) <> None)) /\
  numCells (blockDims b) < sizeMax /\ size ps < sizeMax.
Proof. exact ex_linked_cells. Qed.

Example C23_direct_sum_nonvacuous :
  loopThreads 3 2 2 /\ dsPlaced exOwner (cells exStore) /\ validBuffers exOwner 2 (buffers exStore) /\
  gather 3 2 exStore <> [] /\
  allowedSchedule (fun _ _ x => x =? 2) 2 ([1; 0] ++ concat (repeat [0; 1] 8))%nat /\
  fairSchedule 2 exStore ([1; 0] ++ concat (repeat [0; 1] 8))%nat.
Proof. exact ex_direct_sum. Qed.

(** C24.  The loop body deletes the particle the iterator points at whenever
    [decide thread visited particle] says so.  The full property, for all stores
    and schedules, is refuted below.  It holds if some buffer that is iterated over
    is not empty, and all threads created their iterators before the first
    deletion ([iterationCorrect], see IteratorSpec.v).  Missing: other schedules,
    and empty buffers. *)
Theorem C24_linked_cells_partial : forall (P : Type) (ownership : P -> Z) (il csf : R) (bMin bMax : R3)
    (behavior numThreads : Z) (nOwned T : nat) (marks : option (P -> P))
    (decide : Z -> list P -> P -> bool) (st : Store P) (schedule : list nat),
  let b := rebuild rndDouble il csf bMin bMax in
  (0 < csf)%R -> loopThreads behavior numThreads T ->
  lcPlaced ownership b (cells st) -> validBuffers ownership nOwned (buffers st) ->
  (forall m, marks = Some m -> forall x, ownership (m x) = 0) ->
  gather behavior nOwned st <> [] -> allowedSchedule decide T schedule ->
  iterationCorrect ownership behavior nOwned T (fun _ => true)
    (lcConf ownership behavior numThreads b (size (cells st)) marks) marks decide st schedule.
Proof. exact @lc_delete. Qed.
Print Assumptions C24_linked_cells_partial.

Theorem C24_direct_sum_partial : forall (P : Type) (ownership : P -> Z)
    (behavior numThreads : Z) (nOwned T : nat) (decide : Z -> list P -> P -> bool) (st : Store P) (schedule : list nat),
  loopThreads behavior numThreads T ->
  dsPlaced ownership (cells st) -> validBuffers ownership nOwned (buffers st) ->
  gather behavior nOwned st <> [] -> allowedSchedule decide T schedule ->
  iterationCorrect ownership behavior nOwned T (fun _ => true)
    (dsConf ownership behavior numThreads (size (cells st))) None decide st schedule.
Proof. exact @ds_delete. Qed.
Print Assumptions C24_direct_sum_partial.

(** If all these buffers are empty and the decision depends on the particle only,
    then for every schedule exactly the chosen particles are deleted and every
    particle is visited, but the survivors are visited once or twice. *)
Theorem C24_linked_cells_empty_buffers_partial : forall (P : Type) (ownership : P -> Z) (il csf : R) (bMin bMax : R3)
    (behavior numThreads : Z) (nOwned T : nat) (marks : option (P -> P)) (d : P -> bool) (st : Store P) (schedule : list nat),
  let b := rebuild rndDouble il csf bMin bMax in
  (0 < csf)%R -> loopThreads behavior numThreads T ->
  lcPlaced ownership b (cells st) -> validBuffers ownership nOwned (buffers st) ->
  (forall m, marks = Some m -> (behavior <> 7 /\ behavior <> 15) /\ forall x, ownership (m x) = 0) ->
  gather behavior nOwned st = [] ->
  iterationOrRestart ownership behavior nOwned T (fun _ => true)
    (lcConf ownership behavior numThreads b (size (cells st)) marks) marks d st schedule.
Proof. exact @lc_delete_empty. Qed.
Print Assumptions C24_linked_cells_empty_buffers_partial.

Theorem C24_direct_sum_empty_buffers_partial : forall (P : Type) (ownership : P -> Z)
    (behavior numThreads : Z) (nOwned T : nat) (d : P -> bool) (st : Store P) (schedule : list nat),
  loopThreads behavior numThreads T ->
  dsPlaced ownership (cells st) -> validBuffers ownership nOwned (buffers st) ->
  gather behavior nOwned st = [] ->
  iterationOrRestart ownership behavior nOwned T (fun _ => true)
    (dsConf ownership behavior numThreads (size (cells st))) None d st schedule.
Proof. exact @ds_delete_empty. Qed.
Print Assumptions C24_direct_sum_empty_buffers_partial.

(** Cluster lists: the same, with the vectors of particles to add if the container is
    invalid.  Deleted particles are marked as dummies. *)
Theorem C24_cluster_lists_partial : forall (P : Type) (ownership : P -> Z) (old : P -> R3) (g : Grid)
    (behavior numThreads : Z) (nOwned nHandler T : nat) (valid : bool) (mark : P -> P)
    (decide : Z -> list P -> P -> bool) (st : Store P) (schedule : list nat),
  loopThreads behavior numThreads T -> inTowers ownership old g (cells st) ->
  vclBuffers ownership nOwned nHandler valid (buffers st) -> (forall x, ownership (mark x) = 0) ->
  (vclGather behavior nOwned nHandler valid st <> [] \/ forall t seen x, decide t seen x = false) ->
  allowedSchedule decide T schedule \/ nHandler = 0%nat ->
  iterationCorrectBy (vclGather behavior nOwned nHandler valid) ownership behavior T (fun _ => true)
    (vclConf ownership behavior numThreads g (size (cells st)) mark) (Some mark) decide st schedule.
Proof. exact @vcl_iterate. Qed.
Print Assumptions C24_cluster_lists_partial.

Theorem C24_cluster_lists_empty_buffers_partial : forall (P : Type) (ownership : P -> Z) (old : P -> R3) (g : Grid)
    (behavior numThreads : Z) (nOwned nHandler T : nat) (valid : bool) (mark : P -> P) (d : P -> bool) (st : Store P) (schedule : list nat),
  loopThreads behavior numThreads T -> inTowers ownership old g (cells st) ->
  vclBuffers ownership nOwned nHandler valid (buffers st) -> (forall x, ownership (mark x) = 0) -> behavior <> 7 /\ behavior <> 15 ->
  vclGather behavior nOwned nHandler valid st = [] ->
  iterationOrRestartBy (vclGather behavior nOwned nHandler valid) ownership behavior T (fun _ => true)
    (vclConf ownership behavior numThreads g (size (cells st)) mark) (Some mark) d st schedule.
Proof. exact @vcl_restart. Qed.
Print Assumptions C24_cluster_lists_empty_buffers_partial.

(** A container that was not built yet. *)
Example C24_cluster_lists_nonvacuous : let g := initialGrid lMin lMax 1 in
  loopThreads 1 2 2 /\ Forall padded [emptyTower] /\ inTowers pown ppos g (map collectAllActualParticles [emptyTower]) /\
  vclBuffers pown 0 0 false vAdd /\ vAdd <> [] /\ vclGather 1 0 0 false (mkStore [[]] vAdd) <> [] /\
  inBox lMin lMax (ppos vIn) /\ ~ inBox lMin lMax (ppos vOut).
Proof. exact vExample. Qed.

(** One thread, empty buffers: after the last particle was deleted the loop starts
    again and visits a survivor twice. *)
Theorem C24_restart_refuted : exists (ownership : Z -> Z) (decide : Z -> list Z -> Z -> bool) (st : Store Z) (schedule : list nat),
  loopThreads 1 1 1 /\ dsPlaced ownership (cells st) /\ validBuffers ownership 2 (buffers st) /\
  allowedSchedule decide 1 schedule /\
  exists st' ths, runParallel (dsConf ownership 1 1 (size (cells st))) (gather 1 2) decide schedule st
      (repeat NotStarted 1) = Some (st', ths) /\ Forall finished ths /\
    exists x, NoDup (contents st) /\ In x (contents st') /\ count_occ Z.eq_dec (visited 1 ths) x = 2%nat.
Proof. exact restart_refuted. Qed.
Print Assumptions C24_restart_refuted.

(** Two threads: if one of them creates its iterator after the other emptied a
    buffer, a particle is never visited although it is not deleted. *)
Theorem C24_late_begin_refuted : exists (ownership : Z -> Z) (decide : Z -> list Z -> Z -> bool) (st : Store Z) (schedule : list nat),
  loopThreads 1 2 2 /\ dsPlaced ownership (cells st) /\ validBuffers ownership 3 (buffers st) /\ gather 1 3 st <> [] /\
  fairSchedule 2 st schedule /\
  exists st' ths, runParallel (dsConf ownership 1 2 (size (cells st))) (gather 1 3) decide schedule st
      (repeat NotStarted 2) = Some (st', ths) /\ Forall finished ths /\
    exists x, ownership x = 1 /\ In x (contents st') /\ ~ In x (visited 2 ths).
Proof. exact late_begin_refuted. Qed.
Print Assumptions C24_late_begin_refuted.

Example C24_empty_buffers_nonvacuous :
  loopThreads 1 1 1 /\ dsPlaced exOwner (cells exEmpty) /\ validBuffers exOwner 2 (buffers exEmpty) /\ gather 1 2 exEmpty = [] /\
  contents exEmpty = [1; 2].
Proof. exact ex_empty. Qed.

(** C25, linked cells in exact arithmetic.  Every particle the behaviour asks for was sorted into the cell
    of its position [old] and moved at most [margin] since; the region [lo, hi)
    meets the box with halo.  Then the region iterator visits exactly the particles
    whose current position is in the region and in the box with halo. *)
Theorem C25_linked_cells : forall (P : Type) (ownership : P -> Z) (old pos : P -> R3) (il csf : R) (bMin bMax : R3)
    (behavior numThreads : Z) (nOwned T : nat) (marks : option (P -> P)) (decide : Z -> list P -> P -> bool)
    (st : Store P) (schedule : list nat) (margin : R) (lo hi : R3),
  let b := rebuild rndExact il csf bMin bMax in
  validGrid il csf bMin bMax -> loopThreads behavior numThreads T ->
  lcPlaced ownership b (cells st) -> validBuffers ownership nOwned (buffers st) ->
  (forall m, marks = Some m -> forall x, ownership (m x) = 0) ->
  gather behavior nOwned st <> [] \/ (forall t seen x, decide t seen x = false) ->
  allowedSchedule decide T schedule ->
  (0 <= margin <= il)%R ->
  (rx lo <= rx bMax + il)%R -> (ry lo <= ry bMax + il)%R -> (rz lo <= rz bMax + il)%R ->
  (rx bMin - il <= rx hi)%R -> (ry bMin - il <= ry hi)%R -> (rz bMin - il <= rz hi)%R ->
  (forall c l x, at_ (cells st) c = Some l -> In x l -> wantedb behavior (ownership x) = true ->
     inBox (getHaloBoxMin b) (getHaloBoxMax b) (old x) /\
     get1DIndexOfPosition rndExact b (old x) = Some c /\ movedWithin old pos margin x) ->
  exists conf,
    (forall t, lcRegionConf ownership behavior numThreads pos rndExact b margin
                 (clampLow il bMin lo) (clampHigh il bMax hi) marks t = Some (conf t)) /\
    exists region, (forall x, region x = true <-> inBox lo hi (pos x) /\ inBox (shift bMin (- il)) (shift bMax il) (pos x)) /\
      iterationCorrect ownership behavior nOwned T region conf marks decide st schedule.
Proof. exact @lc_region_visits. Qed.
Print Assumptions C25_linked_cells.

(** The same for every region, also outside of the box, whose corners can be converted to
    cell indices. *)
Theorem C25_linked_cells_any_region : forall (P : Type) (ownership : P -> Z) (old pos : P -> R3) (il csf : R) (bMin bMax : R3)
    (behavior numThreads : Z) (nOwned T : nat) (marks : option (P -> P)) (decide : Z -> list P -> P -> bool)
    (st : Store P) (schedule : list nat) (margin : R) (lo hi : R3),
  let b := rebuild rndExact il csf bMin bMax in
  validGrid il csf bMin bMax -> loopThreads behavior numThreads T ->
  lcPlaced ownership b (cells st) -> validBuffers ownership nOwned (buffers st) ->
  (forall m, marks = Some m -> forall x, ownership (m x) = 0) ->
  gather behavior nOwned st <> [] \/ (forall t seen x, decide t seen x = false) ->
  allowedSchedule decide T schedule ->
  get1DIndexOfPosition rndExact b (shift (clampLow il bMin lo) (- margin)) <> None ->
  get1DIndexOfPosition rndExact b (shift (clampHigh il bMax hi) margin) <> None ->
  (forall c l x, at_ (cells st) c = Some l -> In x l -> wantedb behavior (ownership x) = true ->
     inBox (getHaloBoxMin b) (getHaloBoxMax b) (old x) /\
     get1DIndexOfPosition rndExact b (old x) = Some c /\ movedWithin old pos margin x) ->
  exists conf,
    (forall t, lcRegionConf ownership behavior numThreads pos rndExact b margin
                 (clampLow il bMin lo) (clampHigh il bMax hi) marks t = Some (conf t)) /\
    exists region, (forall x, region x = true <-> inBox lo hi (pos x) /\ inBox (shift bMin (- il)) (shift bMax il) (pos x)) /\
      iterationCorrect ownership behavior nOwned T region conf marks decide st schedule.
Proof. exact @lc_region_visits_any. Qed.
Print Assumptions C25_linked_cells_any_region.

(** Finding: a region beyond the upper corner of the box is clamped at its upper corner only,
    so for a far away region the conversion of the lower corner is undefined. *)
Theorem C25_linked_cells_far_region_refuted : forall (P : Type) (ownership : P -> Z) (pos : P -> R3), exists il csf bMin bMax lo hi,
  validGrid il csf bMin bMax /\ below lo hi /\
  forall behavior numThreads margin marks t, (0 <= margin <= 1)%R ->
    lcRegionConf ownership behavior numThreads pos rndExact (rebuild rndExact il csf bMin bMax) margin
      (clampLow il bMin lo) (clampHigh il bMax hi) marks t = None.
Proof. exact @far_region_iterator. Qed.
Print Assumptions C25_linked_cells_far_region_refuted.

(** C25, direct sum: every region. *)
Theorem C25_direct_sum : forall (P : Type) (ownership : P -> Z) (pos : P -> R3) (il : R) (bMin bMax : R3)
    (behavior numThreads : Z) (nOwned T : nat) (decide : Z -> list P -> P -> bool)
    (st : Store P) (schedule : list nat) (lo hi : R3),
  loopThreads behavior numThreads T ->
  dsPlaced ownership (cells st) -> validBuffers ownership nOwned (buffers st) ->
  gather behavior nOwned st <> [] \/ (forall t seen x, decide t seen x = false) ->
  allowedSchedule decide T schedule ->
  exists region, (forall x, region x = true <-> inBox lo hi (pos x) /\ inBox (shift bMin (- il)) (shift bMax il) (pos x)) /\
    iterationCorrect ownership behavior nOwned T region
      (dsRegionConf ownership behavior numThreads pos (size (cells st)) (clampLow il bMin lo) (clampHigh il bMax hi))
      None decide st schedule.
Proof. exact @ds_region_visits. Qed.
Print Assumptions C25_direct_sum.

(** C25, cluster lists, every region: every particle was in the tower of its position
    [old] at the last rebuild and moved at most [margin] since. *)
Theorem C25_cluster_lists : forall (P : Type) (ownership : P -> Z) (old pos : P -> R3) (g : Grid)
    (behavior numThreads : Z) (nOwned nHandler T : nat) (valid : bool) (mark : P -> P)
    (decide : Z -> list P -> P -> bool) (st : Store P) (schedule : list nat) (margin : R) (lo hi : R3),
  loopThreads behavior numThreads T -> inTowers ownership old g (cells st) ->
  vclBuffers ownership nOwned nHandler valid (buffers st) -> (forall x, ownership (mark x) = 0) ->
  vclGather behavior nOwned nHandler valid st <> [] \/ (forall t seen x, decide t seen x = false) ->
  allowedSchedule decide T schedule ->
  (forall l x, In l (cells st) -> In x l -> movedWithin old pos margin x) ->
  exists region, (forall x, region x = true <-> inBox lo hi (pos x) /\ inBox (shift (gMin g) (- gIL g)) (shift (gMax g) (gIL g)) (pos x)) /\
    iterationCorrectBy (vclGather behavior nOwned nHandler valid) ownership behavior T region
      (vclRegionConf ownership behavior numThreads g (size (cells st)) mark pos margin (clampLow (gIL g) (gMin g) lo) (clampHigh (gIL g) (gMax g) hi))
      (Some mark) decide st schedule.
Proof. exact @vcl_region_visits. Qed.
Print Assumptions C25_cluster_lists.

(** The same from the particles before the rebuild; [now p] is what particle [p] has
    become since. *)
Theorem C25_cluster_lists_rebuilt : forall sortZ cs bMin bMax il opt old toAdd (now : Particle -> Particle)
    behavior numThreads nOwned T n bufs schedule margin lo hi,
  let g := estimatedGrid bMin bMax il opt in
  let towers := map (finalTower sortZ cs g old toAdd) (seq 0 (numNew g)) in
  let st := mkStore (map collectAllActualParticles towers) (bufs ++ repeat [] n) in
  let ownership p := pown (now p) in
  sortsByZ sortZ -> (0 < cs)%nat -> below bMin bMax -> (0 < il)%R -> (0 < opt)%R ->
  haloTowers il (sideLength (rx bMax - rx bMin) opt) = haloTowers il (sideLength (ry bMax - ry bMin) opt) ->
  (forall p, In p (before old toAdd) -> validState (ownership p) /\ (ownership p = 1 -> inBox bMin bMax (ppos p))) ->
  gNX g * gNY g < sizeMax -> size (before old toAdd) < sizeMax -> size bufs + Z.of_nat n < sizeMax ->
  loopThreads behavior numThreads T -> validBuffers ownership nOwned bufs ->
  (forall p, In p (before old toAdd) -> movedWithin ppos (fun p => ppos (now p)) margin p) ->
  (forall p, pown p = 0 -> pown (now p) = 0) ->
  exists ths lost region,
    (forall p, region p = true <-> inBox lo hi (ppos (now p)) /\ inBox (haloMin g) (haloMax g) (ppos (now p))) /\
    runParallel (vclRegionConf ownership behavior numThreads g (size (cells st)) markDeleted (fun p => ppos (now p)) margin
        (clampLow il bMin lo) (clampHigh il bMax hi)) (vclGather behavior nOwned (length bufs) true)
      (fun _ _ _ => false) schedule st (repeat NotStarted T) = Some (st, ths) /\
    (fairSchedule T st schedule -> Forall finished ths) /\
    (Forall finished ths ->
     Permutation (visited T ths ++ lost) (filter (fun x => region x && wantedb behavior (ownership x)) (before old toAdd ++ concat bufs))) /\
    Forall (fun p => ~ inBox (haloMin g) (haloMax g) (ppos p)) lost.
Proof. exact rebuilt_region_visits. Qed.
Print Assumptions C25_cluster_lists_rebuilt.

Example C25_cluster_lists_nonvacuous : let g := estimatedGrid lMin lMax 1 1 in
  sortsByZ insertionSort /\ below lMin lMax /\
  haloTowers 1 (sideLength (rx lMax - rx lMin) 1) = haloTowers 1 (sideLength (ry lMax - ry lMin) 1) /\
  (forall p, In p (before [] lAdd) -> validState (pown (vNow p)) /\ (pown (vNow p) = 1 -> inBox lMin lMax (ppos p))) /\
  gNX g * gNY g < sizeMax /\ size (before [] lAdd) < sizeMax /\
  (forall p, In p (before [] lAdd) -> movedWithin ppos (fun p => ppos (vNow p)) (1 / 2) p) /\
  (forall p, pown p = 0 -> pown (vNow p) = 0) /\
  (forall p, In p lAdd -> inBox (haloMin g) (haloMax g) (ppos p)) /\
  let p := lP 1 (9 / 10) 1 1 stOwned in In p lAdd /\ inBox (mkR3 1 0 0) (mkR3 2 2 2) (ppos (vNow p)) /\ ~ inBox (mkR3 1 0 0) (mkR3 2 2 2) (ppos p).
Proof. exact vRebuilt. Qed.

(** A particle that left its cell towards the region. *)
Example C25_nonvacuous :
  let b := rebuild rndExact 1 1 (mkR3 0 0 0) (mkR3 3 3 3) in
  validGrid 1 1 (mkR3 0 0 0) (mkR3 3 3 3) /\ loopThreads 1 4 4 /\ lcPlaced exOwner b (cells exMoved) /\
  validBuffers exOwner 1 (buffers exMoved) /\ allowedSchedule (P := Z) (fun _ _ _ => false) 4 [0; 3; 3; 1; 2]%nat /\
  (forall c l x, at_ (cells exMoved) c = Some l -> In x l ->
       inBox (getHaloBoxMin b) (getHaloBoxMax b) (exOld x) /\
       get1DIndexOfPosition rndExact b (exOld x) = Some c /\ movedWithin exOld exNow (7 / 10) x) /\
  inBox (mkR3 1 0 0) (mkR3 2 1 1) (exNow 1) /\ ~ inBox (mkR3 1 0 0) (mkR3 2 1 1) (exOld 1) /\ In 1 (contents exMoved).
Proof. exact ex_region. Qed.

(** C23, octree.  The trees come from any insertions and deletions, their leaves have at
    most 19 digits ([otFits]).  Nothing is deleted here: [otIterationCorrect] then says
    that the store is unchanged and exactly the particles asked for are visited. *)
Theorem C23_octree : forall (P : Type) (ownership : P -> Z) (rnd : R -> R) (threshold : nat) (il : R) (bMin bMax hMin hMax : R3)
    (behavior numThreads : Z) (nOwned T : nat) (st : GStore P (Trees P)) (schedule : list nat),
  loopThreads behavior numThreads T ->
  grownIn rnd threshold il bMin bMax (fst (gContainer st)) -> grownIn rnd threshold il hMin hMax (snd (gContainer st)) ->
  otPlaced ownership (gContainer st) -> otFits T (gContainer st) -> validBuffers ownership nOwned (gBuffers st) ->
  exists ths,
    gRunParallel (otAccess ownership behavior) (otConf ownership behavior numThreads) (gatherBuffers behavior nOwned)
      (fun _ _ _ => false) schedule st (repeat NotStarted T) = Some (st, ths) /\
    ((forall t, (t < T)%nat -> (length (otContents st) + 1 < count_occ Nat.eq_dec schedule t)%nat) -> Forall finished ths) /\
    (Forall finished ths ->
     Permutation (visited T ths) (filter (fun x => wantedb behavior (ownership x)) (otContents st))).
Proof. exact @octree_visits. Qed.
Print Assumptions C23_octree.

(** C24, octree.  Missing, as for the other containers: empty buffers, and iterators that
    are created after the first deletion. *)
Theorem C24_octree_partial : forall (P : Type) (ownership : P -> Z) (rnd : R -> R) (threshold : nat) (il : R) (bMin bMax hMin hMax : R3)
    (behavior numThreads : Z) (nOwned T : nat) (decide : Z -> list P -> P -> bool) (st : GStore P (Trees P)) (schedule : list nat),
  loopThreads behavior numThreads T ->
  grownIn rnd threshold il bMin bMax (fst (gContainer st)) -> grownIn rnd threshold il hMin hMax (snd (gContainer st)) ->
  otPlaced ownership (gContainer st) -> otFits T (gContainer st) -> validBuffers ownership nOwned (gBuffers st) ->
  gatherBuffers behavior nOwned (gBuffers st) <> [] \/ (forall t seen x, decide t seen x = false) -> allowedSchedule decide T schedule ->
  otIterationCorrect ownership behavior nOwned T (fun _ => true) (otAccess ownership behavior) (otConf ownership behavior numThreads) decide st schedule.
Proof. exact @octree_iterates. Qed.
Print Assumptions C24_octree_partial.

Theorem C24_octree_empty_buffers_partial : forall (P : Type) (ownership : P -> Z) (rnd : R -> R) (threshold : nat) (il : R) (bMin bMax hMin hMax : R3)
    (behavior numThreads : Z) (nOwned T : nat) (d : P -> bool) (st : GStore P (Trees P)) (schedule : list nat),
  loopThreads behavior numThreads T ->
  grownIn rnd threshold il bMin bMax (fst (gContainer st)) -> grownIn rnd threshold il hMin hMax (snd (gContainer st)) ->
  otPlaced ownership (gContainer st) -> otFits T (gContainer st) -> validBuffers ownership nOwned (gBuffers st) ->
  gatherBuffers behavior nOwned (gBuffers st) = [] ->
  otIterationOrRestart ownership behavior nOwned T (fun _ => true) (otAccess ownership behavior) (otConf ownership behavior numThreads) d st schedule.
Proof. exact @octree_restarts. Qed.
Print Assumptions C24_octree_empty_buffers_partial.

Example C24_octree_nonvacuous : loopThreads 3 2 2 /\ grownIn rndExact 1 1 exLo exHi (fst (gContainer oxStore)) /\
  grownIn rndExact 1 1 (OctreeExample.exP (-1)) (OctreeExample.exP 5) (snd (gContainer oxStore)) /\ otPlaced pown (gContainer oxStore) /\ otFits 2 (gContainer oxStore) /\
  validBuffers pown 1 (gBuffers oxStore) /\ gatherBuffers 3 1 (gBuffers oxStore) <> [] /\
  allowedSchedule (fun _ _ p => pid p =? 1) 2 ([1; 0] ++ concat (repeat [0; 1] 8))%nat.
Proof. exact ox_iterate. Qed.

(** C25, octree.  Every particle was inserted at its position [old] and moved at most
    [margin] since.  The region has a volume.  [hMin, hMax) is the box with halo. *)
Theorem C25_octree : forall (P : Type) (ownership : P -> Z) (rnd : R -> R) (M eps : R) (threshold : nat) (il : R) (old pos : P -> R3)
    (bMin bMax hMin hMax : R3) (behavior numThreads : Z) (nOwned T : nat) (decide : Z -> list P -> P -> bool)
    (st : GStore P (Trees P)) (schedule : list nat) (margin : R) (lo hi : R3),
  loopThreads behavior numThreads T ->
  precise rnd M eps il bMin bMax -> precise rnd M eps il hMin hMax -> inClosedBox hMin hMax bMin -> inClosedBox hMin hMax bMax ->
  storedIn old rnd threshold il bMin bMax (fst (gContainer st)) -> storedIn old rnd threshold il hMin hMax (snd (gContainer st)) ->
  otPlaced ownership (gContainer st) -> otFits T (gContainer st) -> validBuffers ownership nOwned (gBuffers st) ->
  gatherBuffers behavior nOwned (gBuffers st) <> [] \/ (forall t seen x, decide t seen x = false) -> allowedSchedule decide T schedule ->
  (0 <= margin)%R -> below lo hi ->
  (forall x, In x (collectAllParticles (fst (gContainer st)) ++ collectAllParticles (snd (gContainer st))) -> movedWithin old pos margin x) ->
  exists region, (forall x, region x = true <-> inBox lo hi (pos x) /\ inBox hMin hMax (pos x)) /\
    otIterationCorrect ownership behavior nOwned T region
      (otRegionAccess ownership behavior pos margin (regionLow hMin lo) (regionHigh hMax hi))
      (otRegionConf ownership behavior numThreads pos (regionLow hMin lo) (regionHigh hMax hi)) decide st schedule.
Proof. exact @octree_region. Qed.
Print Assumptions C25_octree.

(** A particle that crossed the border of its leaf into the region. *)
Example C25_octree_nonvacuous : exists M, precise rndExact M 0 1 exLo exHi /\ precise rndExact M 0 1 (OctreeExample.exP (-1)) (OctreeExample.exP 5) /\
  inClosedBox (OctreeExample.exP (-1)) (OctreeExample.exP 5) exLo /\ inClosedBox (OctreeExample.exP (-1)) (OctreeExample.exP 5) exHi /\
  storedIn ppos rndExact 1 1 exLo exHi (fst (gContainer oxStore)) /\ storedIn ppos rndExact 1 1 (OctreeExample.exP (-1)) (OctreeExample.exP 5) (snd (gContainer oxStore)) /\
  (forall p, In p (collectAllParticles (fst (gContainer oxStore)) ++ collectAllParticles (snd (gContainer oxStore))) ->
     movedWithin ppos (fun p => ppos (oxMove p)) (1 / 4) p) /\
  below (OctreeExample.exP 2) (OctreeExample.exP (5 / 2)) /\ In oxA (otContents oxStore) /\
  inBox (OctreeExample.exP 2) (OctreeExample.exP (5 / 2)) (ppos (oxMove oxA)) /\ ~ inBox (OctreeExample.exP 2) (OctreeExample.exP (5 / 2)) (ppos oxA).
Proof. exact ox_region_moved. Qed.

(** A region without volume in the centre of a node: the iterator accesses a child that does
    not exist. *)
Theorem C25_octree_flat_region_refuted : exists (st : GStore Particle (Trees Particle)) lo hi schedule,
  loopThreads 3 1 1 /\ storedIn ppos rndExact 1 1 exLo exHi (fst (gContainer st)) /\
  storedIn ppos rndExact 1 1 (OctreeExample.exP (-1)) (OctreeExample.exP 5) (snd (gContainer st)) /\
  otPlaced pown (gContainer st) /\ otFits 1 (gContainer st) /\ validBuffers pown 1 (gBuffers st) /\
  (rx lo <= rx hi /\ ry lo < ry hi /\ rz lo < rz hi)%R /\ inBox (OctreeExample.exP (-1)) (OctreeExample.exP 5) lo /\ inBox (OctreeExample.exP (-1)) (OctreeExample.exP 5) hi /\
  gRunParallel (otRegionAccess pown 3 ppos 0 (regionLow (OctreeExample.exP (-1)) lo) (regionHigh (OctreeExample.exP 5) hi))
    (otRegionConf pown 3 1 ppos (regionLow (OctreeExample.exP (-1)) lo) (regionHigh (OctreeExample.exP 5) hi)) (gatherBuffers 3 1)
    (fun _ _ _ => false) schedule st (repeat NotStarted 1) = None.
Proof. exact degenerate_region. Qed.
Print Assumptions C25_octree_flat_region_refuted.
