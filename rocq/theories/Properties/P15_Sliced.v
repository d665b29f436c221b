(** C15-C18: the sliced traversals. *)
From Verif.Base Require Import ZRange Occ.
From Verif.Grid Require Import IndexModel IndexSpec.
From Verif.Traversal Require Import CellSpec C08Model C08Proofs C04Model C08Bases SliceModel SliceSpec SliceProofs
  LockModel LockProofs SliceCells.

(** C15: for every number of layers, the slices partition the layers that serve
    as base layers ([len - ov] of them if base steps only reach forward, else
    all [len]) and respect the minimal thickness. *)
Theorem C15_sliced_partition : forall (len minThickness ov : Z) (forward : bool),
  0 < minThickness <= len -> 0 <= ov <= minThickness ->
  let o := if forward then ov else 0 in
  let t := initSliceThickness len minThickness ov forward in
  t <> [] /\ partitionsLayers t (len - o) /\ thick minThickness (minThickness - o) t.
Proof. exact sliced_partition. Qed.
Print Assumptions C15_sliced_partition.

(** C15, balanced slicing, for every load estimate (decision [grow]) and every
    number of threads. *)
Theorem C15_balanced_partition : forall grow (len minThickness ov : Z) (forward : bool) threads,
  0 < minThickness <= len -> 0 <= ov <= minThickness -> (0 < threads)%nat ->
  exists t, balancedSliceThickness grow minThickness len threads ov forward = Some t /\
  let o := if forward then ov else 0 in
  t <> [] /\ partitionsLayers t (len - o) /\ thick minThickness (minThickness - o) t.
Proof. exact balanced_partition. Qed.
Print Assumptions C15_balanced_partition.

(** C16: in every reachable state of every interleaving, two slices that process
    layers at the same time do not access a common cell. *)
Theorem C16_sliced_mutual_exclusion : forall near dims ov t k d st s1 s2 l1 l2 c,
  gridFits dims ov -> sliceable dims ov -> lockSlicing dims ov t ->
  let n := Z.of_nat (length t) in
  reach n (initState (sliceProg t (comp (dimLong dims) ov))) k d st ->
  0 <= s1 < n -> 0 <= s2 < n -> s1 <> s2 -> processing st s1 l1 -> processing st s2 l2 ->
  accesses (c08BaseSteps near dims ov (layerCells dims ov l1)) c ->
  accesses (c08BaseSteps near dims ov (layerCells dims ov l2)) c -> False.
Proof. exact sliced_exclusive. Qed.
Print Assumptions C16_sliced_mutual_exclusion.

(** The same for base steps that reach in both directions (the Verlet list
    versions, where the overlap along the sliced axis is doubled): layers
    processed at the same time are more than the overlap apart. *)
Theorem C16_sliced_distance : forall t ov, 0 < ov -> thick (ov + 1) 1 t ->
  let n := Z.of_nat (length t) in
  forall k d st s1 s2 l1 l2, reach n (initState (sliceProg t ov)) k d st ->
  0 <= s1 < n -> 0 <= s2 < n -> s1 < s2 -> processing st s1 l1 -> processing st s2 l2 -> ov < l2 - l1.
Proof. exact sliced_exclusion_lt. Qed.
Print Assumptions C16_sliced_distance.

(** C17: locks are used legally (no access out of range, no unlock of a lock the
    slice does not hold); whenever a started slice is unfinished, some started
    slice can make a step. *)
Theorem C17_sliced_no_deadlock : forall t ov, 0 < ov -> thick (ov + 1) 1 t ->
  let n := Z.of_nat (length t) in
  forall k d st, reach n (initState (sliceProg t ov)) k d st ->
  (forall s, 0 <= s < n -> match todo st s with
      | Lock i :: _ => 0 <= i < numLocks t ov
      | Unlock i :: _ => owner st i = Some s
      | _ => True
      end) /\
  (forall s, 0 <= s < n -> unfinished st s ->
     exists s' ev st', 0 <= s' < n /\ started st s' = true /\ step n st s' ev st').
Proof. exact sliced_no_deadlock. Qed.
Print Assumptions C17_sliced_no_deadlock.

(** C17: every execution ends, after a number of steps fixed by the slicing, and
    when it ends every slice is finished. *)
Theorem C17_sliced_terminates : forall t ov, 0 < ov -> thick (ov + 1) 1 t ->
  let n := Z.of_nat (length t) in
  (exists bound, forall k d st, reach n (initState (sliceProg t ov)) k d st -> (k <= bound)%nat) /\
  (forall k d st, reach n (initState (sliceProg t ov)) k d st -> (forall s ev st', ~ step n st s ev st') ->
     allDone n st /\ Permutation d (zrange 0 (zsum t))).
Proof. exact sliced_terminates. Qed.
Print Assumptions C17_sliced_terminates.

(** When the traversal has ended, every two cells within reach, one of them
    owned, have been processed exactly once. *)
Theorem C16_sliced_exactly_once : forall near dims ov t k d st h a b,
  gridFits dims ov -> sliceable dims ov -> lockSlicing dims ov t ->
  let n := Z.of_nat (length t) in
  reach n (initState (sliceProg t (comp (dimLong dims) ov))) k d st -> (forall s ev st', ~ step n st s ev st') ->
  let calls := c08BaseSteps near dims ov (flat_map (layerCells dims ov) d) in
  haloCovers h ov -> inGrid dims a -> inGrid dims b ->
  (ownedCell dims h a \/ ownedCell dims h b -> withinReach near ov a b -> timesProcessed dims calls a b = 1%nat) /\
  (timesProcessed dims calls a b <= 1)%nat /\ inBounds dims calls.
Proof. exact sliced_exactly_once. Qed.
Print Assumptions C16_sliced_exactly_once.

(** C18: coloured slices (c02). *)
Theorem C18_c02_sliced : forall near dims ov h,
  gridFits dims ov -> haloCovers h ov -> comp (dimLong dims) ov <= comp (dimLong dims) dims ->
  let t := initSliceThickness (comp (dimLong dims) dims) (comp (dimLong dims) ov) (comp (dimLong dims) ov) true in
  let calls := concat (concat (lcC02Tasks near dims ov t)) in
  Forall raceFree (lcC02Tasks near dims ov t) /\
  (forall a b, inGrid dims a -> inGrid dims b -> ownedCell dims h a \/ ownedCell dims h b ->
     withinReach near ov a b -> timesProcessed dims calls a b = 1%nat) /\
  (forall a b, inGrid dims a -> inGrid dims b -> (timesProcessed dims calls a b <= 1)%nat) /\
  inBounds dims calls.
Proof. exact c02_sliced. Qed.
Print Assumptions C18_c02_sliced.

(** Non-vacuity: a 5x9x4 grid with overlap (1,2,1) has three slices of
    thickness 3,3,1; after the first steps slices 0 and 1 both process. *)
Example C15_nonvacuous : initSliceThickness 9 3 2 true = [3; 3; 1] /\ initSliceThickness 11 3 2 true = [4; 4; 1]
  /\ balancedSliceThickness (fun _ _ th => th <? 4) 3 17 3 2 true = Some [4; 4; 7].
Proof. repeat split. Qed.
Example C16_nonvacuous : let dims := mkI3 5 9 4 in let ov := mkI3 1 2 1 in let t := [3; 3; 1] in
  gridFits dims ov /\ sliceable dims ov /\ lockSlicing dims ov t /\ thick 3 1 t /\
  sliceProg t 2 1 = [Lock 0; Lock 1; Proc 3; Unlock 0; Lock 2; Proc 4; Unlock 1; Lock 3; Proc 5; Unlock 2; Unlock 3] /\
  exists st, reach 3 (initState (sliceProg t 2)) 4 [] st /\ processing st 0 0 /\ processing st 1 3.
Proof.
  cbv zeta. split; [repeat split; vm_compute; congruence|]. split; [vm_compute; congruence|].
  split; [left; reflexivity|]. split; [repeat split; vm_compute; congruence|]. split; [reflexivity|].
  eexists. split.
  - eapply (ReachStep _ _ 3 [] _ 1 None); [eapply (ReachStep _ _ 2 [] _ 1 None); [eapply (ReachStep _ _ 1 [] _ 1 None);
      [eapply (ReachStep _ _ 0 [] _ 0 None); [apply ReachInit|apply StepStart; [lia|reflexivity]]|apply StepStart; [lia|reflexivity]]|]|].
    + eapply StepLock; [lia|reflexivity|reflexivity|reflexivity].
    + eapply StepLock; [lia|reflexivity|reflexivity|reflexivity].
  - split; (split; [reflexivity|eexists; reflexivity]).
Qed.
