(** C32: collecting leaving particles while neighbour lists stay valid. *)
From Coq Require Import Reals Lra Permutation.
From Verif.Base Require Import ZRange.
From Verif.Grid Require Import IndexModel CellBlockModel CellBlockSpec CellBlockFloat.
From Verif.Functor Require Import SortModel.
From Verif.Container Require Import LinkedCellsSpec IteratorSpec IteratorModel ParticleModel CollectModel CollectSpec CollectTheorems UpdateExample.
Local Open Scope R_scope.

(** The six volumes are disjoint, in IEEE arithmetic, if the box is at least as long
    as the skin. *)
Theorem C32_disjoint : forall il skin bMin bMax i j v w x,
  atLeast (2 * rndDouble (skin / 2)) bMin bMax ->
  nth_error (haloVolumes rndDouble il skin bMin bMax) i = Some v -> nth_error (haloVolumes rndDouble il skin bMin bMax) j = Some w ->
  inBox (fst v) (snd v) x -> inBox (fst w) (snd w) x -> i = j.
Proof. exact double_disjoint. Qed.
Print Assumptions C32_disjoint.

(** They cover everything outside of the inner box, up to the outer one.  The corners
    in IEEE arithmetic: *)
Theorem C32_cover : forall il skin bMin bMax x, isDouble3 bMin -> isDouble3 bMax -> 0 <= il -> 0 <= skin ->
  atLeast (2 * rndDouble (skin / 2)) bMin bMax ->
  let d := rndDouble (skin / 2) in
  let outerLow b := rndDouble (rndDouble (b - il) - d) in let outerHigh b := rndDouble (rndDouble (b + il) + d) in
  let innerLow b := rndDouble (b + d) in let innerHigh b := rndDouble (b - d) in
  (exists v, In v (haloVolumes rndDouble il skin bMin bMax) /\ inBox (fst v) (snd v) x) <->
  inBox (mkR3 (outerLow (rx bMin)) (outerLow (ry bMin)) (outerLow (rz bMin)))
        (mkR3 (outerHigh (rx bMax)) (outerHigh (ry bMax)) (outerHigh (rz bMax))) x /\
  ~ inBox (mkR3 (innerLow (rx bMin)) (innerLow (ry bMin)) (innerLow (rz bMin)))
          (mkR3 (innerHigh (rx bMax)) (innerHigh (ry bMax)) (innerHigh (rz bMax))) x.
Proof. exact double_cover. Qed.
Print Assumptions C32_cover.

(** Linked cells: [visits] is any interleaving of the threads.  Each owned particle
    that is outside the box is returned exactly once and marked; each halo particle
    that is not deeper than half the skin in the box is marked; nothing else changes.
    [old] are the positions by which the particles were sorted into cells; they
    have moved at most by [margin] since.  [inGrownBox il] is the clamping of region
    iterators. *)
Theorem C32_linked_cells : forall il csf skin margin bMin bMax old cells visits,
  let b := rebuild rndExact il csf bMin bMax in
  validGrid il csf bMin bMax -> 0 <= skin <= il -> 0 <= margin <= il -> atLeast skin bMin bMax ->
  (forall c p, In p (nth c cells []) -> validState (pown p) /\
     (pown p <> 0%Z -> inBox (getHaloBoxMin b) (getHaloBoxMax b) (old p) /\
        get1DIndexOfPosition rndExact b (old p) = Some (Z.of_nat c) /\ movedWithin old ppos margin p /\
        (pown p = 1%Z -> cellCanContainOwnedParticles b (Z.of_nat c) = true) /\
        (pown p = 2%Z -> cellCanContainHaloParticles b (Z.of_nat c) = true))) ->
  Permutation visits (regionVisits (map (clampVolume il bMin bMax) (haloVolumes rndExact il skin bMin bMax))
                                   (lcRegionCells rndExact b margin) cells) ->
  exists leaving marked out,
    (forall p, leaving p = true <-> pown p = 1%Z /\ ~ inBox bMin bMax (ppos p) /\ inGrownBox il bMin bMax (ppos p)) /\
    (forall p, marked p = true <-> leaving p = true \/
       (pown p = 2%Z /\ inGrownBox il bMin bMax (ppos p) /\ ~ inGrownBox (- (skin / 2)) bMin bMax (ppos p))) /\
    collectRun bMin bMax visits cells = (map (map (fun p => if marked p then withOwn 0 p else p)) cells, out) /\
    Permutation out (filter leaving (concat cells)).
Proof. exact lc_collect_props. Qed.
Print Assumptions C32_linked_cells.

(** Direct sum: the same without any assumption on displacements. *)
Theorem C32_direct_sum : forall il skin bMin bMax cells visits,
  0 <= il -> 0 <= skin -> atLeast skin bMin bMax -> length cells = 7%nat ->
  (forall p, In p (concat cells) -> validState (pown p)) ->
  Permutation visits (regionVisits (map (clampVolume il bMin bMax) (haloVolumes rndExact il skin bMin bMax)) dsRegionCells cells) ->
  exists leaving marked out,
    (forall p, leaving p = true <-> pown p = 1%Z /\ ~ inBox bMin bMax (ppos p) /\ inGrownBox il bMin bMax (ppos p)) /\
    (forall p, marked p = true <-> leaving p = true \/
       (pown p = 2%Z /\ inGrownBox il bMin bMax (ppos p) /\ ~ inGrownBox (- (skin / 2)) bMin bMax (ppos p))) /\
    collectRun bMin bMax visits cells = (map (map (fun p => if marked p then withOwn 0 p else p)) cells, out) /\
    Permutation out (filter leaving (concat cells)).
Proof. exact ds_collect_props. Qed.
Print Assumptions C32_direct_sum.

(** The volumes reach half a skin beyond the halo, but region iterators are clamped
    to the halo: a halo particle there, or exactly on the upper end of the halo,
    is never discarded. *)
Theorem C32_far_halo_refuted : exists il skin bMin bMax cells p,
  0 < il /\ 0 < skin /\ atLeast il bMin bMax /\ In p (concat cells) /\ pown p = 2%Z /\
  ~ inBox bMin bMax (ppos p) /\ inGrownBox (il + skin / 2) bMin bMax (ppos p) /\
  forall visits, Permutation visits (regionVisits (map (clampVolume il bMin bMax) (haloVolumes rndExact il skin bMin bMax)) dsRegionCells cells) ->
    collectRun bMin bMax visits cells = (cells, []).
Proof. exact far_halo. Qed.
Print Assumptions C32_far_halo_refuted.

Example C32_nonvacuous :
  let b := rebuild rndExact 1 1 (mkR3 0 0 0) (mkR3 3 3 3) in
  validGrid 1 1 (mkR3 0 0 0) (mkR3 3 3 3) /\ atLeast (2 / 5) (mkR3 0 0 0) (mkR3 3 3 3) /\
  (forall p, In p (concat exDS) -> validState (pown p)) /\
  (forall c p, In p (nth c exLC []) -> validState (pown p) /\
     (pown p <> 0%Z -> inBox (getHaloBoxMin b) (getHaloBoxMax b) (exWas p) /\
        get1DIndexOfPosition rndExact b (exWas p) = Some (Z.of_nat c) /\ movedWithin exWas ppos (1 / 5) p /\
        (pown p = 1%Z -> cellCanContainOwnedParticles b (Z.of_nat c) = true) /\
        (pown p = 2%Z -> cellCanContainHaloParticles b (Z.of_nat c) = true))) /\
  (pown exLeft = 1%Z /\ ~ inBox (mkR3 0 0 0) (mkR3 3 3 3) (ppos exLeft) /\ inGrownBox 1 (mkR3 0 0 0) (mkR3 3 3 3) (ppos exLeft)) /\
  (pown exEntered = 2%Z /\ inGrownBox 1 (mkR3 0 0 0) (mkR3 3 3 3) (ppos exEntered) /\
     ~ inGrownBox (- (2 / 5 / 2)) (mkR3 0 0 0) (mkR3 3 3 3) (ppos exEntered)).
Proof. exact ex_collect. Qed.
