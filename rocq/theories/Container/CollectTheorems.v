(** The theorems about collecting leaving particles in terms of CollectSpec. *)
From Coq Require Import Reals Lra.
From Verif.Base Require Import ZRange Lists Occ.
From Verif.Grid Require Import IndexModel IndexSpec CellBlockModel CellBlockSpec CellBlockFloat.
From Verif.Functor Require Import SortModel.
From Verif.Container Require Import LinkedCellsSpec IteratorModel IteratorContainers IteratorSpec IteratorRegion
  ParticleModel CollectModel CollectSpec CollectProofs CollectRun CollectContainers.
Import ListNotations.
Local Open Scope R_scope.

Lemma double_disjoint il skin bMin bMax i j v w x :
  atLeast (2 * rndDouble (skin / 2)) bMin bMax ->
  nth_error (haloVolumes rndDouble il skin bMin bMax) i = Some v -> nth_error (haloVolumes rndDouble il skin bMin bMax) j = Some w ->
  inBox (fst v) (snd v) x -> inBox (fst w) (snd w) x -> i = j.
Proof.
  intros (A1 & A2 & A3). apply volumes_disjoint; apply inner_order; assumption || exact rndDouble_mono.
Qed.

Lemma double_cover il skin bMin bMax x : isDouble3 bMin -> isDouble3 bMax -> 0 <= il -> 0 <= skin ->
  atLeast (2 * rndDouble (skin / 2)) bMin bMax ->
  let d := rndDouble (skin / 2) in
  let outerLow b := rndDouble (rndDouble (b - il) - d) in let outerHigh b := rndDouble (rndDouble (b + il) + d) in
  let innerLow b := rndDouble (b + d) in let innerHigh b := rndDouble (b - d) in
  (exists v, In v (haloVolumes rndDouble il skin bMin bMax) /\ inBox (fst v) (snd v) x) <->
  inBox (mkR3 (outerLow (rx bMin)) (outerLow (ry bMin)) (outerLow (rz bMin)))
        (mkR3 (outerHigh (rx bMax)) (outerHigh (ry bMax)) (outerHigh (rz bMax))) x /\
  ~ inBox (mkR3 (innerLow (rx bMin)) (innerLow (ry bMin)) (innerLow (rz bMin)))
          (mkR3 (innerHigh (rx bMax)) (innerHigh (ry bMax)) (innerHigh (rz bMax))) x.
Proof.
  intros D1 D2 Hil Hs (A1 & A2 & A3) d oL oH iL iH.
  assert (d0 : 0 <= d) by (unfold d; rewrite <- rndDouble_0; apply rndDouble_mono; lra).
  assert (G : forall b, isDouble b -> oL b <= iL b /\ iH b <= oH b).
  { intros b B. assert (E := rndDouble_id b B). split; apply rndDouble_mono; unfold d.
    - assert (rndDouble (b - il) <= rndDouble b) by (apply rndDouble_mono; lra). fold d. lra.
    - assert (rndDouble b <= rndDouble (b + il)) by (apply rndDouble_mono; lra). fold d. lra. }
  destruct D1 as (D1 & D2' & D3), D2 as (D4 & D5 & D6).
  apply (volumes_cover rndDouble il skin bMin bMax x).
  - exact (proj1 (G _ D1)).
  - exact (proj1 (G _ D2')).
  - exact (proj1 (G _ D3)).
  - exact (proj2 (G _ D4)).
  - exact (proj2 (G _ D5)).
  - exact (proj2 (G _ D6)).
  - apply inner_order; [exact rndDouble_mono|exact A1].
  - apply inner_order; [exact rndDouble_mono|exact A2].
  - apply inner_order; [exact rndDouble_mono|exact A3].
Qed.

Section Props.
  Variables (il skin : R) (bMin bMax : R3).
  Lemma leavingb_iff p : leavingb il bMin bMax p = true <-> pown p = 1%Z /\ ~ inBox bMin bMax (ppos p) /\ inGrownBox il bMin bMax (ppos p).
  Proof.
    unfold leavingb, inGrownBox. rewrite !andb_true_iff, negb_true_iff, inBoxb_iff. unfold isOwned, stOwned. rewrite Z.eqb_eq.
    rewrite <- (inBoxb_iff bMin bMax (ppos p)), not_true_iff_false. tauto.
  Qed.
  Lemma droppedb_iff p : droppedb il skin bMin bMax p = true <-> leavingb il bMin bMax p = true \/
     (pown p = 2%Z /\ inGrownBox il bMin bMax (ppos p) /\ ~ inGrownBox (- (skin / 2)) bMin bMax (ppos p)).
  Proof.
    unfold droppedb, outsideShell, inGrownBox. rewrite orb_true_iff, !andb_true_iff, negb_true_iff, <- not_true_iff_false, !inBoxb_iff.
    unfold isHaloP, stHalo. rewrite Z.eqb_eq. tauto.
  Qed.
End Props.

Lemma ds_collect_props il skin bMin bMax cells visits :
  0 <= il -> 0 <= skin -> atLeast skin bMin bMax -> length cells = 7%nat ->
  (forall p, In p (concat cells) -> validState (pown p)) ->
  Permutation visits (regionVisits (map (clampVolume il bMin bMax) (haloVolumes rndExact il skin bMin bMax)) dsRegionCells cells) ->
  exists leaving marked out,
    (forall p, leaving p = true <-> pown p = 1%Z /\ ~ inBox bMin bMax (ppos p) /\ inGrownBox il bMin bMax (ppos p)) /\
    (forall p, marked p = true <-> leaving p = true \/
       (pown p = 2%Z /\ inGrownBox il bMin bMax (ppos p) /\ ~ inGrownBox (- (skin / 2)) bMin bMax (ppos p))) /\
    collectRun bMin bMax visits cells = (map (map (fun p => if marked p then withOwn 0 p else p)) cells, out) /\
    Permutation out (filter leaving (concat cells)).
Proof.
  intros H1 H2 H3 H4 H5 H6. destruct (ds_collect il skin bMin bMax H1 H2 H3 cells visits H4 H5 H6) as (out & E & P).
  exists (leavingb il bMin bMax), (droppedb il skin bMin bMax), out. split; [apply leavingb_iff|]. split; [apply droppedb_iff|]. split; [exact E|exact P].
Qed.

Lemma lc_collect_props il csf skin margin bMin bMax old cells visits :
  let b := rebuild rndExact il csf bMin bMax in
  validGrid il csf bMin bMax -> 0 <= skin <= il -> 0 <= margin <= il -> atLeast skin bMin bMax ->
  (forall c p, In p (nth c cells []) -> validState (pown p) /\
     (pown p <> 0%Z -> inBox (getHaloBoxMin b) (getHaloBoxMax b) (old p) /\
        get1DIndexOfPosition rndExact b (old p) = Some (Z.of_nat c) /\ movedWithin old ppos margin p /\
        (pown p = 1%Z -> cellCanContainOwnedParticles b (Z.of_nat c) = true) /\
        (pown p = 2%Z -> cellCanContainHaloParticles b (Z.of_nat c) = true))) ->
  Permutation visits (regionVisits (map (clampVolume il bMin bMax) (haloVolumes rndExact il skin bMin bMax))
                                   (lcRegionCells rndExact b margin) cells) ->
  exists leaving marked out,
    (forall p, leaving p = true <-> pown p = 1%Z /\ ~ inBox bMin bMax (ppos p) /\ inGrownBox il bMin bMax (ppos p)) /\
    (forall p, marked p = true <-> leaving p = true \/
       (pown p = 2%Z /\ inGrownBox il bMin bMax (ppos p) /\ ~ inGrownBox (- (skin / 2)) bMin bMax (ppos p))) /\
    collectRun bMin bMax visits cells = (map (map (fun p => if marked p then withOwn 0 p else p)) cells, out) /\
    Permutation out (filter leaving (concat cells)).
Proof.
  intros b H1 H2 H3 H4 H5 H6. destruct (lc_collect il csf skin margin bMin bMax H1 H2 H3 old cells visits H4 H5 H6) as (out & E & P).
  exists (leavingb il bMin bMax), (droppedb il skin bMin bMax), out. split; [apply leavingb_iff|]. split; [apply droppedb_iff|]. split; [exact E|exact P].
Qed.
