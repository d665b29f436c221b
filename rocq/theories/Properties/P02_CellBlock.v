(** C02 - C05: the grid of cells of the linked cells container. *)
From Coq Require Import Reals Lra.
From Flocq Require Import Core.
From Verif.Base Require Import ZRange Occ.
From Verif.Grid Require Import IndexModel IndexSpec CellBlockModel CellBlockSpec CellBlockProofs CellBlockFloat CellBlockExact CellBlockRounding.
From Verif.Functor Require Import SortModel.
From Verif.Traversal Require Import CellSpec C08Model.
Open Scope R_scope.

(** C02: with IEEE arithmetic a position inside the box is always sorted into an
    existing cell that can contain owned particles and no halo particles... *)
Theorem C02_inside : forall il csf bMin bMax pos, floatGrid il csf bMin bMax -> inBox bMin bMax pos ->
  exists i, get1DIndexOfPosition rndDouble (rebuild rndDouble il csf bMin bMax) pos = Some i /\
    (0 <= i < numCells (blockDims (rebuild rndDouble il csf bMin bMax)))%Z /\
    cellCanContainOwnedParticles (rebuild rndDouble il csf bMin bMax) i = true /\
    cellCanContainHaloParticles (rebuild rndDouble il csf bMin bMax) i = false.
Proof. exact (fun il csf bMin bMax pos G => float_inside il csf bMin bMax G pos). Qed.
Print Assumptions C02_inside.

(** ... and a position outside, if its lookup does not overflow, is sorted into an
    existing halo cell. *)
Theorem C02_outside : forall il csf bMin bMax pos i, floatGrid il csf bMin bMax -> ~ inBox bMin bMax pos ->
  get1DIndexOfPosition rndDouble (rebuild rndDouble il csf bMin bMax) pos = Some i ->
  (0 <= i < numCells (blockDims (rebuild rndDouble il csf bMin bMax)))%Z /\
  cellCanContainHaloParticles (rebuild rndDouble il csf bMin bMax) i = true /\
  cellCanContainOwnedParticles (rebuild rndDouble il csf bMin bMax) i = false.
Proof. exact (fun il csf bMin bMax pos i G => float_outside il csf bMin bMax G pos i). Qed.
Print Assumptions C02_outside.

(** C03: monotone lookup, with IEEE arithmetic and exactly. *)
Theorem C03_monotone_double : forall il csf bMin bMax pos pos' p p', floatGrid il csf bMin bMax ->
  rx pos <= rx pos' -> ry pos <= ry pos' -> rz pos <= rz pos' ->
  get3DIndexOfPosition rndDouble (rebuild rndDouble il csf bMin bMax) pos = Some p ->
  get3DIndexOfPosition rndDouble (rebuild rndDouble il csf bMin bMax) pos' = Some p' ->
  (ix p <= ix p' /\ iy p <= iy p' /\ iz p <= iz p')%Z.
Proof. exact (fun il csf bMin bMax pos pos' p p' G => float_mono il csf bMin bMax G pos pos' p p'). Qed.
Print Assumptions C03_monotone_double.

Theorem C03_monotone_exact : forall il csf bMin bMax pos pos' p p',
  0 < csf -> below bMin bMax ->
  (dWithHalo (bX (rebuild rndExact il csf bMin bMax)) < 2 ^ 62)%Z ->
  (dWithHalo (bY (rebuild rndExact il csf bMin bMax)) < 2 ^ 62)%Z ->
  (dWithHalo (bZ (rebuild rndExact il csf bMin bMax)) < 2 ^ 62)%Z ->
  rx pos <= rx pos' -> ry pos <= ry pos' -> rz pos <= rz pos' ->
  get3DIndexOfPosition rndExact (rebuild rndExact il csf bMin bMax) pos = Some p ->
  get3DIndexOfPosition rndExact (rebuild rndExact il csf bMin bMax) pos' = Some p' ->
  (ix p <= ix p' /\ iy p <= iy p' /\ iz p <= iz p')%Z.
Proof. exact (fun il csf bMin bMax pos pos' p p' Hc Hb => exact3_mono il csf bMin bMax Hc Hb pos pos' p p'). Qed.
Print Assumptions C03_monotone_exact.

(** C03: in exact arithmetic a position in the halo box is in the bounding box of
    the cell it is sorted into, and of no other cell. *)
Theorem C03_bounding_box : forall il csf bMin bMax pos,
  0 < csf -> below bMin bMax ->
  (dWithHalo (bX (rebuild rndExact il csf bMin bMax)) < 2 ^ 62)%Z ->
  (dWithHalo (bY (rebuild rndExact il csf bMin bMax)) < 2 ^ 62)%Z ->
  (dWithHalo (bZ (rebuild rndExact il csf bMin bMax)) < 2 ^ 62)%Z ->
  inBox (getHaloBoxMin (rebuild rndExact il csf bMin bMax)) (getHaloBoxMax (rebuild rndExact il csf bMin bMax)) pos ->
  exists p, get3DIndexOfPosition rndExact (rebuild rndExact il csf bMin bMax) pos = Some p /\
    inGrid (blockDims (rebuild rndExact il csf bMin bMax)) p /\
    inBox (fst (getCellBoundingBox rndExact (rebuild rndExact il csf bMin bMax) p))
          (snd (getCellBoundingBox rndExact (rebuild rndExact il csf bMin bMax) p)) pos.
Proof. exact (fun il csf bMin bMax pos Hc Hb => exact3_lookup il csf bMin bMax Hc Hb pos). Qed.
Print Assumptions C03_bounding_box.

Theorem C03_bounding_boxes_disjoint : forall il csf bMin bMax p q pos,
  0 < csf -> below bMin bMax ->
  inGrid (blockDims (rebuild rndExact il csf bMin bMax)) p -> inGrid (blockDims (rebuild rndExact il csf bMin bMax)) q ->
  inBox (fst (getCellBoundingBox rndExact (rebuild rndExact il csf bMin bMax) p))
        (snd (getCellBoundingBox rndExact (rebuild rndExact il csf bMin bMax) p)) pos ->
  inBox (fst (getCellBoundingBox rndExact (rebuild rndExact il csf bMin bMax) q))
        (snd (getCellBoundingBox rndExact (rebuild rndExact il csf bMin bMax) q)) pos -> p = q.
Proof. exact (fun il csf bMin bMax p q pos Hc Hb => exact3_disjoint il csf bMin bMax Hc Hb p q pos). Qed.
Print Assumptions C03_bounding_boxes_disjoint.

(** C04: clearing the halo never leaves the vector of cells, empties exactly the
    cells that can contain halo particles and keeps the others. *)
Theorem C04_clear_halo : forall (A : Type) il csf bMin bMax (cells : list (list A)), 0 < csf ->
  Z.of_nat (length cells) = numCells (blockDims (rebuild rndDouble il csf bMin bMax)) ->
  exists r, clearHaloCells (rebuild rndDouble il csf bMin bMax) cells = Some r /\ length r = length cells /\
    forall k, (k < length cells)%nat ->
      nth k r [] = if cellCanContainHaloParticles (rebuild rndDouble il csf bMin bMax) (Z.of_nat k)
                   then [] else nth k cells [].
Proof.
  exact (fun A il csf bMin bMax cells Hc => clearHaloCells_spec (rebuild rndDouble il csf bMin bMax) cells _
    eq_refl eq_refl eq_refl
    (cellsPerIL_pos rndDouble csf rndDouble_mono (rndDouble_id 1 (isDouble_IZR 1 eq_refl)) Hc)
    (N_pos il csf (rx bMin) (rx bMax)) (N_pos il csf (ry bMin) (ry bMax)) (N_pos il csf (rz bMin) (rz bMax))).
Qed.
Print Assumptions C04_clear_halo.

(** C05: in exact arithmetic, if the box is at least one interaction length long,
    the halo layers of every dimension are at least one interaction length thick
    and the overlap of the traversals is at least 1 and at most the number of
    halo layers. *)
Theorem C05_halo_suffices : forall il csf bMin bMax, 0 < il -> 0 < csf -> bMin < bMax -> longEnough rndExact il bMin bMax ->
  il <= bMin - dHaloMin (rebuildDim rndExact il csf bMin bMax) /\
  il <= dHaloMax (rebuildDim rndExact il csf bMin bMax) - bMax /\
  (1 <= overlapOf rndExact il (dLen (rebuildDim rndExact il csf bMin bMax)) <= dHalo (rebuildDim rndExact il csf bMin bMax))%Z.
Proof. exact exact_halo_dim. Qed.
Print Assumptions C05_halo_suffices.

(** The last part is false with IEEE arithmetic: for the interaction length 1.3,
    the box length 11.7 and cell size factor 1 the grid has 9 + 2 cells per
    dimension, hence one halo layer, but the traversals use an overlap of 2... *)
Theorem C05_rounding_refuted : exists il bMin bMax, isDouble il /\ isDouble bMin /\ isDouble bMax /\
  0 < il /\ bMin < bMax /\ longEnough rndDouble il bMin bMax /\
  dHalo (rebuildDim rndDouble il 1 bMin bMax) = 1%Z /\
  overlapOf rndDouble il (dLen (rebuildDim rndDouble il 1 bMin bMax)) = 2%Z.
Proof. exact rounding_refuted. Qed.
Print Assumptions C05_rounding_refuted.

(** ... and then the c08 traversal never processes an owned cell in the outer
    layer with itself, whatever the distance test says: interactions between the
    particles of that cell are missing. *)
Theorem C05_rounding_c08_refuted : exists il box,
  isDouble il /\ isDouble3 box /\
  forall near, exists a,
    inGrid (blockDims (rebuild rndDouble il 1 (mkR3 0 0 0) box)) a /\
    cellCanContainOwnedParticles (rebuild rndDouble il 1 (mkR3 0 0 0) box)
      (threeToOneD a (blockDims (rebuild rndDouble il 1 (mkR3 0 0 0) box))) = true /\
    timesProcessed (blockDims (rebuild rndDouble il 1 (mkR3 0 0 0) box))
      (c08Calls near (blockDims (rebuild rndDouble il 1 (mkR3 0 0 0) box))
        (mkI3 (overlapOf rndDouble il (dLen (bX (rebuild rndDouble il 1 (mkR3 0 0 0) box))))
              (overlapOf rndDouble il (dLen (bY (rebuild rndDouble il 1 (mkR3 0 0 0) box))))
              (overlapOf rndDouble il (dLen (bZ (rebuild rndDouble il 1 (mkR3 0 0 0) box)))))) a a = 0%nat.
Proof. exact rounding_c08_refuted. Qed.
Print Assumptions C05_rounding_c08_refuted.

(** The hypotheses of C02 hold for the box [0,10)^3 with interaction length 1. *)
Example C02_nonvacuous : floatGrid 1 1 (mkR3 0 0 0) (mkR3 10 10 10) /\
  inBox (mkR3 0 0 0) (mkR3 10 10 10) (mkR3 3 0 (19 / 2)) /\ ~ inBox (mkR3 0 0 0) (mkR3 10 10 10) (mkR3 3 10 2).
Proof.
  split; [|split; unfold inBox; cbn [rx ry rz]; lra].
  assert (D0 : isDouble 0) by now apply (isDouble_IZR 0). assert (D1 : isDouble 1) by now apply (isDouble_IZR 1).
  assert (D10 : isDouble 10) by now apply (isDouble_IZR 10).
  assert (HB : 10 <= bpow radix2 1023).
  { apply Rle_trans with (bpow radix2 4); [change (bpow radix2 4) with 16; lra|apply bpow_le; lia]. }
  repeat split; cbn [rx ry rz]; try assumption; try lra;
  (destruct H as [H|[H|H]]; injection H as -> ->; [| |]); try (rewrite Rminus_0_r; assumption);
  unfold cellsPerDim; rewrite Rminus_0_r, Rmult_1_l, (rndDouble_id 10), (rndDouble_id 1) by assumption;
  replace (10 / 1) with 10 by field; rewrite (rndDouble_id 10) by assumption; change 10 with (IZR 10); rewrite Zfloor_IZR; reflexivity.
Qed.

(** Three cells per dimension, cell size factor 1: the hypotheses of C03 and C05. *)
Example C03_nonvacuous : 0 < 1 /\ below (mkR3 0 0 0) (mkR3 3 3 3) /\
  (dWithHalo (rebuildDim rndExact 1 1 0 3) = 5)%Z /\
  inBox (getHaloBoxMin (rebuild rndExact 1 1 (mkR3 0 0 0) (mkR3 3 3 3)))
        (getHaloBoxMax (rebuild rndExact 1 1 (mkR3 0 0 0) (mkR3 3 3 3))) (mkR3 (-1 / 2) 2 (7 / 2)) /\
  longEnough rndExact 1 0 3.
Proof. exact exact_example. Qed.
