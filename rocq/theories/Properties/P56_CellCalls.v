(** C56: the direct sum container, pairwise and three-body, and the three-body
    traversal of the linked cells, for the particles (exact arithmetic).  [old] are
    the positions at which the particles were added, [pos] the current ones; [s]
    bounds twice the distance every particle moved since. *)
From Coq Require Import Reals.
From Verif.Base Require Import ZRange Occ.
From Verif.Grid Require Import IndexModel CellBlockModel CellBlockSpec.
From Verif.Functor Require Import CellFunctorModel FunctorSpec SortModel SortSpec CellFunctor3BModel Functor3BSpec.
From Verif.Container Require Import LinkedCellsModel LinkedCellsSpec LinkedCellsExample
  CellCallsModel CellCallsSpec DirectSumProofs TripletsProofs CellCallsExample.

(** Adding never fails; of every two particles the first receives the contribution of
    the second at most once, and exactly once if it is owned (with Newton 3: if one
    of them is) and they are within the cutoff. *)
Theorem C56_direct_sum_pairs : forall (P : Type) (pid : P -> Z) (isHalo : P -> bool) (pos old : P -> R3)
    (view : R3 -> list P -> list P) (lo hi : R3) (ps : list P) (s cutoff : R) (lay : Layout) (newton3 : bool) (threshold : nat),
  (forall dir l, isSortedView pos dir l (view dir l)) -> distinctIds pid ps ->
  validInBox isHalo old lo hi ps -> (0 <= s <= cutoff)%R -> movedAtMost old pos s ps ->
  exists cells, dsAddAll isHalo lo hi old dsEmpty ps = Some cells /\
  let calls := dsInteract isHalo view pos lay newton3 threshold cutoff lo hi cells in
  forall a c, In a ps -> In c ps -> a <> c ->
    (received pid calls a c <= 1)%nat /\
    (isHalo a = false \/ (newton3 = true /\ isHalo c = false) -> (dist3 (pos a) (pos c) <= cutoff)%R ->
     received pid calls a c = 1%nat).
Proof.
  exact (fun P pid isHalo pos old view lo hi ps s cutoff lay newton3 threshold Hv Hi Hp Hs Hm =>
    ds_pairs pid isHalo pos old view lo hi ps s cutoff Hv Hi Hp Hs Hm lay newton3 threshold).
Qed.
Print Assumptions C56_direct_sum_pairs.

(** Of every three particles the first receives the contribution of the triplet at
    most once, and exactly once if it is owned and the three are pairwise within the
    cutoff, whichever of the others are halo particles, wherever they lie. *)
Theorem C56_direct_sum_triplets : forall (P : Type) (pid : P -> Z) (isHalo : P -> bool) (pos old : P -> R3)
    (view : R3 -> list P -> list P) (lo hi : R3) (ps : list P) (s cutoff : R) (lay : Layout) (newton3 : bool) (threshold : nat),
  (forall dir l, isSortedView pos dir l (view dir l)) -> distinctIds pid ps ->
  validInBox isHalo old lo hi ps -> (0 <= s <= cutoff)%R -> movedAtMost old pos s ps ->
  exists cells, dsAddAll isHalo lo hi old dsEmpty ps = Some cells /\
  let calls := dsInteract3 isHalo view pos lay newton3 threshold cutoff cells in
  forall a b d, In a ps -> In b ps -> In d ps -> a <> b -> a <> d -> b <> d ->
    (received3 pid calls a b d <= 1)%nat /\
    (isHalo a = false -> pairwiseWithin pos cutoff a b d -> received3 pid calls a b d = 1%nat).
Proof.
  exact (fun P pid isHalo pos old view lo hi ps s cutoff lay newton3 threshold Hv Hi Hp Hs Hm =>
    ds_triplets pid isHalo pos old view lo hi ps s cutoff Hv Hi Hp Hs Hm lay newton3 threshold).
Qed.
Print Assumptions C56_direct_sum_triplets.

(** The same for the linked cells container with the c01 traversal, for every cell
    size factor. *)
Theorem C56_c01_triplets : forall (P : Type) (pid : P -> Z) (isHalo : P -> bool) (pos old : P -> R3)
    (view : R3 -> list P -> list P) (il csf s : R) (bMin bMax : R3) (ps : list P) (lay : Layout) (threshold : nat),
  let b := rebuild rndExact il csf bMin bMax in
  validGrid il csf bMin bMax -> (forall dir l, isSortedView pos dir l (view dir l)) -> distinctIds pid ps ->
  validParticles isHalo old b bMin bMax ps -> (0 <= s <= il)%R -> movedAtMost old pos s ps ->
  exists cells, lcAddAll isHalo rndExact b old (lcEmpty b) ps = Some cells /\
  let calls := lcInteract3 isHalo view pos lay threshold il cells
                 (c01CallsDir3B (nearR (blockLength b) il) (blockOverlap rndExact il b) (blockDims b) (blockLength b)) in
  forall a c d, In a ps -> In c ps -> In d ps -> a <> c -> a <> d -> c <> d ->
    (received3 pid calls a c d <= 1)%nat /\
    (isHalo a = false -> pairwiseWithin pos (il - s) a c d -> received3 pid calls a c d = 1%nat).
Proof.
  exact (fun P pid isHalo pos old view il csf s bMin bMax ps lay threshold Hg Hv Hi Hp Hs Hm =>
    lc_triplets pid isHalo pos old view il csf s bMin bMax ps Hg Hv Hi Hp Hs Hm lay threshold).
Qed.
Print Assumptions C56_c01_triplets.

(** The four particles of C22_nonvacuous with s = 0.2: 0 and 1 are owned, 2 is a halo
    particle, and the three are pairwise within 0.8. *)
Example C56_nonvacuous :
  (forall dir l, isSortedView exPos dir l (sortBy exPos dir l)) /\ distinctIds (fun p => p) exPs /\
  validInBox exHalo exOld (mkR3 0 0 0) (mkR3 3 3 3) exPs /\ movedAtMost exOld exPos (1 / 5) exPs /\
  validGrid 1 1 (mkR3 0 0 0) (mkR3 3 3 3) /\
  validParticles exHalo exOld (rebuild rndExact 1 1 (mkR3 0 0 0) (mkR3 3 3 3)) (mkR3 0 0 0) (mkR3 3 3 3) exPs /\
  pairwiseWithin exPos (4 / 5) 0%Z 1%Z 2%Z /\ exHalo 0 = false /\ exHalo 2 = true /\ (1 - 1 / 5 = 4 / 5)%R.
Proof.
  destruct lc_example as (G & V & D & P & M & _). destruct triplet_example as (B & W & H0 & H2).
  refine (conj V (conj D (conj B (conj M (conj G (conj P (conj W (conj H0 (conj H2 _))))))))). field.
Qed.
