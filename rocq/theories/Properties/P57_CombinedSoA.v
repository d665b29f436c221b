(** C57: the linked cells traversals that combine the SoA buffers of several cells,
    lc_c01_combined_SoA and lc_c04_combined_SoA (exact arithmetic).  [old] are the
    positions at which the particles were added, [pos] the current ones; [s] bounds
    twice the distance every particle moved since. *)
From Coq Require Import Reals Permutation.
From Verif.Base Require Import ZRange Occ.
From Verif.Grid Require Import IndexModel IndexSpec CellBlockModel CellBlockSpec.
From Verif.Functor Require Import CellFunctorModel FunctorSpec SortModel SortSpec.
From Verif.Container Require Import LinkedCellsModel LinkedCellsSpec LinkedCellsExample
  CombinedC01Model CombinedC01Particles CombinedC04Model CombinedC04Spec CombinedC04Particles CombinedExample.

(** lc_c01_combined_SoA, for every cell size factor: however the lines of cells are
    distributed to the threads, and whatever the threads' buffers contain when they
    start, every owned particle receives the contribution of every particle within
    the interaction length minus [s] exactly once. *)
Theorem C57_c01_combined : forall (P : Type) (pid : P -> Z) (isHalo : P -> bool) (pos old : P -> R3)
    (sorted : list P -> list P) (far : P -> P -> bool) (zeroP : P) (cf : CFSettings)
    (il csf s : R) (bMin bMax : R3) (ps : list P),
  let b := rebuild rndExact il csf bMin bMax in
  validGrid il csf bMin bMax -> distinctIds pid ps -> validParticles isHalo old b bMin bMax ps ->
  (0 <= s <= il)%R -> movedAtMost old pos s ps ->
  layout cf = SoA -> useNewton3 cf = false -> bidirectional cf = false ->
  exists cells, lcAddAll isHalo rndExact b old (lcEmpty b) ps = Some cells /\
  forall threads : list (Ring * list (Z * Z)),
    Permutation (flat_map snd threads) (c01Lines (blockOverlap rndExact il b) (blockDims b)) ->
    let calls := concat (c01cThreads isHalo sorted far zeroP cf (nearR (blockLength b) il) (blockOverlap rndExact il b) (blockDims b) cells threads) in
    forall a c, In a ps -> In c ps -> a <> c -> isHalo a = false -> (dist3 (pos a) (pos c) <= il - s)%R ->
      received pid calls a c = 1%nat.
Proof.
  exact (fun P pid isHalo pos old sorted far zeroP cf il csf s bMin bMax ps Hg Hi Hp Hs Hm Hl Hn Hb =>
    lc_c01_combined pid isHalo pos old (sortBy pos) sorted far zeroP cf il csf s bMin bMax ps Hg (sortBy_sorted pos) Hi Hp Hs Hm Hl Hn Hb).
Qed.
Print Assumptions C57_c01_combined.

(** lc_c04_combined_SoA, for one cell per interaction length (isApplicable), with and
    without Newton 3.  The colours run one after another; within a colour the threads
    process the lines of the colour concurrently in any interleaving, starting with
    any contents of their buffers.  Afterwards the buffers of the cells hold the same
    particles, in the same order, as before.  No particle got a contribution from
    itself; of every two particles the first has the contribution of the second at
    most once, and exactly once if one of them is owned and they are within the
    interaction length minus [s]. *)
Theorem C57_c04_combined : forall (P : Type) (pid : P -> Z) (isHalo : P -> bool) (pos old : P -> R3)
    (zeroRow : Row P) (newton3 : bool) (il csf s : R) (bMin bMax : R3) (ps : list P),
  let b := rebuild rndExact il csf bMin bMax in
  validGrid il csf bMin bMax -> distinctIds pid ps -> validParticles isHalo old b bMin bMax ps ->
  (0 <= s <= il)%R -> movedAtMost old pos s ps -> blockOverlap rndExact il b = mkI3 1 1 1 ->
  exists cells, lcAddAll isHalo rndExact b old (lcEmpty b) ps = Some cells /\
  forall (bufs : Z -> Mem) (evss : list (list (Z * I3))),
    Forall2 (executes (blockDims b)) (c04cColors (mkI3 1 1 1) (blockDims b)) evss ->
    let final := fst (c04cEvents zeroRow newton3 (nearR (blockLength b) il) (mkI3 1 1 1) (blockDims b)
                        (fun k => length (soaRows cells k)) (soaRows cells, bufs) (concat evss)) in
    (forall k, map rowP (final k) = map rowP (soaRows cells k)) /\
    (forall a, In a ps -> stored pid (numCells (blockDims b)) final a a = 0%nat) /\
    (forall a c, In a ps -> In c ps -> a <> c ->
      (stored pid (numCells (blockDims b)) final a c <= 1)%nat /\
      (isHalo a = false \/ isHalo c = false -> (dist3 (pos a) (pos c) <= il - s)%R ->
       stored pid (numCells (blockDims b)) final a c = 1%nat)).
Proof.
  exact (fun P pid isHalo pos old zeroRow newton3 il csf s bMin bMax ps => lc_c04_combined pid isHalo pos old zeroRow newton3 il csf s bMin bMax ps).
Qed.
Print Assumptions C57_c04_combined.

(** The particles of C22_nonvacuous in a grid of 5x5x5 cells; two threads share the
    lines of every colour and take turns after every base cell. *)
Example C57_nonvacuous :
  let b := rebuild rndExact 1 1 (mkR3 0 0 0) (mkR3 3 3 3) in
  validGrid 1 1 (mkR3 0 0 0) (mkR3 3 3 3) /\ distinctIds (fun p => p) exPs /\
  validParticles exHalo exOld b (mkR3 0 0 0) (mkR3 3 3 3) exPs /\ movedAtMost exOld exPos (1 / 5) exPs /\
  blockOverlap rndExact 1 b = mkI3 1 1 1 /\ blockDims b = mkI3 5 5 5 /\
  Forall2 (executes (blockDims b)) (c04cColors (mkI3 1 1 1) (blockDims b))
    (map exInterleave (c04cColors (mkI3 1 1 1) (mkI3 5 5 5))) /\
  (dist3 (exPos 0) (exPos 1) <= 1 - 1 / 5)%R /\ exHalo 0 = false.
Proof.
  destruct lc_example as (G & V & D & Q & M & D1 & D2 & H0 & _). destruct ex_block as [Ed Eo]. cbv zeta in *.
  refine (conj G (conj D (conj Q (conj M (conj Eo (conj Ed (conj _ (conj D1 H0)))))))).
  rewrite Ed. exact ex_executes.
Qed.
