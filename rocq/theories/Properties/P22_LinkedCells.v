(** C22: the linked cells container end to end (exact arithmetic).  [old] are the
    positions at which the particles were added, [pos] the current ones; [s] bounds
    twice the distance every particle moved since (at most the skin).  With s = 0
    and pos = old the theorems are about all pairs closer than the interaction
    length [il]; with s the skin about all pairs closer than the cutoff. *)
From Coq Require Import Reals.
From Verif.Base Require Import ZRange Occ.
From Verif.Grid Require Import IndexModel CellBlockModel CellBlockSpec.
From Verif.Traversal Require Import C08Model.
From Verif.Functor Require Import CellFunctorModel FunctorSpec SortModel SortSpec.
From Verif.Container Require Import LinkedCellsModel LinkedCellsSpec LinkedCellsProofs LinkedCellsExample.

(** Adding never fails, and the c08 traversal calls the functor at most once for
    every pair of particles and exactly once for a pair within reach one of which
    is owned.  The same holds if the base cells are processed in any other order:
    c04, c04HCP, sliced, sliced_c02 and sliced_balanced (C10, C12, C15, C18). *)
Theorem C22_c08 : forall (P : Type) (pid : P -> Z) (isHalo : P -> bool) (pos old : P -> R3)
    (view : R3 -> list P -> list P) (cf : CFSettings) (il csf s : R) (bMin bMax : R3) (ps : list P) (bases : list I3),
  let b := rebuild rndExact il csf bMin bMax in
  let dims := blockDims b in
  let ov := blockOverlap rndExact il b in
  validGrid il csf bMin bMax -> (forall dir l, isSortedView pos dir l (view dir l)) ->
  distinctIds pid ps -> validParticles isHalo old b bMin bMax ps ->
  (0 <= s <= il)%R -> movedAtMost old pos s ps ->
  Permutation bases (concat (c08Colors dims ov)) ->
  useNewton3 cf || bidirectional cf = true ->
  exists cells, lcAddAll isHalo rndExact b old (lcEmpty b) ps = Some cells /\
  let calls := lcInteract isHalo view pos cf il (blockLength b) cells
                 (c08StepsDir (nearR (blockLength b) il) dims ov bases) in
  forall a c, In a ps -> In c ps -> a <> c ->
    (received pid calls a c <= 1)%nat /\
    (isHalo a = false \/ isHalo c = false -> (dist3 (pos a) (pos c) <= il - s)%R -> received pid calls a c = 1%nat).
Proof.
  exact (fun P pid isHalo pos old view cf il csf s bMin bMax ps bases Hg Hv Hi Hp Hs Hm Hb Hn =>
    lc_c08_family pid isHalo pos old view cf il csf s bMin bMax ps Hg Hv Hi Hp Hs Hm bases Hb Hn).
Qed.
Print Assumptions C22_c08.

(** The c18 traversal. *)
Theorem C22_c18 : forall (P : Type) (pid : P -> Z) (isHalo : P -> bool) (pos old : P -> R3)
    (view : R3 -> list P -> list P) (cf : CFSettings) (il csf s : R) (bMin bMax : R3) (ps : list P),
  let b := rebuild rndExact il csf bMin bMax in
  validGrid il csf bMin bMax -> (forall dir l, isSortedView pos dir l (view dir l)) ->
  distinctIds pid ps -> validParticles isHalo old b bMin bMax ps ->
  (0 <= s <= il)%R -> movedAtMost old pos s ps ->
  useNewton3 cf || bidirectional cf = true ->
  exists cells, lcAddAll isHalo rndExact b old (lcEmpty b) ps = Some cells /\
  let calls := lcInteract isHalo view pos cf il (blockLength b) cells
                 (c18CallsDir (nearR (blockLength b) il) (blockDims b) (blockOverlap rndExact il b)) in
  forall a c, In a ps -> In c ps -> a <> c ->
    (received pid calls a c <= 1)%nat /\
    (isHalo a = false \/ isHalo c = false -> (dist3 (pos a) (pos c) <= il - s)%R -> received pid calls a c = 1%nat).
Proof.
  exact (fun P pid isHalo pos old view cf il csf s bMin bMax ps Hg Hv Hi Hp Hs Hm Hn =>
    lc_c18 pid isHalo pos old view cf il csf s bMin bMax ps Hg Hv Hi Hp Hs Hm Hn).
Qed.
Print Assumptions C22_c18.

(** The c01 traversal without Newton 3: every owned particle [a] receives the
    contribution of every particle within reach exactly once. *)
Theorem C22_c01 : forall (P : Type) (pid : P -> Z) (isHalo : P -> bool) (pos old : P -> R3)
    (view : R3 -> list P -> list P) (cf : CFSettings) (il csf s : R) (bMin bMax : R3) (ps : list P),
  let b := rebuild rndExact il csf bMin bMax in
  validGrid il csf bMin bMax -> (forall dir l, isSortedView pos dir l (view dir l)) ->
  distinctIds pid ps -> validParticles isHalo old b bMin bMax ps ->
  (0 <= s <= il)%R -> movedAtMost old pos s ps ->
  useNewton3 cf = false -> bidirectional cf = false ->
  exists cells, lcAddAll isHalo rndExact b old (lcEmpty b) ps = Some cells /\
  let calls := lcInteract isHalo view pos cf il (blockLength b) cells
                 (c01CallsDir (nearR (blockLength b) il) (blockOverlap rndExact il b) (blockDims b)) in
  forall a c, In a ps -> In c ps -> a <> c -> isHalo a = false -> (dist3 (pos a) (pos c) <= il - s)%R ->
    received pid calls a c = 1%nat.
Proof.
  exact (fun P pid isHalo pos old view cf il csf s bMin bMax ps Hg Hv Hi Hp Hs Hm Hn Hb =>
    lc_c01 pid isHalo pos old view cf il csf s bMin bMax ps Hg Hv Hi Hp Hs Hm Hn Hb).
Qed.
Print Assumptions C22_c01.

(** Four particles in the box [0,3)^3 with interaction length 1 and s = 0.2; the
    owned particle 0 has the owned neighbour 1 in another cell and the halo
    neighbour 2. *)
Example C22_nonvacuous :
  let bMin := mkR3 0 0 0 in let bMax := mkR3 3 3 3 in
  let b := rebuild rndExact 1 1 bMin bMax in
  validGrid 1 1 bMin bMax /\ (forall dir l, isSortedView exPos dir l (sortBy exPos dir l)) /\
  distinctIds (fun p => p) exPs /\ validParticles exHalo exOld b bMin bMax exPs /\
  movedAtMost exOld exPos (1 / 5) exPs /\
  (dist3 (exPos 0) (exPos 1) <= 1 - 1 / 5)%R /\ (dist3 (exPos 0) (exPos 2) <= 1 - 1 / 5)%R /\ exHalo 0 = false /\
  get3DIndexOfPosition rndExact b (exOld 0) <> get3DIndexOfPosition rndExact b (exOld 1).
Proof. exact lc_example. Qed.
