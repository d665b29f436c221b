(** C54, C55: the Verlet list containers. *)
From Coq Require Import Reals.
From Verif.Base Require Import ZRange Occ.
From Verif.Grid Require Import IndexModel IndexSpec CellBlockModel CellBlockSpec.
From Verif.Traversal Require Import CellSpec ColorModel C01Model C08Model SliceModel SliceSpec LockModel LockProofs.
From Verif.Functor Require Import CellFunctorModel FunctorSpec SortModel SortSpec.
From Verif.Container Require Import LinkedCellsModel LinkedCellsSpec LinkedCellsExample.
From Verif.Verlet Require Import VerletModel VerletC08Model VerletSpec VerletTop VerletExample.
Open Scope Z_scope.

(** VerletLists, AoS: whatever order the base cells are processed in while the
    lists are built and however the lists are spread over the buckets of the hash
    map, the traversal handles every pair within the cutoff exactly once, and no
    pair twice. *)
Theorem C54_verlet_lists_aos : forall (P : Type) (pid : P -> Z) isHalo (old now : P -> R3) view cf cut skin csf bMin bMax ps bases buckets,
  verletSetup pid isHalo old now view cf cut skin csf bMin bMax ps ->
  let il := (cut + skin)%R in let b := verletBlock rndExact cut skin csf bMin bMax in
  let dims := blockDims b in let ov := blockOverlap rndExact il b in
  Permutation bases (concat (c08Colors dims ov)) ->
  exists cells lists, lcAddAll isHalo rndExact b old (lcEmpty b) ps = Some cells /\
    vlBuild pid old il (useNewton3 cf) cells (c08ListCalls isHalo view old cf rndExact il b cells bases) = Some lists /\
    (Permutation (concat buckets) lists ->
     everyPairOnce pid isHalo now cut ps (concat (vlTraverseAoS (useNewton3 cf) buckets))).
Proof. intros P pid isHalo old now view cf cut skin csf bMin bMax ps bases buckets H. cbv zeta. intros Hb. destruct (top_vl pid isHalo old now view cf cut skin csf bMin bMax ps H bases Hb) as (cells & lists & H1 & H2 & H3 & _). exists cells, lists. split; [exact H1|]. split; [exact H2|]. intros Hp. exact (proj1 (H3 buckets Hp)). Qed.
Print Assumptions C54_verlet_lists_aos.

(** VerletLists, SoA: for every earlier content of the index table and every order
    of the particle indices. *)
Theorem C54_verlet_lists_soa : forall (P : Type) (pid : P -> Z) isHalo (old now : P -> R3) view cf cut skin csf bMin bMax ps bases table,
  verletSetup pid isHalo old now view cf cut skin csf bMin bMax ps ->
  let il := (cut + skin)%R in let b := verletBlock rndExact cut skin csf bMin bMax in
  let dims := blockDims b in let ov := blockOverlap rndExact il b in
  Permutation bases (concat (c08Colors dims ov)) ->
  exists cells lists, lcAddAll isHalo rndExact b old (lcEmpty b) ps = Some cells /\
    vlBuild pid old il (useNewton3 cf) cells (c08ListCalls isHalo view old cf rndExact il b cells bases) = Some lists /\
    forall order, Permutation order (seq 0 (length lists)) ->
    exists soa calls, vlSoALists pid cells lists table = Some soa /\ vlTraverseSoA (useNewton3 cf) cells soa order = Some calls /\
      everyPairOnce pid isHalo now cut ps (concat calls).
Proof. intros P pid isHalo old now view cf cut skin csf bMin bMax ps bases table H. cbv zeta. intros Hb. destruct (top_vl pid isHalo old now view cf cut skin csf bMin bMax ps H bases Hb) as (cells & lists & H1 & H2 & _ & H3). exists cells, lists. split; [exact H1|]. split; [exact H2|]. intros order Ho. destruct (H3 table order Ho) as (soa & calls & E1 & E2 & E3 & _). eauto. Qed.
Print Assumptions C54_verlet_lists_soa.

(** VerletLists is parallel without Newton 3 only: buckets processed by different
    threads do not update a common particle. *)
Theorem C55_verlet_lists_aos : forall (P : Type) (pid : P -> Z) isHalo (old now : P -> R3) view cf cut skin csf bMin bMax ps bases buckets,
  verletSetup pid isHalo old now view cf cut skin csf bMin bMax ps ->
  let il := (cut + skin)%R in let b := verletBlock rndExact cut skin csf bMin bMax in
  let dims := blockDims b in let ov := blockOverlap rndExact il b in
  useNewton3 cf = false -> Permutation bases (concat (c08Colors dims ov)) ->
  exists cells lists, lcAddAll isHalo rndExact b old (lcEmpty b) ps = Some cells /\
    vlBuild pid old il (useNewton3 cf) cells (c08ListCalls isHalo view old cf rndExact il b cells bases) = Some lists /\
    (Permutation (concat buckets) lists -> noSharedWrites (vlTraverseAoS (useNewton3 cf) buckets)).
Proof. intros P pid isHalo old now view cf cut skin csf bMin bMax ps bases buckets H. cbv zeta. intros Hn Hb. destruct (top_vl pid isHalo old now view cf cut skin csf bMin bMax ps H bases Hb) as (cells & lists & H1 & H2 & H3 & _). exists cells, lists. split; [exact H1|]. split; [exact H2|]. intros Hp. exact (proj2 (H3 buckets Hp) Hn). Qed.
Print Assumptions C55_verlet_lists_aos.

(** The same for the SoA layout. *)
Theorem C55_verlet_lists_soa : forall (P : Type) (pid : P -> Z) isHalo (old now : P -> R3) view cf cut skin csf bMin bMax ps bases table,
  verletSetup pid isHalo old now view cf cut skin csf bMin bMax ps ->
  let il := (cut + skin)%R in let b := verletBlock rndExact cut skin csf bMin bMax in
  let dims := blockDims b in let ov := blockOverlap rndExact il b in
  useNewton3 cf = false -> Permutation bases (concat (c08Colors dims ov)) ->
  exists cells lists, lcAddAll isHalo rndExact b old (lcEmpty b) ps = Some cells /\
    vlBuild pid old il (useNewton3 cf) cells (c08ListCalls isHalo view old cf rndExact il b cells bases) = Some lists /\
    forall order, Permutation order (seq 0 (length lists)) ->
    exists soa calls, vlSoALists pid cells lists table = Some soa /\ vlTraverseSoA (useNewton3 cf) cells soa order = Some calls /\
      noSharedWrites calls.
Proof. intros P pid isHalo old now view cf cut skin csf bMin bMax ps bases table H. cbv zeta. intros Hn Hb. destruct (top_vl pid isHalo old now view cf cut skin csf bMin bMax ps H bases Hb) as (cells & lists & H1 & H2 & _ & H3). exists cells, lists. split; [exact H1|]. split; [exact H2|]. intros order Ho. destruct (H3 table order Ho) as (soa & calls & E1 & E2 & _ & E3). exists soa, calls. auto. Qed.
Print Assumptions C55_verlet_lists_soa.

(** Lists per cell: adding the particles and building the lists succeeds,
    whatever an earlier build left in the map from particles to cells [m]. *)
Theorem C54_lists_per_cell_built : forall (P : Type) (pid : P -> Z) isHalo (old now : P -> R3) view cf cut skin csf bMin bMax ps (m : CellMap),
  verletSetup pid isHalo old now view cf cut skin csf bMin bMax ps ->
  let il := (cut + skin)%R in let b := verletBlock rndExact cut skin csf bMin bMax in
  let dims := blockDims b in let ov := blockOverlap rndExact il b in
  exists cells lists, lcAddAll isHalo rndExact b old (lcEmpty b) ps = Some cells /\
    vlcBuild pid old il (useNewton3 cf) m cells (c18ListCalls isHalo view old cf rndExact il b cells) = Some lists.
Proof. intros P pid isHalo old now view cf cut skin csf bMin bMax ps m H. cbv zeta. destruct (top_added pid isHalo old now view cf cut skin csf bMin bMax ps H) as (cells & E). destruct (top_vlc pid isHalo old now view cf cut skin csf bMin bMax ps H cells E m) as (lists & E' & _). exists cells, lists. split; [exact E|exact E']. Qed.
Print Assumptions C54_lists_per_cell_built.

(** Lists per cell, c01 (without Newton 3): every owned particle receives the
    contribution of every particle within the cutoff exactly once. *)
Theorem C54_lists_per_cell_c01 : forall (P : Type) (pid : P -> Z) isHalo (old now : P -> R3) view cf lay cut skin csf bMin bMax ps m cells lists,
  verletSetup pid isHalo old now view cf cut skin csf bMin bMax ps ->
  let il := (cut + skin)%R in let b := verletBlock rndExact cut skin csf bMin bMax in
  let dims := blockDims b in let ov := blockOverlap rndExact il b in
  lcAddAll isHalo rndExact b old (lcEmpty b) ps = Some cells ->
  vlcBuild pid old il (useNewton3 cf) m cells (c18ListCalls isHalo view old cf rndExact il b cells) = Some lists ->
  useNewton3 cf = false ->
  exists calls, vlcTraverse pid lay (useNewton3 cf) cells lists dims (c01Colors ov dims) = Some calls /\
    everyOwnedPairOnce pid isHalo now cut ps (concat (concat calls)).
Proof. intros P pid isHalo old now view cf lay cut skin csf bMin bMax ps m cells lists H. cbv zeta. intros Ha Hb. intros Hn. destruct ((top_vlc_c01 pid isHalo old now view cf lay cut skin csf bMin bMax ps H cells Ha m lists Hb) Hn) as (calls & E1 & E2 & _). eauto. Qed.
Print Assumptions C54_lists_per_cell_c01.

(** Lists per cell, c18: every pair within the cutoff, one of them owned, is handled
    exactly once. *)
Theorem C54_lists_per_cell_c18 : forall (P : Type) (pid : P -> Z) isHalo (old now : P -> R3) view cf lay cut skin csf bMin bMax ps m cells lists,
  verletSetup pid isHalo old now view cf cut skin csf bMin bMax ps ->
  let il := (cut + skin)%R in let b := verletBlock rndExact cut skin csf bMin bMax in
  let dims := blockDims b in let ov := blockOverlap rndExact il b in
  lcAddAll isHalo rndExact b old (lcEmpty b) ps = Some cells ->
  vlcBuild pid old il (useNewton3 cf) m cells (c18ListCalls isHalo view old cf rndExact il b cells) = Some lists ->
  exists calls, vlcTraverse pid lay (useNewton3 cf) cells lists dims (vlcC18Colors dims ov) = Some calls /\
    everyPairOnce pid isHalo now cut ps (concat (concat calls)).
Proof. intros P pid isHalo old now view cf lay cut skin csf bMin bMax ps m cells lists H. cbv zeta. intros Ha Hb. destruct (top_vlc_c18 pid isHalo old now view cf lay cut skin csf bMin bMax ps H cells Ha m lists Hb) as (calls & E1 & E2 & _). eauto. Qed.
Print Assumptions C54_lists_per_cell_c18.

(** Lists per cell, sliced and balanced sliced: the same, for every slicing and in every
    complete execution of the slices with their locks; [d] are the layers in the
    order in which they were processed. *)
Theorem C54_lists_per_cell_sliced : forall (P : Type) (pid : P -> Z) isHalo (old now : P -> R3) view cf lay cut skin csf bMin bMax ps m cells lists t k d s,
  verletSetup pid isHalo old now view cf cut skin csf bMin bMax ps ->
  let il := (cut + skin)%R in let b := verletBlock rndExact cut skin csf bMin bMax in
  let dims := blockDims b in let ov := blockOverlap rndExact il b in
  lcAddAll isHalo rndExact b old (lcEmpty b) ps = Some cells ->
  vlcBuild pid old il (useNewton3 cf) m cells (c18ListCalls isHalo view old cf rndExact il b cells) = Some lists ->
  vlcLockSlicing dims ov t -> let n := Z.of_nat (length t) in
  reach n (initState (sliceProg t (vlcSliceOverlap dims ov))) k d s -> (forall i ev s', ~ step n s i ev s') ->
  exists calls, vlcTraverse pid lay (useNewton3 cf) cells lists dims (map (vlcLayer dims) d) = Some calls /\
    everyPairOnce pid isHalo now cut ps (concat (concat calls)).
Proof. intros P pid isHalo old now view cf lay cut skin csf bMin bMax ps m cells lists t k d s H. cbv zeta. intros Ha Hb. intros Hsl Hr Hst. exact ((top_vlc_sliced pid isHalo old now view cf lay cut skin csf bMin bMax ps H cells Ha m lists Hb t k d s) Hsl Hr Hst). Qed.
Print Assumptions C54_lists_per_cell_sliced.

(** Lists per cell, sliced_c02. *)
Theorem C54_lists_per_cell_sliced_c02 : forall (P : Type) (pid : P -> Z) isHalo (old now : P -> R3) view cf lay cut skin csf bMin bMax ps m cells lists,
  verletSetup pid isHalo old now view cf cut skin csf bMin bMax ps ->
  let il := (cut + skin)%R in let b := verletBlock rndExact cut skin csf bMin bMax in
  let dims := blockDims b in let ov := blockOverlap rndExact il b in
  lcAddAll isHalo rndExact b old (lcEmpty b) ps = Some cells ->
  vlcBuild pid old il (useNewton3 cf) m cells (c18ListCalls isHalo view old cf rndExact il b cells) = Some lists ->
  exists calls, vlcTraverse pid lay (useNewton3 cf) cells lists dims (concat (vlcC02Colors dims ov)) = Some calls /\
    everyPairOnce pid isHalo now cut ps (concat (concat calls)).
Proof. intros P pid isHalo old now view cf lay cut skin csf bMin bMax ps m cells lists H. cbv zeta. intros Ha Hb. exact (proj1 (top_vlc_c02 pid isHalo old now view cf lay cut skin csf bMin bMax ps H cells Ha m lists Hb)). Qed.
Print Assumptions C54_lists_per_cell_sliced_c02.

(** Lists per cell, c01: no two base cells update a common particle. *)
Theorem C55_lists_per_cell_c01 : forall (P : Type) (pid : P -> Z) isHalo (old now : P -> R3) view cf lay cut skin csf bMin bMax ps m cells lists,
  verletSetup pid isHalo old now view cf cut skin csf bMin bMax ps ->
  let il := (cut + skin)%R in let b := verletBlock rndExact cut skin csf bMin bMax in
  let dims := blockDims b in let ov := blockOverlap rndExact il b in
  lcAddAll isHalo rndExact b old (lcEmpty b) ps = Some cells ->
  vlcBuild pid old il (useNewton3 cf) m cells (c18ListCalls isHalo view old cf rndExact il b cells) = Some lists ->
  useNewton3 cf = false ->
  exists calls, vlcTraverse pid lay (useNewton3 cf) cells lists dims (c01Colors ov dims) = Some calls /\ noSharedWrites (concat calls).
Proof. intros P pid isHalo old now view cf lay cut skin csf bMin bMax ps m cells lists H. cbv zeta. intros Ha Hb. intros Hn. destruct ((top_vlc_c01 pid isHalo old now view cf lay cut skin csf bMin bMax ps H cells Ha m lists Hb) Hn) as (calls & E1 & _ & E2). eauto. Qed.
Print Assumptions C55_lists_per_cell_c01.

(** Lists per cell, c18: no two base cells of a colour update a common particle. *)
Theorem C55_lists_per_cell_c18 : forall (P : Type) (pid : P -> Z) isHalo (old now : P -> R3) view cf lay cut skin csf bMin bMax ps m cells lists,
  verletSetup pid isHalo old now view cf cut skin csf bMin bMax ps ->
  let il := (cut + skin)%R in let b := verletBlock rndExact cut skin csf bMin bMax in
  let dims := blockDims b in let ov := blockOverlap rndExact il b in
  lcAddAll isHalo rndExact b old (lcEmpty b) ps = Some cells ->
  vlcBuild pid old il (useNewton3 cf) m cells (c18ListCalls isHalo view old cf rndExact il b cells) = Some lists ->
  exists calls, vlcTraverse pid lay (useNewton3 cf) cells lists dims (vlcC18Colors dims ov) = Some calls /\ Forall noSharedWrites calls.
Proof. intros P pid isHalo old now view cf lay cut skin csf bMin bMax ps m cells lists H. cbv zeta. intros Ha Hb. destruct (top_vlc_c18 pid isHalo old now view cf lay cut skin csf bMin bMax ps H cells Ha m lists Hb) as (calls & E1 & _ & E2). eauto. Qed.
Print Assumptions C55_lists_per_cell_c18.

(** Lists per cell, sliced and balanced sliced: in every reachable state of every
    interleaving, two slices that process a layer do not update a common particle. *)
Theorem C55_lists_per_cell_sliced : forall (P : Type) (pid : P -> Z) isHalo (old now : P -> R3) view cf lay cut skin csf bMin bMax ps m cells lists t k d s s1 s2 l1 l2,
  verletSetup pid isHalo old now view cf cut skin csf bMin bMax ps ->
  let il := (cut + skin)%R in let b := verletBlock rndExact cut skin csf bMin bMax in
  let dims := blockDims b in let ov := blockOverlap rndExact il b in
  lcAddAll isHalo rndExact b old (lcEmpty b) ps = Some cells ->
  vlcBuild pid old il (useNewton3 cf) m cells (c18ListCalls isHalo view old cf rndExact il b cells) = Some lists ->
  vlcLockSlicing dims ov t -> let n := Z.of_nat (length t) in
  reach n (initState (sliceProg t (vlcSliceOverlap dims ov))) k d s -> 0 <= s1 < n -> 0 <= s2 < n -> s1 <> s2 ->
  processing s s1 l1 -> processing s s2 l2 ->
  exists calls, vlcTraverse pid lay (useNewton3 cf) cells lists dims [vlcLayer dims l1; vlcLayer dims l2] = Some calls /\ noSharedWrites (map (@concat _) calls).
Proof. intros P pid isHalo old now view cf lay cut skin csf bMin bMax ps m cells lists t k d s s1 s2 l1 l2 H. cbv zeta. intros Ha Hb. intros Hsl Hr R1 R2 N P1 P2. exact ((top_vlc_locks pid isHalo old now view cf lay cut skin csf bMin bMax ps H cells Ha m lists Hb t k d s s1 s2 l1 l2) Hsl Hr R1 R2 N P1 P2). Qed.
Print Assumptions C55_lists_per_cell_sliced.

(** Lists per cell, sliced_c02: no two slices of a colour update a common particle. *)
Theorem C55_lists_per_cell_sliced_c02 : forall (P : Type) (pid : P -> Z) isHalo (old now : P -> R3) view cf lay cut skin csf bMin bMax ps m cells lists color,
  verletSetup pid isHalo old now view cf cut skin csf bMin bMax ps ->
  let il := (cut + skin)%R in let b := verletBlock rndExact cut skin csf bMin bMax in
  let dims := blockDims b in let ov := blockOverlap rndExact il b in
  lcAddAll isHalo rndExact b old (lcEmpty b) ps = Some cells ->
  vlcBuild pid old il (useNewton3 cf) m cells (c18ListCalls isHalo view old cf rndExact il b cells) = Some lists ->
  In color (vlcC02Colors dims ov) ->
  exists calls, vlcTraverse pid lay (useNewton3 cf) cells lists dims color = Some calls /\ noSharedWrites (map (@concat _) calls).
Proof. intros P pid isHalo old now view cf lay cut skin csf bMin bMax ps m cells lists color H. cbv zeta. intros Ha Hb. intros Hc. exact (proj2 (top_vlc_c02 pid isHalo old now view cf lay cut skin csf bMin bMax ps H cells Ha m lists Hb) color Hc). Qed.
Print Assumptions C55_lists_per_cell_sliced_c02.

(** The slicings of these traversals meet the hypotheses of C17: no deadlock, legal
    use of the locks, termination. *)
Theorem C55_sliced_progress : forall (P : Type) (pid : P -> Z) isHalo (old now : P -> R3) view cf cut skin csf bMin bMax ps cells t,
  verletSetup pid isHalo old now view cf cut skin csf bMin bMax ps ->
  let il := (cut + skin)%R in let b := verletBlock rndExact cut skin csf bMin bMax in
  let dims := blockDims b in let ov := blockOverlap rndExact il b in
  lcAddAll isHalo rndExact b old (lcEmpty b) ps = Some cells -> vlcLockSlicing dims ov t ->
  0 < vlcSliceOverlap dims ov /\ thick (vlcSliceOverlap dims ov + 1) 1 t.
Proof. intros P pid isHalo old now view cf cut skin csf bMin bMax ps cells t H. cbv zeta. intros Ha Ht. exact (top_slicing pid isHalo old now view cf cut skin csf bMin bMax ps H cells Ha t Ht). Qed.
Print Assumptions C55_sliced_progress.

(** Lists per cell, c08: the lists of all particles of a block of 2x2x2 cells are
    stored with its first cell.  Building succeeds whatever an earlier build left
    behind ([prev]) and however many lists are estimated ([est])... *)
Theorem C54_lists_per_cell_c08_built : forall (P : Type) (pid : P -> Z) isHalo (old now : P -> R3) view cf cut skin csf bMin bMax ps est prev,
  verletSetup pid isHalo old now view cf cut skin csf bMin bMax ps ->
  let il := (cut + skin)%R in let b := verletBlock rndExact cut skin csf bMin bMax in
  let perLength := cellsPerInteractionLength rndExact (Rmax 1 csf) in
  exists cells lists, lcAddAll isHalo rndExact b old (lcEmpty b) ps = Some cells /\
    c08Rebuild pid old perLength il (useNewton3 cf) (blockDims b) est prev cells = Some lists.
Proof. intros P pid isHalo old now view cf cut skin csf bMin bMax ps est prev H. cbv zeta. destruct (top_added pid isHalo old now view cf cut skin csf bMin bMax ps H) as (cells & E). destruct (top_c08 pid isHalo old now view cf AoS cut skin csf bMin bMax ps H cells E est prev) as (lists & E' & _). exists cells, lists. split; [exact E|exact E']. Qed.
Print Assumptions C54_lists_per_cell_c08_built.

(** ... and every pair within the cutoff, one of them owned, is handled exactly
    once. *)
Theorem C54_lists_per_cell_c08 : forall (P : Type) (pid : P -> Z) isHalo (old now : P -> R3) view cf lay cut skin csf bMin bMax ps est prev cells lists,
  verletSetup pid isHalo old now view cf cut skin csf bMin bMax ps ->
  let il := (cut + skin)%R in let b := verletBlock rndExact cut skin csf bMin bMax in
  let dims := blockDims b in let ov := blockOverlap rndExact il b in
  let perLength := cellsPerInteractionLength rndExact (Rmax 1 csf) in
  lcAddAll isHalo rndExact b old (lcEmpty b) ps = Some cells ->
  c08Rebuild pid old perLength il (useNewton3 cf) dims est prev cells = Some lists ->
  exists calls, vlcTraverse pid lay (useNewton3 cf) cells lists dims (c08Colors dims ov) = Some calls /\
    everyPairOnce pid isHalo now cut ps (concat (concat calls)).
Proof. intros P pid isHalo old now view cf lay cut skin csf bMin bMax ps est prev cells lists H. cbv zeta. intros Ha Hb. destruct (top_c08 pid isHalo old now view cf lay cut skin csf bMin bMax ps H cells Ha est prev) as (l & E & calls & E1 & E2 & _). rewrite Hb in E. injection E as <-. eauto. Qed.
Print Assumptions C54_lists_per_cell_c08.

(** No two cells of a colour update a common particle. *)
Theorem C55_lists_per_cell_c08 : forall (P : Type) (pid : P -> Z) isHalo (old now : P -> R3) view cf lay cut skin csf bMin bMax ps est prev cells lists,
  verletSetup pid isHalo old now view cf cut skin csf bMin bMax ps ->
  let il := (cut + skin)%R in let b := verletBlock rndExact cut skin csf bMin bMax in
  let dims := blockDims b in let ov := blockOverlap rndExact il b in
  let perLength := cellsPerInteractionLength rndExact (Rmax 1 csf) in
  lcAddAll isHalo rndExact b old (lcEmpty b) ps = Some cells ->
  c08Rebuild pid old perLength il (useNewton3 cf) dims est prev cells = Some lists ->
  exists calls, vlcTraverse pid lay (useNewton3 cf) cells lists dims (c08Colors dims ov) = Some calls /\
    Forall noSharedWrites calls.
Proof. intros P pid isHalo old now view cf lay cut skin csf bMin bMax ps est prev cells lists H. cbv zeta. intros Ha Hb. destruct (top_c08 pid isHalo old now view cf lay cut skin csf bMin bMax ps H cells Ha est prev) as (l & E & calls & E1 & _ & E2). rewrite Hb in E. injection E as <-. eauto. Qed.
Print Assumptions C55_lists_per_cell_c08.

(** Lists per pair of cells: adding the particles and building the lists succeeds,
    no access to the lists of a cell is out of range. *)
Theorem C54_lists_per_cell_pair_built : forall (P : Type) (pid : P -> Z) isHalo (old now : P -> R3) view cf cut skin csf bMin bMax ps,
  verletSetup pid isHalo old now view cf cut skin csf bMin bMax ps ->
  let il := (cut + skin)%R in let b := verletBlock rndExact cut skin csf bMin bMax in
  let dims := blockDims b in let ov := blockOverlap rndExact il b in
  exists cells st, lcAddAll isHalo rndExact b old (lcEmpty b) ps = Some cells /\
    vlpBuild pid old il (useNewton3 cf) (vlpNeighborCells (nearR (blockLength b) il) ov (useNewton3 cf)) cells
    (c18ListCalls isHalo view old cf rndExact il b cells) = Some st.
Proof. intros P pid isHalo old now view cf cut skin csf bMin bMax ps H. cbv zeta. destruct (top_added pid isHalo old now view cf cut skin csf bMin bMax ps H) as (cells & E). destruct (top_vlp pid isHalo old now view cf cut skin csf bMin bMax ps H cells E) as (st & E' & _). exists cells, st. split; [exact E|exact E']. Qed.
Print Assumptions C54_lists_per_cell_pair_built.

(** Lists per pair of cells, c01 (without Newton 3): every owned particle receives the
    contribution of every particle within the cutoff exactly once. *)
Theorem C54_lists_per_cell_pair_c01 : forall (P : Type) (pid : P -> Z) isHalo (old now : P -> R3) view cf lay cut skin csf bMin bMax ps cells st,
  verletSetup pid isHalo old now view cf cut skin csf bMin bMax ps ->
  let il := (cut + skin)%R in let b := verletBlock rndExact cut skin csf bMin bMax in
  let dims := blockDims b in let ov := blockOverlap rndExact il b in
  lcAddAll isHalo rndExact b old (lcEmpty b) ps = Some cells ->
  vlpBuild pid old il (useNewton3 cf) (vlpNeighborCells (nearR (blockLength b) il) ov (useNewton3 cf)) cells
    (c18ListCalls isHalo view old cf rndExact il b cells) = Some st ->
  useNewton3 cf = false ->
  exists calls, vlpTraverse pid lay (useNewton3 cf) cells st dims (c01Colors ov dims) = Some calls /\
    everyOwnedPairOnce pid isHalo now cut ps (concat (concat calls)).
Proof. intros P pid isHalo old now view cf lay cut skin csf bMin bMax ps cells st H. cbv zeta. intros Ha Hb. intros Hn. destruct ((top_vlp_c01 pid isHalo old now view cf lay cut skin csf bMin bMax ps H cells Ha st Hb) Hn) as (calls & E1 & E2 & _). eauto. Qed.
Print Assumptions C54_lists_per_cell_pair_c01.

(** Lists per pair of cells, c18: every pair within the cutoff, one of them owned, is handled
    exactly once. *)
Theorem C54_lists_per_cell_pair_c18 : forall (P : Type) (pid : P -> Z) isHalo (old now : P -> R3) view cf lay cut skin csf bMin bMax ps cells st,
  verletSetup pid isHalo old now view cf cut skin csf bMin bMax ps ->
  let il := (cut + skin)%R in let b := verletBlock rndExact cut skin csf bMin bMax in
  let dims := blockDims b in let ov := blockOverlap rndExact il b in
  lcAddAll isHalo rndExact b old (lcEmpty b) ps = Some cells ->
  vlpBuild pid old il (useNewton3 cf) (vlpNeighborCells (nearR (blockLength b) il) ov (useNewton3 cf)) cells
    (c18ListCalls isHalo view old cf rndExact il b cells) = Some st ->
  exists calls, vlpTraverse pid lay (useNewton3 cf) cells st dims (vlcC18Colors dims ov) = Some calls /\
    everyPairOnce pid isHalo now cut ps (concat (concat calls)).
Proof. intros P pid isHalo old now view cf lay cut skin csf bMin bMax ps cells st H. cbv zeta. intros Ha Hb. destruct (top_vlp_c18 pid isHalo old now view cf lay cut skin csf bMin bMax ps H cells Ha st Hb) as (calls & E1 & E2 & _). eauto. Qed.
Print Assumptions C54_lists_per_cell_pair_c18.

(** Lists per pair of cells, sliced and balanced sliced: the same, for every slicing and in every
    complete execution of the slices with their locks; [d] are the layers in the
    order in which they were processed. *)
Theorem C54_lists_per_cell_pair_sliced : forall (P : Type) (pid : P -> Z) isHalo (old now : P -> R3) view cf lay cut skin csf bMin bMax ps cells st t k d s,
  verletSetup pid isHalo old now view cf cut skin csf bMin bMax ps ->
  let il := (cut + skin)%R in let b := verletBlock rndExact cut skin csf bMin bMax in
  let dims := blockDims b in let ov := blockOverlap rndExact il b in
  lcAddAll isHalo rndExact b old (lcEmpty b) ps = Some cells ->
  vlpBuild pid old il (useNewton3 cf) (vlpNeighborCells (nearR (blockLength b) il) ov (useNewton3 cf)) cells
    (c18ListCalls isHalo view old cf rndExact il b cells) = Some st ->
  vlcLockSlicing dims ov t -> let n := Z.of_nat (length t) in
  reach n (initState (sliceProg t (vlcSliceOverlap dims ov))) k d s -> (forall i ev s', ~ step n s i ev s') ->
  exists calls, vlpTraverse pid lay (useNewton3 cf) cells st dims (map (vlcLayer dims) d) = Some calls /\
    everyPairOnce pid isHalo now cut ps (concat (concat calls)).
Proof. intros P pid isHalo old now view cf lay cut skin csf bMin bMax ps cells st t k d s H. cbv zeta. intros Ha Hb. intros Hsl Hr Hst. exact ((top_vlp_sliced pid isHalo old now view cf lay cut skin csf bMin bMax ps H cells Ha st Hb t k d s) Hsl Hr Hst). Qed.
Print Assumptions C54_lists_per_cell_pair_sliced.

(** Lists per pair of cells, sliced_c02. *)
Theorem C54_lists_per_cell_pair_sliced_c02 : forall (P : Type) (pid : P -> Z) isHalo (old now : P -> R3) view cf lay cut skin csf bMin bMax ps cells st,
  verletSetup pid isHalo old now view cf cut skin csf bMin bMax ps ->
  let il := (cut + skin)%R in let b := verletBlock rndExact cut skin csf bMin bMax in
  let dims := blockDims b in let ov := blockOverlap rndExact il b in
  lcAddAll isHalo rndExact b old (lcEmpty b) ps = Some cells ->
  vlpBuild pid old il (useNewton3 cf) (vlpNeighborCells (nearR (blockLength b) il) ov (useNewton3 cf)) cells
    (c18ListCalls isHalo view old cf rndExact il b cells) = Some st ->
  exists calls, vlpTraverse pid lay (useNewton3 cf) cells st dims (concat (vlcC02Colors dims ov)) = Some calls /\
    everyPairOnce pid isHalo now cut ps (concat (concat calls)).
Proof. intros P pid isHalo old now view cf lay cut skin csf bMin bMax ps cells st H. cbv zeta. intros Ha Hb. exact (proj1 (top_vlp_c02 pid isHalo old now view cf lay cut skin csf bMin bMax ps H cells Ha st Hb)). Qed.
Print Assumptions C54_lists_per_cell_pair_sliced_c02.

(** Lists per pair of cells, c08. *)
Theorem C54_lists_per_cell_pair_c08 : forall (P : Type) (pid : P -> Z) isHalo (old now : P -> R3) view cf lay cut skin csf bMin bMax ps cells st,
  verletSetup pid isHalo old now view cf cut skin csf bMin bMax ps ->
  let il := (cut + skin)%R in let b := verletBlock rndExact cut skin csf bMin bMax in
  let dims := blockDims b in let ov := blockOverlap rndExact il b in
  lcAddAll isHalo rndExact b old (lcEmpty b) ps = Some cells ->
  vlpBuild pid old il (useNewton3 cf) (vlpNeighborCells (nearR (blockLength b) il) ov (useNewton3 cf)) cells
    (c18ListCalls isHalo view old cf rndExact il b cells) = Some st ->
  exists calls, vlpC08Traverse pid lay (useNewton3 cf) cells st (c08Tasks (nearR (blockLength b) il) dims ov) = Some calls /\
    everyPairOnce pid isHalo now cut ps (concat (concat calls)).
Proof. intros P pid isHalo old now view cf lay cut skin csf bMin bMax ps cells st H. cbv zeta. intros Ha Hb. destruct (top_vlp_c08 pid isHalo old now view cf lay cut skin csf bMin bMax ps H cells Ha st Hb) as (calls & E1 & E2 & _). eauto. Qed.
Print Assumptions C54_lists_per_cell_pair_c08.

(** Lists per pair of cells, c01: no two base cells update a common particle. *)
Theorem C55_lists_per_cell_pair_c01 : forall (P : Type) (pid : P -> Z) isHalo (old now : P -> R3) view cf lay cut skin csf bMin bMax ps cells st,
  verletSetup pid isHalo old now view cf cut skin csf bMin bMax ps ->
  let il := (cut + skin)%R in let b := verletBlock rndExact cut skin csf bMin bMax in
  let dims := blockDims b in let ov := blockOverlap rndExact il b in
  lcAddAll isHalo rndExact b old (lcEmpty b) ps = Some cells ->
  vlpBuild pid old il (useNewton3 cf) (vlpNeighborCells (nearR (blockLength b) il) ov (useNewton3 cf)) cells
    (c18ListCalls isHalo view old cf rndExact il b cells) = Some st ->
  useNewton3 cf = false ->
  exists calls, vlpTraverse pid lay (useNewton3 cf) cells st dims (c01Colors ov dims) = Some calls /\ noSharedWrites (concat calls).
Proof. intros P pid isHalo old now view cf lay cut skin csf bMin bMax ps cells st H. cbv zeta. intros Ha Hb. intros Hn. destruct ((top_vlp_c01 pid isHalo old now view cf lay cut skin csf bMin bMax ps H cells Ha st Hb) Hn) as (calls & E1 & _ & E2). eauto. Qed.
Print Assumptions C55_lists_per_cell_pair_c01.

(** Lists per pair of cells, c18: no two base cells of a colour update a common particle. *)
Theorem C55_lists_per_cell_pair_c18 : forall (P : Type) (pid : P -> Z) isHalo (old now : P -> R3) view cf lay cut skin csf bMin bMax ps cells st,
  verletSetup pid isHalo old now view cf cut skin csf bMin bMax ps ->
  let il := (cut + skin)%R in let b := verletBlock rndExact cut skin csf bMin bMax in
  let dims := blockDims b in let ov := blockOverlap rndExact il b in
  lcAddAll isHalo rndExact b old (lcEmpty b) ps = Some cells ->
  vlpBuild pid old il (useNewton3 cf) (vlpNeighborCells (nearR (blockLength b) il) ov (useNewton3 cf)) cells
    (c18ListCalls isHalo view old cf rndExact il b cells) = Some st ->
  exists calls, vlpTraverse pid lay (useNewton3 cf) cells st dims (vlcC18Colors dims ov) = Some calls /\ Forall noSharedWrites calls.
Proof. intros P pid isHalo old now view cf lay cut skin csf bMin bMax ps cells st H. cbv zeta. intros Ha Hb. destruct (top_vlp_c18 pid isHalo old now view cf lay cut skin csf bMin bMax ps H cells Ha st Hb) as (calls & E1 & _ & E2). eauto. Qed.
Print Assumptions C55_lists_per_cell_pair_c18.

(** Lists per pair of cells, sliced and balanced sliced: in every reachable state of every
    interleaving, two slices that process a layer do not update a common particle. *)
Theorem C55_lists_per_cell_pair_sliced : forall (P : Type) (pid : P -> Z) isHalo (old now : P -> R3) view cf lay cut skin csf bMin bMax ps cells st t k d s s1 s2 l1 l2,
  verletSetup pid isHalo old now view cf cut skin csf bMin bMax ps ->
  let il := (cut + skin)%R in let b := verletBlock rndExact cut skin csf bMin bMax in
  let dims := blockDims b in let ov := blockOverlap rndExact il b in
  lcAddAll isHalo rndExact b old (lcEmpty b) ps = Some cells ->
  vlpBuild pid old il (useNewton3 cf) (vlpNeighborCells (nearR (blockLength b) il) ov (useNewton3 cf)) cells
    (c18ListCalls isHalo view old cf rndExact il b cells) = Some st ->
  vlcLockSlicing dims ov t -> let n := Z.of_nat (length t) in
  reach n (initState (sliceProg t (vlcSliceOverlap dims ov))) k d s -> 0 <= s1 < n -> 0 <= s2 < n -> s1 <> s2 ->
  processing s s1 l1 -> processing s s2 l2 ->
  exists calls, vlpTraverse pid lay (useNewton3 cf) cells st dims [vlcLayer dims l1; vlcLayer dims l2] = Some calls /\ noSharedWrites (map (@concat _) calls).
Proof. intros P pid isHalo old now view cf lay cut skin csf bMin bMax ps cells st t k d s s1 s2 l1 l2 H. cbv zeta. intros Ha Hb. intros Hsl Hr R1 R2 N P1 P2. exact ((top_vlp_locks pid isHalo old now view cf lay cut skin csf bMin bMax ps H cells Ha st Hb t k d s s1 s2 l1 l2) Hsl Hr R1 R2 N P1 P2). Qed.
Print Assumptions C55_lists_per_cell_pair_sliced.

(** Lists per pair of cells, sliced_c02: no two slices of a colour update a common particle. *)
Theorem C55_lists_per_cell_pair_sliced_c02 : forall (P : Type) (pid : P -> Z) isHalo (old now : P -> R3) view cf lay cut skin csf bMin bMax ps cells st color,
  verletSetup pid isHalo old now view cf cut skin csf bMin bMax ps ->
  let il := (cut + skin)%R in let b := verletBlock rndExact cut skin csf bMin bMax in
  let dims := blockDims b in let ov := blockOverlap rndExact il b in
  lcAddAll isHalo rndExact b old (lcEmpty b) ps = Some cells ->
  vlpBuild pid old il (useNewton3 cf) (vlpNeighborCells (nearR (blockLength b) il) ov (useNewton3 cf)) cells
    (c18ListCalls isHalo view old cf rndExact il b cells) = Some st ->
  In color (vlcC02Colors dims ov) ->
  exists calls, vlpTraverse pid lay (useNewton3 cf) cells st dims color = Some calls /\ noSharedWrites (map (@concat _) calls).
Proof. intros P pid isHalo old now view cf lay cut skin csf bMin bMax ps cells st color H. cbv zeta. intros Ha Hb. intros Hc. exact (proj2 (top_vlp_c02 pid isHalo old now view cf lay cut skin csf bMin bMax ps H cells Ha st Hb) color Hc). Qed.
Print Assumptions C55_lists_per_cell_pair_sliced_c02.

(** Lists per pair of cells, c08: no two base cells of a colour update a common
    particle. *)
Theorem C55_lists_per_cell_pair_c08 : forall (P : Type) (pid : P -> Z) isHalo (old now : P -> R3) view cf lay cut skin csf bMin bMax ps cells st,
  verletSetup pid isHalo old now view cf cut skin csf bMin bMax ps ->
  let il := (cut + skin)%R in let b := verletBlock rndExact cut skin csf bMin bMax in
  let dims := blockDims b in let ov := blockOverlap rndExact il b in
  lcAddAll isHalo rndExact b old (lcEmpty b) ps = Some cells ->
  vlpBuild pid old il (useNewton3 cf) (vlpNeighborCells (nearR (blockLength b) il) ov (useNewton3 cf)) cells
    (c18ListCalls isHalo view old cf rndExact il b cells) = Some st ->
  exists calls, vlpC08Traverse pid lay (useNewton3 cf) cells st (c08Tasks (nearR (blockLength b) il) dims ov) = Some calls /\
    Forall noSharedWrites calls.
Proof. intros P pid isHalo old now view cf lay cut skin csf bMin bMax ps cells st H. cbv zeta. intros Ha Hb. destruct (top_vlp_c08 pid isHalo old now view cf lay cut skin csf bMin bMax ps H cells Ha st Hb) as (calls & E1 & _ & E2). eauto. Qed.
Print Assumptions C55_lists_per_cell_pair_c08.

(** VarVerletLists: whichever thread builds which base cell in which order, the
    lists of all colours and threads hold every pair once. *)
Theorem C54_var_verlet_lists : forall (P : Type) (pid : P -> Z) isHalo (old now : P -> R3) view cf lay cut skin csf bMin bMax ps threads schedule,
  verletSetup pid isHalo old now view cf cut skin csf bMin bMax ps ->
  let il := (cut + skin)%R in let b := verletBlock rndExact cut skin csf bMin bMax in
  let dims := blockDims b in let ov := blockOverlap rndExact il b in
  Forall2 (fun sch color => Permutation (map fst sch) color) schedule (c08Colors dims ov) ->
  (forall sch base t, In sch schedule -> In (base, t) sch -> (t < threads)%nat) ->
  exists cells st calls, lcAddAll isHalo rndExact b old (lcEmpty b) ps = Some cells /\
    vvlBuild pid old il (useNewton3 cf) (vvlInit threads) (vvlSteps isHalo view old cf rndExact il b cells schedule) = Some st /\
    vvlTraverse pid lay (useNewton3 cf) cells st = Some calls /\
    everyPairOnce pid isHalo now cut ps (concat (concat calls)).
Proof. intros P pid isHalo old now view cf lay cut skin csf bMin bMax ps threads schedule H. cbv zeta. intros H1 H2. destruct (top_vvl pid isHalo old now view cf lay cut skin csf bMin bMax ps H threads schedule H1 H2) as (cells & st & calls & E1 & E2 & E3 & E4 & _). exists cells, st, calls. auto. Qed.
Print Assumptions C54_var_verlet_lists.

(** VarVerletLists: within a colour, the lists built by different threads do not
    update a common particle, whichever threads process them. *)
Theorem C55_var_verlet_lists : forall (P : Type) (pid : P -> Z) isHalo (old now : P -> R3) view cf lay cut skin csf bMin bMax ps threads schedule,
  verletSetup pid isHalo old now view cf cut skin csf bMin bMax ps ->
  let il := (cut + skin)%R in let b := verletBlock rndExact cut skin csf bMin bMax in
  let dims := blockDims b in let ov := blockOverlap rndExact il b in
  Forall2 (fun sch color => Permutation (map fst sch) color) schedule (c08Colors dims ov) ->
  (forall sch base t, In sch schedule -> In (base, t) sch -> (t < threads)%nat) ->
  exists cells st calls, lcAddAll isHalo rndExact b old (lcEmpty b) ps = Some cells /\
    vvlBuild pid old il (useNewton3 cf) (vvlInit threads) (vvlSteps isHalo view old cf rndExact il b cells schedule) = Some st /\
    vvlTraverse pid lay (useNewton3 cf) cells st = Some calls /\
    Forall noSharedWrites calls.
Proof. intros P pid isHalo old now view cf lay cut skin csf bMin bMax ps threads schedule H. cbv zeta. intros H1 H2. destruct (top_vvl pid isHalo old now view cf lay cut skin csf bMin bMax ps H threads schedule H1 H2) as (cells & st & calls & E1 & E2 & E3 & _ & E4). exists cells, st, calls. auto. Qed.
Print Assumptions C55_var_verlet_lists.

(** Both rest on the overlap being one cell, which holds in exact arithmetic (the
    cell size factor is at least 1) but not with IEEE arithmetic: for the cutoff
    1.3, skin 0 and a box of length 11.7 the traversal that builds VarVerletLists
    has more than the 8 colours for which there are lists.  A base cell for owned
    particles belongs to such a colour, it is processed with itself, and a pair
    found there is written past the end of the array. *)
Theorem C54_var_verlet_lists_rounding_refuted : exists cut box, isDouble cut /\ isDouble box /\
  let b := verletBlock rndDouble cut 0 1 (mkR3 0 0 0) (mkR3 box box box) in
  let il := (cut + 0)%R in
  let dims := blockDims b in let ov := blockOverlap rndDouble il b in
  longEnough rndDouble il 0 box /\
  exists color bases base, (vvlNumColors <= color)%nat /\ nth_error (c08Colors dims ov) color = Some bases /\ In base bases /\
    cellCanContainOwnedParticles b (threeToOneD base dims) = true /\
    (forall near, near 0 0 0 = true ->
       In (threeToOneD base dims, threeToOneD base dims)
          (c08ProcessBaseCell (computePairwiseCellOffsetsC08 near ov dims) (threeToOneD base dims))) /\
    (forall P (pid : P -> Z) pos nn threads st thread calls, length st = length (@vvlInit P threads) ->
       flat_map (genPushes pos il nn) calls <> [] -> vvlStep pid pos il nn st (color, thread, calls) = None).
Proof. exact vvl_rounding. Qed.
Print Assumptions C54_var_verlet_lists_rounding_refuted.

(** Non-vacuity: four particles, one of which moved since the lists were built, in
    the box [0,3)^3 with cutoff 3/4, skin 1/4 and cell size factor 1/2; two owned
    particles in different cells and a halo particle within the cutoff.  Schedules
    with two threads exist, and so do slicings. *)
Example C54_nonvacuous : forall cf, useNewton3 cf || bidirectional cf = true ->
  verletSetup (fun p => p) exHalo exOld exPos (sortBy exOld) cf (3 / 4) (1 / 4) (1 / 2) (mkR3 0 0 0) (mkR3 3 3 3) exPs /\
  (dist3 (exPos 0) (exPos 1) <= 3 / 4)%R /\ (dist3 (exPos 0) (exPos 2) <= 3 / 4)%R /\ exHalo 0 = false.
Proof. exact ex_setup. Qed.
Example C54_nonvacuous_schedule : forall colors,
  Forall2 (fun sch color => Permutation (map fst sch) color) (exSchedule colors) colors /\
  (forall sch base t, In sch (exSchedule colors) -> In (base, t) sch -> (t < 2)%nat).
Proof. exact ex_schedule. Qed.
Example C55_nonvacuous : vlcLockSlicing (mkI3 5 12 4) (mkI3 1 1 1) [3; 3; 3; 3] /\ vlcC02Slices (mkI3 5 12 4) (mkI3 1 1 1) = [2; 2; 2; 2; 2; 2] /\
  length (vlcC18Colors (mkI3 5 5 5) (mkI3 1 1 1)) = 18%nat.
Proof. split; [left; reflexivity|]. split; reflexivity. Qed.
