(** The Verlet list containers: adding, building and traversing. *)
From Coq Require Import Reals Lra.
From Verif.Base Require Import ZRange Occ OptionM Lists.
From Verif.Grid Require Import IndexModel IndexSpec IndexProofs CellBlockModel CellBlockSpec CellBlockExact.
From Verif.Traversal Require Import ColorModel ColorProofs CellSpec CellLemmas C01Model C08Model C08Proofs C08Bases C04Model C18Model C18Proofs SliceModel SliceSpec SliceProofs LockModel LockProofs.
From Verif.Functor Require Import CellFunctorModel FunctorSpec CellFunctorProofs SortModel SortSpec SortProofs.
From Verif.Container Require Import LinkedCellsModel LinkedCellsSpec LinkedCellsBuild LinkedCellsCount LinkedCellsDir LinkedCellsGeo LinkedCellsProofs.
From Verif.Verlet Require Import VerletModel VerletSpec VerletGen VerletStore VerletCells VerletBase VerletTraverse VerletProofs VerletPairs VerletAsBuilt VerletC08Model VerletC08Proofs.
Open Scope Z_scope.

Section Top.
  Context {P : Type}.
  Variables (pid : P -> Z) (isHalo : P -> bool) (old now : P -> R3) (view : R3 -> list P -> list P).
  Variables (cf : CFSettings) (lay : Layout) (cut skin csf : R) (bMin bMax : R3) (ps : list P).
  Hypothesis Hset : verletSetup pid isHalo old now view cf cut skin csf bMin bMax ps.
  Let il := (cut + skin)%R.
  Let b := verletBlock rndExact cut skin csf bMin bMax.
  Let dims := blockDims b.
  Let ov := blockOverlap rndExact il b.
  Let n3_ := useNewton3 cf.
  Let add := lcAddAll isHalo rndExact b old (lcEmpty b) ps.

  Let Hcut := proj1 Hset.
  Let Hskin := proj1 (proj2 Hset).
  Let Hgrid := proj1 (proj2 (proj2 Hset)).
  Let Hids := proj1 (proj2 (proj2 (proj2 Hset))).
  Let Hps := proj1 (proj2 (proj2 (proj2 (proj2 Hset)))).
  Let Hmoved := proj1 (proj2 (proj2 (proj2 (proj2 (proj2 Hset))))).
  Let Hview := proj1 (proj2 (proj2 (proj2 (proj2 (proj2 (proj2 Hset)))))).
  Let Hn := proj2 (proj2 (proj2 (proj2 (proj2 (proj2 (proj2 Hset)))))).
  Let Hcsf : (1 <= Rmax 1 csf)%R := Rmax_l 1 csf.

  Lemma top_add cells : add = Some cells -> built rndExact b old ps cells.
  Proof.
    intros E. destruct (v_build isHalo old il (Rmax 1 csf) bMin bMax ps Hgrid Hps) as (cells' & E' & Hb).
    unfold add, b, verletBlock in E. fold il in E. rewrite E' in E. injection E as <-. exact Hb.
  Qed.
  Lemma top_added : exists cells, add = Some cells.
  Proof. destruct (v_build isHalo old il (Rmax 1 csf) bMin bMax ps Hgrid Hps) as (cells' & E' & Hb). eexists. exact E'. Qed.

  (** ** VerletLists *)
  Lemma top_vl bases : Permutation bases (concat (c08Colors dims ov)) ->
    exists cells lists, add = Some cells /\
      vlBuild pid old il n3_ cells (c08ListCalls isHalo view old cf rndExact il b cells bases) = Some lists /\
      (forall buckets, Permutation (concat buckets) lists ->
         everyPairOnce pid isHalo now cut ps (concat (vlTraverseAoS n3_ buckets)) /\
         (n3_ = false -> noSharedWrites (vlTraverseAoS n3_ buckets))) /\
      (forall table order, Permutation order (seq 0 (length lists)) ->
         exists soa calls, vlSoALists pid cells lists table = Some soa /\ vlTraverseSoA n3_ cells soa order = Some calls /\
           everyPairOnce pid isHalo now cut ps (concat calls) /\ (n3_ = false -> noSharedWrites calls)).
  Proof.
    intros H. exact (vl_all pid isHalo old now view cf cut skin (Rmax 1 csf) bMin bMax ps Hgrid Hview Hids Hps Hcut Hskin Hmoved Hn bases H).
  Qed.

  Section Cells.
    Variable cells : list (Cell P).
    Hypothesis Hadd : add = Some cells.
    Let Hb := top_add cells Hadd.
    Let pushes := flat_map (genPushes old il n3_) (c18ListCalls isHalo view old cf rndExact il b cells).

    (** ** Lists per cell *)
    Lemma top_vlc m : exists lists, vlcBuild pid old il n3_ m cells (c18ListCalls isHalo view old cf rndExact il b cells) = Some lists /\
      length lists = length cells /\
      (forall c ls p, nth_error lists c = Some ls -> In p (map fst ls) -> cellHas cells c p) /\
      Permutation (pairsOf (concat lists)) pushes.
    Proof.
      destruct (vlcBuild_spec pid cells (c_ids pid old cut skin (Rmax 1 csf) bMin bMax ps Hids cells Hb) m pushes) as (lists & E & Hs & Hp).
      - intros i j Hij. apply (c_all isHalo old view cut skin (Rmax 1 csf) bMin bMax ps Hgrid Hview Hps cells Hb).
        destruct (c_pushes pid isHalo old now view cf cut skin (Rmax 1 csf) bMin bMax ps Hgrid Hview Hids Hps Hcut Hskin Hmoved Hn cells Hadd Hb i j Hij) as [H _].
        exact H.
      - exists lists. split; [exact E|]. split; [now apply vlcShape_length|]. split; [|exact Hp].
        intros c ls p Hc Hin. destruct (vlcShape_at cells lists c ls Hs Hc) as (cell & Ec & Ek). exists cell. split; [exact Ec|]. now rewrite <- Ek.
    Qed.

    Lemma top_slicing t : vlcLockSlicing dims ov t -> 0 < vlcSliceOverlap dims ov /\ thick (vlcSliceOverlap dims ov + 1) 1 t.
    Proof.
      intros H. destruct (top_vlc (fun _ => None)) as (lists & _ & H1 & H2 & H3). split.
      - exact (proj1 (o_len old view cf cut skin (Rmax 1 csf) bMin bMax ps Hgrid Hview cells lists H1)).
      - exact (proj2 (proj2 (lock_slicing old view cf cut skin (Rmax 1 csf) bMin bMax ps Hgrid Hview cells lists H1 H2 t H))).
    Qed.

    Section Vlc.
      Variables (m : CellMap) (lists : list (list (NList P))).
      Hypothesis Hbuild : vlcBuild pid old il n3_ m cells (c18ListCalls isHalo view old cf rndExact il b cells) = Some lists.

      Let held : length lists = length cells /\
        (forall c ls p, nth_error lists c = Some ls -> In p (map fst ls) -> cellHas cells c p) /\
        Permutation (pairsOf (concat lists)) pushes.
      Proof. destruct (top_vlc m) as (l & E & H). rewrite Hbuild in E. injection E as <-. exact H. Qed.

      Lemma top_vlc_c01 : n3_ = false -> exists calls, vlcTraverse pid lay n3_ cells lists dims (c01Colors ov dims) = Some calls /\
        everyOwnedPairOnce pid isHalo now cut ps (concat (concat calls)) /\ noSharedWrites (concat calls).
      Proof.
        exact (held_c01 pid isHalo old now view cf lay cut skin (Rmax 1 csf) bMin bMax ps Hgrid Hview Hids Hps Hcut Hskin Hmoved Hn cells Hadd Hb
          lists (proj1 held) (proj1 (proj2 held)) (proj2 (proj2 held))).
      Qed.
      Lemma top_vlc_c18 : exists calls, vlcTraverse pid lay n3_ cells lists dims (vlcC18Colors dims ov) = Some calls /\
        everyPairOnce pid isHalo now cut ps (concat (concat calls)) /\ Forall noSharedWrites calls.
      Proof.
        exact (held_c18 pid isHalo old now view cf lay cut skin (Rmax 1 csf) bMin bMax ps Hgrid Hview Hids Hps Hcut Hskin Hmoved Hn cells Hadd Hb
          lists (proj1 held) (proj1 (proj2 held)) (proj2 (proj2 held))).
      Qed.
      Lemma top_vlc_sliced t k d st : vlcLockSlicing dims ov t ->
        let n := Z.of_nat (length t) in
        reach n (initState (sliceProg t (vlcSliceOverlap dims ov))) k d st -> (forall s ev st', ~ step n st s ev st') ->
        exists calls, vlcTraverse pid lay n3_ cells lists dims (map (vlcLayer dims) d) = Some calls /\
          everyPairOnce pid isHalo now cut ps (concat (concat calls)).
      Proof.
        exact (held_sliced pid isHalo old now view cf lay cut skin (Rmax 1 csf) bMin bMax ps Hgrid Hview Hids Hps Hcut Hskin Hmoved Hn cells Hadd Hb
          lists (proj1 held) (proj1 (proj2 held)) (proj2 (proj2 held)) t k d st).
      Qed.
      Lemma top_vlc_locks t k d st s1 s2 l1 l2 : vlcLockSlicing dims ov t ->
        let n := Z.of_nat (length t) in
        reach n (initState (sliceProg t (vlcSliceOverlap dims ov))) k d st -> 0 <= s1 < n -> 0 <= s2 < n -> s1 <> s2 ->
        processing st s1 l1 -> processing st s2 l2 ->
        exists calls, vlcTraverse pid lay n3_ cells lists dims [vlcLayer dims l1; vlcLayer dims l2] = Some calls /\
          noSharedWrites (map (@concat _) calls).
      Proof.
        exact (held_locks pid isHalo old now view cf lay cut skin (Rmax 1 csf) bMin bMax ps Hgrid Hview Hids Hps Hcut Hskin Hmoved Hn cells Hadd Hb
          lists (proj1 held) (proj1 (proj2 held)) (proj2 (proj2 held)) t k d st s1 s2 l1 l2).
      Qed.
      Lemma top_vlc_c02 :
        (exists calls, vlcTraverse pid lay n3_ cells lists dims (concat (vlcC02Colors dims ov)) = Some calls /\
           everyPairOnce pid isHalo now cut ps (concat (concat calls))) /\
        (forall color, In color (vlcC02Colors dims ov) -> exists calls,
           vlcTraverse pid lay n3_ cells lists dims color = Some calls /\ noSharedWrites (map (@concat _) calls)).
      Proof.
        exact (held_c02 pid isHalo old now view cf lay cut skin (Rmax 1 csf) bMin bMax ps Hgrid Hview Hids Hps Hcut Hskin Hmoved Hn cells Hadd Hb
          lists (proj1 held) (proj1 (proj2 held)) (proj2 (proj2 held))).
      Qed.
    End Vlc.

    (** ** Lists per base step *)
    Lemma top_c08 est prev : exists lists,
      c08Rebuild pid old (cellsPerInteractionLength rndExact (Rmax 1 csf)) il n3_ dims est prev cells = Some lists /\
      exists calls, vlcTraverse pid lay n3_ cells lists dims (c08Colors dims ov) = Some calls /\
        everyPairOnce pid isHalo now cut ps (concat (concat calls)) /\ Forall noSharedWrites calls.
    Proof.
      exact (c08_all pid isHalo old now view n3_ lay cut skin (Rmax 1 csf) bMin bMax ps Hgrid Hview Hids Hps Hcut Hskin Hmoved Hcsf cells Hadd Hb est prev).
    Qed.

    (** ** Lists per pair of cells *)
    Let nc := vlpNeighborCells (nearR (blockLength b) il) ov n3_.
    Lemma top_vlp : exists st, vlpBuild pid old il n3_ nc cells (c18ListCalls isHalo view old cf rndExact il b cells) = Some st /\
      vlpGood cells nc (partners cf cut skin (Rmax 1 csf) bMin bMax) st /\ Permutation (vlpFlat st) pushes.
    Proof.
      exact (vlp_built pid isHalo old now view cf cut skin (Rmax 1 csf) bMin bMax ps Hgrid Hview Hids Hps Hcut Hskin Hmoved Hn Hcsf cells Hadd Hb (fun _ => None)).
    Qed.

    Section Vlp.
      Variable st : VlpState P.
      Hypothesis Hbuild : vlpBuild pid old il n3_ nc cells (c18ListCalls isHalo view old cf rndExact il b cells) = Some st.
      Let held0 : vlpGood cells nc (partners cf cut skin (Rmax 1 csf) bMin bMax) st /\ Permutation (vlpFlat st) pushes.
      Proof. destruct top_vlp as (l & E & H). rewrite Hbuild in E. injection E as <-. exact H. Qed.
      Let lists := map (@concat (NList P)) (vlpLists st).
      Let held : length lists = length cells /\
        (forall c ls p, nth_error lists c = Some ls -> In p (map fst ls) -> cellHas cells c p) /\
        Permutation (pairsOf (concat lists)) pushes.
      Proof.
        exact (vlp_lists isHalo old view cf cut skin (Rmax 1 csf) bMin bMax ps Hview cells st (proj1 held0) (proj2 held0)).
      Qed.
      Let conv groups : vlpTraverse pid lay n3_ cells st dims groups = vlcTraverse pid lay n3_ cells lists dims groups.
      Proof. exact (vlp_process pid cf lay cut skin (Rmax 1 csf) bMin bMax cells st groups). Qed.

      Lemma top_vlp_c01 : n3_ = false -> exists calls, vlpTraverse pid lay n3_ cells st dims (c01Colors ov dims) = Some calls /\
        everyOwnedPairOnce pid isHalo now cut ps (concat (concat calls)) /\ noSharedWrites (concat calls).
      Proof.
        rewrite conv.
        exact (held_c01 pid isHalo old now view cf lay cut skin (Rmax 1 csf) bMin bMax ps Hgrid Hview Hids Hps Hcut Hskin Hmoved Hn cells Hadd Hb
          lists (proj1 held) (proj1 (proj2 held)) (proj2 (proj2 held))).
      Qed.
      Lemma top_vlp_c18 : exists calls, vlpTraverse pid lay n3_ cells st dims (vlcC18Colors dims ov) = Some calls /\
        everyPairOnce pid isHalo now cut ps (concat (concat calls)) /\ Forall noSharedWrites calls.
      Proof.
        rewrite conv.
        exact (held_c18 pid isHalo old now view cf lay cut skin (Rmax 1 csf) bMin bMax ps Hgrid Hview Hids Hps Hcut Hskin Hmoved Hn cells Hadd Hb
          lists (proj1 held) (proj1 (proj2 held)) (proj2 (proj2 held))).
      Qed.
      Lemma top_vlp_sliced t k d s : vlcLockSlicing dims ov t ->
        let n := Z.of_nat (length t) in
        reach n (initState (sliceProg t (vlcSliceOverlap dims ov))) k d s -> (forall i ev s', ~ step n s i ev s') ->
        exists calls, vlpTraverse pid lay n3_ cells st dims (map (vlcLayer dims) d) = Some calls /\
          everyPairOnce pid isHalo now cut ps (concat (concat calls)).
      Proof.
        rewrite conv.
        exact (held_sliced pid isHalo old now view cf lay cut skin (Rmax 1 csf) bMin bMax ps Hgrid Hview Hids Hps Hcut Hskin Hmoved Hn cells Hadd Hb
          lists (proj1 held) (proj1 (proj2 held)) (proj2 (proj2 held)) t k d s).
      Qed.
      Lemma top_vlp_locks t k d s s1 s2 l1 l2 : vlcLockSlicing dims ov t ->
        let n := Z.of_nat (length t) in
        reach n (initState (sliceProg t (vlcSliceOverlap dims ov))) k d s -> 0 <= s1 < n -> 0 <= s2 < n -> s1 <> s2 ->
        processing s s1 l1 -> processing s s2 l2 ->
        exists calls, vlpTraverse pid lay n3_ cells st dims [vlcLayer dims l1; vlcLayer dims l2] = Some calls /\
          noSharedWrites (map (@concat _) calls).
      Proof.
        rewrite conv.
        exact (held_locks pid isHalo old now view cf lay cut skin (Rmax 1 csf) bMin bMax ps Hgrid Hview Hids Hps Hcut Hskin Hmoved Hn cells Hadd Hb
          lists (proj1 held) (proj1 (proj2 held)) (proj2 (proj2 held)) t k d s s1 s2 l1 l2).
      Qed.
      Lemma top_vlp_c02 :
        (exists calls, vlpTraverse pid lay n3_ cells st dims (concat (vlcC02Colors dims ov)) = Some calls /\
           everyPairOnce pid isHalo now cut ps (concat (concat calls))) /\
        (forall color, In color (vlcC02Colors dims ov) -> exists calls,
           vlpTraverse pid lay n3_ cells st dims color = Some calls /\ noSharedWrites (map (@concat _) calls)).
      Proof.
        destruct (held_c02 pid isHalo old now view cf lay cut skin (Rmax 1 csf) bMin bMax ps Hgrid Hview Hids Hps Hcut Hskin Hmoved Hn cells Hadd Hb
          lists (proj1 held) (proj1 (proj2 held)) (proj2 (proj2 held))) as [H1 H2].
        split; [rewrite conv; exact H1|]. intros color Hc. rewrite conv. exact (H2 color Hc).
      Qed.
      Lemma top_vlp_c08 : exists calls, vlpC08Traverse pid lay n3_ cells st (c08Tasks (nearR (blockLength b) il) dims ov) = Some calls /\
        everyPairOnce pid isHalo now cut ps (concat (concat calls)) /\ Forall noSharedWrites calls.
      Proof.
        exact (vlp_c08 pid isHalo old now view cf lay cut skin (Rmax 1 csf) bMin bMax ps Hgrid Hview Hids Hps Hcut Hskin Hmoved Hn Hcsf cells Hadd Hb
          st (proj1 held0) (proj2 held0)).
      Qed.
    End Vlp.
  End Cells.

  (** ** VarVerletLists *)
  Lemma top_vvl threads schedule :
    Forall2 (fun sch color => Permutation (map fst sch) color) schedule (c08Colors dims ov) ->
    (forall sch base t, In sch schedule -> In (base, t) sch -> (t < threads)%nat) ->
    exists cells st calls, add = Some cells /\
      vvlBuild pid old il n3_ (vvlInit threads) (vvlSteps isHalo view old cf rndExact il b cells schedule) = Some st /\
      vvlTraverse pid lay n3_ cells st = Some calls /\
      everyPairOnce pid isHalo now cut ps (concat (concat calls)) /\ Forall noSharedWrites calls.
  Proof.
    intros H1 H2. destruct top_added as (cells & E). pose proof (top_add cells E) as Hb.
    destruct (vvl_all pid isHalo old now view cf lay cut skin (Rmax 1 csf) bMin bMax ps Hgrid Hview Hids Hps Hcut Hskin Hmoved Hn Hcsf
      threads schedule H1 H2 cells E Hb) as (st & calls & H).
    exists cells, st, calls. split; [exact E|exact H].
  Qed.
End Top.
