(** Linked cells: every pair of particles within the interaction length is
    handed to the functor exactly once. *)
From Coq Require Import Reals Lra.
From Flocq Require Import Core.
From Verif.Base Require Import ZRange Occ.
From Verif.Grid Require Import IndexModel IndexSpec IndexProofs CellBlockModel CellBlockSpec CellBlockExact.
From Verif.Traversal Require Import CellSpec CellLemmas C08Model C08Proofs C08Bases C04Model C18Model C18Proofs C01Model C01Spec C01Proofs.
From Verif.Functor Require Import CellFunctorModel FunctorSpec SortModel SortSpec SortProofs.
From Verif.Container Require Import LinkedCellsModel LinkedCellsSpec LinkedCellsBuild LinkedCellsCount LinkedCellsDir LinkedCellsGeo.
Open Scope Z_scope.

Section LC.
  Context {P : Type}.
  Variables (pid : P -> Z) (isHalo : P -> bool) (pos old : P -> R3) (view : R3 -> list P -> list P).
  Variables (cf : CFSettings) (il csf s : R) (bMin bMax : R3) (ps : list P).
  Let b := rebuild rndExact il csf bMin bMax.
  Let dims := blockDims b.
  Let len := blockLength b.
  Let ov := blockOverlap rndExact il b.
  Let near := nearR len il.
  Let h := mkI3 (cellsPerInteractionLength rndExact csf) (cellsPerInteractionLength rndExact csf) (cellsPerInteractionLength rndExact csf).
  Hypothesis Hgrid : validGrid il csf bMin bMax.
  Hypothesis Hview : forall dir l, isSortedView pos dir l (view dir l).
  Hypothesis Hids : distinctIds pid ps.
  Hypothesis Hps : validParticles isHalo old b bMin bMax ps.
  Hypothesis Hs : (0 <= s <= il)%R.
  Hypothesis Hmoved : movedAtMost old pos s ps.

  Lemma lc_haloCovers : haloCovers h ov /\ positive ov.
  Proof.
    destruct Hgrid as (Hil & Hcsf & (BX & BY & BZ) & LX & LY & LZ & _).
    pose proof (exact_halo_dim il csf _ _ Hil Hcsf BX LX) as (_ & _ & OX).
    pose proof (exact_halo_dim il csf _ _ Hil Hcsf BY LY) as (_ & _ & OY).
    pose proof (exact_halo_dim il csf _ _ Hil Hcsf BZ LZ) as (_ & _ & OZ).
    change (dHalo (rebuildDim rndExact il csf (rx bMin) (rx bMax))) with (ix h) in OX.
    change (dHalo (rebuildDim rndExact il csf (ry bMin) (ry bMax))) with (iy h) in OY.
    change (dHalo (rebuildDim rndExact il csf (rz bMin) (rz bMax))) with (iz h) in OZ.
    unfold haloCovers, positive, ov, blockOverlap, b, rebuild. cbn [bX bY bZ ix iy iz] in *.
    repeat split; try apply OX; try apply OY; try apply OZ; eapply Z.lt_le_trans; try apply OX; try apply OY; try apply OZ; reflexivity.
  Qed.

  Lemma lc_fits2 : gridFits2x dims ov.
  Proof.
    destruct lc_haloCovers as ((C1 & C2 & C3) & Hp). split; [exact Hp|].
    pose proof (exact_N il csf (rx bMin) (rx bMax)). pose proof (exact_N il csf (ry bMin) (ry bMax)). pose proof (exact_N il csf (rz bMin) (rz bMax)).
    assert (E : forall lo hi, dWithHalo (rebuildDim rndExact il csf lo hi) = cellsPerDim rndExact (hi - lo) il csf + 2 * ix h) by reflexivity.
    unfold dims, blockDims, b, rebuild. cbn [bX bY bZ ix iy iz]. rewrite !E.
    change (iy h) with (ix h) in C2. change (iz h) with (ix h) in C3. lia.
  Qed.

  Lemma lc_fits : gridFits dims ov.
  Proof. destruct lc_fits2 as (Hp & H1 & H2 & H3). split; [exact Hp|]. unfold positive in Hp. lia. Qed.

  Lemma near_mono : monotoneX near.
  Proof.
    destruct Hgrid as (Hil & Hcsf & Hb & _). pose proof (len_pos il csf bMin bMax Hb) as (L1 & _). fold b in L1. fold len in L1.
    intros x x' y z Hx. unfold near, nearR. destruct (Rle_dec _ _) as [H|H]; [|discriminate]. intros _.
    destruct (Rle_dec _ _) as [H'|H']; [reflexivity|]. exfalso. apply H'. eapply Rle_trans; [|exact H].
    unfold dot. cbn [rx ry rz]. apply Rplus_le_compat_r, Rplus_le_compat_r.
    assert (0 <= IZR (Z.max 0 (x - 1)) * rx len <= IZR (Z.max 0 (x' - 1)) * rx len)%R.
    { split; [apply Rmult_le_pos; [apply IZR_le; lia|lra]|apply Rmult_le_compat_r; [lra|apply IZR_le; lia]]. }
    apply Rmult_le_compat; lra.
  Qed.

  Lemma lc_cell p : In p ps -> exists k, inGrid dims k /\ inCell rndExact b old (threeToOneD k dims) p = true /\
    inBox (cellLo (getHaloBoxMin b) len k) (cellHi (getHaloBoxMin b) len k) (old p) /\
    (isHalo p = false -> ownedCell dims h k).
  Proof.
    intros Hp. destruct Hgrid as (Hil & Hcsf & Hb & _ & _ & _ & SX & SY & SZ).
    unfold validParticles in Hps. rewrite Forall_forall in Hps. destruct (Hps p Hp) as [Hin Ho].
    destruct (cell_of il csf bMin bMax Hcsf Hb SX SY SZ old p Hin) as (k & G & B & E). exists k.
    split; [exact G|]. split; [|split; [exact B|]].
    - unfold inCell. fold b in E. rewrite E. now apply Z.eqb_eq.
    - intros Hh. apply (owned_spec il csf bMin bMax Hcsf k G). apply (owned_cell il csf bMin bMax Hcsf Hb k (old p) G B). now apply Ho.
  Qed.

  Lemma lc_geo p k : In p ps -> inGrid dims k -> inCell rndExact b old (threeToOneD k dims) p = true ->
    inClosedBox (cellLo (getHaloBoxMin b) len k) (cellHi (getHaloBoxMin b) len k) (old p).
  Proof.
    intros Hp Hk H. destruct Hgrid as (Hil & Hcsf & Hb & _ & _ & _ & SX & SY & SZ).
    unfold validParticles in Hps. rewrite Forall_forall in Hps. destruct (Hps p Hp) as [Hin _].
    apply (inCell_iff il csf bMin bMax Hcsf Hb SX SY SZ old k p Hk Hin) in H.
    destruct H as (H1 & H2 & H3). unfold inClosedBox. fold b in H1, H2, H3. fold len in H1, H2, H3. lra.
  Qed.

  Lemma lc_placed : Forall (placed isHalo rndExact b old) ps.
  Proof.
    destruct Hgrid as (Hil & Hcsf & Hb & _ & _ & _ & SX & SY & SZ).
    eapply Forall_impl; [|exact Hps]. intros p [Hin Ho]. now apply placed_of.
  Qed.

  Lemma lc_build : exists cells, lcAddAll isHalo rndExact b old (lcEmpty b) ps = Some cells /\ built rndExact b old ps cells.
  Proof.
    apply lcBuild. exact lc_placed.
  Qed.

  Lemma lc_reach a c ka kc : In a ps -> In c ps ->
    inBox (cellLo (getHaloBoxMin b) len ka) (cellHi (getHaloBoxMin b) len ka) (old a) ->
    inBox (cellLo (getHaloBoxMin b) len kc) (cellHi (getHaloBoxMin b) len kc) (old c) ->
    (dist3 (pos a) (pos c) <= il - s)%R -> withinReach near ov ka kc.
  Proof.
    intros Ia Ic Ba Bc Hd. destruct Hgrid as (Hil & Hcsf & Hb & _).
    apply (geo_reach il csf bMin bMax Hil Hb ka kc (old a) (old c) Ba Bc).
    unfold movedAtMost in Hmoved. rewrite Forall_forall in Hmoved.
    apply (drift_near (pos a) (pos c) (old a) (old c) (il - s) s il); auto. lra.
  Qed.

  (** Any list of cell functor calls that point from cell to cell and process
      every two cells within reach, one of them owned, exactly once. *)
  Lemma lc_both calls : directed dims calls ->
    (forall ka kc, inGrid dims ka -> inGrid dims kc ->
       (timesProcessed dims (map fst calls) ka kc <= 1)%nat /\
       (ownedCell dims h ka \/ ownedCell dims h kc -> withinReach near ov ka kc ->
        timesProcessed dims (map fst calls) ka kc = 1%nat)) ->
    useNewton3 cf || bidirectional cf = true ->
    exists cells, lcAddAll isHalo rndExact b old (lcEmpty b) ps = Some cells /\
    forall a c, In a ps -> In c ps -> a <> c ->
      (received pid (lcInteract isHalo view pos cf il len cells calls) a c <= 1)%nat /\
      (isHalo a = false \/ isHalo c = false -> (dist3 (pos a) (pos c) <= il - s)%R ->
       received pid (lcInteract isHalo view pos cf il len cells calls) a c = 1%nat).
  Proof.
    intros Hdir Hcalls Hboth. destruct lc_build as (cells & E & Hb). exists cells. split; [exact E|].
    intros a c Ia Ic Hne. destruct (lc_cell a Ia) as (ka & Ga & Ca & Ba & Oa). destruct (lc_cell c Ic) as (kc & Gc & Cc & Bc & Oc).
    destruct (Hcalls ka kc Ga Gc) as [Hle Heq]. split.
    - eapply Nat.le_trans; [|exact Hle].
      apply (traversal_le pid isHalo pos old view cf rndExact b ps cells il (getHaloBoxMin b) len); auto. exact lc_geo.
    - intros Hown Hd. rewrite <- Heq.
      + destruct Hgrid as (Hil & Hcsf & Hbox & _).
        apply (traversal_eq pid isHalo pos old view cf rndExact b ps cells il s (getHaloBoxMin b) len); auto.
        * exact lc_placed.
        * now apply len_pos.
        * lra.
        * exact lc_geo.
        * lra.
        * rewrite dist3_sym. lra.
      + tauto.
      + now apply (lc_reach a c).
  Qed.

  Lemma lc_c08_family bases : Permutation bases (concat (c08Colors dims ov)) ->
    useNewton3 cf || bidirectional cf = true ->
    exists cells, lcAddAll isHalo rndExact b old (lcEmpty b) ps = Some cells /\
    forall a c, In a ps -> In c ps -> a <> c ->
      (received pid (lcInteract isHalo view pos cf il len cells (c08StepsDir near dims ov bases)) a c <= 1)%nat /\
      (isHalo a = false \/ isHalo c = false -> (dist3 (pos a) (pos c) <= il - s)%R ->
       received pid (lcInteract isHalo view pos cf il len cells (c08StepsDir near dims ov bases)) a c = 1%nat).
  Proof.
    intros Hperm. apply lc_both.
    - apply c08StepsDir_directed; [exact lc_fits|]. intros k Hk. apply c08_bases_box; [exact lc_fits|]. eapply Permutation_in; eauto.
    - intros ka kc Ga Gc. rewrite c08StepsDir_fst.
      assert (Hp : Permutation (c08BaseSteps near dims ov bases) (c08Calls near dims ov)).
      { rewrite <- c08CallsDir_fst. unfold c08CallsDir. rewrite c08StepsDir_fst. now apply perm_flat_map. }
      unfold timesProcessed. rewrite (occ_perm _ _ _ Hp). split.
      + apply c08_at_most_once; auto using lc_fits.
      + intros Ho Hr. apply (c08_exactly_once near dims ov h); auto using lc_fits. apply lc_haloCovers.
  Qed.

  Lemma lc_c18 : useNewton3 cf || bidirectional cf = true ->
    exists cells, lcAddAll isHalo rndExact b old (lcEmpty b) ps = Some cells /\
    forall a c, In a ps -> In c ps -> a <> c ->
      (received pid (lcInteract isHalo view pos cf il len cells (c18CallsDir near dims ov)) a c <= 1)%nat /\
      (isHalo a = false \/ isHalo c = false -> (dist3 (pos a) (pos c) <= il - s)%R ->
       received pid (lcInteract isHalo view pos cf il len cells (c18CallsDir near dims ov)) a c = 1%nat).
  Proof.
    apply lc_both.
    - apply c18CallsDir_directed, lc_fits2.
    - intros ka kc Ga Gc. rewrite c18CallsDir_eq by exact lc_fits2. split.
      + apply c18_at_most_once; auto using lc_fits2.
      + intros Ho Hr. apply (c18_exactly_once near dims ov h); auto using lc_fits2. apply lc_haloCovers.
  Qed.

  Lemma lc_c01 : useNewton3 cf = false -> bidirectional cf = false ->
    exists cells, lcAddAll isHalo rndExact b old (lcEmpty b) ps = Some cells /\
    forall a c, In a ps -> In c ps -> a <> c -> isHalo a = false -> (dist3 (pos a) (pos c) <= il - s)%R ->
      received pid (lcInteract isHalo view pos cf il len cells (c01CallsDir near ov dims)) a c = 1%nat.
  Proof.
    intros Hn Hbi. destruct lc_build as (cells & E & Hb). exists cells. split; [exact E|].
    intros a c Ia Ic Hne Hown Hd. destruct (lc_cell a Ia) as (ka & Ga & Ca & Ba & Oa). destruct (lc_cell c Ic) as (kc & Gc & Cc & Bc & Oc).
    destruct Hgrid as (Hil & Hcsf & Hbox & _).
    rewrite (traversal_ordered pid isHalo pos old view cf rndExact b ps cells il s (getHaloBoxMin b) len) with (ka := ka) (kc := kc); auto.
    - rewrite c01CallsDir_eq. apply c01_exactly_once; auto using lc_fits2, near_mono.
      + specialize (Oa Hown). destruct lc_haloCovers as ((C1 & C2 & C3) & _). unfold ownedCell in *. lia.
      + now apply (lc_reach a c).
    - exact lc_placed.
    - now apply len_pos.
    - lra.
    - exact lc_geo.
    - apply c01CallsDir_directed, lc_fits2.
    - lra.
    - rewrite dist3_sym. lra.
  Qed.
End LC.
