(** The container of references on the grid of the linked cells, in exact arithmetic. *)
From Coq Require Import Reals Lra Permutation Bool.
From Verif.Base Require Import ZRange Lists OptionM.
From Verif.Grid Require Import IndexModel IndexSpec IndexProofs CellBlockModel CellBlockSpec CellBlockProofs CellBlockExact.
From Verif.Functor Require Import SortModel.
From Verif.Container Require Import LinkedCellsModel LinkedCellsSpec LinkedCellsGeo IteratorModel IteratorContainers IteratorSpec IteratorLemmas IteratorInstances IteratorRegion
  ParticleModel CollectSpec UpdateProofs.
From Verif.Logic Require Import HandlerModel HandlerCont.
From Verif.Refs Require Import RefModel RefSpec RefProofs RefSweep RefAdd RefTheorem.
Import ListNotations.
Local Open Scope Z_scope.

Section Exact.
  Variables (il csf : R) (bMin bMax : R3) (skin : R).
  Hypothesis Hg : validGrid il csf bMin bMax.
  Hypothesis Hskin : (0 <= skin <= il)%R.
  Let b := rebuild rndExact il csf bMin bMax.

  Lemma exact_lookup x : inGrownBox il bMin bMax x ->
    exists i, get1DIndexOfPosition rndExact b x = Some i /\ 0 <= i < numCells (blockDims b) /\
      (inBox bMin bMax x <-> cellCanContainOwnedParticles b i = true).
  Proof.
    intros H. pose proof Hg as (G1 & G2 & HB & L1 & L2 & L3 & S1 & S2 & S3). pose proof HB as (B1 & B2 & B3).
    assert (HH : inBox (getHaloBoxMin b) (getHaloBoxMax b) x).
    { destruct (exact_halo_dim il csf _ _ G1 G2 B1 L1) as (X1 & X2 & _). destruct (exact_halo_dim il csf _ _ G1 G2 B2 L2) as (Y1 & Y2 & _).
      destruct (exact_halo_dim il csf _ _ G1 G2 B3 L3) as (Z1 & Z2 & _).
      unfold inGrownBox, inBox, growLow, growHigh in H. cbn [rx ry rz] in H. unfold b, inBox, getHaloBoxMin, getHaloBoxMax, rebuild. cbn [rx ry rz bX bY bZ]. lra. }
    destruct (exact3_lookup il csf bMin bMax G2 HB x S1 S2 S3 HH) as (k & E & K & B).
    exists (threeToOneD k (blockDims b)). unfold get1DIndexOfPosition. unfold b. rewrite E. split; [reflexivity|]. split; [apply threeToOneD_range; exact K|].
    apply (owned_cell il csf bMin bMax G2 HB k x K). apply (geo_bounds il csf bMin bMax G2 HB k x K). exact B.
  Qed.

  Lemma exact_place p : ok il bMin bMax p -> exists i, get1DIndexOfPosition rndExact b (ppos p) = Some i /\ 0 <= i < numCells (blockDims b) /\
    (if isHaloP p then cellCanContainHaloParticles b i else cellCanContainOwnedParticles b i) = true.
  Proof.
    intros H. assert (G : inGrownBox il bMin bMax (ppos p)).
    { pose proof Hg as (G1 & _). destruct H as [(_ & H)|(_ & _ & H)]; [|exact H].
      unfold inBox in H. unfold inGrownBox, inBox, growLow, growHigh. cbn [rx ry rz]. lra. }
    destruct (exact_lookup (ppos p) G) as (i & E & R & Q). exists i. split; [exact E|]. split; [exact R|].
    destruct H as [(O & H)|(O & H & _)]; unfold isHaloP, stHalo; rewrite O; cbn [Z.eqb Pos.eqb].
    - apply Q, H.
    - destruct (cellCanContainHaloParticles b i) eqn:Y; [reflexivity|exfalso]. apply H, Q. unfold cellCanContainOwnedParticles. rewrite Y. reflexivity.
  Qed.

  Lemma exact_num : 0 <= numCells (blockDims b).
  Proof. pose proof Hg as (_ & G2 & _). destruct (grid_pos il csf bMin bMax G2) as (P1 & P2 & P3). fold b in P1, P2, P3. unfold numCells. apply Z.mul_nonneg_nonneg; [apply Z.mul_nonneg_nonneg|]; lia. Qed.

  Lemma exact_clear (cells : list (list Ref)) : Z.of_nat (length cells) = numCells (blockDims b) ->
    exists r, clearHaloCells b cells = Some r /\ length r = length cells.
  Proof.
    intros L. pose proof Hg as (_ & G2 & _).
    destruct (clearHaloCells_spec b cells _ eq_refl eq_refl eq_refl (exact_h csf G2) (exact_N il csf _ _) (exact_N il csf _ _) (exact_N il csf _ _) L) as (r & E & Lr & _).
    exists r. split; [exact E|exact Lr].
  Qed.

  Lemma exact_near x : haloPosition il bMin bMax x -> exists is, nearbyHaloCells b x skin = Some is /\
    forall i, In i is -> 0 <= i < numCells (blockDims b) /\ cellCanContainHaloParticles b i = true.
  Proof.
    intros (_ & B). unfold inGrownBox, inBox, growLow, growHigh in B. cbn [rx ry rz] in B.
    destruct (nearbyHaloCells b x skin) as [is|] eqn:N.
    - exists is. split; [reflexivity|]. intros i Hi. assert (O := nearby_only_halo _ _ _ _ N i Hi). unfold onlyHalo in O. apply andb_prop in O as (O & _). split; [|exact O].
      revert N. unfold nearbyHaloCells.
      destruct (index3_defined il csf bMin bMax Hg x) as (own & E0 & G0); [lra|lra|lra|].
      destruct (index3_defined il csf bMin bMax Hg (mkR3 (rx x + - skin) (ry x + - skin) (rz x + - skin))) as (low & E1 & G1); [cbn [rx ry rz]; lra..|].
      destruct (index3_defined il csf bMin bMax Hg (mkR3 (rx x + skin) (ry x + skin) (rz x + skin))) as (high & E2 & G2); [cbn [rx ry rz]; lra..|].
      unfold b. rewrite E0, E1, E2. intros N. injection N as <-. apply in_app_or in Hi as [Hi|Hi].
      + destruct (onlyHalo _ _) in Hi; [|destruct Hi]. destruct Hi as [<-|[]]. apply threeToOneD_range, G0.
      + apply filter_In in Hi as (Hi & _). apply in_flat_map in Hi as (x' & Hx & Hi). apply in_flat_map in Hi as (y & Hy & Hi). apply in_map_iff in Hi as (z & <- & Hz).
        apply in_zrange in Hx, Hy, Hz. apply threeToOneD_range. destruct G1 as (? & ? & ?), G2 as (? & ? & ?). unfold inGrid. cbn [ix iy iz]. lia.
    - exfalso. revert N. unfold nearbyHaloCells.
      destruct (index3_defined il csf bMin bMax Hg x) as (own & E0 & G0); [lra|lra|lra|].
      destruct (index3_defined il csf bMin bMax Hg (mkR3 (rx x + - skin) (ry x + - skin) (rz x + - skin))) as (low & E1 & G1); [cbn [rx ry rz]; lra..|].
      destruct (index3_defined il csf bMin bMax Hg (mkR3 (rx x + skin) (ry x + skin) (rz x + skin))) as (high & E2 & G2); [cbn [rx ry rz]; lra..|].
      unfold b. rewrite E0, E1, E2. discriminate.
  Qed.

  Theorem exact_references grow st l : (forall n, (n < grow n)%nat) -> Reached rndExact grow b il bMin bMax skin st l ->
    holds st l /\ sorted b st /\
    forall e o, allowed il bMin bMax l e -> step rndExact grow b bMin bMax skin st e o ->
      exists st' l', o = Some st' /\ after bMin bMax l e l' /\ holds st' l' /\ (forall out, e = EUpdate out -> placed b rndExact st').
  Proof.
    intros Hgrow. apply (references rndExact grow b il bMin bMax skin Hgrow exact_place).
    - intros k x Hk Ho H. apply (exact_owned_bounds il csf bMin bMax Hg k x Hk Ho H).
    - exact exact_clear.
    - exact exact_near.
    - exact exact_num.
  Qed.
End Exact.
