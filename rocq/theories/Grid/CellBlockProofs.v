(** Proofs about the cell grid. *)
From Coq Require Import Reals Lra Psatz.
From Flocq Require Import Core Relative Plus_error.
From Verif.Base Require Import ZRange OptionM.
From Verif.Grid Require Import IndexModel IndexSpec IndexProofs CellBlockModel CellBlockSpec.
From Verif.Functor Require Import SortModel.
Open Scope R_scope.

(** ** One dimension, any monotone rounding *)
Section OneDim.
  Variable rnd : R -> R.
  Hypothesis rnd_mono : forall x y, x <= y -> rnd x <= rnd y.
  Hypothesis rnd_0 : rnd 0 = 0.
  Variable d : Dim.
  Hypothesis Hh : (1 <= dHalo d)%Z.
  Hypothesis Hn : (1 <= dCells d < 2 ^ 62)%Z.
  Hypothesis Hbox : dMin d < dMax d.
  Hypothesis Hr : 0 <= dRecip d.
  Hypothesis Hupper : forall pos, dMin d <= pos < dMax d ->
    (Zfloor (rnd (rnd (pos - dMin d) * dRecip d)) <= dCells d)%Z.

  Let raw (pos : R) : Z := Zfloor (rnd (rnd (pos - dMin d) * dRecip d)).

  Lemma raw_mono x y : x <= y -> (raw x <= raw y)%Z.
  Proof.
    intros H. unfold raw. apply Zfloor_le. apply rnd_mono. apply Rmult_le_compat_r; [assumption|].
    apply rnd_mono. lra.
  Qed.

  Lemma raw_min : raw (dMin d) = 0%Z.
  Proof. unfold raw. rewrite Rminus_diag_eq by reflexivity. rewrite rnd_0, Rmult_0_l, rnd_0. apply (Zfloor_IZR 0). Qed.

  Lemma raw_below x : x < dMin d -> (raw x <= 0)%Z.
  Proof. intros H. rewrite <- raw_min. apply raw_mono. lra. Qed.

  Lemma raw_inside x : dMin d <= x < dMax d -> (0 <= raw x <= dCells d)%Z.
  Proof.
    intros H. split; [|now apply Hupper]. rewrite <- raw_min. apply raw_mono. lra.
  Qed.

  Lemma toLong_some z v : toLong z = Some v -> v = z.
  Proof. unfold toLong. destruct (_ && _); congruence. Qed.

  Lemma toLong_ok z : (- 2 ^ 63 <= z < 2 ^ 63)%Z -> toLong z = Some z.
  Proof.
    intros H. unfold toLong. replace (- 2 ^ 63 <=? z)%Z with true by (symmetry; apply Z.leb_le; lia).
    replace (z <? 2 ^ 63)%Z with true by (symmetry; apply Z.ltb_lt; lia). reflexivity.
  Qed.

  Ltac bools := repeat match goal with
    | |- context [Z.eqb ?a ?b] => destruct (Z.eqb_spec a b)
    | H : context [Z.eqb ?a ?b] |- _ => destruct (Z.eqb_spec a b)
    end.

  (** Closed form of the index in the three regions. *)
  Lemma cellIndexOf_inside x : dMin d <= x < dMax d ->
    cellIndexOf rnd d x = Some (Z.min (raw x) (dCells d - 1) + dHalo d)%Z.
  Proof.
    intros H. pose proof (raw_inside x H). unfold cellIndexOf. fold (raw x).
    rewrite toLong_ok by lia. unfold dWithHalo.
    destruct (Rle_dec _ _); [lra|]. destruct (Rlt_dec _ _); [lra|].
    f_equal. bools; lia.
  Qed.

  Lemma cellIndexOf_inside_ok x : dMin d <= x < dMax d ->
    exists i, cellIndexOf rnd d x = Some i /\ (dHalo d <= i < dHalo d + dCells d)%Z.
  Proof. intros H. rewrite (cellIndexOf_inside x H). pose proof (raw_inside x H). eexists. split; [reflexivity|]. lia. Qed.

  Lemma cellIndexOf_below x i : x < dMin d -> cellIndexOf rnd d x = Some i ->
    (i = Z.min (Z.max (raw x + dHalo d) 0) (dHalo d - 1))%Z /\ (0 <= i < dHalo d)%Z.
  Proof.
    intros H Hi. pose proof (raw_below x H). unfold cellIndexOf in Hi. fold (raw x) in Hi.
    destruct (toLong (raw x)) as [f|] eqn:Ef; [|discriminate]. apply toLong_some in Ef. subst f.
    unfold dWithHalo in Hi. destruct (Rle_dec _ _); [lra|]. destruct (Rlt_dec _ _); [|lra].
    injection Hi as <-. bools; lia.
  Qed.

  Lemma cellIndexOf_above x i : dMax d <= x -> cellIndexOf rnd d x = Some i ->
    (i = Z.max (Z.min (Z.max (raw x + dHalo d) 0) (dWithHalo d - 1)) (dCells d + dHalo d))%Z /\
    (dHalo d + dCells d <= i < dWithHalo d)%Z.
  Proof.
    intros H Hi. unfold cellIndexOf in Hi. fold (raw x) in Hi.
    destruct (toLong (raw x)) as [f|] eqn:Ef; [|discriminate]. apply toLong_some in Ef. subst f.
    unfold dWithHalo in *. destruct (Rle_dec _ _); [|lra].
    injection Hi as <-. lia.
  Qed.

  Lemma cellIndexOf_mono x y i j : x <= y ->
    cellIndexOf rnd d x = Some i -> cellIndexOf rnd d y = Some j -> (i <= j)%Z.
  Proof.
    intros Hxy Hi Hj. pose proof (raw_mono x y Hxy).
    destruct (Rlt_le_dec x (dMin d)) as [X|X].
    - apply cellIndexOf_below in Hi; [|assumption]. destruct (Rlt_le_dec y (dMin d)) as [Y|Y].
      + apply cellIndexOf_below in Hj; [|assumption]. lia.
      + destruct (Rlt_le_dec y (dMax d)) as [Y'|Y'].
        * rewrite cellIndexOf_inside in Hj by lra. injection Hj as <-.
          pose proof (raw_inside y (conj Y Y')). lia.
        * apply cellIndexOf_above in Hj; [|assumption]. lia.
    - destruct (Rlt_le_dec x (dMax d)) as [X'|X'].
      + rewrite cellIndexOf_inside in Hi by lra. injection Hi as <-. pose proof (raw_inside x (conj X X')).
        destruct (Rlt_le_dec y (dMax d)) as [Y'|Y'].
        * rewrite cellIndexOf_inside in Hj by lra. injection Hj as <-. lia.
        * apply cellIndexOf_above in Hj; [|assumption]. lia.
      + apply cellIndexOf_above in Hi; [|assumption]. apply cellIndexOf_above in Hj; [|lra]. lia.
  Qed.

  Lemma cellIndexOf_halo x i : ~ (dMin d <= x < dMax d) -> cellIndexOf rnd d x = Some i ->
    (0 <= i < dWithHalo d)%Z /\ ~ (dHalo d <= i < dHalo d + dCells d)%Z.
  Proof.
    intros H Hi. destruct (Rlt_le_dec x (dMin d)) as [X|X].
    - apply cellIndexOf_below in Hi; [|assumption]. unfold dWithHalo. lia.
    - apply cellIndexOf_above in Hi; [|lra]. lia.
  Qed.
End OneDim.

(** ** Classification of flat indices *)
Section Block.
  Variable b : Block.
  Let n := mkI3 (dCells (bX b)) (dCells (bY b)) (dCells (bZ b)).
  Variable h : Z.
  Hypothesis HhX : dHalo (bX b) = h.
  Hypothesis HhY : dHalo (bY b) = h.
  Hypothesis HhZ : dHalo (bZ b) = h.
  Hypothesis Hh : (1 <= h)%Z.
  Hypothesis HnX : (1 <= dCells (bX b))%Z.
  Hypothesis HnY : (1 <= dCells (bY b))%Z.
  Hypothesis HnZ : (1 <= dCells (bZ b))%Z.
  Open Scope Z_scope.

  Lemma dims_eq : blockDims b = mkI3 (ix n + 2 * h) (iy n + 2 * h) (iz n + 2 * h).
  Proof. unfold blockDims, dWithHalo. rewrite HhX, HhY, HhZ. reflexivity. Qed.

  Lemma dims_pos : positive (blockDims b).
  Proof. rewrite dims_eq. unfold positive, n. cbn. lia. Qed.

  Lemma innerCell_dec p : {innerCell n h p} + {~ innerCell n h p}.
  Proof.
    unfold innerCell.
    destruct (Z_le_dec h (ix p)); [|right; lia]. destruct (Z_lt_dec (ix p) (h + ix n)); [|right; lia].
    destruct (Z_le_dec h (iy p)); [|right; lia]. destruct (Z_lt_dec (iy p) (h + iy n)); [|right; lia].
    destruct (Z_le_dec h (iz p)); [|right; lia]. destruct (Z_lt_dec (iz p) (h + iz n)); [|right; lia].
    left. lia.
  Qed.

  Lemma inner_range p : innerCell n h p ->
    firstOwnedCellIndex b <= threeToOneD p (blockDims b) <= lastOwnedCellIndex b.
  Proof.
    intros (Hx & Hy & Hz). unfold lastOwnedCellIndex, firstOwnedCellIndex. rewrite HhX, dims_eq.
    unfold threeToOneD, numCells. cbn [ix iy iz n] in *.
    set (a := dCells (bX b)) in *. set (c := dCells (bY b)) in *. set (e := dCells (bZ b)) in *.
    set (X := a + 2 * h). set (Y := c + 2 * h).
    assert (0 <= X) by (unfold X; lia). assert (0 <= Y) by (unfold Y; lia).
    split.
    - assert (h * Y + h <= iz p * Y + iy p) by nia. nia.
    - assert (iz p * Y + iy p <= (e + h - 1) * Y + (c + h - 1)) by nia.
      assert ((iz p * Y + iy p) * X <= ((e + h - 1) * Y + (c + h - 1)) * X) by (apply Z.mul_le_mono_nonneg_r; lia).
      assert (E : X * Y * (e + 2 * h) - 1 - (X * Y * h + X * h + h) = ((e + h - 1) * Y + (c + h - 1)) * X + (X - 1 - h)).
      { unfold Y. ring. }
      rewrite E. unfold X at 2. lia.
  Qed.

  Lemma halo_iff p : inGrid (blockDims b) p ->
    cellCanContainHaloParticles b (threeToOneD p (blockDims b)) = false <-> innerCell n h p.
  Proof.
    intros Hp. unfold cellCanContainHaloParticles.
    split.
    - intros H. destruct (_ || _) in H; [discriminate|]. rewrite oneToThreeD_threeToOneD in H by assumption.
      cbv zeta in H. rewrite !orb_false_iff, !Z.ltb_ge, !Z.leb_gt in H. unfold dWithHalo in H.
      rewrite HhX, HhY, HhZ in H. unfold innerCell, n. cbn [ix iy iz]. lia.
    - intros Hin. pose proof (inner_range p Hin) as [H1 H2].
      replace (threeToOneD p (blockDims b) <? firstOwnedCellIndex b) with false by (symmetry; apply Z.ltb_ge; lia).
      replace (lastOwnedCellIndex b <? threeToOneD p (blockDims b)) with false by (symmetry; apply Z.ltb_ge; lia).
      cbn [orb]. rewrite oneToThreeD_threeToOneD by assumption. cbv zeta.
      rewrite !orb_false_iff, !Z.ltb_ge, !Z.leb_gt. unfold dWithHalo. rewrite HhX, HhY, HhZ.
      destruct Hin as (Hx & Hy & Hz). unfold n in *. cbn [ix iy iz] in *. lia.
  Qed.

  Lemma in_haloSlices d i : dHalo d = h -> 0 <= dCells d ->
    In i (haloSlices d) <-> (0 <= i < dWithHalo d /\ ~ (h <= i < h + dCells d)).
  Proof.
    intros Hd Hc. unfold haloSlices. rewrite in_app_iff, !in_zrange. unfold dWithHalo. rewrite Hd. lia.
  Qed.

  Lemma cleared_iff i : In i (clearedCells b) <->
    (0 <= i < numCells (blockDims b) /\ cellCanContainHaloParticles b i = true).
  Proof.
    assert (Hmem : In i (clearedCells b) <->
      exists p, inGrid (blockDims b) p /\ ~ innerCell n h p /\ i = threeToOneD p (blockDims b)).
    { unfold clearedCells. cbv zeta. rewrite !in_app_iff, !in_flat_map.
      pose proof dims_pos as Hpos.
      split.
      - intros [(x & Hx & H)|[(x & Hx & H)|(x & Hx & H)]];
          apply in_flat_map in H as (y & Hy & H); apply in_map_iff in H as (z & <- & Hz); exists (mkI3 x y z).
        + apply in_haloSlices in Hx; [|assumption|lia]. rewrite in_zrange in Hy, Hz.
          unfold inGrid, innerCell. cbn [ix iy iz n]. split; [|split; [lia|reflexivity]].
          unfold blockDims in *. cbn [ix iy iz] in *. lia.
        + apply in_haloSlices in Hy; [|assumption|lia]. rewrite in_zrange in Hx, Hz.
          unfold inGrid, innerCell. cbn [ix iy iz n]. split; [|split; [lia|reflexivity]].
          unfold blockDims in *. cbn [ix iy iz] in *. lia.
        + apply in_haloSlices in Hz; [|assumption|lia]. rewrite in_zrange in Hx, Hy.
          unfold inGrid, innerCell. cbn [ix iy iz n]. split; [|split; [lia|reflexivity]].
          unfold blockDims in *. cbn [ix iy iz] in *. lia.
      - intros (p & Hg & Hni & ->). destruct p as [x y z].
        destruct Hg as (Gx & Gy & Gz). unfold blockDims in Gx, Gy, Gz. cbn [ix iy iz] in Gx, Gy, Gz.
        unfold innerCell in Hni. cbn [ix iy iz n] in Hni.
        destruct (Z_lt_dec x h) as [X|X]; [|destruct (Z_lt_dec x (h + dCells (bX b))) as [X'|X']].
        + left. exists x. split; [apply in_haloSlices; [assumption|lia|lia]|].
          apply in_flat_map. exists y. split; [apply in_zrange; exact Gy|].
          apply in_map_iff. exists z. split; [reflexivity|apply in_zrange; exact Gz].
        + assert (Hx1 : 1 <= x < dWithHalo (bX b) - 1) by (unfold dWithHalo; lia).
          destruct (Z_lt_dec y h) as [Y|Y]; [|destruct (Z_lt_dec y (h + dCells (bY b))) as [Y'|Y']].
          * right. left. exists x. split; [apply in_zrange; exact Hx1|].
            apply in_flat_map. exists y. split; [apply in_haloSlices; [assumption|lia|lia]|].
            apply in_map_iff. exists z. split; [reflexivity|apply in_zrange; exact Gz].
          * right. right. exists x. split; [apply in_zrange; exact Hx1|].
            apply in_flat_map. exists y. split; [apply in_zrange; cbn [blockDims iy]; unfold dWithHalo; lia|].
            apply in_map_iff. exists z. split; [reflexivity|apply in_haloSlices; [assumption|lia|lia]].
          * right. left. exists x. split; [apply in_zrange; exact Hx1|].
            apply in_flat_map. exists y. split; [apply in_haloSlices; [assumption|lia|lia]|].
            apply in_map_iff. exists z. split; [reflexivity|apply in_zrange; exact Gz].
        + left. exists x. split; [apply in_haloSlices; [assumption|lia|lia]|].
          apply in_flat_map. exists y. split; [apply in_zrange; exact Gy|].
          apply in_map_iff. exists z. split; [reflexivity|apply in_zrange; exact Gz]. }
    rewrite Hmem. split.
    - intros (p & Hg & Hni & ->). split; [now apply threeToOneD_range|].
      destruct (cellCanContainHaloParticles b (threeToOneD p (blockDims b))) eqn:E; [reflexivity|].
      exfalso. apply Hni. now apply halo_iff.
    - intros [Hi Hc]. pose proof (oneToThreeD_inGrid _ i dims_pos Hi) as Hg.
      exists (oneToThreeD i (blockDims b)). rewrite (threeToOneD_oneToThreeD _ i dims_pos Hi).
      split; [exact Hg|]. split; [|reflexivity].
      intros Hin. apply halo_iff in Hin; [|exact Hg].
      rewrite (threeToOneD_oneToThreeD _ i dims_pos Hi) in Hin. congruence.
  Qed.
End Block.

(** ** clearHaloCells *)
Lemma clearAt_spec {A} (cells : list (list A)) i : (i < length cells)%nat ->
  exists r, clearAt cells i = Some r /\ length r = length cells /\
    forall k, nth k r [] = if Nat.eqb k i then [] else nth k cells [].
Proof.
  revert i. induction cells as [|c cells IH]; intros i Hi; [cbn in Hi; lia|].
  destruct i as [|i]; cbn [clearAt].
  - eexists. split; [reflexivity|]. split; [reflexivity|]. intros [|k]; reflexivity.
  - cbn in Hi. destruct (IH i ltac:(lia)) as (r & -> & Hl & Hk). eexists. split; [reflexivity|].
    split; [cbn; lia|]. intros [|k]; cbn; [reflexivity|apply Hk].
Qed.

Lemma clearAll_spec {A} (is : list Z) : forall cells : list (list A),
  (forall i, In i is -> (0 <= i < Z.of_nat (length cells))%Z) ->
  exists r, clearAll cells is = Some r /\ length r = length cells /\
    forall k, nth k r [] = if existsb (Z.eqb (Z.of_nat k)) is then [] else nth k cells [].
Proof.
  induction is as [|i is IH]; intros cells H; cbn [clearAll].
  - exists cells. auto.
  - assert (Hi := H i (or_introl eq_refl)).
    replace (i <? 0)%Z with false by (symmetry; apply Z.ltb_ge; lia).
    destruct (clearAt_spec cells (Z.to_nat i)) as (r & -> & Hl & Hk); [lia|].
    destruct (IH r) as (r' & -> & Hl' & Hk').
    { intros j Hj. rewrite Hl. apply H. now right. }
    exists r'. split; [reflexivity|]. split; [lia|]. intros k. rewrite Hk'. cbn [existsb].
    rewrite Hk. destruct (Z.eqb_spec (Z.of_nat k) i) as [E|E].
    + replace (Nat.eqb k (Z.to_nat i)) with true by (symmetry; apply Nat.eqb_eq; lia).
      cbn [orb]. now destruct (existsb _ is).
    + replace (Nat.eqb k (Z.to_nat i)) with false by (symmetry; apply Nat.eqb_neq; lia). reflexivity.
Qed.
