(** Proofs about the spatial locks. *)
From Coq Require Import Reals Lra Psatz.
From Flocq Require Import Core Relative.
From Verif.Base Require Import ZRange.
From Verif.Grid Require Import IndexModel CellBlockSpec CellBlockFloat CellBlockRounding.
From Verif.Functor Require Import SortModel.
From Verif.Logic Require Import LocksModel LocksSpec.
Open Scope R_scope.

Lemma trunc_range x n : 0 <= x < IZR n -> (0 <= Ztrunc x < n)%Z.
Proof.
  intros [H1 H2]. rewrite Ztrunc_floor by exact H1. split.
  - apply Zfloor_lub. exact H1.
  - apply lt_IZR. apply Rle_lt_trans with x; [apply Zfloor_lb|exact H2].
Qed.

(** Exact arithmetic *)
Lemma coord_exact il bMin bMax n pos : 0 < il -> bMin < bMax -> (1 <= n)%Z ->
  bMin - il <= pos < bMax + il -> (0 <= lockCoord rndExact il bMin bMax n pos < n)%Z.
Proof.
  intros Hi Hb Hn Hp. unfold lockCoord, rndExact. apply trunc_range.
  apply IZR_le in Hn. set (t := bMax + il - (bMin - il)). assert (Ht : 0 < t) by (unfold t; lra).
  assert (Hr : 0 <= (pos - (bMin - il)) * (1 / t) < 1).
  { split.
    - apply Rmult_le_pos; [lra|]. unfold Rdiv. rewrite Rmult_1_l. left. now apply Rinv_0_lt_compat.
    - apply Rmult_lt_reg_r with t; [exact Ht|]. replace ((pos - (bMin - il)) * (1 / t) * t) with (pos - (bMin - il)) by (field; lra).
      unfold t. lra. }
  split; nra.
Qed.

Lemma ceil_pos x : 0 < x -> (1 <= Zceil x)%Z.
Proof. intros H. assert (0 < Zceil x)%Z; [|lia]. apply lt_IZR. apply Rlt_le_trans with x; [exact H|apply Zceil_ub]. Qed.

Lemma naive_pos l il : 0 < l -> 0 < il -> (1 <= Zceil (rndExact (l * rndExact (1 / il))))%Z.
Proof.
  intros Hl Hi. apply ceil_pos. unfold rndExact. apply Rmult_lt_0_compat; [exact Hl|].
  unfold Rdiv. rewrite Rmult_1_l. now apply Rinv_0_lt_compat.
Qed.

Lemma locks_uncapped il len : 0 < il -> (locksWanted il len <= maxNumSpacialLocks)%Z ->
  locksPerDim rndExact len (rndExact (1 / il)) = mkI3 (Zceil (rx len / il)) (Zceil (ry len / il)) (Zceil (rz len / il)).
Proof.
  intros Hi H. unfold locksPerDim, rndExact. cbn [ix iy iz].
  assert (E : forall l, l * (1 / il) = l / il) by (intros; unfold Rdiv; ring). rewrite !E.
  unfold locksWanted in H. apply Z.leb_le in H. rewrite H. reflexivity.
Qed.

Lemma locks_2b il bMin bMax n pos : 0 < il -> below bMin bMax -> (1 <= ix n)%Z -> (1 <= iy n)%Z -> (1 <= iz n)%Z ->
  inBox (haloLow il bMin) (haloHigh il bMax) pos -> lockExists n (lockOf rndExact il bMin bMax n pos).
Proof.
  intros Hi (Hx & Hy & Hz) Nx Ny Nz (Px & Py & Pz). cbn [rx ry rz haloLow haloHigh] in *.
  split; [|split]; cbn [ix iy iz lockOf]; apply coord_exact; assumption.
Qed.

Lemma len_pos il (bMin bMax : R3) (len : R3) : 0 < il -> below bMin bMax ->
  len = zip3 (fun a b => rndExact (rndExact (b - a) + rndExact (2 * il))) bMin bMax \/
  len = zip3 (fun a b => rndExact (b - a)) bMin bMax -> 0 < rx len /\ 0 < ry len /\ 0 < rz len.
Proof.
  intros Hi (Hx & Hy & Hz) [-> | ->]; unfold zip3, rndExact; cbn [rx ry rz]; lra.
Qed.

Lemma ceil_div_pos l il : 0 < l -> 0 < il -> (1 <= Zceil (l / il))%Z.
Proof. intros. apply ceil_pos. now apply Rdiv_lt_0_compat. Qed.

Lemma exact_2b il bMin bMax pos n : 0 < il -> below bMin bMax ->
  n = locksInitial rndExact il bMin bMax \/ n = locksAfterResize rndExact il bMin bMax ->
  (locksWanted il (boxWithHalo il bMin bMax) <= maxNumSpacialLocks)%Z \/
  ((1 <= ix n) /\ (1 <= iy n) /\ (1 <= iz n))%Z ->
  inBox (haloLow il bMin) (haloHigh il bMax) pos -> lockExists n (lockOf rndExact il bMin bMax n pos).
Proof.
  intros Hi Hb Hn Hc Hp.
  assert (H : (1 <= ix n)%Z /\ (1 <= iy n)%Z /\ (1 <= iz n)%Z).
  { destruct Hc as [Hc|Hc]; [|exact Hc].
    pose proof Hb as (Hx & Hy & Hz).
    destruct Hn as [-> | ->]; unfold locksInitial, locksAfterResize.
    - rewrite locks_uncapped; [|exact Hi|exact Hc]. cbn [ix iy iz zip3 rx ry rz].
      split; [|split]; apply ceil_div_pos; unfold rndExact; lra.
    - rewrite locks_uncapped; [cbn [ix iy iz zip3 rx ry rz]; split; [|split]; apply ceil_div_pos; unfold rndExact; lra|exact Hi|].
      eapply Z.le_trans; [|exact Hc]. unfold locksWanted, boxWithHalo, zip3, rndExact. cbn [rx ry rz].
      assert (M : forall a, 0 < a -> (1 <= Zceil (a / il) <= Zceil ((a + 2 * il) / il))%Z).
      { intros a Ha. split; [now apply ceil_div_pos|]. apply Zceil_le. unfold Rdiv. apply Rmult_le_compat_r; [left; now apply Rinv_0_lt_compat|lra]. }
      pose proof (M (rx bMax - rx bMin) ltac:(lra)). pose proof (M (ry bMax - ry bMin) ltac:(lra)). pose proof (M (rz bMax - rz bMin) ltac:(lra)).
      apply Z.mul_le_mono_nonneg; [|apply Z.mul_le_mono_nonneg; lia| |lia]; nia. }
  destruct H as (H1 & H2 & H3). now apply locks_2b.
Qed.

(** 3B *)
Lemma coord3b_exact il bMin bMax pos : 0 < il -> bMin < bMax -> bMin - il <= pos < bMax + il ->
  (0 <= lockCoord3B rndExact il bMin pos < Zceil ((bMax - bMin + 2 * il) / il))%Z.
Proof.
  intros Hi Hb Hp. unfold lockCoord3B, rndExact. apply trunc_range. split.
  - apply Rmult_le_pos; [lra|]. unfold Rdiv. rewrite Rmult_1_l. left. now apply Rinv_0_lt_compat.
  - apply Rlt_le_trans with ((bMax - bMin + 2 * il) / il); [|apply Zceil_ub].
    unfold Rdiv. rewrite Rmult_1_l. apply Rmult_lt_compat_r; [now apply Rinv_0_lt_compat|lra].
Qed.

Lemma exact_3b il bMin bMax pos : 0 < il -> below bMin bMax ->
  (locksWanted il (boxWithHalo il bMin bMax) <= maxNumSpacialLocks)%Z ->
  inBox (haloLow il bMin) (haloHigh il bMax) pos ->
  lockExists (locksInitial rndExact il bMin bMax) (lockOf3B rndExact il bMin pos).
Proof.
  intros Hi (Hx & Hy & Hz) Hc (Px & Py & Pz). unfold locksInitial. rewrite locks_uncapped; [|exact Hi|exact Hc].
  cbn [rx ry rz haloLow haloHigh] in *.
  split; [|split]; cbn [ix iy iz lockOf3B zip3 rx ry rz]; unfold rndExact at 2 3 4; apply coord3b_exact; assumption.
Qed.

(** After resizeBox: box [0,10)^3, interaction length 1, owned particle at 9.5. *)
Lemma resize_3b_refuted : exists il bMin bMax pos, 0 < il /\ below bMin bMax /\ inBox bMin bMax pos /\
  (locksWanted il (boxWithHalo il bMin bMax) <= maxNumSpacialLocks)%Z /\
  ~ lockExists (locksAfterResize rndExact il bMin bMax) (lockOf3B rndExact il bMin pos).
Proof.
  exists 1, (mkR3 0 0 0), (mkR3 10 10 10), (mkR3 (19 / 2) 1 1).
  assert (E : forall k, Zceil (IZR k / 1) = k) by (intros; unfold Rdiv; rewrite Rinv_1, Rmult_1_r; apply Zceil_IZR).
  split; [lra|]. split; [unfold below; cbn [rx ry rz]; lra|]. split; [unfold inBox; cbn [rx ry rz]; lra|]. split.
  - unfold locksWanted, boxWithHalo. cbn [rx ry rz]. replace (10 - 0 + 2 * 1) with 12 by ring. rewrite !E. unfold maxNumSpacialLocks. lia.
  - unfold locksAfterResize. rewrite locks_uncapped; [|lra|].
    + intros [H _]. unfold lockOf3B, zip3 in H. cbn [ix rx] in H. unfold lockCoord3B, rndExact in H.
      replace (10 - 0) with 10 in H by ring. rewrite E in H.
      rewrite Ztrunc_floor in H by lra.
      assert (Hf : Zfloor ((19 / 2 - (0 - 1)) * (1 / 1)) = 10%Z) by (apply Zfloor_imp; change (IZR (10 + 1)) with 11; lra). lia.
    + unfold locksWanted, zip3, rndExact. cbn [rx ry rz]. replace (10 - 0) with 10 by ring. rewrite !E. unfold maxNumSpacialLocks. lia.
Qed.

Lemma Rpower_lt1 x : 0 < x < 1 -> 0 < Rpower x (1 / 3) < 1.
Proof.
  intros H. split; [apply exp_pos|]. unfold Rpower. apply Rlt_le_trans with (exp 0); [|rewrite exp_0; lra]. apply exp_increasing.
  assert (ln x < 0) by (rewrite <- ln_1; apply ln_increasing; lra). lra.
Qed.

(** A thin box gets no locks at all. *)
Lemma thin_box_refuted : exists il bMin bMax, 0 < il /\ below bMin bMax /\
  rx bMin + il <= rx bMax /\ ry bMin + il <= ry bMax /\ rz bMin + il <= rz bMax /\
  ix (locksInitial rndExact il bMin bMax) = 0%Z.
Proof.
  exists 1, (mkR3 0 0 0), (mkR3 1 3000 3000). assert (E : forall k, Zceil (IZR k * (1 / 1)) = k).
  { intros. unfold Rdiv. rewrite Rinv_1, !Rmult_1_r. apply Zceil_IZR. }
  split; [lra|]. split; [unfold below; cbn [rx ry rz]; lra|]. cbn [rx ry rz]. do 3 (split; [lra|]).
  unfold locksInitial, locksPerDim, zip3, rndExact. cbn [rx ry rz].
  replace (1 - 0 + 2 * 1) with 3 by ring. replace (3000 - 0 + 2 * 1) with 3002 by ring.
  rewrite !E. cbn [ix iy iz]. replace (3 * 3002 * 3002 <=? maxNumSpacialLocks)%Z with false by reflexivity. cbn [ix].
  change (IZR maxNumSpacialLocks) with 1000000.
  assert (Hx : 0 < 1000000 * (1 * (3 / 3002) * (3 / 3002)) < 1) by lra.
  apply Rpower_lt1 in Hx. unfold cbrt.
  rewrite (Zfloor_imp 0); [|change (IZR (0 + 1)) with 1; lra]. exact (Ztrunc_IZR 0).
Qed.

(** With the cap the 3B index is out of range. *)
Lemma capped_3b_refuted : exists il bMin bMax pos, 0 < il /\ below bMin bMax /\ inBox bMin bMax pos /\
  (1 <= ix (locksInitial rndExact il bMin bMax))%Z /\
  ~ lockExists (locksInitial rndExact il bMin bMax) (lockOf3B rndExact il bMin pos).
Proof.
  exists 1, (mkR3 0 0 0), (mkR3 198 198 198), (mkR3 150 1 1). assert (E : forall k, Zceil (IZR k * (1 / 1)) = k).
  { intros. unfold Rdiv. rewrite Rinv_1, !Rmult_1_r. apply Zceil_IZR. }
  split; [lra|]. split; [unfold below; cbn [rx ry rz]; lra|]. split; [unfold inBox; cbn [rx ry rz]; lra|].
  unfold locksInitial, locksPerDim, zip3, rndExact. cbn [rx ry rz].
  replace (198 - 0 + 2 * 1) with 200 by ring.
  rewrite !E. cbn [ix iy iz]. replace (200 * 200 * 200 <=? maxNumSpacialLocks)%Z with false by reflexivity. cbn [ix].
  change (IZR maxNumSpacialLocks) with 1000000.
  replace (1000000 * (1 * (200 / 200) * (200 / 200))) with 1000000 by field.
  assert (Hc : cbrt (fun x => x) 1000000 = 100).
  { unfold cbrt. replace 1000000 with (Rpower 100 3).
    - rewrite Rpower_mult. replace (3 * (1 / 3)) with 1 by field. apply Rpower_1. lra.
    - replace 3 with (INR 3) by (cbn; lra). rewrite Rpower_pow by lra. cbn. lra. }
  rewrite Hc. rewrite (Zfloor_IZR 100), Ztrunc_IZR. split; [lia|]. intros [H _]. unfold lockOf3B in H. cbn [ix rx] in H.
  unfold lockCoord3B, rndExact in H. replace ((150 - (0 - 1)) * (1 / 1)) with 151 in H by field. rewrite (Ztrunc_IZR 151) in H. lia.
Qed.

(** IEEE arithmetic *)
Notation eps := (bpow radix2 (-53)).
Lemma rel_le x : bpow radix2 (-1022) <= x -> rndDouble x <= x * (1 + eps).
Proof.
  intros H. assert (Hx : 0 < x) by (eapply Rlt_le_trans; [apply bpow_gt_0|exact H]).
  assert (G : Rabs (rndDouble x - x) <= / 2 * bpow radix2 (- 53 + 1) * Rabs x).
  { apply relative_error_N_FLT; [lia|]. rewrite Rabs_pos_eq by lra. exact H. }
  rewrite (Rabs_pos_eq x) in G by lra. apply Rabs_le_inv in G.
  replace (/ 2 * bpow radix2 (- 53 + 1)) with eps in G; [lra|].
  change (bpow radix2 (- 53 + 1)) with (/ IZR 4503599627370496). change eps with (/ IZR 9007199254740992). lra.
Qed.

(** [n (1 - 2^-53)] is rounded to something below [n]. *)
Lemma below_count n r : (1 <= n < 2 ^ 53)%Z -> 0 <= r <= 1 - eps -> 0 <= rndDouble (IZR n * r) < IZR n.
Proof.
  intros Hn Hr. assert (D : isDouble (IZR n)) by (apply isDouble_IZR; lia).
  assert (H1 : 1 <= IZR n) by (apply (IZR_le 1); lia).
  split; [rewrite <- rndDouble_0; apply rndDouble_mono; nra|].
  set (u := pred radix2 doubleExp (IZR n)).
  assert (Hu : isDouble u) by (apply generic_format_pred; [apply FLT_exp_valid; reflexivity|exact D]).
  assert (Hlt : u < IZR n) by (apply pred_lt_id; lra).
  assert (Hs : succ radix2 doubleExp u = IZR n) by (apply succ_pred; [apply FLT_exp_valid; reflexivity|exact D]).
  assert (Hu2 : 1 / 2 <= u).
  { apply pred_ge_gt; [apply FLT_exp_valid; reflexivity| |exact D|lra].
    replace (1 / 2) with (IZR 1 * bpow radix2 (-1)) by (change (bpow radix2 (-1)) with (/ 2); lra). apply isDouble_F2R; lia. }
  assert (Hulp : ulp radix2 doubleExp u <= u * bpow radix2 (-52)).
  { replace u with (Rabs u) at 2 by (apply Rabs_pos_eq; lra). apply (ulp_FLT_le radix2 (-1074) 53).
    rewrite Rabs_pos_eq by lra. apply Rle_trans with (bpow radix2 (-1)); [apply bpow_le; lia|change (bpow radix2 (-1)) with (/ 2); lra]. }
  assert (Hsu : IZR n = u + ulp radix2 doubleExp u) by (rewrite <- Hs; apply succ_eq_pos; lra).
  apply Rle_lt_trans with u; [|exact Hlt].
  apply round_N_le_midp; [apply FLT_exp_valid; reflexivity|exact Hu|]. rewrite Hs.
  change (bpow radix2 (-52)) with (/ IZR 4503599627370496) in Hulp. change eps with (/ IZR 9007199254740992) in Hr.
  nra.
Qed.

Lemma coord_double il bMin bMax n pos :
  let haloMin := rndDouble (bMin - il) in
  let total := rndDouble (rndDouble (bMax + il) - haloMin) in
  bpow radix2 (-1000) <= total <= bpow radix2 1000 -> (1 <= n < 2 ^ 53)%Z ->
  haloMin <= pos <= haloMin + total * (1 - bpow radix2 (-50)) ->
  (0 <= lockCoord rndDouble il bMin bMax n pos < n)%Z.
Proof.
  intros haloMin total Ht Hn Hp. unfold lockCoord. fold haloMin. fold total. apply trunc_range.
  rewrite (rndDouble_id (IZR n)) by (apply isDouble_IZR; lia).
  assert (T0 : 0 < total) by (eapply Rlt_le_trans; [apply bpow_gt_0|apply Ht]).
  assert (I0 : 0 < 1 / total) by (unfold Rdiv; rewrite Rmult_1_l; now apply Rinv_0_lt_compat).
  assert (Ilo : bpow radix2 (-1022) <= 1 / total).
  { apply Rle_trans with (bpow radix2 (-1000)); [apply bpow_le; lia|].
    apply Rmult_le_reg_r with total; [exact T0|]. replace (1 / total * total) with 1 by (field; lra).
    apply Rle_trans with (bpow radix2 (-1000) * bpow radix2 1000); [apply Rmult_le_compat_l; [apply bpow_ge_0|apply Ht]|].
    rewrite <- bpow_plus. apply Rle_refl. }
  pose proof (rel_le _ Ilo) as Hinv.
  assert (Hinv0 : 0 <= rndDouble (1 / total)) by (rewrite <- rndDouble_0; apply rndDouble_mono; lra).
  set (c := 1 - bpow radix2 (-50)) in *.
  assert (Hc : 1 / 2 <= c < 1) by (unfold c; change (bpow radix2 (-50)) with (/ IZR 1125899906842624); lra).
  assert (Ha0 : 0 <= rndDouble (pos - haloMin)) by (rewrite <- rndDouble_0; apply rndDouble_mono; lra).
  assert (Ha : rndDouble (pos - haloMin) <= total * c * (1 + eps)).
  { apply Rle_trans with (rndDouble (total * c)); [apply rndDouble_mono; lra|]. apply rel_le.
    apply Rle_trans with (bpow radix2 (-1000) * bpow radix2 (-1)).
    - rewrite <- bpow_plus. apply bpow_le. lia.
    - change (bpow radix2 (-1)) with (/ 2). pose proof (bpow_ge_0 radix2 (-1000)). nra. }
  apply below_count; [exact Hn|]. split; [rewrite <- rndDouble_0; apply rndDouble_mono; nra|].
  rewrite <- (rndDouble_id (1 - eps)).
  - apply rndDouble_mono. set (a := rndDouble (pos - haloMin)) in *. set (v := rndDouble (1 / total)) in *.
    apply Rle_trans with (total * c * (1 + eps) * (1 / total * (1 + eps))).
    + apply Rmult_le_compat; assumption.
    + replace (total * c * (1 + eps) * (1 / total * (1 + eps))) with (c * (1 + eps) * (1 + eps)) by (field; lra).
      unfold c. change (bpow radix2 (-50)) with (/ IZR 1125899906842624). change eps with (/ IZR 9007199254740992). lra.
  - replace (1 - eps) with (IZR 9007199254740991 * bpow radix2 (-53)); [apply isDouble_F2R; lia|].
    change eps with (/ IZR 9007199254740992). lra.
Qed.

(** Halo particle in the last representable position before the end of the halo. *)
Definition pos105 : R := IZR (105 * 2 ^ 46 - 1) * bpow radix2 (-46).
Lemma round_105 : rndDouble (1 / 105) = IZR 5490102402889748 * bpow radix2 (-59).
Proof.
  apply rndDouble_val; [lia| |].
  - change (bpow radix2 (-59 + 52)) with (/ 128). change (bpow radix2 (-59 + 53)) with (/ 64). lra.
  - change (bpow radix2 (- (-59))) with 576460752303423488. apply Rabs_lt. lra.
Qed.

Lemma round_one : rndDouble (pos105 * rndDouble (1 / 105)) = 1.
Proof.
  rewrite round_105. unfold pos105. change (105 * 2 ^ 46 - 1)%Z with 7388718138654719%Z.
  change (bpow radix2 (-46)) with (/ IZR 70368744177664). change (bpow radix2 (-59)) with (/ IZR 576460752303423488).
  rewrite (rndDouble_val _ 9007199254740992 (-53)).
  - change (bpow radix2 (-53)) with (/ IZR 9007199254740992). lra.
  - lia.
  - change (bpow radix2 (-53 + 52)) with (/ 2). change (bpow radix2 (-53 + 53)) with 1. lra.
  - change (bpow radix2 (- (-53))) with 9007199254740992. apply Rabs_lt. lra.
Qed.

Lemma rounding_refuted : exists il bMin bMax pos, isDouble il /\ isDouble3 bMin /\ isDouble3 bMax /\ isDouble3 pos /\
  0 < il /\ below bMin bMax /\
  inBox (haloLow il bMin) (haloHigh il bMax) pos /\
  ~ lockExists (locksInitial rndDouble il bMin bMax)
      (lockOf rndDouble il bMin bMax (locksInitial rndDouble il bMin bMax) pos).
Proof.
  assert (D : forall k, (Z.abs k < 2 ^ 53)%Z -> isDouble (IZR k)) by exact isDouble_IZR.
  assert (Dp : isDouble pos105) by (apply isDouble_F2R; lia).
  assert (Hp : 104 < pos105 < 105).
  { unfold pos105. change (105 * 2 ^ 46 - 1)%Z with 7388718138654719%Z. change (bpow radix2 (-46)) with (/ IZR 70368744177664). lra. }
  exists 1, (mkR3 1 1 1), (mkR3 104 4 4), (mkR3 pos105 2 2).
  split; [now apply (D 1%Z)|]. split; [split; [|split]; now apply (D 1%Z)|].
  split; [split; [now apply (D 104%Z)|split; now apply (D 4%Z)]|].
  split; [split; [exact Dp|split; now apply (D 2%Z)]|].
  split; [lra|]. split; [unfold below; cbn [rx ry rz]; lra|].
  split; [unfold inBox, haloLow, haloHigh; cbn [rx ry rz]; lra|].
  assert (E1 : rndDouble 1 = 1) by (apply rndDouble_id; now apply (D 1%Z)).
  assert (E2 : rndDouble (2 * 1) = 2) by (replace (2 * 1) with 2 by ring; apply rndDouble_id; now apply (D 2%Z)).
  assert (E103 : rndDouble (104 - 1) = 103) by (replace (104 - 1) with 103 by ring; apply rndDouble_id; now apply (D 103%Z)).
  assert (E3 : rndDouble (4 - 1) = 3) by (replace (4 - 1) with 3 by ring; apply rndDouble_id; now apply (D 3%Z)).
  assert (En : locksInitial rndDouble 1 (mkR3 1 1 1) (mkR3 104 4 4) = mkI3 105 5 5).
  { unfold locksInitial, locksPerDim, zip3. cbn [rx ry rz]. rewrite E2, E103, E3.
    replace (1 / 1) with 1 by field. rewrite E1.
    replace (103 + 2) with 105 by ring. replace (3 + 2) with 5 by ring. rewrite !Rmult_1_r.
    rewrite (rndDouble_id 105) by now apply (D 105%Z). rewrite (rndDouble_id 5) by now apply (D 5%Z).
    rewrite (rndDouble_id 105) by now apply (D 105%Z). rewrite (rndDouble_id 5) by now apply (D 5%Z).
    rewrite (Zceil_IZR 105), (Zceil_IZR 5). reflexivity. }
  rewrite En. intros [H _]. unfold lockOf in H. cbn [ix rx] in H. unfold lockCoord in H.
  replace (1 - 1) with 0 in H by ring. rewrite rndDouble_0, !Rminus_0_r in H.
  replace (104 + 1) with 105 in H by ring.
  rewrite !(rndDouble_id 105) in H by now apply (D 105%Z). rewrite (rndDouble_id pos105) in H by exact Dp.
  rewrite round_one, Rmult_1_r in H. rewrite (rndDouble_id 105) in H by now apply (D 105%Z).
  rewrite (Ztrunc_IZR 105) in H. lia.
Qed.

Lemma double_2b il bMin bMax (n : I3) pos :
  let total a b := rndDouble (rndDouble (b + il) - rndDouble (a - il)) in
  let fine a b x := bpow radix2 (-1000) <= total a b <= bpow radix2 1000 /\
    rndDouble (a - il) <= x <= rndDouble (a - il) + total a b * (1 - bpow radix2 (-50)) in
  fine (rx bMin) (rx bMax) (rx pos) -> fine (ry bMin) (ry bMax) (ry pos) -> fine (rz bMin) (rz bMax) (rz pos) ->
  (1 <= ix n < 2 ^ 53)%Z -> (1 <= iy n < 2 ^ 53)%Z -> (1 <= iz n < 2 ^ 53)%Z ->
  lockExists n (lockOf rndDouble il bMin bMax n pos).
Proof.
  intros total fine (Hx & Px) (Hy & Py) (Hz & Pz) Nx Ny Nz.
  split; [|split]; cbn [ix iy iz lockOf]; apply coord_double; assumption.
Qed.
