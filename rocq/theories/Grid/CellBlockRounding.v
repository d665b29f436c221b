(** The number of halo layers and the overlap of the traversals under IEEE
    rounding: a concrete box for which the overlap is larger than the halo. *)
From Coq Require Import Reals Lra Psatz.
From Flocq Require Import Core.
From Verif.Base Require Import ZRange Occ OptionM.
From Verif.Grid Require Import IndexModel IndexSpec IndexProofs CellBlockModel CellBlockSpec CellBlockProofs CellBlockFloat.
From Verif.Functor Require Import SortModel.
From Verif.Traversal Require Import CellSpec CellLemmas C08Model C08Proofs.
Open Scope R_scope.

(** Rounding of a number in the binade of [m * 2^e]. *)
Lemma rndDouble_val x m e : (-1074 <= e)%Z -> bpow radix2 (e + 52) <= x < bpow radix2 (e + 53) ->
  Rabs (x * bpow radix2 (- e) - IZR m) < / 2 -> rndDouble x = IZR m * bpow radix2 e.
Proof.
  intros He Hb Hm. assert (Hmag : mag radix2 x = (e + 53)%Z :> Z).
  { apply mag_unique_pos. replace (e + 53 - 1)%Z with (e + 52)%Z by lia. exact Hb. }
  unfold rndDouble, round, F2R, scaled_mantissa, cexp, FLT_exp. rewrite Hmag.
  replace (Z.max (e + 53 - 53) (-1074)) with e by lia. cbn [Fnum Fexp].
  f_equal. f_equal. now apply Znearest_imp.
Qed.

(** 1.3 and 11.7 as doubles. *)
Definition il13 : R := IZR 5854679515581645 * bpow radix2 (-52).
Definition box117 : R := IZR 6586514455029350 * bpow radix2 (-49).

Lemma il13_double : isDouble il13.
Proof. apply isDouble_F2R; lia. Qed.
Lemma box117_double : isDouble box117.
Proof. apply isDouble_F2R; lia. Qed.

Ltac bp := change (bpow radix2 (-52)) with (/ IZR 4503599627370496) in *; change (bpow radix2 (-49)) with (/ IZR 562949953421312) in *.

Lemma quotient13 : box117 / il13 = IZR 52692115640234800 / IZR 5854679515581645.
Proof. unfold box117, il13. bp. field. Qed.

Lemma round_quotient : rndDouble (box117 / il13) = 9.
Proof.
  rewrite (rndDouble_val _ 5066549580791808 (-49)).
  - bp. lra.
  - lia.
  - change (bpow radix2 (-49 + 52)) with 8. change (bpow radix2 (-49 + 53)) with 16. rewrite quotient13. lra.
  - change (bpow radix2 (- (-49))) with 562949953421312. rewrite quotient13.
    apply Rabs_lt. lra.
Qed.

Definition len13 : R := IZR 5854679515581644 * bpow radix2 (-52).
Lemma round_length : rndDouble (box117 / 9) = len13.
Proof.
  apply rndDouble_val.
  - lia.
  - change (bpow radix2 (-52 + 52)) with 1. change (bpow radix2 (-52 + 53)) with 2. unfold box117. bp. lra.
  - change (bpow radix2 (- (-52))) with 4503599627370496. unfold box117. bp. apply Rabs_lt. lra.
Qed.

Lemma round_overlap : rndDouble (il13 / len13) = IZR 4503599627370497 * bpow radix2 (-52).
Proof.
  assert (E : il13 / len13 = IZR 5854679515581645 / IZR 5854679515581644).
  { unfold il13, len13. bp. field. }
  rewrite E. apply rndDouble_val.
  - lia.
  - change (bpow radix2 (-52 + 52)) with 1. change (bpow radix2 (-52 + 53)) with 2. lra.
  - change (bpow radix2 (- (-52))) with 4503599627370496. apply Rabs_lt. lra.
Qed.

Lemma overlap13 : overlapOf rndDouble il13 len13 = 2%Z.
Proof. unfold overlapOf. rewrite round_overlap. apply Zceil_imp. change (IZR (2 - 1)) with 1. bp. lra. Qed.

Lemma dim13 : exists lo hi rc, rebuildDim rndDouble il13 1 0 box117 = mkDim 0 box117 9 1 len13 rc lo hi.
Proof.
  assert (E1 : rndDouble (il13 * 1) = il13) by (rewrite Rmult_1_r; apply rndDouble_id, il13_double).
  assert (E2 : rndDouble (box117 - 0) = box117) by (rewrite Rminus_0_r; apply rndDouble_id, box117_double).
  assert (Ec : cellsPerDim rndDouble box117 il13 1 = 9%Z).
  { unfold cellsPerDim. rewrite E1, round_quotient. change 9 with (IZR 9). rewrite Zfloor_IZR. reflexivity. }
  assert (Eh : cellsPerInteractionLength rndDouble 1 = 1%Z).
  { unfold cellsPerInteractionLength. destruct (Rle_dec 1 1); [reflexivity|lra]. }
  unfold rebuildDim. rewrite E2, Ec, Eh, (rndDouble_id 9), round_length by now apply (isDouble_IZR 9).
  do 3 eexists. reflexivity.
Qed.

Lemma longEnough13 : longEnough rndDouble il13 0 box117.
Proof.
  unfold longEnough. rewrite Rplus_0_l, rndDouble_id by apply il13_double. unfold il13, box117. bp. lra.
Qed.

(** A cell in the last [ov] layers of the grid is never processed on its own. *)
Lemma c08_misses_self near dims ov a : gridFits dims ov -> inGrid dims a -> (ix dims - ix ov <= ix a)%Z ->
  timesProcessed dims (c08Calls near dims ov) a a = 0%nat.
Proof.
  intros Hv Ha Hx. rewrite c08_timesProcessed by assumption. apply occ_zero.
  intros [b [[[x y] z] dd]] Hin. apply in_c08Index in Hin; [|assumption]. destruct Hin as (Hb & Ht & Hi).
  destruct (same3 a a (c08Call3 ov (b, (x, y, z, dd)))) eqn:E; [|reflexivity]. exfalso.
  unfold same3, c08Call3 in E. cbn [fst snd] in E.
  rewrite orb_diag, andb_true_iff, !i3eqb_eq in E. destruct E as [E1 E2].
  unfold c08Include in Hi. destruct (toMaskXY dd) as [mx my] eqn:Em. apply andb_true_iff in Hi as [Hi _].
  apply include_spec in Hi. unfold c08Offset1, c08Offset2 in E1, E2. rewrite Em in E1. rewrite <- E1 in E2.
  apply (f_equal ix) in E1 as X1. apply (f_equal ix) in E2 as X2. apply (f_equal iy) in E2 as Y2. apply (f_equal iz) in E2 as Z2.
  unfold i3add in *. cbn [ix iy iz] in *. destruct Hv as ((P1 & P2 & P3) & _).
  destruct dd; cbn in Em; injection Em as <- <-; cbn in *; lia.
Qed.

Lemma rounding_refuted : exists il bMin bMax, isDouble il /\ isDouble bMin /\ isDouble bMax /\
  0 < il /\ bMin < bMax /\ longEnough rndDouble il bMin bMax /\
  dHalo (rebuildDim rndDouble il 1 bMin bMax) = 1%Z /\
  overlapOf rndDouble il (dLen (rebuildDim rndDouble il 1 bMin bMax)) = 2%Z.
Proof.
  exists il13, 0, box117. destruct dim13 as (lo & hi & rc & ->). cbn [dHalo dLen].
  split; [apply il13_double|]. split; [now apply (isDouble_IZR 0)|]. split; [apply box117_double|].
  split; [unfold il13; bp; lra|]. split; [unfold box117; bp; lra|]. split; [apply longEnough13|].
  split; [reflexivity|apply overlap13].
Qed.

Lemma rounding_c08_refuted : exists il box,
  isDouble il /\ isDouble3 box /\
  forall near, exists a,
    inGrid (blockDims (rebuild rndDouble il 1 (mkR3 0 0 0) box)) a /\
    cellCanContainOwnedParticles (rebuild rndDouble il 1 (mkR3 0 0 0) box)
      (threeToOneD a (blockDims (rebuild rndDouble il 1 (mkR3 0 0 0) box))) = true /\
    timesProcessed (blockDims (rebuild rndDouble il 1 (mkR3 0 0 0) box))
      (c08Calls near (blockDims (rebuild rndDouble il 1 (mkR3 0 0 0) box))
        (mkI3 (overlapOf rndDouble il (dLen (bX (rebuild rndDouble il 1 (mkR3 0 0 0) box))))
              (overlapOf rndDouble il (dLen (bY (rebuild rndDouble il 1 (mkR3 0 0 0) box))))
              (overlapOf rndDouble il (dLen (bZ (rebuild rndDouble il 1 (mkR3 0 0 0) box)))))) a a = 0%nat.
Proof.
  exists il13, (mkR3 box117 box117 box117). split; [apply il13_double|].
  split; [repeat split; apply box117_double|]. intros near. exists (mkI3 9 5 5).
  unfold rebuild. cbn [rx ry rz]. destruct dim13 as (lo & hi & rc & ->). cbn [bX bY bZ dLen]. rewrite overlap13.
  unfold blockDims, dWithHalo. cbn [bX bY bZ dCells dHalo].
  change (9 + 2 * 1)%Z with 11%Z.
  split; [unfold inGrid; cbn [ix iy iz]; lia|]. split; [reflexivity|].
  apply c08_misses_self; unfold gridFits, positive, inGrid; cbn [ix iy iz]; lia.
Qed.
