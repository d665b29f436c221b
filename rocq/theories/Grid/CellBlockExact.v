(** The cell grid in exact arithmetic. *)
From Coq Require Import Reals Lra Psatz.
From Flocq Require Import Core.
From Verif.Base Require Import ZRange OptionM.
From Verif.Grid Require Import IndexModel IndexSpec IndexProofs CellBlockModel CellBlockSpec CellBlockProofs CellBlockFloat.
From Verif.Functor Require Import SortModel.
Open Scope R_scope.

Lemma rndExact_mono x y : x <= y -> rndExact x <= rndExact y.
Proof. auto. Qed.
Lemma rndExact_0 : rndExact 0 = 0.
Proof. reflexivity. Qed.

Section Exact.
  Variables il csf bMin bMax : R.
  Hypothesis Hil : 0 < il.
  Hypothesis Hcsf : 0 < csf.
  Hypothesis Hlt : bMin < bMax.
  Let L := bMax - bMin.
  Let N := cellsPerDim rndExact L il csf.
  Let h := cellsPerInteractionLength rndExact csf.
  Let d := rebuildDim rndExact il csf bMin bMax.
  Let len := L / IZR N.

  Lemma exact_L : 0 < L.
  Proof. unfold L. lra. Qed.
  Lemma exact_N : (1 <= N)%Z.
  Proof. unfold N, cellsPerDim. lia. Qed.
  Lemma exact_NR : 1 <= IZR N.
  Proof. apply (IZR_le 1), exact_N. Qed.
  Lemma exact_h : (1 <= h)%Z.
  Proof. apply cellsPerIL_pos; auto using rndExact_mono. Qed.
  Lemma exact_len : 0 < len.
  Proof. pose proof exact_L. pose proof exact_NR. unfold len. apply Rdiv_lt_0_compat; lra. Qed.
  Lemma exact_Nlen : IZR N * len = L.
  Proof. pose proof exact_NR. unfold len. field. lra. Qed.
  Lemma exact_d : d = mkDim bMin bMax N h len (IZR N / L) (bMin - IZR h * len) (bMax + IZR h * len).
  Proof. reflexivity. Qed.
  Lemma exact_recip x : x * (IZR N / L) = x / len.
  Proof. pose proof exact_NR. pose proof exact_L. unfold len. field. lra. Qed.

  (** Bounding box of cell [i]. *)
  Lemma exact_bounds i : (0 <= i < dWithHalo d)%Z ->
    cellBounds rndExact d i = (bMin + IZR (i - h) * len, bMin + IZR (i - h + 1) * len).
  Proof.
    intros Hi. pose proof exact_Nlen as E. pose proof exact_h. pose proof exact_N. rewrite exact_d in *. unfold dWithHalo in Hi. cbn [dCells dHalo] in Hi.
    unfold cellBounds, dWithHalo. cbn [dMin dMax dCells dHalo dLen dHaloMin dHaloMax]. unfold rndExact.
    destruct (Z.eqb_spec i (N + 2 * h - h - 1)) as [Ei|Ei]; [|destruct (Z.eqb_spec i (N + 2 * h - 1)) as [Ei'|Ei']].
    - replace (i - h + 1)%Z with N by lia. rewrite E. unfold L. replace (bMin + (bMax - bMin)) with bMax by ring.
      f_equal. destruct (Z.eqb_spec i 0); [lia|]. destruct (Z.eqb_spec i h) as [Eh|Eh].
      + rewrite Eh, Z.sub_diag. ring.
      + rewrite minus_IZR. ring.
    - f_equal.
      + replace (i - h)%Z with (N + h - 1)%Z by lia. rewrite minus_IZR, plus_IZR.
        replace (bMin + (IZR N + IZR h - 1) * len) with (bMin + IZR N * len + IZR h * len - len) by ring. rewrite E. unfold L. ring.
      + replace (i - h + 1)%Z with (N + h)%Z by lia. rewrite plus_IZR.
        replace (bMin + (IZR N + IZR h) * len) with (bMin + IZR N * len + IZR h * len) by ring. rewrite E. unfold L. ring.
    - assert (El : (if (i =? 0)%Z then bMin - IZR h * len else if (i =? h)%Z then bMin else IZR i * len + (bMin - IZR h * len))
                   = bMin + IZR (i - h) * len).
      { destruct (Z.eqb_spec i 0) as [-> | _]; [rewrite minus_IZR; ring|].
        destruct (Z.eqb_spec i h) as [-> | _]; [rewrite Z.sub_diag; ring|]. rewrite minus_IZR. ring. }
      rewrite El. f_equal. rewrite plus_IZR. ring.
  Qed.

  Lemma exact_floor x k : bMin + IZR k * len <= x < bMin + IZR (k + 1) * len <-> Zfloor ((x - bMin) / len) = k.
  Proof.
    pose proof exact_len as Hl. rewrite plus_IZR. split.
    - intros [H1 H2]. apply Zfloor_imp. rewrite plus_IZR. split.
      + apply Rmult_le_reg_r with len; [assumption|]. unfold Rdiv. rewrite Rmult_assoc, Rinv_l, Rmult_1_r by lra. lra.
      + apply Rmult_lt_reg_r with len; [assumption|]. unfold Rdiv. rewrite Rmult_assoc, Rinv_l, Rmult_1_r by lra. lra.
    - intros <-. set (q := (x - bMin) / len). assert (Eq : x = bMin + q * len) by (unfold q; field; lra).
      pose proof (Zfloor_lb q) as A. pose proof (Zfloor_ub q) as B.
      rewrite Eq. split.
      + apply Rplus_le_compat_l, Rmult_le_compat_r; lra.
      + apply Rplus_lt_compat_l, Rmult_lt_compat_r; lra.
  Qed.

  Lemma exact_floor_range x lo hi : (lo <= hi)%Z -> bMin + IZR lo * len <= x < bMin + IZR hi * len ->
    (lo <= Zfloor ((x - bMin) / len) < hi)%Z.
  Proof.
    intros Hlh [H1 H2]. pose proof exact_len as Hl.
    destruct (proj2 (exact_floor x (Zfloor ((x - bMin) / len))) eq_refl) as [A B]. set (k := Zfloor _) in *.
    split.
    - apply Z.lt_succ_r. unfold Z.succ. apply lt_IZR. apply Rmult_lt_reg_r with len; lra.
    - apply lt_IZR. apply Rmult_lt_reg_r with len; lra.
  Qed.

  Lemma exact_upper pos : dMin d <= pos < dMax d ->
    (Zfloor (rndExact (rndExact (pos - dMin d) * dRecip d)) <= dCells d)%Z.
  Proof.
    rewrite exact_d. cbn [dMin dMax dRecip dCells]. unfold rndExact. intros H. rewrite exact_recip.
    assert (0 <= Zfloor ((pos - bMin) / len) < N)%Z; [|lia].
    apply exact_floor_range; [pose proof exact_N; lia|]. rewrite exact_Nlen. unfold L. rewrite Rmult_0_l. lra.
  Qed.

  Lemma exact_recip_pos : 0 <= dRecip d.
  Proof. rewrite exact_d. cbn [dRecip]. pose proof exact_NR. pose proof exact_L. apply Rmult_le_pos; [lra|]. left. apply Rinv_0_lt_compat. lra. Qed.

  (** Lookup of a position in the halo box. *)
  Lemma exact_lookup x : (N + h < 2 ^ 62)%Z -> dHaloMin d <= x < dHaloMax d ->
    exists i, cellIndexOf rndExact d x = Some i /\ (0 <= i < dWithHalo d)%Z /\
      fst (cellBounds rndExact d i) <= x < snd (cellBounds rndExact d i).
  Proof.
    intros Hsz Hx. pose proof exact_N. pose proof exact_h. pose proof exact_Nlen as EN.
    rewrite exact_d in Hx. cbn [dHaloMin dHaloMax] in Hx.
    set (f := Zfloor ((x - bMin) / len)).
    assert (Hf : (- h <= f < N + h)%Z).
    { apply exact_floor_range; [lia|]. rewrite opp_IZR, plus_IZR.
      replace ((IZR N + IZR h) * len) with (L + IZR h * len) by (rewrite <- EN; ring). unfold L. lra. }
    assert (Hin : forall lo hi, bMin + IZR lo * len <= x < bMin + IZR hi * len -> (lo <= hi)%Z -> (lo <= f < hi)%Z)
      by (intros; now apply exact_floor_range).
    exists (f + h)%Z. split; [|split].
    - unfold cellIndexOf. rewrite exact_d. unfold dWithHalo. cbn [dMin dMax dRecip dHalo dCells]. unfold rndExact.
      rewrite exact_recip. fold f. rewrite toLong_ok by lia. f_equal.
      destruct (Rle_dec bMax x) as [A|A].
      + assert (N <= f < N + h + 1)%Z; [|lia]. apply Hin; [|lia]. rewrite !plus_IZR, EN. unfold L.
        pose proof exact_len. replace ((IZR N + IZR h + 1) * len) with (L + IZR h * len + len) by (rewrite <- EN; ring). unfold L. lra.
      + destruct (Rlt_dec x bMin) as [B|B].
        * assert (- h <= f < 0)%Z by (apply Hin; [rewrite opp_IZR; lra|lia]).
          destruct (Z.eqb_spec (Z.min (Z.max (f + h) 0) (N + 2 * h - 1)) h); [lia|].
          destruct (Z.eqb_spec (Z.min (Z.max (f + h) 0) (N + 2 * h - 1)) (N + 2 * h - h)); lia.
        * assert (0 <= f < N)%Z by (apply Hin; [rewrite EN; unfold L; lra|lia]).
          destruct (Z.eqb_spec (Z.min (Z.max (f + h) 0) (N + 2 * h - 1)) (N + 2 * h - h)); lia.
    - rewrite exact_d. unfold dWithHalo. cbn [dCells dHalo]. lia.
    - rewrite exact_bounds by (rewrite exact_d; unfold dWithHalo; cbn [dCells dHalo]; lia). cbn [fst snd].
      replace (f + h - h)%Z with f by lia. now apply exact_floor.
  Qed.

  (** Boxes of different indices are disjoint. *)
  Lemma exact_disjoint i j x : (0 <= i < dWithHalo d)%Z -> (0 <= j < dWithHalo d)%Z ->
    fst (cellBounds rndExact d i) <= x < snd (cellBounds rndExact d i) ->
    fst (cellBounds rndExact d j) <= x < snd (cellBounds rndExact d j) -> i = j.
  Proof.
    intros Hi Hj. rewrite !exact_bounds by assumption. cbn [fst snd]. rewrite !exact_floor. lia.
  Qed.

  (** Halo layers reach an interaction length beyond the box. *)
  Lemma exact_halo : il <= L -> il <= IZR h * len.
  Proof.
    intros HL. pose proof exact_h as Hh. pose proof exact_len as Hl. pose proof exact_NR as HN.
    assert (Hh1 : 1 <= IZR h) by (now apply (IZR_le 1)).
    destruct (Z.eq_dec N 1) as [E1|E1].
    - assert (len = L) by (unfold len; rewrite E1; field). nra.
    - assert (Hn : IZR N <= L / (il * csf)).
      { unfold N, cellsPerDim, rndExact in *. destruct (Z.max_spec (Zfloor (L / (il * csf))) 1) as [[_ E]|[_ E]];
        rewrite E in *; [congruence|]. apply Zfloor_lb. }
      assert (Hp : 0 < il * csf) by now apply Rmult_lt_0_compat.
      assert (Hlen : il * csf <= len).
      { unfold len. apply Rmult_le_reg_r with (IZR N); [lra|]. replace (L / IZR N * IZR N) with L by (field; lra).
        apply Rmult_le_compat_r with (r := il * csf) in Hn; [|lra]. unfold Rdiv in Hn. rewrite Rmult_assoc, Rinv_l, Rmult_1_r in Hn by lra. lra. }
      assert (Hhc : 1 <= IZR h * csf).
      { unfold h, cellsPerInteractionLength. destruct (Rle_dec 1 csf); [lra|]. unfold rndExact.
        pose proof (Zceil_ub (1 / csf)) as U. apply Rmult_le_compat_r with (r := csf) in U; [|lra].
        unfold Rdiv in U. rewrite Rmult_assoc, Rinv_l, Rmult_1_r in U by lra. lra. }
      apply Rle_trans with (il * (IZR h * csf)); [nra|]. replace (il * (IZR h * csf)) with (IZR h * (il * csf)) by ring.
      apply Rmult_le_compat_l; lra.
  Qed.

  Lemma exact_overlap : il <= L -> (1 <= overlapOf rndExact il len <= h)%Z.
  Proof.
    intros HL. pose proof (exact_halo HL) as H. pose proof exact_len as Hl. unfold overlapOf, rndExact. split.
    - assert (0 < Zceil (il / len))%Z; [|lia]. apply lt_IZR. eapply Rlt_le_trans; [|apply Zceil_ub]. now apply Rdiv_lt_0_compat.
    - apply Zceil_glb. apply Rmult_le_reg_r with len; [assumption|]. unfold Rdiv. rewrite Rmult_assoc, Rinv_l, Rmult_1_r by lra. lra.
  Qed.
End Exact.

(** ** Three dimensions *)
Section Exact3.
  Variables (il csf : R) (bMin bMax : R3).
  Hypothesis Hil : 0 < il.
  Hypothesis Hcsf : 0 < csf.
  Hypothesis Hbox : below bMin bMax.
  Let b := rebuild rndExact il csf bMin bMax.

  Lemma exact3_lookup pos :
    (dWithHalo (bX b) < 2 ^ 62)%Z -> (dWithHalo (bY b) < 2 ^ 62)%Z -> (dWithHalo (bZ b) < 2 ^ 62)%Z ->
    inBox (getHaloBoxMin b) (getHaloBoxMax b) pos ->
    exists p, get3DIndexOfPosition rndExact b pos = Some p /\ inGrid (blockDims b) p /\
      inBox (fst (getCellBoundingBox rndExact b p)) (snd (getCellBoundingBox rndExact b p)) pos.
  Proof.
    intros SX SY SZ (HX & HY & HZ). destruct Hbox as (LX & LY & LZ). pose proof (exact_h csf Hcsf) as Hh.
    destruct (exact_lookup il csf _ _ Hcsf LX (rx pos)) as (x & Ex & Rx & Bx); [cbn in SX; unfold dWithHalo in SX; cbn in SX; unfold rndExact in *; lia|exact HX|].
    destruct (exact_lookup il csf _ _ Hcsf LY (ry pos)) as (y & Ey & Ry & By); [cbn in SY; unfold dWithHalo in SY; cbn in SY; unfold rndExact in *; lia|exact HY|].
    destruct (exact_lookup il csf _ _ Hcsf LZ (rz pos)) as (z & Ez & Rz & Bz); [cbn in SZ; unfold dWithHalo in SZ; cbn in SZ; unfold rndExact in *; lia|exact HZ|].
    exists (mkI3 x y z). split; [|split].
    - unfold get3DIndexOfPosition. cbn [b rebuild bX bY bZ]. rewrite Ex, Ey, Ez. reflexivity.
    - unfold inGrid, blockDims. cbn [ix iy iz]. auto.
    - unfold inBox, getCellBoundingBox. cbn [fst snd rx ry rz ix iy iz]. auto.
  Qed.

  Lemma exact3_disjoint p q pos : inGrid (blockDims b) p -> inGrid (blockDims b) q ->
    inBox (fst (getCellBoundingBox rndExact b p)) (snd (getCellBoundingBox rndExact b p)) pos ->
    inBox (fst (getCellBoundingBox rndExact b q)) (snd (getCellBoundingBox rndExact b q)) pos -> p = q.
  Proof.
    intros (P1 & P2 & P3) (Q1 & Q2 & Q3) (A1 & A2 & A3) (B1 & B2 & B3). destruct Hbox as (LX & LY & LZ).
    apply i3_ext.
    - exact (exact_disjoint il csf _ _ Hcsf LX _ _ _ P1 Q1 A1 B1).
    - exact (exact_disjoint il csf _ _ Hcsf LY _ _ _ P2 Q2 A2 B2).
    - exact (exact_disjoint il csf _ _ Hcsf LZ _ _ _ P3 Q3 A3 B3).
  Qed.

  Definition exactGood (d : Dim) : Prop :=
    (1 <= dHalo d)%Z /\ (1 <= dCells d)%Z /\ dMin d < dMax d /\ 0 <= dRecip d /\
    (forall pos, dMin d <= pos < dMax d -> (Zfloor (rndExact (rndExact (pos - dMin d) * dRecip d)) <= dCells d)%Z).

  Lemma exactGood_of lo hi : lo < hi -> exactGood (rebuildDim rndExact il csf lo hi).
  Proof.
    intros H. split; [exact (exact_h csf Hcsf)|]. split; [exact (exact_N il csf lo hi)|]. split; [exact H|].
    split; [exact (exact_recip_pos il csf lo hi H)|exact (exact_upper il csf lo hi H)].
  Qed.

  Lemma exact3_mono pos pos' p p' :
    (dWithHalo (bX b) < 2 ^ 62)%Z -> (dWithHalo (bY b) < 2 ^ 62)%Z -> (dWithHalo (bZ b) < 2 ^ 62)%Z ->
    rx pos <= rx pos' -> ry pos <= ry pos' -> rz pos <= rz pos' ->
    get3DIndexOfPosition rndExact b pos = Some p -> get3DIndexOfPosition rndExact b pos' = Some p' ->
    (ix p <= ix p' /\ iy p <= iy p' /\ iz p <= iz p')%Z.
  Proof.
    intros SX SY SZ Hx Hy Hz. unfold get3DIndexOfPosition. intros H H'. destruct Hbox as (LX & LY & LZ).
    destruct (cellIndexOf rndExact (bX b) (rx pos)) as [x|] eqn:Ex; [|discriminate].
    destruct (cellIndexOf rndExact (bY b) (ry pos)) as [y|] eqn:Ey; [|discriminate].
    destruct (cellIndexOf rndExact (bZ b) (rz pos)) as [z|] eqn:Ez; [|discriminate].
    destruct (cellIndexOf rndExact (bX b) (rx pos')) as [x'|] eqn:Ex'; [|discriminate].
    destruct (cellIndexOf rndExact (bY b) (ry pos')) as [y'|] eqn:Ey'; [|discriminate].
    destruct (cellIndexOf rndExact (bZ b) (rz pos')) as [z'|] eqn:Ez'; [|discriminate].
    injection H as <-. injection H' as <-. cbn [ix iy iz].
    destruct (exactGood_of _ _ LX) as (A1 & A2 & A3 & A4 & A5). destruct (exactGood_of _ _ LY) as (B1 & B2 & B3 & B4 & B5).
    destruct (exactGood_of _ _ LZ) as (C1 & C2 & C3 & C4 & C5).
    change (rebuildDim rndExact il csf (rx bMin) (rx bMax)) with (bX b) in *.
    change (rebuildDim rndExact il csf (ry bMin) (ry bMax)) with (bY b) in *.
    change (rebuildDim rndExact il csf (rz bMin) (rz bMax)) with (bZ b) in *.
    unfold dWithHalo in *.
    assert (A2' : (1 <= dCells (bX b) < 2 ^ 62)%Z) by lia. assert (B2' : (1 <= dCells (bY b) < 2 ^ 62)%Z) by lia.
    assert (C2' : (1 <= dCells (bZ b) < 2 ^ 62)%Z) by lia.
    split; [|split].
    - exact (cellIndexOf_mono rndExact rndExact_mono rndExact_0 (bX b) A1 A2' A3 A4 A5 _ _ _ _ Hx Ex Ex').
    - exact (cellIndexOf_mono rndExact rndExact_mono rndExact_0 (bY b) B1 B2' B3 B4 B5 _ _ _ _ Hy Ey Ey').
    - exact (cellIndexOf_mono rndExact rndExact_mono rndExact_0 (bZ b) C1 C2' C3 C4 C5 _ _ _ _ Hz Ez Ez').
  Qed.
End Exact3.

(** ** clearHaloCells, for any rounding that keeps at least one halo layer *)
Lemma clearHaloCells_spec {A} (b : Block) (cells : list (list A)) h :
  dHalo (bX b) = h -> dHalo (bY b) = h -> dHalo (bZ b) = h -> (1 <= h)%Z ->
  (1 <= dCells (bX b))%Z -> (1 <= dCells (bY b))%Z -> (1 <= dCells (bZ b))%Z ->
  Z.of_nat (length cells) = numCells (blockDims b) ->
  exists r, clearHaloCells b cells = Some r /\ length r = length cells /\
    forall k, (k < length cells)%nat ->
      nth k r [] = if cellCanContainHaloParticles b (Z.of_nat k) then [] else nth k cells [].
Proof.
  intros H1 H2 H3 Hh N1 N2 N3 Hlen.
  pose proof (cleared_iff b h H1 H2 H3 Hh N1 N2 N3) as Hiff.
  destruct (clearAll_spec (clearedCells b) cells) as (r & E & El & Hr).
  { intros i Hi. apply Hiff in Hi. rewrite Hlen. tauto. }
  exists r. split; [exact E|]. split; [exact El|]. intros k Hk. rewrite Hr.
  destruct (existsb _ _) eqn:Ex.
  - apply existsb_exists in Ex as (j & Hj & Ej). apply Z.eqb_eq in Ej. rewrite <- Ej in Hj. apply Hiff in Hj as [_ ->]. reflexivity.
  - destruct (cellCanContainHaloParticles b (Z.of_nat k)) eqn:Ec; [|reflexivity].
    exfalso. assert (Hin : In (Z.of_nat k) (clearedCells b)) by (apply Hiff; split; [lia|assumption]).
    assert (existsb (Z.eqb (Z.of_nat k)) (clearedCells b) = true); [|congruence].
    apply existsb_exists. exists (Z.of_nat k). split; [assumption|apply Z.eqb_refl].
Qed.

Lemma exact_halo_dim il csf bMin bMax : 0 < il -> 0 < csf -> bMin < bMax -> longEnough rndExact il bMin bMax ->
  il <= bMin - dHaloMin (rebuildDim rndExact il csf bMin bMax) /\
  il <= dHaloMax (rebuildDim rndExact il csf bMin bMax) - bMax /\
  (1 <= overlapOf rndExact il (dLen (rebuildDim rndExact il csf bMin bMax)) <= dHalo (rebuildDim rndExact il csf bMin bMax))%Z.
Proof.
  intros Hil Hcsf Hlt Hl. unfold longEnough, rndExact in Hl.
  assert (HL : il <= bMax - bMin) by lra.
  pose proof (exact_halo il csf bMin bMax Hil Hcsf Hlt HL) as H.
  pose proof (exact_overlap il csf bMin bMax Hil Hcsf Hlt HL) as Ho.
  rewrite exact_d. cbn [dHaloMin dHaloMax dLen dHalo]. split; [lra|]. split; [lra|exact Ho].
Qed.

Lemma exact_example : 0 < 1 /\ below (mkR3 0 0 0) (mkR3 3 3 3) /\
  (dWithHalo (rebuildDim rndExact 1 1 0 3) = 5)%Z /\
  inBox (getHaloBoxMin (rebuild rndExact 1 1 (mkR3 0 0 0) (mkR3 3 3 3)))
        (getHaloBoxMax (rebuild rndExact 1 1 (mkR3 0 0 0) (mkR3 3 3 3))) (mkR3 (-1 / 2) 2 (7 / 2)) /\
  longEnough rndExact 1 0 3.
Proof.
  assert (E : cellsPerDim rndExact (3 - 0) 1 1 = 3%Z).
  { unfold cellsPerDim, rndExact. replace ((3 - 0) / (1 * 1)) with (IZR 3) by field. rewrite Zfloor_IZR. reflexivity. }
  assert (Eh : cellsPerInteractionLength rndExact 1 = 1%Z).
  { unfold cellsPerInteractionLength. destruct (Rle_dec 1 1); [reflexivity|lra]. }
  split; [lra|]. split; [unfold below; cbn [rx ry rz]; lra|].
  assert (Ed : rebuildDim rndExact 1 1 0 3 = mkDim 0 3 3 1 1 1 (-1) 4).
  { rewrite exact_d. change (3 - 0) with (3 - 0) in *. rewrite E, Eh. f_equal; field. }
  split; [rewrite Ed; reflexivity|]. split.
  - unfold inBox, getHaloBoxMin, getHaloBoxMax. cbn [rebuild bX bY bZ rx ry rz]. rewrite Ed.
    cbn [dHaloMin dHaloMax]. lra.
  - unfold longEnough, rndExact. lra.
Qed.
