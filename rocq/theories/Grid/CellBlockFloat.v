(** The cell grid with IEEE rounding and in exact arithmetic. *)
From Coq Require Import Reals Lra Psatz.
From Flocq Require Import Core Relative Plus_error.
From Verif.Base Require Import ZRange OptionM.
From Verif.Grid Require Import IndexModel IndexSpec IndexProofs CellBlockModel CellBlockSpec CellBlockProofs.
From Verif.Functor Require Import SortModel.
Open Scope R_scope.

Lemma rndDouble_mono x y : x <= y -> rndDouble x <= rndDouble y.
Proof. intros H. apply round_le; [apply FLT_exp_valid; reflexivity|apply valid_rnd_N|exact H]. Qed.

Lemma rndDouble_id x : isDouble x -> rndDouble x = x.
Proof. intros H. apply round_generic; [apply valid_rnd_N|exact H]. Qed.

Lemma rndDouble_0 : rndDouble 0 = 0.
Proof. apply round_0. apply valid_rnd_N. Qed.

(** Numbers m * 2^e with |m| < 2^53 and e >= -1074 are doubles. *)
Lemma isDouble_F2R m e : (Z.abs m < 2 ^ 53)%Z -> (-1074 <= e)%Z -> isDouble (IZR m * bpow radix2 e).
Proof.
  intros Hm He. apply generic_format_FLT. exists (Float radix2 m e).
  - unfold F2R. reflexivity.
  - cbn [Fnum]. change (2 ^ 53)%Z with (Zpower radix2 53) in Hm. exact Hm.
  - exact He.
Qed.

Lemma isDouble_IZR m : (Z.abs m < 2 ^ 53)%Z -> isDouble (IZR m).
Proof. intros H. rewrite <- (Rmult_1_r (IZR m)). change 1 with (bpow radix2 0). apply isDouble_F2R; [exact H|lia]. Qed.

Lemma isDouble_half m : (Z.abs m < 2 ^ 51)%Z -> isDouble (IZR m + 1 / 2).
Proof.
  intros H. replace (IZR m + 1 / 2) with (IZR (2 * m + 1) * bpow radix2 (-1)).
  - apply isDouble_F2R; lia.
  - change (bpow radix2 (-1)) with (/ 2). rewrite plus_IZR, mult_IZR. lra.
Qed.

Lemma isDouble_bpow e : (-1074 <= e)%Z -> isDouble (bpow radix2 e).
Proof. intros H. rewrite <- (Rmult_1_l (bpow radix2 e)). change 1 with (IZR 1). apply isDouble_F2R; [reflexivity|exact H]. Qed.

Section Float.
  Variables il csf bMin bMax : R.
  Hypothesis Dmin : isDouble bMin.
  Hypothesis Dmax : isDouble bMax.
  Hypothesis Hlt : bMin < bMax.
  Hypothesis Hsize : bMax - bMin <= bpow radix2 1023.
  Let L := rndDouble (bMax - bMin).
  Let N := cellsPerDim rndDouble L il csf.
  Hypothesis HN : (N < 2 ^ 51)%Z.
  Let d := rebuildDim rndDouble il csf bMin bMax.

  Lemma L_pos : 0 < L.
  Proof.
    assert (H0 : 0 <= L) by (rewrite <- rndDouble_0; apply rndDouble_mono; lra).
    assert (Hne : L <> 0).
    { unfold L, rndDouble. change (bMax - bMin) with (bMax + - bMin).
      apply round_plus_neq_0.
      - apply FLT_exp_valid. reflexivity.
      - apply monotone_exp_not_FTZ; [apply FLT_exp_valid; reflexivity|apply FLT_exp_monotone].
      - apply valid_rnd_N.
      - exact Dmax.
      - apply generic_format_opp. exact Dmin.
      - lra. }
    lra.
  Qed.

  Lemma L_le : L <= bpow radix2 1023.
  Proof.
    rewrite <- (rndDouble_id (bpow radix2 1023)) by (apply isDouble_bpow; lia). apply rndDouble_mono. exact Hsize.
  Qed.

  Lemma N_pos : (1 <= N)%Z.
  Proof. unfold N, cellsPerDim. lia. Qed.

  Lemma rndN : rndDouble (IZR N) = IZR N.
  Proof. apply rndDouble_id, isDouble_IZR. pose proof N_pos. lia. Qed.

  Lemma recip_le : exists e, 0 <= dRecip d /\ dRecip d * L <= IZR N + e /\ e < 1 / 2.
  Proof.
    pose proof L_pos as HL. pose proof N_pos as HNp. assert (HN1 : 1 <= IZR N) by (apply (IZR_le 1); lia).
    assert (Hd : dRecip d = rndDouble (IZR N / L)).
    { unfold d, rebuildDim. cbn [dRecip]. fold L. fold N. now rewrite rndN. }
    rewrite Hd.
    destruct (error_N_FLT radix2 (-1074) 53 eq_refl (fun z => negb (Z.even z)) (IZR N / L)) as (eps & eta & He1 & He2 & _ & E).
    unfold rndDouble. exists (IZR N * eps + eta * L). split; [|split].
    - change (0 <= rndDouble (IZR N / L)). rewrite <- rndDouble_0. apply rndDouble_mono.
      apply Rmult_le_pos; [lra|]. left. now apply Rinv_0_lt_compat.
    - rewrite E. right. field. lra.
    - assert (HNu : IZR N < bpow radix2 51) by (change (bpow radix2 51) with (IZR (2 ^ 51)); now apply IZR_lt).
      assert (H1 : IZR N * eps <= 1 / 4).
      { apply Rle_trans with (bpow radix2 51 * Rabs eps).
        - apply Rle_trans with (IZR N * Rabs eps).
          + apply Rmult_le_compat_l; [lra|]. apply Rle_abs.
          + apply Rmult_le_compat_r; [apply Rabs_pos|lra].
        - apply Rle_trans with (bpow radix2 51 * (/ 2 * bpow radix2 (- (53) + 1))).
          + apply Rmult_le_compat_l; [apply bpow_ge_0|exact He1].
          + replace (bpow radix2 51 * (/ 2 * bpow radix2 (- (53) + 1))) with (/ 2 * (bpow radix2 51 * bpow radix2 (- (53) + 1))) by ring.
            rewrite <- bpow_plus. change (bpow radix2 (51 + (- (53) + 1))) with (/ 2). lra. }
      assert (H2 : eta * L <= / 2 * bpow radix2 (-51)).
      { apply Rle_trans with (Rabs eta * L).
        - apply Rmult_le_compat_r; [lra|apply Rle_abs].
        - apply Rle_trans with ((/ 2 * bpow radix2 (-1074)) * bpow radix2 1023).
          + apply Rmult_le_compat; [apply Rabs_pos|lra|exact He2|exact L_le].
          + rewrite Rmult_assoc, <- bpow_plus. apply Rle_refl. }
      assert (H3 : bpow radix2 (-51) < bpow radix2 (-2)) by (apply bpow_lt; lia).
      change (bpow radix2 (-2)) with (/ 4) in H3. lra.
  Qed.

  Lemma float_upper pos : bMin <= pos < bMax ->
    (Zfloor (rndDouble (rndDouble (pos - bMin) * dRecip d)) <= N)%Z.
  Proof.
    intros Hp. destruct recip_le as (e & H0 & H1 & H2).
    assert (Hx : 0 <= rndDouble (pos - bMin) <= L).
    { split; [rewrite <- rndDouble_0|]; apply rndDouble_mono; lra. }
    assert (Hy : rndDouble (pos - bMin) * dRecip d <= IZR N + 1 / 2).
    { apply Rle_trans with (L * dRecip d); [|lra]. apply Rmult_le_compat_r; [assumption|lra]. }
    apply rndDouble_mono in Hy. rewrite (rndDouble_id (IZR N + 1 / 2)) in Hy.
    - assert (Hf : IZR (Zfloor (rndDouble (rndDouble (pos - bMin) * dRecip d))) < IZR (N + 1)).
      { rewrite plus_IZR. eapply Rle_lt_trans; [apply Zfloor_lb|]. lra. }
      apply lt_IZR in Hf. lia.
    - apply isDouble_half. pose proof N_pos. lia.
  Qed.
End Float.

Lemma cellsPerIL_pos rnd csf : (forall x y, x <= y -> rnd x <= rnd y) -> rnd 1 = 1 -> 0 < csf ->
  (1 <= cellsPerInteractionLength rnd csf)%Z.
Proof.
  intros Hm H1 Hc. unfold cellsPerInteractionLength. destruct (Rle_dec 1 csf) as [H|H]; [lia|].
  assert (Hq : 1 <= rnd (1 / csf)).
  { rewrite <- H1 at 1. apply Hm. apply Rmult_le_reg_r with csf; [assumption|]. field_simplify; lra. }
  apply le_IZR. eapply Rle_trans; [exact Hq|]. apply Zceil_ub.
Qed.

(** ** Three dimensions *)
Definition floatGrid (il csf : R) (bMin bMax : R3) : Prop :=
  isDouble3 bMin /\ isDouble3 bMax /\ below bMin bMax /\ 0 < csf /\
  (forall lo hi, (lo, hi) = (rx bMin, rx bMax) \/ (lo, hi) = (ry bMin, ry bMax) \/ (lo, hi) = (rz bMin, rz bMax) ->
   hi - lo <= bpow radix2 1023 /\ (cellsPerDim rndDouble (rndDouble (hi - lo)) il csf < 2 ^ 51)%Z).

Section Float3.
  Variables (il csf : R) (bMin bMax : R3).
  Hypothesis G : floatGrid il csf bMin bMax.
  Let b := rebuild rndDouble il csf bMin bMax.
  Let n := mkI3 (dCells (bX b)) (dCells (bY b)) (dCells (bZ b)).
  Let h := cellsPerInteractionLength rndDouble csf.

  Lemma float_h : (1 <= h)%Z.
  Proof.
    apply cellsPerIL_pos; [apply rndDouble_mono|apply rndDouble_id; now apply (isDouble_IZR 1)|].
    now destruct G as (_ & _ & _ & H & _).
  Qed.

  Definition goodDim (d : Dim) : Prop :=
    (1 <= dHalo d)%Z /\ (1 <= dCells d < 2 ^ 62)%Z /\ dMin d < dMax d /\ 0 <= dRecip d /\
    (forall pos, dMin d <= pos < dMax d -> (Zfloor (rndDouble (rndDouble (pos - dMin d) * dRecip d)) <= dCells d)%Z).

  Lemma goodDim_of lo hi : isDouble lo -> isDouble hi -> lo < hi ->
    hi - lo <= bpow radix2 1023 -> (cellsPerDim rndDouble (rndDouble (hi - lo)) il csf < 2 ^ 51)%Z ->
    goodDim (rebuildDim rndDouble il csf lo hi).
  Proof.
    intros D1 D2 Hl Hs Hn. unfold goodDim. split; [exact float_h|]. split; [|split; [exact Hl|split]].
    - cbn [rebuildDim dCells]. unfold cellsPerDim in *. lia.
    - now destruct (recip_le il csf lo hi D1 D2 Hl Hs Hn) as (e & H & _).
    - exact (float_upper il csf lo hi D1 D2 Hl Hs Hn).
  Qed.

  Lemma goodX : goodDim (bX b).
  Proof.
    destruct G as ((D1 & _ & _) & (D2 & _ & _) & (Hl & _ & _) & _ & Hs). destruct (Hs _ _ (or_introl eq_refl)).
    now apply goodDim_of.
  Qed.
  Lemma goodY : goodDim (bY b).
  Proof.
    destruct G as ((_ & D1 & _) & (_ & D2 & _) & (_ & Hl & _) & _ & Hs).
    destruct (Hs _ _ (or_intror (or_introl eq_refl))). now apply goodDim_of.
  Qed.
  Lemma goodZ : goodDim (bZ b).
  Proof.
    destruct G as ((_ & _ & D1) & (_ & _ & D2) & (_ & _ & Hl) & _ & Hs).
    destruct (Hs _ _ (or_intror (or_intror eq_refl))). now apply goodDim_of.
  Qed.

  Lemma index3_inside pos : inBox bMin bMax pos ->
    exists p, get3DIndexOfPosition rndDouble b pos = Some p /\ innerCell n h p /\ inGrid (blockDims b) p.
  Proof.
    intros (Hx & Hy & Hz).
    destruct goodX as (A1 & A2 & A3 & A4 & A5). destruct goodY as (B1 & B2 & B3 & B4 & B5).
    destruct goodZ as (C1 & C2 & C3 & C4 & C5).
    destruct (cellIndexOf_inside_ok rndDouble rndDouble_mono rndDouble_0 (bX b) A1 A2 A4 A5 (rx pos) Hx) as (x & Ex & Rx).
    destruct (cellIndexOf_inside_ok rndDouble rndDouble_mono rndDouble_0 (bY b) B1 B2 B4 B5 (ry pos) Hy) as (y & Ey & Ry).
    destruct (cellIndexOf_inside_ok rndDouble rndDouble_mono rndDouble_0 (bZ b) C1 C2 C4 C5 (rz pos) Hz) as (z & Ez & Rz).
    exists (mkI3 x y z). unfold get3DIndexOfPosition. rewrite Ex, Ey, Ez. split; [reflexivity|].
    unfold innerCell, inGrid, n, blockDims, dWithHalo. cbn [ix iy iz].
    change (dHalo (bX b)) with h in *. change (dHalo (bY b)) with h in *. change (dHalo (bZ b)) with h in *.
    lia.
  Qed.

  Lemma dimInside lo hi d x i : goodDim d -> dMin d = lo -> dMax d = hi ->
    cellIndexOf rndDouble d x = Some i ->
    (0 <= i < dWithHalo d)%Z /\ (lo <= x < hi <-> (dHalo d <= i < dHalo d + dCells d)%Z).
  Proof.
    intros (A1 & A2 & A3 & A4 & A5) <- <- Hi.
    destruct (Rlt_le_dec x (dMin d)) as [X|X]; [|destruct (Rlt_le_dec x (dMax d)) as [X'|X']].
    - pose proof (cellIndexOf_below rndDouble rndDouble_mono rndDouble_0 d A1 A2 A3 A4 A5 x i X Hi). unfold dWithHalo. split; [lia|].
      split; [lra|lia].
    - destruct (cellIndexOf_inside_ok rndDouble rndDouble_mono rndDouble_0 d A1 A2 A4 A5 x (conj X X')) as (j & Ej & Rj).
      assert (i = j) by congruence. subst j. unfold dWithHalo. split; [lia|]. split; [intros _; exact Rj|lra].
    - pose proof (cellIndexOf_above rndDouble rndDouble_mono d A1 A2 A5 x i X' Hi). split; [lia|]. split; [lra|lia].
  Qed.

  Lemma index3_iff pos p : get3DIndexOfPosition rndDouble b pos = Some p ->
    inGrid (blockDims b) p /\ (inBox bMin bMax pos <-> innerCell n h p).
  Proof.
    unfold get3DIndexOfPosition. intros H.
    destruct (cellIndexOf rndDouble (bX b) (rx pos)) as [x|] eqn:Ex; [|discriminate].
    destruct (cellIndexOf rndDouble (bY b) (ry pos)) as [y|] eqn:Ey; [|discriminate].
    destruct (cellIndexOf rndDouble (bZ b) (rz pos)) as [z|] eqn:Ez; [|discriminate].
    injection H as <-.
    destruct (dimInside (rx bMin) (rx bMax) _ _ _ goodX eq_refl eq_refl Ex) as [X1 X2].
    destruct (dimInside (ry bMin) (ry bMax) _ _ _ goodY eq_refl eq_refl Ey) as [Y1 Y2].
    destruct (dimInside (rz bMin) (rz bMax) _ _ _ goodZ eq_refl eq_refl Ez) as [Z1 Z2].
    change (dHalo (bX b)) with h in *. change (dHalo (bY b)) with h in *. change (dHalo (bZ b)) with h in *.
    split; [unfold inGrid, blockDims; cbn [ix iy iz]; auto|].
    unfold inBox, innerCell, n. cbn [ix iy iz]. rewrite X2, Y2, Z2. tauto.
  Qed.

  Lemma float_halo_iff p : inGrid (blockDims b) p ->
    cellCanContainHaloParticles b (threeToOneD p (blockDims b)) = false <-> innerCell n h p.
  Proof.
    destruct goodX as (A1 & A2 & _). destruct goodY as (B1 & B2 & _). destruct goodZ as (C1 & C2 & _).
    apply halo_iff; try reflexivity; try lia. exact float_h.
  Qed.

  Lemma float_inside pos : inBox bMin bMax pos ->
    exists i, get1DIndexOfPosition rndDouble b pos = Some i /\ (0 <= i < numCells (blockDims b))%Z /\
      cellCanContainOwnedParticles b i = true /\ cellCanContainHaloParticles b i = false.
  Proof.
    intros H. destruct (index3_inside pos H) as (p & E & Hin & Hg).
    exists (threeToOneD p (blockDims b)). unfold get1DIndexOfPosition. rewrite E. split; [reflexivity|].
    split; [now apply threeToOneD_range|]. apply float_halo_iff in Hin; [|assumption].
    unfold cellCanContainOwnedParticles. rewrite Hin. auto.
  Qed.

  Lemma float_outside pos i : ~ inBox bMin bMax pos -> get1DIndexOfPosition rndDouble b pos = Some i ->
    (0 <= i < numCells (blockDims b))%Z /\ cellCanContainHaloParticles b i = true /\ cellCanContainOwnedParticles b i = false.
  Proof.
    intros H Hi. unfold get1DIndexOfPosition in Hi.
    destruct (get3DIndexOfPosition rndDouble b pos) as [p|] eqn:E; [|discriminate]. injection Hi as <-.
    apply index3_iff in E as [Hg Hiff]. split; [now apply threeToOneD_range|].
    unfold cellCanContainOwnedParticles.
    destruct (cellCanContainHaloParticles b (threeToOneD p (blockDims b))) eqn:Ec; [auto|].
    exfalso. apply H, Hiff. now apply float_halo_iff.
  Qed.

  Lemma float_mono pos pos' p p' :
    rx pos <= rx pos' -> ry pos <= ry pos' -> rz pos <= rz pos' ->
    get3DIndexOfPosition rndDouble b pos = Some p -> get3DIndexOfPosition rndDouble b pos' = Some p' ->
    (ix p <= ix p' /\ iy p <= iy p' /\ iz p <= iz p')%Z.
  Proof.
    intros Hx Hy Hz. unfold get3DIndexOfPosition. intros H H'.
    destruct (cellIndexOf rndDouble (bX b) (rx pos)) as [x|] eqn:Ex; [|discriminate].
    destruct (cellIndexOf rndDouble (bY b) (ry pos)) as [y|] eqn:Ey; [|discriminate].
    destruct (cellIndexOf rndDouble (bZ b) (rz pos)) as [z|] eqn:Ez; [|discriminate].
    destruct (cellIndexOf rndDouble (bX b) (rx pos')) as [x'|] eqn:Ex'; [|discriminate].
    destruct (cellIndexOf rndDouble (bY b) (ry pos')) as [y'|] eqn:Ey'; [|discriminate].
    destruct (cellIndexOf rndDouble (bZ b) (rz pos')) as [z'|] eqn:Ez'; [|discriminate].
    injection H as <-. injection H' as <-. cbn [ix iy iz].
    destruct goodX as (A1 & A2 & A3 & A4 & A5). destruct goodY as (B1 & B2 & B3 & B4 & B5).
    destruct goodZ as (C1 & C2 & C3 & C4 & C5).
    split; [|split].
    - exact (cellIndexOf_mono rndDouble rndDouble_mono rndDouble_0 (bX b) A1 A2 A3 A4 A5 _ _ _ _ Hx Ex Ex').
    - exact (cellIndexOf_mono rndDouble rndDouble_mono rndDouble_0 (bY b) B1 B2 B3 B4 B5 _ _ _ _ Hy Ey Ey').
    - exact (cellIndexOf_mono rndDouble rndDouble_mono rndDouble_0 (bZ b) C1 C2 C3 C4 C5 _ _ _ _ Hz Ez Ez').
  Qed.
End Float3.
