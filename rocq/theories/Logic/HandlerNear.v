(** Where LogicHandler looks for a halo particle to overwrite. *)
From Coq Require Import Reals Lra Psatz.
From Flocq Require Import Core.
From Verif.Base Require Import ZRange Lists Occ.
From Verif.Grid Require Import IndexModel IndexSpec IndexProofs CellBlockModel CellBlockSpec CellBlockProofs CellBlockFloat CellBlockExact.
From Verif.Functor Require Import SortModel.
From Verif.Container Require Import LinkedCellsModel LinkedCellsSpec LinkedCellsGeo IteratorModel IteratorContainers IteratorSpec IteratorRegion ParticleModel CollectModel CollectSpec CollectContainers UpdateModel.
From Verif.Logic Require Import BalanceModel HandlerModel HandlerSpec HandlerCont HandlerUpdate HandlerProofs HandlerExact HandlerFields.
Import ListNotations.
Local Open Scope R_scope.

Section Dim.
  Variables il csf lo hi : R.
  Hypothesis Hil : 0 < il.
  Hypothesis Hcsf : 0 < csf.
  Hypothesis Hlt : lo < hi.
  Let d := rebuildDim rndExact il csf lo hi.

  (** Cells are shorter than twice the requested length. *)
  Lemma len_short : dLen d < 2 * csf * il.
  Proof.
    assert (P : 0 < il * csf) by (apply Rmult_lt_0_compat; assumption). unfold d. rewrite exact_d. cbn [dLen].
    set (N := cellsPerDim rndExact (hi - lo) il csf). assert (N1 : 1 <= IZR N) by (apply (IZR_le 1); unfold N, cellsPerDim; lia).
    assert (U : hi - lo < (IZR N + 1) * (il * csf)).
    { assert (A := Zfloor_ub ((hi - lo) / (il * csf))). assert (B : IZR (Zfloor ((hi - lo) / (il * csf))) <= IZR N) by (apply IZR_le; unfold N, cellsPerDim, rndExact; lia).
      apply Rmult_lt_reg_r with (/ (il * csf)); [apply Rinv_0_lt_compat; exact P|]. rewrite Rmult_assoc, Rinv_r, Rmult_1_r by lra. unfold Rdiv in A. lra. }
    apply Rmult_lt_reg_r with (IZR N); [lra|]. unfold Rdiv. rewrite Rmult_assoc, Rinv_l, Rmult_1_r by lra. nra.
  Qed.

  Lemma near_dim x y s i1 j i2 : (dWithHalo d < 2 ^ 62)%Z -> 0 <= s -> dHaloMin d <= x < dHaloMax d -> dHaloMin d <= y < dHaloMax d ->
    cellIndexOf rndExact d (x - s) = Some i1 -> cellIndexOf rndExact d y = Some j -> cellIndexOf rndExact d (x + s) = Some i2 ->
    (i1 <= j <= i2)%Z -> Rabs (x - y) <= s + 2 * csf * il.
  Proof.
    intros Hsz Hs Hx Hy E1 Ej E2 Hj. assert (Hl := exact_len il csf lo hi Hlt). change (0 < dLen d) in Hl. assert (Hs2 := len_short).
    assert (Sz : (cellsPerDim rndExact (hi - lo) il csf + cellsPerInteractionLength rndExact csf < 2 ^ 62)%Z).
    { unfold d, dWithHalo in Hsz. rewrite exact_d in Hsz. cbn [dCells dHalo] in Hsz. assert (Hh := exact_h csf Hcsf). lia. }
    assert (Lk : forall v i, dHaloMin d <= v < dHaloMax d -> cellIndexOf rndExact d v = Some i ->
      lo + IZR (i - cellsPerInteractionLength rndExact csf) * dLen d <= v < lo + IZR (i - cellsPerInteractionLength rndExact csf) * dLen d + dLen d).
    { intros v i Hv Ei. destruct (exact_lookup il csf lo hi Hcsf Hlt v Sz Hv) as (i' & Ei' & R & B). fold d in Ei', R, B. rewrite Ei in Ei'. injection Ei' as <-.
      unfold d in B. rewrite (exact_bounds il csf lo hi Hcsf i R) in B. cbn [fst snd] in B. rewrite plus_IZR in B. fold d in B.
      change (dLen d) with ((hi - lo) / IZR (cellsPerDim rndExact (hi - lo) il csf)). lra. }
    assert (Y := Lk y j Hy Ej).
    apply Rabs_le. split; apply Rnot_lt_le; intros C.
    - assert (X := Lk (x + s) i2 ltac:(lra) E2). assert (IZR (j - cellsPerInteractionLength rndExact csf) <= IZR (i2 - cellsPerInteractionLength rndExact csf)) by (apply IZR_le; lia). nra.
    - assert (X := Lk (x - s) i1 ltac:(lra) E1). assert (IZR (i1 - cellsPerInteractionLength rndExact csf) <= IZR (j - cellsPerInteractionLength rndExact csf)) by (apply IZR_le; lia). nra.
  Qed.
End Dim.

Section Near.
  Variables (cutoff spt : R) (freq : Z).
  Hypothesis Hopt : validOptions cutoff spt freq.
  Let il := il cutoff spt freq.
  Let skin := skin spt freq.
  Notation cellFor := (cellFor cutoff spt freq).

  Lemma grown_halo csf lo hi x : validGrid il csf lo hi -> inGrownBox il lo hi x ->
    inBox (getHaloBoxMin (rebuild rndExact il csf lo hi)) (getHaloBoxMax (rebuild rndExact il csf lo hi)) x.
  Proof.
    intros (G1 & G2 & (B1 & B2 & B3) & L1 & L2 & L3 & _) H.
    destruct (exact_halo_dim il csf _ _ G1 G2 B1 L1) as (X1 & X2 & _). destruct (exact_halo_dim il csf _ _ G1 G2 B2 L2) as (Y1 & Y2 & _).
    destruct (exact_halo_dim il csf _ _ G1 G2 B3 L3) as (Z1 & Z2 & _).
    unfold inGrownBox, inBox, growLow, growHigh in H. cbn [rx ry rz] in H. unfold inBox, getHaloBoxMin, getHaloBoxMax, rebuild. cbn [rx ry rz bX bY bZ]. lra.
  Qed.

  Lemma get3D_split b x k : get3DIndexOfPosition rndExact b x = Some k ->
    cellIndexOf rndExact (bX b) (rx x) = Some (ix k) /\ cellIndexOf rndExact (bY b) (ry x) = Some (iy k) /\ cellIndexOf rndExact (bZ b) (rz x) = Some (iz k).
  Proof.
    unfold get3DIndexOfPosition. destruct (cellIndexOf rndExact (bX b) (rx x)); [|discriminate]. destruct (cellIndexOf rndExact (bY b) (ry x)); [|discriminate].
    destruct (cellIndexOf rndExact (bZ b) (rz x)); [|discriminate]. intros H. injection H as <-. auto.
  Qed.

  (** The particle looked at was put into its cell at a position near the new one. *)
  Lemma nearSlot_near csf lo hi i q x x0 : validGrid il csf lo hi -> inGrownBox il lo hi x -> inGrownBox il lo hi x0 ->
    cellFor lo hi (KLinkedCells csf) i x0 -> nearSlot cutoff spt freq lo hi (KLinkedCells csf) i q x -> within (skin + 2 * csf * il) x0 x.
  Proof.
    intros Hg Hx Hx0 C (is & N & Hi). destruct (spt_bounds cutoff spt freq Hopt) as (_ & _ & (S0 & _) & _). fold skin in S0.
    apply (grown_halo csf lo hi _ Hg) in Hx, Hx0. pose proof Hg as (G1 & G2 & HB & L1 & L2 & L3 & Z1 & Z2 & Z3). pose proof HB as (B1 & B2 & B3).
    unfold HandlerCont.cellFor in C. unfold get1DIndexOfPosition in C. change (grid cutoff spt freq csf lo hi) with (rebuild rndExact il csf lo hi) in *.
    set (b := rebuild rndExact il csf lo hi) in *.
    destruct (exact3_lookup il csf lo hi G2 HB x0 Z1 Z2 Z3 Hx0) as (k0 & E0 & K0 & _). fold b in E0, K0. rewrite E0 in C. injection C as C.
    destruct (exact3_lookup il csf lo hi G2 HB x Z1 Z2 Z3 Hx) as (k & E & K & _). fold b in E, K.
    unfold nearbyHaloCells in N. cbv zeta in N. rewrite E in N.
    destruct (get3DIndexOfPosition rndExact b (mkR3 (rx x + - HandlerModel.skin spt freq) _ _)) as [low|] eqn:El; [|discriminate].
    destruct (get3DIndexOfPosition rndExact b (mkR3 (rx x + HandlerModel.skin spt freq) _ _)) as [high|] eqn:Eh; [|discriminate]. injection N as <-.
    fold skin in El, Eh. apply get3D_split in E0, E, El, Eh. cbn [rx ry rz] in El, Eh. destruct E0 as (A1 & A2 & A3), E as (P1 & P2 & P3), El as (Q1 & Q2 & Q3), Eh as (R1 & R2 & R3).
    unfold b, rebuild in A1, A2, A3, P1, P2, P3, Q1, Q2, Q3, R1, R2, R3. cbn [bX bY bZ] in *.
    assert (HX : dHaloMin (bX b) <= rx x < dHaloMax (bX b) /\ dHaloMin (bY b) <= ry x < dHaloMax (bY b) /\ dHaloMin (bZ b) <= rz x < dHaloMax (bZ b)) by exact Hx.
    assert (HX0 : dHaloMin (bX b) <= rx x0 < dHaloMax (bX b) /\ dHaloMin (bY b) <= ry x0 < dHaloMax (bY b) /\ dHaloMin (bZ b) <= rz x0 < dHaloMax (bZ b)) by exact Hx0.
    destruct HX as (HX1 & HX2 & HX3), HX0 as (HY1 & HY2 & HY3).
    assert (J : (ix low <= ix k0 <= ix high /\ iy low <= iy k0 <= iy high /\ iz low <= iz k0 <= iz high)%Z \/ k = k0).
    { apply in_app_or in Hi as [Hi|Hi].
      - right. destruct (onlyHalo b (threeToOneD k (blockDims b))); [|destruct Hi]. destruct Hi as [Hi|[]]. apply (threeToOneD_inj (blockDims b) k k0 K K0). congruence.
      - left. apply filter_In in Hi as (Hi & _). apply in_flat_map in Hi as (u & Hu & Hi). apply in_flat_map in Hi as (v & Hv & Hi). apply in_map_iff in Hi as (w & Ei & Hw).
        apply in_zrange in Hu, Hv, Hw. assert (Er : mkI3 u v w = k0); [|rewrite <- Er; cbn [ix iy iz]; lia].
        apply (threeToOneD_inj (blockDims b)); [|exact K0|congruence].
        unfold inGrid. change (ix (blockDims b)) with (dWithHalo (bX b)). change (iy (blockDims b)) with (dWithHalo (bY b)). change (iz (blockDims b)) with (dWithHalo (bZ b)). cbn [ix iy iz].
        assert (I1 := index_range il csf _ _ G2 Z1 _ _ Q1). assert (I2 := index_range il csf _ _ G2 Z2 _ _ Q2). assert (I3 := index_range il csf _ _ G2 Z3 _ _ Q3).
        assert (I4 := index_range il csf _ _ G2 Z1 _ _ R1). assert (I5 := index_range il csf _ _ G2 Z2 _ _ R2). assert (I6 := index_range il csf _ _ G2 Z3 _ _ R3).
        unfold b, rebuild. cbn [bX bY bZ]. lia. }
    assert (D : forall lo hi u v i1 j i2 j', lo < hi -> (dWithHalo (rebuildDim rndExact il csf lo hi) < 2 ^ 62)%Z ->
      dHaloMin (rebuildDim rndExact il csf lo hi) <= u < dHaloMax (rebuildDim rndExact il csf lo hi) ->
      dHaloMin (rebuildDim rndExact il csf lo hi) <= v < dHaloMax (rebuildDim rndExact il csf lo hi) ->
      cellIndexOf rndExact (rebuildDim rndExact il csf lo hi) (u + - skin) = Some i1 -> cellIndexOf rndExact (rebuildDim rndExact il csf lo hi) v = Some j ->
      cellIndexOf rndExact (rebuildDim rndExact il csf lo hi) (u + skin) = Some i2 -> cellIndexOf rndExact (rebuildDim rndExact il csf lo hi) u = Some j' ->
      (i1 <= j <= i2 \/ j' = j)%Z -> Rabs (u - v) <= skin + 2 * csf * il).
    { intros lo1 hi1 u v i1 j i2 j' Hl Hz Hu Hv Y1 Y2 Y3 Y4 [Y|Y].
      - exact (near_dim il csf lo1 hi1 G1 G2 Hl u v skin i1 j i2 Hz S0 Hu Hv Y1 Y2 Y3 Y).
      - subst j'. apply Rle_trans with (0 + 2 * csf * il); [|lra].
        apply (near_dim il csf lo1 hi1 G1 G2 Hl u v 0 j j j Hz (Rle_refl 0) Hu Hv); [rewrite Rminus_0_r; exact Y4|exact Y2|rewrite Rplus_0_r; exact Y4|lia]. }
    unfold within. split; [|split].
    - apply (D _ _ _ _ _ _ _ _ B1 Z1 HX1 HY1 Q1 A1 R1 P1). destruct J as [J| ->]; [left; lia|right; reflexivity].
    - apply (D _ _ _ _ _ _ _ _ B2 Z2 HX2 HY2 Q2 A2 R2 P2). destruct J as [J| ->]; [left; lia|right; reflexivity].
    - apply (D _ _ _ _ _ _ _ _ B3 Z3 HX3 HY3 Q3 A3 R3 P3). destruct J as [J| ->]; [left; lia|right; reflexivity].
  Qed.

  (** The container only changes when another one is selected. *)
  Lemma step_kind s e s' out : Inv cutoff spt freq s -> validCall cutoff spt freq s e -> step cutoff spt freq s e (Some (s', out)) ->
    kind (cont s') = kind (cont s) \/ exists pw ks, e = Compute pw ks /\ In (kind (cont s')) ks.
  Proof.
    intros I V H. destruct e; cbn [step validCall] in *.
    - destruct (doAdd _ _ _ _ _ _) as [s1|] eqn:F in H; [|discriminate]. injection H as -> ->. unfold doAdd in F. destruct (inBoxb _ _ _) eqn:B in F; cbn [negb] in F; [|discriminate]. destruct (valid s).
      + destruct (pushAt _ _ _) as [b|] in F; [|discriminate]. injection F as <-. left. reflexivity.
      + destruct (addOwned _ _ _ _ _ _ _) as [c|] eqn:P in F; [|discriminate]. injection F as <-. left. apply (addOwned_inv cutoff spt freq _ _ _ _ _ P eq_refl).
    - destruct (doAddHalo _ _ _ _ _ _) as [s1|] eqn:F in H; [|discriminate]. injection H as -> ->. unfold doAddHalo in F. destruct (inBoxb _ _ _) eqn:B in F; [discriminate|]. destruct (valid s).
      + destruct (updateHaloC _ _ _ _ _ _ _) as [(c, [|])|] eqn:P in F; [| |discriminate].
        * injection F as <-. left. apply (updateHalo_inv cutoff spt freq _ _ _ _ _ _ P eq_refl (inv_placed _ _ _ s I)).
        * destruct (pushAt _ _ _) as [b|] in F; [|discriminate]. injection F as <-. left. reflexivity.
      + destruct (addHaloC _ _ _ _ _ _ _) as [c|] eqn:P in F; [|discriminate]. injection F as <-. left. cbn [cont withCounts withCont].
        apply (addHalo_inv cutoff spt freq _ _ _ _ _ P eq_refl). cbn [ppos withOwn]. intros N. apply inBoxb_iff in N. congruence.
    - destruct H as (_ & _ & H). injection H as -> ->. left. unfold doDelete. destruct (isOwned p), at_; reflexivity.
    - injection H as -> ->. left. reflexivity.
    - injection H as -> ->. left. reflexivity.
    - left. unfold doUpdate in H. cbv zeta in H.
      destruct (collectBuffers _ _ _ _ _ _ _ _) as [[[c1 bs] out1]|] eqn:C in H; [|discriminate].
      destruct (collectBuffers_inv cutoff spt freq _ s c1 bs out1 I C) as (K1 & P1 & _).
      destruct H as (r & U & Hr). destruct r as [(c2, out2)|]; [|discriminate]. injection Hr as -> ->. cbn [cont].
      destruct (contUpdate_inv cutoff spt freq (boxLo s) (boxHi s) _ _ c1 c2 out2 P1 ltac:(rewrite K1; apply (inv_kind _ _ _ s I)) U) as (K2 & _). congruence.
    - destruct (doCompute _ _ _ _ _ _) as [s1|] eqn:F in H; [|discriminate]. injection H as -> ->.
      unfold doCompute in F. destruct (select cutoff spt freq s selected) as [s2|] eqn:Se; [|discriminate]. apply select_kind in Se.
      assert (E : kind (cont s1) = kind (cont s2)).
      { destruct pairwise; [|injection F as <-; reflexivity]. destruct (balanceVectors _ (bufs s2)); [|discriminate]. destruct (balanceVectors _ (halos s2)); [|discriminate]. injection F as <-. reflexivity. }
      rewrite E. destruct Se; [left; assumption|right; eauto].
    - destruct V as (V1 & V2). left.
      destruct (resize_inv cutoff spt freq s lo hi s' out I V1 V2 (eq_sym H)) as [(-> & _)|(E1 & E2 & K & _)]; [reflexivity|exact K].
  Qed.

  (** A particle that is overwritten is not a different image. *)
  Lemma slot_not_apart f lo hi k i q x x0 n : 0 <= f -> factorAtMost f k -> validKind cutoff spt freq lo hi k -> inGrownBox il lo hi x -> inGrownBox il lo hi x0 ->
    cellFor lo hi k i x0 -> nearSlot cutoff spt freq lo hi k i q x -> within (spt * IZR n) x0 (ppos q) -> (n <= freq)%Z ->
    ~ apart (imageDistance cutoff spt freq f) (ppos q) x.
  Proof.
    intros F0 F V Hx Hx0 C N W L A. destruct (spt_bounds cutoff spt freq Hopt) as (T1 & T2 & (T3 & _) & _). fold il in T2. fold skin in T3.
    assert (Sk : spt * IZR n <= skin) by (unfold skin, HandlerModel.skin; apply Rmult_le_compat_l; [exact T1|apply IZR_le, L]).
    unfold imageDistance in A. fold (HandlerModel.skin spt freq) in A. fold skin in A. change (cutoff + skin) with il in A.
    assert (P := Rmult_le_pos f il F0 (Rlt_le _ _ T2)).
    destruct k as [|csf].
    - cbn [nearSlot] in N. unfold closeBy in N. destruct (Rlt_dec _ _) as [Y|]; [|discriminate]. fold skin in Y.
      assert (Sq : forall a b c, a * a + b * b + c * c < skin / 2 * (skin / 2) -> Rabs (- a) < 2 * f * il + 2 * skin).
      { intros a b c H. rewrite Rabs_Ropp. unfold Rabs. destruct (Rcase_abs a); nra. }
      unfold apart in A. destruct A as [A|[A|A]].
      + assert (Z := Sq _ _ _ Y). rewrite Ropp_minus_distr in Z. lra.
      + assert (Z := Sq (ry (ppos q) - ry x) (rx (ppos q) - rx x) (rz (ppos q) - rz x) ltac:(lra)). rewrite Ropp_minus_distr in Z. lra.
      + assert (Z := Sq (rz (ppos q) - rz x) (rx (ppos q) - rx x) (ry (ppos q) - ry x) ltac:(lra)). rewrite Ropp_minus_distr in Z. lra.
    - assert (W1 := nearSlot_near csf lo hi i q x x0 V Hx Hx0 C N). cbn [factorAtMost] in F. assert (csf * il <= f * il) by (apply Rmult_le_compat_r; lra).
      assert (Q : forall u v w, Rabs (v - u) <= skin + 2 * csf * il -> Rabs (w - u) <= spt * IZR n -> Rabs (v - w) <= 2 * f * il + 2 * skin).
      { intros u v w H1 H2. replace (v - w) with ((v - u) + - (w - u)) by ring. eapply Rle_trans; [apply Rabs_triang|]. rewrite Rabs_Ropp. lra. }
      destruct W as (D1 & D2 & D3), W1 as (E1 & E2 & E3). destruct A as [A|[A|A]].
      + assert (Z := Q _ _ _ E1 D1). lra.
      + assert (Z := Q _ _ _ E2 D2). lra.
      + assert (Z := Q _ _ _ E3 D3). lra.
  Qed.
End Near.
