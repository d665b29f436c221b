(** Geometry: particles closer than the interaction length are in cells within
    reach (exact arithmetic). *)
From Coq Require Import Reals Lra Psatz.
From Flocq Require Import Core.
From Verif.Base Require Import ZRange.
From Verif.Grid Require Import IndexModel IndexSpec IndexProofs CellBlockModel CellBlockSpec CellBlockProofs CellBlockFloat CellBlockExact.
From Verif.Traversal Require Import CellSpec.
From Verif.Functor Require Import CellFunctorModel SortModel SortSpec SortProofs.
From Verif.Container Require Import LinkedCellsModel LinkedCellsBuild.
Open Scope R_scope.

(** ** Distance *)
Lemma dist3_sym a b : dist3 a b = dist3 b a.
Proof. unfold dist3. f_equal. unfold dot, rsub. cbn [rx ry rz]. ring. Qed.

Lemma dist3_triangle a b c : dist3 a c <= dist3 a b + dist3 b c.
Proof.
  unfold dist3. set (u := rsub a b). set (v := rsub b c).
  assert (E : dot (rsub a c) (rsub a c) = dot u u + 2 * dot u v + dot v v).
  { unfold u, v, dot, rsub. cbn [rx ry rz]. ring. }
  pose proof (dot_self_nonneg u) as Hu. pose proof (dot_self_nonneg v) as Hv.
  pose proof (sqrt_sqrt _ Hu) as Su. pose proof (sqrt_sqrt _ Hv) as Sv.
  pose proof (sqrt_pos (dot u u)) as Pu. pose proof (sqrt_pos (dot v v)) as Pv.
  assert (Hc : dot u v <= sqrt (dot u u) * sqrt (dot v v)).
  { destruct (Rle_lt_dec (dot u v) 0) as [H|H]; [nra|].
    rewrite <- sqrt_mult by assumption. rewrite <- (sqrt_Rsqr (dot u v)) by lra. apply sqrt_le_1_alt, cauchy_schwarz. }
  rewrite <- (sqrt_Rsqr (sqrt (dot u u) + sqrt (dot v v))) by lra. apply sqrt_le_1_alt. rewrite E. unfold Rsqr. nra.
Qed.

Lemma dist3_sq a b r : 0 <= r -> dist3 a b <= r <-> dot (rsub a b) (rsub a b) <= r * r.
Proof.
  intros Hr. unfold dist3. pose proof (dot_self_nonneg (rsub a b)) as H0. pose proof (sqrt_sqrt _ H0) as Hs.
  pose proof (sqrt_pos (dot (rsub a b) (rsub a b))). split; intros H1; [nra|].
  rewrite <- (sqrt_Rsqr r) by assumption. apply sqrt_le_1_alt. unfold Rsqr. exact H1.
Qed.

(** Two particles each of which moved at most half the skin. *)
Lemma drift_near pa pb oa ob cutoff skin il :
  dist3 pa oa <= skin / 2 -> dist3 pb ob <= skin / 2 -> dist3 pa pb <= cutoff -> cutoff + skin <= il ->
  dist3 oa ob <= il.
Proof.
  intros Ha Hb Hn Hi. pose proof (dist3_triangle oa pa ob) as T1. pose proof (dist3_triangle pa pb ob) as T2.
  rewrite (dist3_sym oa pa) in T1. lra.
Qed.

(** ** One dimension *)
Lemma dim_gap o len i j x y : 0 < len ->
  o + IZR i * len <= x < o + IZR (i + 1) * len -> o + IZR j * len <= y < o + IZR (j + 1) * len ->
  0 <= IZR (Z.max 0 (Z.abs (i - j) - 1)) * len /\
  IZR (Z.max 0 (Z.abs (i - j) - 1)) * len * (IZR (Z.max 0 (Z.abs (i - j) - 1)) * len) <= (x - y) * (x - y) /\
  ((1 <= Z.abs (i - j))%Z -> (IZR (Z.abs (i - j)) - 1) * len < Rabs (x - y)).
Proof.
  intros Hl. rewrite !plus_IZR. intros Hx Hy.
  destruct (Z.max_spec 0 (Z.abs (i - j) - 1)) as [[H E]|[H E]]; rewrite E; clear E.
  - rewrite minus_IZR. set (g := IZR (Z.abs (i - j))).
    assert (Hg : 1 <= g - 1). { unfold g. assert (2 <= Z.abs (i - j))%Z as H2 by lia. apply IZR_le in H2. lra. }
    assert (Hs : (g - 1) * len < Rabs (x - y)).
    { unfold g. destruct (Z.abs_spec (i - j)) as [[Hs ->]|[Hs ->]].
      - apply Rlt_le_trans with (x - y); [|apply Rle_abs]. rewrite minus_IZR. nra.
      - rewrite Rabs_minus_sym. apply Rlt_le_trans with (y - x); [|apply Rle_abs]. rewrite opp_IZR, minus_IZR. nra. }
    split; [nra|]. split; [|intros _; exact Hs].
    assert (Hq : Rabs (x - y) * Rabs (x - y) = (x - y) * (x - y)) by (rewrite <- Rabs_mult; apply Rabs_pos_eq; apply Rle_0_sqr).
    rewrite <- Hq. assert (0 <= (g - 1) * len) by (apply Rmult_le_pos; lra). apply Rmult_le_compat; lra.
  - rewrite !Rmult_0_l. split; [lra|]. split; [apply Rle_0_sqr|]. intros H1. assert (E1 : Z.abs (i - j) = 1%Z) by lia.
    rewrite E1. replace (1 - 1) with 0 by ring. rewrite Rmult_0_l. apply Rabs_pos_lt. intros E0.
    destruct (Z.abs_spec (i - j)) as [[_ Es]|[_ Es]]; rewrite E1 in Es.
    + assert (i = (j + 1)%Z) as -> by lia. rewrite plus_IZR in *. nra.
    + assert (j = (i + 1)%Z) as -> by lia. rewrite plus_IZR in *. nra.
Qed.

Lemma overlap_le il len k : 0 < len -> 0 < il -> (0 <= k)%Z -> ((1 <= k)%Z -> (IZR k - 1) * len < il) -> (k <= overlapOf rndExact il len)%Z.
Proof.
  intros Hl Hi Hk H. unfold overlapOf, rndExact.
  assert (Hc : (0 < Zceil (il / len))%Z).
  { apply lt_IZR. eapply Rlt_le_trans; [|apply Zceil_ub]. now apply Rdiv_lt_0_compat. }
  destruct (Z.eq_dec k 0) as [->|]; [lia|]. specialize (H ltac:(lia)).
  assert (Hd : IZR (k - 1) < IZR (Zceil (il / len))).
  { rewrite minus_IZR. eapply Rlt_le_trans; [|apply Zceil_ub].
    apply Rmult_lt_reg_r with len; [assumption|]. unfold Rdiv. rewrite Rmult_assoc, Rinv_l, Rmult_1_r by lra. exact H. }
  apply lt_IZR in Hd. lia.
Qed.

Lemma sq_le_abs x r : 0 <= r -> x * x <= r * r -> Rabs x <= r.
Proof. intros Hr H. unfold Rabs. destruct (Rcase_abs x); nra. Qed.

Section Geo.
  Variables il csf : R.
  Variables bMin bMax : R3.
  Hypothesis Hil : 0 < il.
  Hypothesis Hcsf : 0 < csf.
  Hypothesis Hbox : below bMin bMax.
  Let b := rebuild rndExact il csf bMin bMax.
  Let dims := blockDims b.
  Let len := blockLength b.
  Let origin := getHaloBoxMin b.

  Lemma len_pos : positiveR len.
  Proof. destruct Hbox as (LX & LY & LZ). repeat split; now apply exact_len. Qed.

  Lemma geo_bounds k x : inGrid dims k ->
    inBox (fst (getCellBoundingBox rndExact b k)) (snd (getCellBoundingBox rndExact b k)) x <->
    inBox (cellLo origin len k) (cellHi origin len k) x.
  Proof.
    intros (G1 & G2 & G3). destruct Hbox as (LX & LY & LZ).
    assert (E : forall lo hi i, lo < hi -> (0 <= i < dWithHalo (rebuildDim rndExact il csf lo hi))%Z ->
      cellBounds rndExact (rebuildDim rndExact il csf lo hi) i =
      (dHaloMin (rebuildDim rndExact il csf lo hi) + IZR i * dLen (rebuildDim rndExact il csf lo hi),
       dHaloMin (rebuildDim rndExact il csf lo hi) + IZR (i + 1) * dLen (rebuildDim rndExact il csf lo hi))).
    { intros lo hi i Hlt Hi. rewrite exact_bounds by assumption. rewrite exact_d. cbn [dHaloMin dLen]. rewrite ?plus_IZR, ?minus_IZR. f_equal; ring. }
    unfold getCellBoundingBox, b, rebuild. cbn [bX bY bZ].
    rewrite (E _ _ (ix k)), (E _ _ (iy k)), (E _ _ (iz k)) by assumption.
    unfold inBox, cellHi, cellLo, origin, len, getHaloBoxMin, blockLength, b, rebuild, i3add. cbn [fst snd rx ry rz bX bY bZ ix iy iz]. reflexivity.
  Qed.

  Lemma geo_reach p q x y : inBox (cellLo origin len p) (cellHi origin len p) x ->
    inBox (cellLo origin len q) (cellHi origin len q) y -> dist3 x y <= il ->
    withinReach (nearR len il) (blockOverlap rndExact il b) p q.
  Proof.
    intros (X1 & X2 & X3) (Y1 & Y2 & Y3) Hd. pose proof len_pos as (P1 & P2 & P3).
    unfold cellHi, cellLo, i3add in *. cbn [rx ry rz ix iy iz] in *.
    apply dist3_sq in Hd; [|lra]. unfold dot, rsub in Hd. cbn [rx ry rz] in Hd.
    destruct (dim_gap _ _ _ _ _ _ P1 X1 Y1) as (N1 & S1 & T1).
    destruct (dim_gap _ _ _ _ _ _ P2 X2 Y2) as (N2 & S2 & T2).
    destruct (dim_gap _ _ _ _ _ _ P3 X3 Y3) as (N3 & S3 & T3).
    assert (Q : forall u, 0 <= u * u) by (intros; nra).
    pose proof (Q (rx x - rx y)). pose proof (Q (ry x - ry y)). pose proof (Q (rz x - rz y)).
    assert (A1 : Rabs (rx x - rx y) <= il) by (apply sq_le_abs; lra).
    assert (A2 : Rabs (ry x - ry y) <= il) by (apply sq_le_abs; lra).
    assert (A3 : Rabs (rz x - rz y) <= il) by (apply sq_le_abs; lra).
    unfold withinReach, blockOverlap. cbn [ix iy iz].
    split; [|split; [|split]].
    - apply overlap_le; [exact P1|assumption|apply Z.abs_nonneg|]. intros Hk. eapply Rlt_le_trans; [apply T1, Hk|exact A1].
    - apply overlap_le; [exact P2|assumption|apply Z.abs_nonneg|]. intros Hk. eapply Rlt_le_trans; [apply T2, Hk|exact A2].
    - apply overlap_le; [exact P3|assumption|apply Z.abs_nonneg|]. intros Hk. eapply Rlt_le_trans; [apply T3, Hk|exact A3].
    - unfold nearR, dot. cbn [rx ry rz]. destruct (Rle_dec _ _) as [|Hn]; [reflexivity|]. exfalso. apply Hn. lra.
  Qed.

  (** ** Placement of particles *)
  Hypothesis SX : (dWithHalo (bX b) < 2 ^ 62)%Z.
  Hypothesis SY : (dWithHalo (bY b) < 2 ^ 62)%Z.
  Hypothesis SZ : (dWithHalo (bZ b) < 2 ^ 62)%Z.

  Lemma dimPos lo hi : (1 <= dWithHalo (rebuildDim rndExact il csf lo hi))%Z.
  Proof.
    pose proof (exact_h csf Hcsf). pose proof (exact_N il csf lo hi). unfold dWithHalo, rebuildDim. cbn [dCells dHalo].
    unfold rndExact in *. lia.
  Qed.
  Lemma grid_pos : positive dims.
  Proof. repeat split; unfold dims, blockDims, b, rebuild; cbn [bX bY bZ ix iy iz]; pose proof dimPos; (eapply Z.lt_le_trans; [|apply dimPos]); lia. Qed.

  Lemma owned_dim lo hi k x : lo < hi -> (0 <= k < dWithHalo (rebuildDim rndExact il csf lo hi))%Z ->
    let d := rebuildDim rndExact il csf lo hi in
    dHaloMin d + IZR k * dLen d <= x < dHaloMin d + IZR (k + 1) * dLen d ->
    (lo <= x < hi) <-> (dHalo d <= k < dHalo d + dCells d)%Z.
  Proof.
    intros Hlt Hk d Hx. unfold d in *. clear d.
    pose proof (exact_len il csf lo hi Hlt) as Hl. pose proof (exact_Nlen il csf lo hi) as EN.
    rewrite exact_d in *. cbn [dHaloMin dLen dHalo dCells] in *.
    set (N := cellsPerDim rndExact (hi - lo) il csf) in *. set (h := cellsPerInteractionLength rndExact csf) in *.
    set (ln := (hi - lo) / IZR N) in *. rewrite plus_IZR in Hx. split; intros H.
    - split.
      + apply Z.lt_succ_r. unfold Z.succ. apply lt_IZR. rewrite plus_IZR. apply Rmult_lt_reg_r with ln; lra.
      + apply lt_IZR. rewrite plus_IZR. apply Rmult_lt_reg_r with ln; lra.
    - destruct H as [H1 H2]. apply IZR_le in H1. assert (H3 : (k + 1 <= h + N)%Z) by lia. apply IZR_le in H3. rewrite !plus_IZR in H3.
      assert (IZR h * ln <= IZR k * ln) by (apply Rmult_le_compat_r; lra).
      assert ((IZR k + 1) * ln <= (IZR h + IZR N) * ln) by (apply Rmult_le_compat_r; lra). lra.
  Qed.

  Lemma owned_cell k x : inGrid dims k -> inBox (cellLo origin len k) (cellHi origin len k) x ->
    inBox bMin bMax x <-> cellCanContainOwnedParticles b (threeToOneD k dims) = true.
  Proof.
    intros Hk (X1 & X2 & X3). pose proof Hk as (G1 & G2 & G3). destruct Hbox as (LX & LY & LZ).
    unfold cellCanContainOwnedParticles. rewrite negb_true_iff.
    pose proof (exact_h csf Hcsf) as Hh.
    unfold dims. rewrite (halo_iff b (cellsPerInteractionLength rndExact csf) eq_refl eq_refl eq_refl Hh
      (exact_N il csf _ _) (exact_N il csf _ _) k Hk).
    pose proof (owned_dim _ _ (ix k) (rx x) LX G1 X1) as O1.
    pose proof (owned_dim _ _ (iy k) (ry x) LY G2 X2) as O2.
    pose proof (owned_dim _ _ (iz k) (rz x) LZ G3 X3) as O3.
    unfold inBox, innerCell. cbn [ix iy iz]. rewrite O1, O2, O3. reflexivity.
  Qed.

  Lemma owned_spec k : inGrid dims k -> let h := cellsPerInteractionLength rndExact csf in
    cellCanContainOwnedParticles b (threeToOneD k dims) = true <-> ownedCell dims (mkI3 h h h) k.
  Proof.
    intros Hk h. unfold cellCanContainOwnedParticles. rewrite negb_true_iff.
    pose proof (exact_h csf Hcsf) as Hh. fold h in Hh.
    unfold dims. rewrite (halo_iff b h eq_refl eq_refl eq_refl Hh (exact_N il csf _ _) (exact_N il csf _ _) k Hk).
    unfold innerCell, ownedCell, blockDims, dWithHalo. cbn [ix iy iz].
    change (dHalo (bX b)) with h. change (dHalo (bY b)) with h. change (dHalo (bZ b)) with h. lia.
  Qed.

  Section Particles.
    Context {P : Type}.
    Variables (isHalo : P -> bool) (old : P -> R3).

    (** The cell of a particle in the halo box. *)
    Lemma cell_of p : inBox (getHaloBoxMin b) (getHaloBoxMax b) (old p) ->
      exists k, inGrid dims k /\ inBox (cellLo origin len k) (cellHi origin len k) (old p) /\
        get1DIndexOfPosition rndExact b (old p) = Some (threeToOneD k dims).
    Proof.
      intros H. destruct (exact3_lookup il csf bMin bMax Hcsf Hbox (old p) SX SY SZ H) as (k & E & G & B).
      exists k. split; [exact G|]. split; [now apply geo_bounds|]. unfold get1DIndexOfPosition. fold b in E. now rewrite E.
    Qed.

    Lemma inCell_iff k p : inGrid dims k -> inBox (getHaloBoxMin b) (getHaloBoxMax b) (old p) ->
      inCell rndExact b old (threeToOneD k dims) p = true <-> inBox (cellLo origin len k) (cellHi origin len k) (old p).
    Proof.
      intros Hk H. destruct (cell_of p H) as (k' & G & B & E). unfold inCell. rewrite E, Z.eqb_eq. split; intros H1.
      - apply threeToOneD_inj in H1; [|assumption..]. now subst k'.
      - f_equal. apply (exact3_disjoint il csf bMin bMax Hcsf Hbox k' k (old p)); try assumption; now apply geo_bounds.
    Qed.

    Lemma placed_of p : inBox (getHaloBoxMin b) (getHaloBoxMax b) (old p) ->
      (isHalo p = false <-> inBox bMin bMax (old p)) -> placed isHalo rndExact b old p.
    Proof.
      intros H Ho. destruct (cell_of p H) as (k & G & B & E). exists (threeToOneD k dims).
      split; [exact E|]. split; [now apply threeToOneD_range|].
      pose proof (owned_cell k (old p) G B) as O.
      destruct (isHalo p) eqn:Eh; cbn [negb].
      - destruct (cellCanContainOwnedParticles b (threeToOneD k dims)); [|reflexivity]. exfalso.
        assert (true = false) by (apply Ho, O; reflexivity). discriminate.
      - apply O. apply Ho. reflexivity.
    Qed.
  End Particles.
End Geo.
