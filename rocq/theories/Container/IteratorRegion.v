(** Region iterators of the linked cells container find the particles in the
    region although they may have moved since they were sorted into cells. *)
From Coq Require Import Reals Lra.
From Flocq Require Import Core.
From Verif.Base Require Import ZRange Lists.
From Verif.Grid Require Import IndexModel IndexSpec IndexProofs CellBlockModel CellBlockSpec CellBlockProofs CellBlockExact.
From Verif.Functor Require Import SortModel.
From Verif.Container Require Import LinkedCellsModel LinkedCellsSpec LinkedCellsGeo IteratorModel IteratorContainers
  IteratorSpec IteratorLemmas IteratorSearch IteratorParallel IteratorInstances.
Open Scope R_scope.

Lemma inBoxb_iff lo hi x : inBoxb lo hi x = true <-> inBox lo hi x.
Proof.
  unfold inBoxb, inBox. repeat destruct (Rle_dec _ _); repeat destruct (Rlt_dec _ _); cbn; split; intros H; try discriminate; try reflexivity; try lra; tauto.
Qed.

Lemma inBoxb_clamp il bMin bMax lo hi x :
  inBoxb (clampLow il bMin lo) (clampHigh il bMax hi) x =
  inBoxb lo hi x && inBoxb (shift bMin (- il)) (shift bMax il) x.
Proof.
  apply Bool.eq_true_iff_eq. rewrite andb_true_iff, !inBoxb_iff. unfold inBox, clampLow, clampHigh, shift. cbn [rx ry rz].
  assert (M : forall a b v, Rmax a b <= v <-> a <= v /\ b <= v).
  { intros a b v. split; [intros H; pose proof (Rmax_l a b); pose proof (Rmax_r a b); lra|intros []; now apply Rmax_lub]. }
  assert (m : forall a b v, v < Rmin a b <-> v < a /\ v < b).
  { intros a b v. split; [intros H; pose proof (Rmin_l a b); pose proof (Rmin_r a b); lra|intros []; now apply Rmin_glb_lt]. }
  rewrite !M, !m. unfold Rminus. tauto.
Qed.

Section Dim.
  Variables il csf bMin bMax : R.
  Hypothesis Hil : 0 < il.
  Hypothesis Hcsf : 0 < csf.
  Hypothesis Hlt : bMin < bMax.
  Hypothesis HL : il <= bMax - bMin.
  Let d := rebuildDim rndExact il csf bMin bMax.
  Hypothesis Hs : (dWithHalo d < 2 ^ 62)%Z.

  Lemma index_defined x : bMin - 2 * il <= x <= bMax + 2 * il ->
    exists i, cellIndexOf rndExact d x = Some i /\ (0 <= i < dWithHalo d)%Z.
  Proof.
    intros Hx. pose proof (exact_halo il csf bMin bMax Hil Hcsf Hlt HL) as Hh. pose proof (exact_len il csf bMin bMax Hlt) as Hl.
    pose proof (exact_N il csf bMin bMax) as HN. pose proof (exact_h csf Hcsf) as Hh1. pose proof (exact_Nlen il csf bMin bMax) as HNl.
    unfold cellIndexOf. unfold rndExact at 1 2. unfold d in *. rewrite exact_d in *. unfold dWithHalo in *.
    cbn [dMin dMax dCells dHalo dRecip] in *. rewrite exact_recip by assumption.
    set (N := cellsPerDim rndExact (bMax - bMin) il csf) in *. set (h := cellsPerInteractionLength rndExact csf) in *.
    set (len := (bMax - bMin) / IZR N) in *. clearbody N h len.
    assert (Hf : (- (2 * h) <= Zfloor ((x - bMin) / len) <= N + 2 * h)%Z).
    { split.
      - apply Zfloor_lub. apply Rmult_le_reg_r with len; [exact Hl|].
        replace ((x - bMin) / len * len) with (x - bMin) by (field; lra). rewrite opp_IZR, mult_IZR. lra.
      - apply le_IZR. eapply Rle_trans; [apply Zfloor_lb|]. apply Rmult_le_reg_r with len; [exact Hl|].
        replace ((x - bMin) / len * len) with (x - bMin) by (field; lra). rewrite plus_IZR, mult_IZR. lra. }
    rewrite toLong_ok by lia. eexists. split; [reflexivity|].
    set (f := Zfloor ((x - bMin) / len)) in *. clearbody f.
    destruct (Rle_dec _ _); [lia|]. destruct (Rlt_dec _ _); repeat match goal with |- context [(?a =? ?c)%Z] => destruct (Z.eqb_spec a c) end; lia.
  Qed.

  Lemma index_range x i : cellIndexOf rndExact d x = Some i -> (0 <= i < dWithHalo d)%Z.
  Proof.
    pose proof (exact_N il csf bMin bMax) as HN. pose proof (exact_h csf Hcsf) as Hh1.
    unfold cellIndexOf. destruct (toLong _) as [f|]; [|discriminate]. intros E. injection E as <-.
    unfold d in *. rewrite exact_d in *. unfold dWithHalo in *. cbn [dMin dMax dCells dHalo dRecip] in *.
    set (N := cellsPerDim rndExact (bMax - bMin) il csf) in *. set (h := cellsPerInteractionLength rndExact csf) in *. clearbody N h.
    destruct (Rle_dec _ _); [lia|]. destruct (Rlt_dec _ _); repeat match goal with |- context [(?a =? ?c)%Z] => destruct (Z.eqb_spec a c) end; lia.
  Qed.
End Dim.

Section Region.
  Variables il csf : R.
  Variables bMin bMax : R3.
  Hypothesis Hg : validGrid il csf bMin bMax.
  Let b := rebuild rndExact il csf bMin bMax.

  Lemma index3_defined v : rx bMin - 2 * il <= rx v <= rx bMax + 2 * il -> ry bMin - 2 * il <= ry v <= ry bMax + 2 * il ->
    rz bMin - 2 * il <= rz v <= rz bMax + 2 * il ->
    exists k, get3DIndexOfPosition rndExact b v = Some k /\ inGrid (blockDims b) k.
  Proof.
    intros H1 H2 H3. destruct Hg as (G1 & G2 & (B1 & B2 & B3) & L1 & L2 & L3 & S1 & S2 & S3).
    unfold longEnough, rndExact in L1, L2, L3.
    destruct (index_defined il csf (rx bMin) (rx bMax) G1 G2 B1 ltac:(lra) S1 _ H1) as (x & Ex & Rx).
    destruct (index_defined il csf (ry bMin) (ry bMax) G1 G2 B2 ltac:(lra) S2 _ H2) as (y & Ey & Ry).
    destruct (index_defined il csf (rz bMin) (rz bMax) G1 G2 B3 ltac:(lra) S3 _ H3) as (z & Ez & Rz).
    exists (mkI3 x y z). unfold get3DIndexOfPosition, b, rebuild. cbn [bX bY bZ]. rewrite Ex, Ey, Ez.
    split; [reflexivity|]. unfold inGrid, blockDims. cbn [ix iy iz bX bY bZ]. auto.
  Qed.

  Lemma index3_range v k : get3DIndexOfPosition rndExact b v = Some k -> inGrid (blockDims b) k.
  Proof.
    destruct Hg as (G1 & G2 & (B1 & B2 & B3) & L1 & L2 & L3 & S1 & S2 & S3). unfold longEnough, rndExact in L1, L2, L3. unfold get3DIndexOfPosition, b, rebuild. cbn [bX bY bZ].
    destruct (cellIndexOf _ _ (rx v)) as [x|] eqn:Ex; [|discriminate]. destruct (cellIndexOf _ _ (ry v)) as [y|] eqn:Ey; [|discriminate].
    destruct (cellIndexOf _ _ (rz v)) as [z|] eqn:Ez; [|discriminate]. intros E. injection E as <-.
    apply index_range in Ex; try assumption; try lra. apply index_range in Ey; try assumption; try lra. apply index_range in Ez; try assumption; try lra.
    unfold inGrid, blockDims. cbn [ix iy iz bX bY bZ]. auto.
  Qed.

  Lemma threeToOneD_mono dims p q : inGrid dims p -> inGrid dims q ->
    (ix p <= ix q)%Z -> (iy p <= iy q)%Z -> (iz p <= iz q)%Z -> (threeToOneD p dims <= threeToOneD q dims)%Z.
  Proof. intros (A1 & A2 & A3) (B1 & B2 & B3) H1 H2 H3. unfold threeToOneD.
    assert (iz p * iy dims <= iz q * iy dims)%Z by (apply Z.mul_le_mono_nonneg_r; lia).
    assert ((iz p * iy dims + iy p) * ix dims <= (iz q * iy dims + iy q) * ix dims)%Z by (apply Z.mul_le_mono_nonneg_r; lia).
    lia.
  Qed.

  Context {P : Type}.
  Variable ownership : P -> Z.
  Variables old pos : P -> R3.

  Lemma lc_dims : (0 <= dHalo (bX b))%Z /\ (0 <= ix (blockDims b) /\ 0 <= iy (blockDims b))%Z /\ positive (blockDims b).
  Proof.
    destruct Hg as (G1 & G2 & HB & _). pose proof (grid_pos il csf bMin bMax G2) as Hp. fold b in Hp.
    pose proof (exact_h csf G2) as Hh. split; [|split; [|exact Hp]].
    - change (dHalo (bX b)) with (cellsPerInteractionLength rndExact csf). lia.
    - destruct Hp as (Q1 & Q2 & Q3). lia.
  Qed.

  Theorem lc_region_defined behavior numThreads nOwned T marks decide (st : Store P) schedule margin lo hi :
    loopThreads behavior numThreads T -> lcPlaced ownership b (cells st) ->
    validBuffers ownership nOwned (buffers st) -> (forall m, marks = Some m -> forall x, ownership (m x) = 0%Z) ->
    (gather behavior nOwned st <> [] \/ forall t seen x, decide t seen x = false) ->
    allowedSchedule decide T schedule ->
    get1DIndexOfPosition rndExact b (shift (clampLow il bMin lo) (- margin)) <> None ->
    get1DIndexOfPosition rndExact b (shift (clampHigh il bMax hi) margin) <> None ->
    (forall c l x, at_ (cells st) c = Some l -> In x l -> wantedb behavior (ownership x) = true ->
       inBox (getHaloBoxMin b) (getHaloBoxMax b) (old x) /\
       get1DIndexOfPosition rndExact b (old x) = Some c /\ movedWithin old pos margin x) ->
    exists conf, (forall t, lcRegionConf ownership behavior numThreads pos rndExact b margin
        (clampLow il bMin lo) (clampHigh il bMax hi) marks t = Some (conf t)) /\
      iterationCorrect ownership behavior nOwned T
        (fun x => inBoxb lo hi (pos x) && inBoxb (shift bMin (- il)) (shift bMax il) (pos x)) conf marks decide st schedule.
  Proof.
    intros HL Hpl Vb Hm Hvs Hall Hd1 Hd2 Hloc.
    pose proof (proj1 HL) as HT. pose proof (loop_good _ _ _ HL) as Hb.
    set (lo' := clampLow il bMin lo). set (hi' := clampHigh il bMax hi).
    pose proof Hg as (G1 & G2 & HB & L1 & L2 & L3 & S1 & S2 & S3). pose proof HB as (B1 & B2 & B3).
    fold lo' in Hd1. fold hi' in Hd2. unfold get1DIndexOfPosition in Hd1, Hd2.
    destruct (get3DIndexOfPosition rndExact b (shift lo' (- margin))) as [k1|] eqn:E1; [clear Hd1|congruence].
    destruct (get3DIndexOfPosition rndExact b (shift hi' margin)) as [k2|] eqn:E2; [clear Hd2|congruence].
    pose proof (index3_range _ _ E1) as K1. pose proof (index3_range _ _ E2) as K2.
    set (dims := blockDims b) in *.
    set (conf := fun t => mkConf
            (fun c => lcRelevant behavior b c &&
               (let '(cLow, cHigh) := getCellBoundingBox rndExact b (oneToThreeD c dims) in
                boxesOverlap cLow cHigh (shift lo' (- margin)) (shift hi' margin)))
            (threeToOneD k1 dims) (threeToOneD k2 dims) (threeToOneD k2 dims) (itStride behavior numThreads) (itThread behavior t)
            (fun x => fulfills behavior (inBoxb lo' hi' (pos x)) (ownership x)) marks).
    exists conf. split.
    { intros t. unfold lcRegionConf, get1DIndexOfPosition. fold lo' hi'. rewrite E1, E2. reflexivity. }
    destruct lc_dims as (D1 & D2 & Dpos). fold dims in Dpos.
    destruct (threeToOneD_range dims k1 K1) as [R1 R1']. destruct (threeToOneD_range dims k2 K2) as [R2 R2'].
    pose proof Hpl as (P1 & P2 & P3). fold dims in P1.
    pose proof (iterate_general ownership (conf 0%Z) T behavior nOwned
      (fun x => inBoxb lo hi (pos x) && inBoxb (shift bMin (- il)) (shift bMax il) (pos x)) decide st schedule HT Hb) as H.
    apply (run_withThread ownership behavior numThreads nOwned T _ conf); auto.
    apply H; auto.
    - cbn [conf stride]. now apply loop_stride.
    - split; [cbn [conf endCell lastCell]; lia|]. split; [exact P2|]. intros c l El. destruct (P3 c l El) as [Q1 Q2].
      split; [exact Q1|]. intros x Hx' F. destruct (Q2 x Hx') as (V & V1 & V2). cbn [conf ful] in F.
      rewrite (fulfills_wanted behavior) in F by auto. apply andb_prop in F. destruct F as [F1 F2].
      apply inBoxb_iff in F1. destruct (Hloc c l x El Hx' F2) as (HH & Hc & M1 & M2 & M3).
      destruct (exact3_lookup il csf bMin bMax G2 HB (old x) S1 S2 S3 HH) as (k & Ek & Kk & Kb). fold b dims in Ek, Kk, Kb.
      unfold get1DIndexOfPosition in Hc. rewrite Ek in Hc. injection Hc as Hc. fold dims in Hc.
      assert (HM1 : Rabs (rx (pos x) - rx (old x)) <= margin -> rx (pos x) - margin <= rx (old x) <= rx (pos x) + margin).
      { unfold Rabs. destruct (Rcase_abs _); lra. }
      assert (HM2 : Rabs (ry (pos x) - ry (old x)) <= margin -> ry (pos x) - margin <= ry (old x) <= ry (pos x) + margin).
      { unfold Rabs. destruct (Rcase_abs _); lra. }
      assert (HM3 : Rabs (rz (pos x) - rz (old x)) <= margin -> rz (pos x) - margin <= rz (old x) <= rz (pos x) + margin).
      { unfold Rabs. destruct (Rcase_abs _); lra. }
      specialize (HM1 M1). specialize (HM2 M2). specialize (HM3 M3). destruct F1 as (F11 & F12 & F13).
      cbn [conf relevant startCell endCell]. split.
      + rewrite (lc_relevant b behavior c (ownership x)); auto. rewrite <- Hc.
        unfold dims. rewrite oneToThreeD_threeToOneD by exact Kk.
        destruct (getCellBoundingBox rndExact b k) as [cl ch] eqn:Eb. cbn [fst snd] in Kb. destruct Kb as (W1 & W2 & W3).
        rewrite andb_true_l. unfold boxesOverlap, shift. cbn [rx ry rz].
        repeat (destruct (Rlt_dec _ _) as [_|Hn]; [|exfalso; apply Hn; lra]). reflexivity.
      + rewrite <- Hc.
        destruct (exact3_mono il csf bMin bMax G2 HB (shift lo' (- margin)) (old x) k1 k S1 S2 S3) as (m1 & m2 & m3);
          try assumption; try (unfold shift; cbn [rx ry rz]; lra).
        destruct (exact3_mono il csf bMin bMax G2 HB (old x) (shift hi' margin) k k2 S1 S2 S3) as (n1 & n2 & n3);
          try assumption; try (unfold shift; cbn [rx ry rz]; lra).
        split; apply threeToOneD_mono; assumption.
    - intros x Hx'. apply in_concat in Hx'. destruct Hx' as (l & Hin & Hx'). apply In_nth_error in Hin. destruct Hin as [k Ek].
      destruct (P3 (Z.of_nat k) l) as [_ S]; [|now destruct (S x Hx')].
      unfold at_. destruct (Z.ltb_spec (Z.of_nat k) 0); [lia|]. now rewrite Nat2Z.id.
    - intros x. cbn [conf ful]. unfold lo', hi'. now rewrite inBoxb_clamp.
  Qed.

  Theorem lc_region behavior numThreads nOwned T marks decide (st : Store P) schedule margin lo hi :
    loopThreads behavior numThreads T -> lcPlaced ownership b (cells st) ->
    validBuffers ownership nOwned (buffers st) -> (forall m, marks = Some m -> forall x, ownership (m x) = 0%Z) ->
    (gather behavior nOwned st <> [] \/ forall t seen x, decide t seen x = false) ->
    allowedSchedule decide T schedule ->
    0 <= margin <= il ->
    rx lo <= rx bMax + il -> ry lo <= ry bMax + il -> rz lo <= rz bMax + il ->
    rx bMin - il <= rx hi -> ry bMin - il <= ry hi -> rz bMin - il <= rz hi ->
    (forall c l x, at_ (cells st) c = Some l -> In x l -> wantedb behavior (ownership x) = true ->
       inBox (getHaloBoxMin b) (getHaloBoxMax b) (old x) /\
       get1DIndexOfPosition rndExact b (old x) = Some c /\ movedWithin old pos margin x) ->
    exists conf, (forall t, lcRegionConf ownership behavior numThreads pos rndExact b margin
        (clampLow il bMin lo) (clampHigh il bMax hi) marks t = Some (conf t)) /\
      iterationCorrect ownership behavior nOwned T
        (fun x => inBoxb lo hi (pos x) && inBoxb (shift bMin (- il)) (shift bMax il) (pos x)) conf marks decide st schedule.
  Proof.
    intros HL Hpl Vb Hm Hvs Hall Hmar Lx Ly Lz Hx Hy Hz Hloc.
    set (lo' := clampLow il bMin lo). set (hi' := clampHigh il bMax hi).
    pose proof Hg as (G1 & G2 & HB & L1 & L2 & L3 & S1 & S2 & S3). pose proof HB as (B1 & B2 & B3).
    assert (Elo : rx bMin - il <= rx lo' <= rx bMax + il /\ ry bMin - il <= ry lo' <= ry bMax + il /\ rz bMin - il <= rz lo' <= rz bMax + il).
    { unfold lo', clampLow. cbn [rx ry rz].
      assert (Q : forall a c e, a <= e -> c <= e -> c <= Rmax a c <= e) by (intros; split; [apply Rmax_r|now apply Rmax_lub]).
      split; [|split]; apply Q; lra. }
    assert (Ehi : rx bMin - il <= rx hi' <= rx bMax + il /\ ry bMin - il <= ry hi' <= ry bMax + il /\ rz bMin - il <= rz hi' <= rz bMax + il).
    { unfold hi', clampHigh. cbn [rx ry rz].
      assert (Q : forall a c e, e <= a -> e <= c -> e <= Rmin a c <= c) by (intros; split; [now apply Rmin_glb|apply Rmin_r]).
      split; [|split]; apply Q; lra. }
    destruct (index3_defined (shift lo' (- margin))) as (k1 & E1 & K1); try (unfold shift; cbn [rx ry rz]; lra).
    destruct (index3_defined (shift hi' margin)) as (k2 & E2 & K2); try (unfold shift; cbn [rx ry rz]; lra).
    apply lc_region_defined; auto; fold lo' hi'; unfold get1DIndexOfPosition; [rewrite E1|rewrite E2]; discriminate.
  Qed.
End Region.
