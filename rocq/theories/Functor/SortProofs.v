(** Soundness of the early termination in sorted cells. *)
From Coq Require Import Reals Lra Sorted Psatz.
From Verif.Base Require Import ZRange Occ.
From Verif.Grid Require Import IndexModel IndexProofs.
From Verif.Traversal Require Import C08Model C18Model C01Model CellSpec.
From Verif.Functor Require Import CellFunctorModel FunctorSpec CellFunctorProofs SortModel SortSpec.
Open Scope R_scope.

Lemma dot_sub_l a b d : dot a d - dot b d = dot (rsub a b) d.
Proof. unfold dot, rsub; cbn. ring. Qed.

Lemma dot_self_nonneg a : 0 <= dot a a.
Proof. unfold dot. nra. Qed.

Lemma cauchy_schwarz a b : (dot a b)² <= dot a a * dot b b.
Proof.
  unfold dot, Rsqr. destruct a as [a1 a2 a3], b as [b1 b2 b3]; cbn.
  pose proof (Rle_0_sqr (a1 * b2 - a2 * b1)). pose proof (Rle_0_sqr (a1 * b3 - a3 * b1)).
  pose proof (Rle_0_sqr (a2 * b3 - a3 * b2)). unfold Rsqr in *. nra.
Qed.

Lemma abs_dot_le a d : dot d d <= 1 -> Rabs (dot a d) <= sqrt (dot a a).
Proof.
  intros Hd. rewrite <- sqrt_Rsqr_abs. apply sqrt_le_1_alt.
  pose proof (cauchy_schwarz a d). pose proof (dot_self_nonneg a). pose proof (dot_self_nonneg d). nra.
Qed.

Lemma normalize_le_1 v : dot (normalize v) (normalize v) <= 1.
Proof.
  unfold normalize, l2Norm. pose proof (dot_self_nonneg v) as H0.
  assert (E : forall s, dot (rscale v s) (rscale v s) = dot v v * (s * s)).
  { intros. unfold dot, rscale; cbn. ring. }
  rewrite E. destruct (Req_dec (dot v v) 0) as [H|H].
  - rewrite H, Rmult_0_l. lra.
  - assert (Hp : 0 < dot v v) by lra.
    pose proof (sqrt_lt_R0 _ Hp) as Hs. pose proof (sqrt_sqrt _ H0) as Hss.
    rewrite <- Hss at 1. apply Req_le. field. lra.
Qed.

Lemma normalize_sign v s :
  exists k, 0 <= k /\ normalize v = rscale v k /\ (s = 0 -> True).
Proof.
  unfold normalize. exists (1 / l2Norm v). split; [|auto].
  unfold l2Norm. destruct (Req_dec (sqrt (dot v v)) 0) as [H|H].
  - rewrite H. unfold Rdiv. rewrite Rmult_1_l.
    destruct (Rlt_le_dec (/ 0) 0) as [H1|H1]; [|assumption].
    exfalso. rewrite Rinv_0 in H1. lra.
  - apply Rlt_le. unfold Rdiv. rewrite Rmult_1_l. apply Rinv_0_lt_compat.
    pose proof (sqrt_pos (dot v v)). lra.
Qed.

Section Sorted.
  Context {P : Type}.
  Variable pos : P -> R3.
  Notation proj := (projection pos).
  Notation far := (farAlong pos).

  Lemma far_true sc d p q : far sc d p q = true <-> sc < Rabs (proj d p - proj d q).
  Proof. unfold farAlong. destruct (Rlt_dec _ _); split; intros; try discriminate; auto; contradiction. Qed.

  Lemma far_false_of_near sc d p q :
    dot d d <= 1 -> dist3 (pos p) (pos q) <= sc -> far sc d p q = false.
  Proof.
    intros Hd Hn. unfold farAlong. destruct (Rlt_dec _ _) as [H|H]; [|reflexivity].
    exfalso. unfold projection in H. rewrite dot_sub_l in H.
    pose proof (abs_dot_le (rsub (pos p) (pos q)) d Hd). unfold dist3 in Hn. lra.
  Qed.

  Lemma proj_drift d a b s : dot d d <= 1 -> dist3 a b <= s -> - s <= dot a d - dot b d <= s.
  Proof.
    intros Hd Hn. rewrite dot_sub_l. pose proof (abs_dot_le (rsub a b) d Hd) as H.
    unfold dist3 in Hn. unfold Rabs in H. destruct (Rcase_abs _); lra.
  Qed.

  (** Within one cell sorting alone makes breaking safe. *)
  Lemma sorted_suffixesSafe sc d l : StronglySorted (fun p q => proj d p <= proj d q) l ->
    suffixesSafe (far sc d) l.
  Proof.
    intros Hs l1 p r -> k1 q k2 -> Hf. apply Forall_forall. intros x Hx.
    apply far_true. apply far_true in Hf.
    assert (H : StronglySorted (fun p q => proj d p <= proj d q) (p :: k1 ++ q :: k2)).
    { clear Hf Hx. induction l1 as [|y l1 IH]; [assumption|]. apply IH. now inversion Hs. }
    inversion H as [|? ? Hs' Hall]; subst. rewrite Forall_forall in Hall.
    assert (Hpq : proj d p <= proj d q) by (apply Hall; apply in_or_app; right; now left).
    assert (Hqx : proj d q <= proj d x).
    { clear - Hs' Hx. induction k1 as [|y k1 IH].
      - inversion Hs' as [|? ? _ Ha]; subst. rewrite Forall_forall in Ha. auto.
      - apply IH. now inversion Hs'. }
    rewrite Rabs_left1 in * by lra. lra.
  Qed.

  (** Between two cells it is safe if no particle of the second lies further
      behind than the sorting cutoff. *)
  Lemma sorted_breakSafe sc d p l : StronglySorted (fun p q => proj d p <= proj d q) l ->
    (forall q, In q l -> proj d p - proj d q <= sc) -> breakSafe (far sc d) p l.
  Proof.
    intros Hs Hb k1 q k2 -> Hf. apply Forall_forall. intros x Hx.
    apply far_true. apply far_true in Hf.
    assert (Hqx : proj d q <= proj d x).
    { clear - Hs Hx. induction k1 as [|y k1 IH].
      - inversion Hs as [|? ? _ Ha]; subst. rewrite Forall_forall in Ha. auto.
      - apply IH. now inversion Hs. }
    assert (Hpq : proj d p - proj d q <= sc) by (apply Hb; apply in_or_app; right; now left).
    assert (proj d p - proj d q < 0).
    { destruct (Rle_lt_dec 0 (proj d p - proj d q)) as [H|H]; [|assumption].
      rewrite Rabs_pos_eq in Hf by assumption. lra. }
    rewrite Rabs_left in * by lra. lra.
  Qed.

  Lemma behind_le (old : P -> R3) skin d lo1 hi1 lo2 hi2 p q :
    dot d d <= 1 -> pointsFromTo lo1 hi1 lo2 hi2 d ->
    inClosedBox lo1 hi1 (old p) -> inClosedBox lo2 hi2 (old q) ->
    dist3 (pos p) (old p) <= skin / 2 -> dist3 (pos q) (old q) <= skin / 2 ->
    proj d p - proj d q <= skin.
  Proof.
    intros Hd (Hx & Hy & Hz) (B1 & B2 & B3) (C1 & C2 & C3) Dp Dq.
    assert (Hold : dot (old p) d <= dot (old q) d).
    { unfold dot.
      assert (H1 : forall lo1 hi1 lo2 hi2 e u v, axisPoints hi1 lo1 lo2 hi2 e ->
                lo1 <= u <= hi1 -> lo2 <= v <= hi2 -> u * e <= v * e).
      { clear. intros lo1 hi1 lo2 hi2 e u v [Ha Hb] Hu Hv.
        destruct (Rtotal_order e 0) as [H|[H|H]].
        - specialize (Hb H). nra.
        - subst. lra.
        - specialize (Ha H). nra. }
      pose proof (H1 _ _ _ _ _ _ _ Hx B1 C1). pose proof (H1 _ _ _ _ _ _ _ Hy B2 C2).
      pose proof (H1 _ _ _ _ _ _ _ Hz B3 C3). lra. }
    pose proof (proj_drift d _ _ _ Hd Dp). pose proof (proj_drift d _ _ _ Hd Dq).
    unfold projection. lra.
  Qed.
End Sorted.

(** * Directions of the traversals *)
Lemma axis_points o k1 k2 l s : 0 < l -> 0 <= s ->
  axisPoints (o + IZR (k1 + 1) * l) (o + IZR k1 * l) (o + IZR k2 * l) (o + IZR (k2 + 1) * l) (IZR (k2 - k1) * l * s).
Proof.
  intros Hl Hs. split; intros H.
  - assert (Hp : (k1 < k2)%Z).
    { destruct (Z.lt_ge_cases k1 k2) as [|Hge]; [assumption|]. exfalso.
      assert (Hle : IZR (k2 - k1) <= 0) by (apply IZR_le; lia). assert (IZR (k2 - k1) * l <= 0) by nra. nra. }
    assert (Hle : IZR (k1 + 1) <= IZR k2) by (apply IZR_le; lia). nra.
  - assert (Hp : (k2 < k1)%Z).
    { destruct (Z.lt_ge_cases k2 k1) as [|Hge]; [assumption|]. exfalso.
      assert (Hle : 0 <= IZR (k2 - k1)) by (apply IZR_le; lia).
      assert (0 <= IZR (k2 - k1) * l) by nra. nra. }
    assert (Hle : IZR (k2 + 1) <= IZR k1) by (apply IZR_le; lia). nra.
Qed.

Lemma sortingDirection_points origin len c1 c2 : positiveR len ->
  pointsFromTo (cellLo origin len c1) (cellHi origin len c1) (cellLo origin len c2) (cellHi origin len c2)
               (sortingDirection len (i3sub c2 c1)).
Proof.
  intros (H1 & H2 & H3). unfold sortingDirection.
  destruct (normalize_sign (rmul (i3R (i3sub c2 c1)) len) 0) as (k & Hk & -> & _).
  unfold pointsFromTo, rscale, rmul, i3R, i3sub, cellHi, cellLo, i3add. cbn.
  split; [|split]; now apply axis_points.
Qed.

Open Scope Z_scope.

Lemma dirOrOnes_neq v : v <> mkI3 0 0 0 -> dirOrOnes v = v.
Proof.
  intros H. unfold dirOrOnes. destruct (_ && _) eqn:E; [|reflexivity].
  exfalso. apply H. apply andb_true_iff in E as [E E3]. apply andb_true_iff in E as [E1 E2].
  apply Z.eqb_eq in E1, E2, E3. destruct v; cbn in *; now subst.
Qed.

Lemma i3sub_zero a b : i3sub a b = mkI3 0 0 0 -> a = b.
Proof. destruct a, b. unfold i3sub. cbn. intros E. injection E. intros. f_equal; lia. Qed.

Lemma c08Dir_offsets near ov dims :
  map fst (c08OffsetsDir near ov dims) = computePairwiseCellOffsetsC08 near ov dims.
Proof. unfold c08OffsetsDir, computePairwiseCellOffsetsC08. rewrite map_map. reflexivity. Qed.

Lemma c08Dir_points near ov dims o1 o2 dir : In (o1, o2, dir) (c08OffsetsDir near ov dims) ->
  exists v1 v2, o1 = threeToOneD v1 dims /\ o2 = threeToOneD v2 dims /\
    (v1 <> v2 -> dir = i3sub v2 v1) /\
    (0 <= ix v1 <= Z.max 0 (ix ov) /\ 0 <= iy v1 <= Z.max 0 (iy ov) /\ 0 <= iz v1 <= Z.max 0 (iz ov)) /\
    (0 <= ix v2 <= Z.max 0 (ix ov) /\ 0 <= iy v2 <= Z.max 0 (iy ov) /\ 0 <= iz v2 <= Z.max 0 (iz ov)).
Proof.
  intros H. apply in_map_iff in H as ([[[x y] z] d] & E & Hin).
  apply filter_In in Hin as [Hin _]. inversion E; subst; clear E.
  exists (c08Offset2 ov (x, y, z, d)), (c08Offset1 (x, y, z, d)).
  split; [reflexivity|split; [reflexivity|split]].
  - intros Hne. apply dirOrOnes_neq. intros E. apply Hne.
    symmetry. now apply i3sub_zero.
  - unfold c08Loop in Hin.
    apply in_flat_map in Hin as (x' & Hx & Hin). apply in_flat_map in Hin as (y' & Hy & Hin).
    apply in_flat_map in Hin as (z' & Hz & Hin). apply in_map_iff in Hin as (d' & E & _).
    inversion E; subst. apply in_zrange in Hx, Hy, Hz.
    destruct d; cbn [c08Offset1 c08Offset2 toMaskXY ix iy iz]; lia.
Qed.

Lemma c18Dir_offsets near ov dims yi xi offs : c18Offsets near ov dims yi xi = Some offs ->
  map fst (c18OffsetsDir near ov dims yi xi) = offs.
Proof.
  unfold c18Offsets, c18OffsetsDir. destruct (_ && _); [|discriminate]. intros H. inversion H; subst; clear H.
  assert (Hm : forall (A B C : Type) (f : B -> C) (g : A -> list B) l,
            map f (flat_map g l) = flat_map (fun a => map f (g a)) l).
  { clear. intros A B C f g l. induction l as [|a l IH]; [reflexivity|]. cbn [flat_map]. now rewrite map_app, IH. }
  rewrite Hm. apply flat_map_ext. intros z. rewrite Hm. apply flat_map_ext. intros y.
  rewrite Hm. apply flat_map_ext. intros x. destruct (_ <? 0); [reflexivity|]. destruct (_ && _); reflexivity.
Qed.

Lemma c18Dir_points near ov dims yi xi o dir : In (o, dir) (c18OffsetsDir near ov dims yi xi) ->
  exists v, o = threeToOneD v dims /\ (v <> mkI3 0 0 0 -> dir = v) /\
    Z.abs (ix v) <= ix ov /\ Z.abs (iy v) <= iy ov /\ Z.abs (iz v) <= iz ov.
Proof.
  unfold c18OffsetsDir. intros H.
  apply in_flat_map in H as (z & Hz & H). apply in_flat_map in H as (y & Hy & H).
  apply in_flat_map in H as (x & Hx & H).
  destruct (_ <? 0) in H; [destruct H|]. destruct (_ && _) in H; [|destruct H].
  destruct H as [E|[]]. inversion E; subst. exists (mkI3 x y z).
  apply in_zrange in Hx, Hy, Hz.
  split; [reflexivity|split; [apply dirOrOnes_neq|cbn; lia]].
Qed.

Section C01.
  Variable near : Z -> Z -> Z -> bool.
  Variables ov dims : I3.

  Definition entryOk (e : Z * I3) : Prop :=
    exists v, fst e = threeToOneD v dims /\ (v <> mkI3 0 0 0 -> snd e = v) /\
      Z.abs (ix v) <= ix ov /\ Z.abs (iy v) <= iy ov /\ Z.abs (iz v) <= iz ov.

  Definition slicesRel (s : slices) (sd : slicesD) : Prop :=
    forall i, map fst (sd i) = s i /\ Forall entryOk (sd i).

  Lemma c01AddRowD_rel x y z s sd :
    Z.abs x <= ix ov -> Z.abs y <= iy ov -> Z.abs z <= iz ov ->
    slicesRel s sd -> slicesRel (c01AddRow ov dims x y z s) (c01AddRowD ov dims x y z sd).
  Proof.
    intros Hx Hy Hz. unfold c01AddRow, c01AddRowD.
    assert (Hall : Forall (fun i => Z.abs i <= ix ov) (zrange x (Z.abs x + 1))).
    { apply Forall_forall. intros i Hi. apply in_zrange in Hi. lia. }
    revert Hall. generalize (zrange x (Z.abs x + 1)) as L. intros L. revert s sd.
    induction L as [|i L IH]; intros s sd Hall Hr; [exact Hr|].
    inversion Hall as [|? ? Hi Hall']; subst. cbn [fold_left]. apply IH; [assumption|].
    assert (Hok : entryOk (threeToOneD (mkI3 i y z) dims, dirOrOnes (mkI3 i y z))).
    { exists (mkI3 i y z). split; [reflexivity|split; [apply dirOrOnes_neq|cbn; lia]]. }
    intros j. destruct (Hr j) as [Hm Hf]. destruct (Hr (i + ix ov)) as [Hm' Hf'].
    destruct (_ && _); unfold updSlice, updSliceD; destruct (j =? i + ix ov); auto.
    - split; [cbn; now f_equal|now constructor].
    - split; [rewrite map_app; cbn; now f_equal|]. apply Forall_app. auto.
  Qed.

  Lemma c01Dir_rel : slicesRel (c01PairwiseOffsets near ov dims) (fold_left (c01StepD near ov dims) (c01Loop ov) (fun _ => [])).
  Proof.
    unfold c01PairwiseOffsets.
    assert (Hall : Forall (fun t => let '(x, y, z) := t in
              Z.abs x <= ix ov /\ Z.abs y <= iy ov /\ Z.abs z <= iz ov) (c01Loop ov)).
    { apply Forall_forall. intros [[x y] z] H. unfold c01Loop in H.
      apply in_flat_map in H as (x' & Hx & H). apply in_flat_map in H as (y' & Hy & H).
      apply in_map_iff in H as (z' & E & Hz). inversion E; subst.
      apply in_zrange in Hx, Hy, Hz. lia. }
    assert (H0 : slicesRel (fun _ => []) (fun _ => [])) by (intros i; split; [reflexivity|constructor]).
    revert Hall H0. generalize (c01Loop ov) as L. generalize (fun _ : Z => @nil Z) as s.
    generalize (fun _ : Z => @nil (Z * I3)) as sd. intros sd s L. revert s sd.
    induction L as [|[[x y] z] L IH]; intros s sd Hall Hr; [exact Hr|].
    inversion Hall as [|? ? Hi Hall']; subst. cbn [fold_left]. apply IH; [assumption|].
    unfold c01Step, c01StepD. destruct (near _ _ _); [|exact Hr].
    destruct (Hr (x + ix ov)) as [Hm _]. rewrite <- Hm.
    assert (E : existsb (fun e => e =? threeToOneD (mkI3 x y z) dims) (map fst (sd (x + ix ov))) =
                existsb (fun e => fst e =? threeToOneD (mkI3 x y z) dims) (sd (x + ix ov))).
    { clear. induction (sd (x + ix ov)) as [|e l IH]; [reflexivity|]. cbn. now rewrite IH. }
    rewrite E. clear E. destruct (existsb _ _); [exact Hr|]. apply c01AddRowD_rel; tauto.
  Qed.

  Lemma c01Dir_offsets : map fst (c01AllOffsetsDir near ov dims) = c01AllOffsets near ov dims.
  Proof.
    unfold c01AllOffsetsDir, c01AllOffsets. generalize (zrange 0 (2 * ix ov + 1)) as L.
    induction L as [|i L IH]; [reflexivity|]. cbn [flat_map]. rewrite map_app, IH.
    now rewrite (proj1 (c01Dir_rel i)).
  Qed.

  Lemma c01Dir_points o dir : In (o, dir) (c01AllOffsetsDir near ov dims) ->
    exists v, o = threeToOneD v dims /\ (v <> mkI3 0 0 0 -> dir = v) /\
      Z.abs (ix v) <= ix ov /\ Z.abs (iy v) <= iy ov /\ Z.abs (iz v) <= iz ov.
  Proof.
    intros H. apply in_flat_map in H as (i & _ & H). pose proof (proj2 (c01Dir_rel i)) as Hf.
    rewrite Forall_forall in Hf. exact (Hf _ H).
  Qed.
End C01.

Open Scope R_scope.
Section Main.
  Context {P : Type}.
  Variable pid : P -> Z.
  Variable isHalo : P -> bool.
  Variable pos : P -> R3.

  Lemma sorted_cell_complete cf sc dir view c a b :
    dot dir dir <= 1 -> isSortedView pos dir (parts c) (view (parts c)) ->
    distinctIds pid (parts c) -> mayOwn c = true ->
    In a (parts c) -> In b (parts c) -> a <> b ->
    dist3 (pos a) (pos b) <= sc -> dist3 (pos b) (pos a) <= sc ->
    received pid (processCell isHalo view (farAlong pos sc dir) cf c) a b = expectedSame isHalo cf a.
  Proof.
    intros Hd [Hp Hs] Hid Ho Ha Hb Hne H1 H2.
    apply (processCell_received pid (farAlong pos sc dir) isHalo view cf c a b Hp Hid Ho Ha Hb Hne).
    right. right. split; [now apply sorted_suffixesSafe|]. split; now apply far_false_of_near.
  Qed.

  Lemma sorted_pair_complete cf sc dir view old skin lo1 hi1 lo2 hi2 c1 c2 a b :
    dot dir dir <= 1 -> skin <= sc ->
    (forall c, c = c1 \/ c = c2 -> isSortedView pos dir (parts c) (view (parts c))) ->
    distinctIds pid (parts c1 ++ parts c2) -> pairRelevant cf c1 c2 ->
    pointsFromTo lo1 hi1 lo2 hi2 dir ->
    Forall (fun p => inClosedBox lo1 hi1 (old p)) (parts c1) ->
    Forall (fun p => inClosedBox lo2 hi2 (old p)) (parts c2) ->
    Forall (fun p => dist3 (pos p) (old p) <= skin / 2) (parts c1 ++ parts c2) ->
    In a (parts c1) -> In b (parts c2) -> dist3 (pos a) (pos b) <= sc ->
    let calls := processCellPair view (farAlong pos sc dir) cf true c1 c2 in
    received pid calls a b = 1%nat /\
    received pid calls b a = if useNewton3 cf || bidirectional cf then 1%nat else 0%nat.
  Proof.
    intros Hd Hsk Hv Hid Hrel Hpt Hb1 Hb2 Hdr Ha Hb Hn.
    rewrite Forall_forall in Hb1, Hb2, Hdr.
    assert (Hperm : forall c, c = c1 \/ c = c2 -> Permutation (parts c) (view (parts c))) by (intros c Hc; exact (proj1 (Hv c Hc))).
    destruct (processCellPair_received pid (farAlong pos sc dir) view cf true c1 c2 a b Hperm Hid Hrel Ha Hb) as (_ & _ & H).
    apply H. right. right. right. split; [|now apply far_false_of_near].
    apply sorted_breakSafe; [exact (proj2 (Hv c2 (or_intror eq_refl)))|].
    intros q Hq. apply (Permutation_in q (Permutation_sym (Hperm c2 (or_intror eq_refl)))) in Hq.
    apply Rle_trans with skin; [|assumption].
    apply (behind_le pos old skin dir lo1 hi1 lo2 hi2); auto.
    - apply Hdr. apply in_or_app. now left.
    - apply Hdr. apply in_or_app. now right.
  Qed.
End Main.

Definition cexPos (p : Z) : R3 :=
  mkR3 (match p with 0%Z => -9 | 2%Z => -3 / 2 | _ => 3 / 2 end) 1 1.
Definition cexOld (p : Z) : R3 :=
  mkR3 (match p with 0%Z => -9 | 1%Z => 0 | 2%Z => 0 | _ => 3 / 2 end) 1 1.

Lemma large_skin_counterexample : exists (old pos : Z -> R3) (view : list Z -> list Z) (c1 c2 : Cell Z),
  let dir := mkR3 1 0 0 in
  let cf := mkCF AoS true true 1 in
  (forall c, c = c1 \/ c = c2 -> isSortedView pos dir (parts c) (view (parts c))) /\
  distinctIds (fun p => p) (parts c1 ++ parts c2) /\ mayOwn c1 = true /\
  Forall (fun p => inClosedBox (mkR3 (-9) 0 0) (mkR3 0 9 9) (old p)) (parts c1) /\
  Forall (fun p => inClosedBox (mkR3 0 0 0) (mkR3 9 9 9) (old p)) (parts c2) /\
  pointsFromTo (mkR3 (-9) 0 0) (mkR3 0 9 9) (mkR3 0 0 0) (mkR3 9 9 9) dir /\
  Forall (fun p => (dist3 (pos p) (old p) <= 3 / 2)%R) (parts c1 ++ parts c2) /\
  In 1%Z (parts c1) /\ In 3%Z (parts c2) /\ pos 1%Z = pos 3%Z /\
  received (fun p => p) (processCellPair view (farAlong pos 1 dir) cf true c1 c2) 1%Z 3%Z = 0%nat.
Proof.
  exists cexOld, cexPos, (fun l => l), (mkCell [0%Z; 1%Z] true), (mkCell [2%Z; 3%Z] true).
  cbv zeta. cbn [parts mayOwn].
  assert (Hproj : forall p, projection cexPos (mkR3 1 0 0) p = rx (cexPos p)).
  { intros p. unfold projection, dot. cbn. ring. }
  split; [|split; [|split; [|split; [|split; [|split; [|split; [|split; [|split; [|split]]]]]]]]].
  - intros c [->| ->]; (split; [apply Permutation_refl|]); cbn [parts];
      repeat constructor; rewrite !Hproj; cbn; lra.
  - unfold distinctIds. cbn. repeat constructor; cbn; intuition lia.
  - reflexivity.
  - repeat constructor; cbn; lra.
  - repeat constructor; cbn; lra.
  - repeat split; cbn; lra.
  - assert (Hd : forall p, Rabs (rx (cexPos p) - rx (cexOld p)) <= 3 / 2 -> dist3 (cexPos p) (cexOld p) <= 3 / 2).
    { intros p Hp. unfold dist3, dot, rsub. cbn -[cexPos cexOld].
      replace (_ + _ + _) with ((rx (cexPos p) - rx (cexOld p))²).
      - now rewrite sqrt_Rsqr_abs.
      - unfold Rsqr. cbn. ring. }
    apply Forall_forall. intros p Hp. apply Hd. cbn in Hp.
    destruct Hp as [<-|[<-|[<-|[<-|[]]]]]; cbn; unfold Rabs; destruct (Rcase_abs _); lra.
  - cbn; auto.
  - cbn; auto.
  - reflexivity.
  - assert (F : forall p q, 1 < Rabs (rx (cexPos p) - rx (cexPos q)) -> farAlong cexPos 1 (mkR3 1 0 0) p q = true).
    { intros p q H. apply far_true. now rewrite !Hproj. }
    assert (F02 : farAlong cexPos 1 (mkR3 1 0 0) 0%Z 2%Z = true).
    { apply F. cbn. unfold Rabs. destruct (Rcase_abs _); lra. }
    assert (F12 : farAlong cexPos 1 (mkR3 1 0 0) 1%Z 2%Z = true).
    { apply F. cbn. unfold Rabs. destruct (Rcase_abs _); lra. }
    unfold processCellPair, processCellPairAoS. cbn [parts mayOwn useNewton3 bidirectional layout sortingThreshold
      negb andb orb length Nat.ltb Nat.leb Nat.add flat_map untilFar map app].
    rewrite F02, F12. reflexivity.
Qed.
