(** Every particle has a cluster; concrete cases. *)
From Coq Require Import Reals Lra Lia Psatz Permutation Sorted.
From Flocq Require Import Core.
From Verif.Base Require Import ZRange Occ Lists.
From Verif.Functor Require Import SortModel SortSpec.
From Verif.Grid Require Import CellBlockSpec.
From Verif.Container Require Import ParticleModel IteratorModel IteratorContainers LinkedCellsGeo.
From Verif.Cluster Require Import TowerModel TowerSpec TowerProofs TowerProps TowerExample BlockModel BlockGeo BlockBuild ListsCount ListsSpec ListsProofs.
Local Open Scope nat_scope.

Lemma has_cluster sortZ cs g old toAdd p : sortsByZ sortZ -> 0 < cs -> (1 <= gNX g)%Z -> (1 <= gNY g)%Z ->
  Forall (fun p => isDummy p = false) toAdd -> In p (before old toAdd) -> inBox (haloMin g) (haloMax g) (ppos p) ->
  exists c, inCluster cs g (finalTower sortZ cs g old toAdd) c p.
Proof.
  intros S C NX NY ND I B. destruct (rebuild_keeps sortZ cs g old toAdd S C NX NY) as [P D].
  assert (J := Permutation_in p P I). apply in_app_or in J. destruct J as [J|J].
  - apply in_flat_map in J. destruct J as (i & Ii & J). apply in_seq in Ii.
    destruct (tower_steps sortZ cs g old toAdd S C i) as (_ & _ & _ & _ & _ & _ & _ & _ & _ & _ & _ & _ & F & _).
    destruct (in_some_cluster cs (finalTower sortZ cs g old toAdd i) p C F) as (k & K & IK).
    { rewrite actual_padding. apply in_or_app. now left. }
    destruct (of_index g NX i ltac:(lia)) as [[GX GY] E]. exists (xOf g i, yOf g i, k). unfold inCluster, isCluster, byXY. rewrite E.
    split; [auto|]. split; [|exact IK]. eapply before_notDummy; eauto.
  - rewrite Forall_forall in D. exfalso. exact (D p J B).
Qed.

(** Two owned particles near the border of two towers, and a halo particle. *)
Definition lP (id : Z) (x y z : R) (own : Z) : Particle := mkParticle id (mkR3 x y z) own 0.
Definition lMin : R3 := mkR3 0 0 0.
Definition lMax : R3 := mkR3 4 4 4.
Definition lAdd : list Particle := [lP 1 (9 / 10) 1 1 stOwned; lP 2 (11 / 10) 1 1 stOwned; lP 3 (-1 / 10) 1 1 stHalo].

Lemma lExample : let g := estimatedGrid lMin lMax 1 1 in
  sortsByZ insertionSort /\ below lMin lMax /\
  haloTowers 1 (sideLength (rx lMax - rx lMin) 1) = haloTowers 1 (sideLength (ry lMax - ry lMin) 1) /\
  Forall (fun p => isDummy p = false) lAdd /\
  (forall p, In p (before [] lAdd) -> (isOwned p = true <-> inBox lMin lMax (ppos p))) /\
  (forall p, In p lAdd -> inBox (haloMin g) (haloMax g) (ppos p)) /\
  (dist3 (ppos (lP 1 (9 / 10) 1 1 stOwned)) (ppos (lP 2 (11 / 10) 1 1 stOwned)) <= 1)%R /\
  exists a b, a <> b /\ inCluster 4 g (finalTower insertionSort 4 g [] lAdd) a (lP 1 (9 / 10) 1 1 stOwned) /\
    inCluster 4 g (finalTower insertionSort 4 g [] lAdd) b (lP 2 (11 / 10) 1 1 stOwned).
Proof.
  cbv zeta. set (g := estimatedGrid lMin lMax 1 1).
  assert (BO : below lMin lMax) by (unfold below, lMin, lMax; cbn; lra).
  assert (SH : haloTowers 1 (sideLength (rx lMax - rx lMin) 1) = haloTowers 1 (sideLength (ry lMax - ry lMin) 1)) by reflexivity.
  assert (P1 : (0 < 1)%R) by lra.
  assert (ND : Forall (fun p => isDummy p = false) lAdd) by (repeat constructor).
  assert (OI : forall p, In p (before [] lAdd) -> (isOwned p = true <-> inBox lMin lMax (ppos p))).
  { intros p I. cbn [before flat_map app lAdd In] in I.
    destruct I as [<-|[<-|[<-|[]]]]; unfold inBox, lMin, lMax, lP; cbn [ppos rx ry rz]; split; intros H; try reflexivity; try (repeat split; lra); try discriminate.
    }
  assert (HB : forall p, In p lAdd -> inBox (haloMin g) (haloMax g) (ppos p)).
  { intros p I. unfold g, haloMin, haloMax, estimatedGrid. cbn [gMin gMax gIL].
    destruct I as [<-|[<-|[<-|[]]]]; unfold inBox, lMin, lMax, lP; cbn [ppos rx ry rz]; repeat split; lra. }
  split; [exact insertionSort_ok|]. split; [exact BO|]. split; [exact SH|]. split; [exact ND|]. split; [exact OI|]. split; [exact HB|]. split.
  - apply dist3_sq; [lra|]. unfold dot, rsub, lP. cbn [ppos rx ry rz]. lra.
  - assert (NX : (1 <= gNX g)%Z) by (assert (X := nx_pos lMin lMax 1 1 BO P1 P1 SH); fold g in X; lia).
    assert (NY : (1 <= gNY g)%Z) by (assert (X := ny_pos lMin lMax 1 1 BO P1 P1 SH); fold g in X; lia).
    destruct (has_cluster insertionSort 4 g [] lAdd (lP 1 (9 / 10) 1 1 stOwned) insertionSort_ok ltac:(lia) NX NY ND ltac:(now left) (HB _ ltac:(now left))) as [a A].
    destruct (has_cluster insertionSort 4 g [] lAdd (lP 2 (11 / 10) 1 1 stOwned) insertionSort_ok ltac:(lia) NX NY ND ltac:(right; now left) (HB _ ltac:(right; now left))) as [b B].
    exists a, b. split; [|split; assumption]. intros <-. destruct a as [[x y] k]. destruct A as ((X & Y & K) & DA & IA). destruct B as (_ & DB & IB).
    destruct (index_of g x y (conj X Y)) as (N & XO & YO). unfold byXY in *. set (i := Z.to_nat (tower1D g x y)) in *.
    destruct (final_moved insertionSort 4 lMin lMax 1 1 [] lAdd true insertionSort_ok ltac:(lia) BO P1 P1 SH ND OI i k _ DA IA) as [_ AA].
    destruct (final_moved insertionSort 4 lMin lMax 1 1 [] lAdd true insertionSort_ok ltac:(lia) BO P1 P1 SH ND OI i k _ DB IB) as [_ AB].
    assert (TA := filled_inTower lMin lMax 1 1 [] lAdd BO P1 P1 SH i _ N (actual_filled insertionSort 4 g [] lAdd insertionSort_ok ltac:(lia) i _ AA)).
    assert (TB := filled_inTower lMin lMax 1 1 [] lAdd BO P1 P1 SH i _ N (actual_filled insertionSort 4 g [] lAdd insertionSort_ok ltac:(lia) i _ AB)).
    destruct TA as [[TA _] _]. destruct TB as [[_ TB] _].
    assert (SX : gSideX (estimatedGrid lMin lMax 1 1) = 1%R).
    { cbn [gSideX estimatedGrid]. unfold sideLength, ownedTowers, lMin, lMax. cbn [rx].
      replace ((4 - 0) / 1)%R with (IZR 4) by (field). rewrite Zceil_IZR. field. }
    rewrite SX in TA, TB. cbn [lP ppos rx lMin] in TA, TB. rewrite Rmult_1_l in TA, TB.
    rewrite plus_IZR in TB. set (v := (xOf _ i - gNIL _)%Z) in *.
    assert (V : (0 < v)%Z) by (apply lt_IZR; lra). assert (W : (1 <= IZR v)%R) by (apply IZR_le; lia). lra.
Qed.

(** A box of 1.1 x 10 x 1 with interaction length 1: with 44 particles and clusters of 4
    the towers have side 0.55 in x and 1 in y, hence 2 halo towers in x and 1 in y. *)
Definition uMax : R3 := mkR3 (11 / 10) 10 1.
Definition uPos : R3 := mkR3 (1 / 2) (19 / 2) (1 / 2).
Lemma unequal_refuted : let g := estimatedGrid lMin uMax 1 1 in
  isOptimal lMin uMax 44 4 1 /\ inBox lMin uMax uPos /\
  canContainOwned g (tower1D g (fst (towerAt g uPos)) (snd (towerAt g uPos))) = false.
Proof.
  cbv zeta. split; [|split].
  - unfold isOptimal, lMin, uMax. cbn [rx ry rz]. rewrite !INR_IZR_INZ. cbn [Z.of_nat Pos.of_succ_nat Pos.succ]. field.
  - unfold inBox, lMin, uMax, uPos. cbn [rx ry rz]. lra.
  - assert (CE : forall (n : Z) x, (IZR n - 1 < x <= IZR n)%R -> Zceil x = n) by (intros n x H; apply Zceil_imp; rewrite minus_IZR; exact H).
    assert (OX : ownedTowers (11 / 10 - 0) 1 = 2%Z) by (unfold ownedTowers; apply CE; lra).
    assert (OY : ownedTowers (10 - 0) 1 = 10%Z) by (unfold ownedTowers; apply CE; lra).
    assert (HX : haloTowers 1 (sideLength (11 / 10 - 0) 1) = 2%Z) by (unfold haloTowers, sideLength; rewrite OX; apply CE; lra).
    assert (HY : haloTowers 1 (sideLength (10 - 0) 1) = 1%Z) by (unfold haloTowers, sideLength; rewrite OY; apply CE; lra).
    set (g := estimatedGrid lMin uMax 1 1).
    assert (NX : gNX g = 6%Z) by (unfold g, estimatedGrid, lMin, uMax, numTowers; cbn [gNX rx]; rewrite OX, HX; reflexivity).
    assert (NY : gNY g = 12%Z) by (unfold g, estimatedGrid, lMin, uMax, numTowers; cbn [gNY ry]; rewrite OY, HY; reflexivity).
    assert (NI : gNIL g = 2%Z) by (unfold g, estimatedGrid, lMin, uMax; cbn [gNIL rx ry]; rewrite HX, HY; reflexivity).
    assert (SY : gSideY g = 1%R) by (unfold g, estimatedGrid, lMin, uMax; cbn [gSideY ry]; unfold sideLength; rewrite OY; lra).
    assert (TY : snd (towerAt g uPos) = 11%Z).
    { unfold towerAt. rewrite NX, NY. change (6 * 12 =? 1)%Z with false. cbv iota. cbn [snd]. unfold towerDim. rewrite NI, SY.
      replace (gMin g) with lMin by reflexivity. replace (gMax g) with uMax by reflexivity. replace (gIL g) with 1%R by reflexivity.
      unfold lMin, uMax, uPos. cbn [ry].
      destruct (Rle_dec (10 + 1) (19 / 2)); [lra|]. destruct (Rlt_dec (19 / 2) (0 - 1)); [lra|].
      rewrite (Zfloor_imp 9); [reflexivity|]. rewrite plus_IZR. lra. }
    assert (TX : (0 <= fst (towerAt g uPos) < 6)%Z).
    { assert (R := towerAt_range g ltac:(lia) ltac:(lia) uPos). destruct R as [R _]. lia. }
    unfold canContainOwned. rewrite TY. destruct (_ || _); [reflexivity|]. cbv zeta. unfold tower1D. rewrite NX, NY, NI.
    replace ((fst (towerAt g uPos) + 11 * 6) / 6)%Z with 11%Z; [cbn; rewrite orb_true_r; reflexivity|].
    rewrite Z_div_plus_full by lia. rewrite Z.div_small; lia.
Qed.
