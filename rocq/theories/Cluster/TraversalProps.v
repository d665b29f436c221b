(** Statements of the property file about the traversals of the cluster lists. *)
From Coq Require Import Reals Lra Lia Psatz Permutation.
From Flocq Require Import Core.
From Verif.Base Require Import ZRange Occ Lists.
From Verif.Grid Require Import IndexModel IndexSpec CellBlockSpec.
From Verif.Functor Require Import SortModel SortSpec CellFunctorModel FunctorSpec.
From Verif.Container Require Import ParticleModel IteratorModel IteratorContainers.
From Verif.Traversal Require Import ColorModel ColorProofs SliceModel SliceSpec SliceProofs LockModel LockProofs SliceCells.
From Verif.Cluster Require Import TowerModel TowerSpec TowerExample BlockModel BlockGeo BlockBuild ListsSpec ListsExample.
From Verif.Cluster Require Import ClusterTraversalModel TraversalSpec TraversalOnce TraversalOrders PartitionProofs TraversalRaces.
Local Open Scope Z_scope.

Section Props.
  Variables (sortZ : list Particle -> list Particle) (cs : nat) (bMin bMax : R3) (il opt : R) (old : list Tower) (toAdd : list Particle).
  Hypothesis valid : validRebuild sortZ cs bMin bMax il opt old toAdd.
  Notation g := (estimatedGrid bMin bMax il opt).
  Notation towers := (finalTower sortZ cs (estimatedGrid bMin bMax il opt) old toAdd).
  Notation lists := (neighborList cs (estimatedGrid bMin bMax il opt) (byXY (estimatedGrid bMin bMax il opt) (movedTower sortZ cs (estimatedGrid bMin bMax il opt) old toAdd))).
  Notation once := (computesPairsOnce sortZ cs bMin bMax il opt old toAdd).

  Lemma props_once newton3 order : processesAll g towers newton3 order -> once newton3 order.
  Proof using valid.
    destruct valid as (S & C & B & I & O & H & N & W & D & M). intros A. unfold computesPairsOnce. cbv zeta. intros layout now p q SP IP IQ NE BP BQ.
    assert (X := BlockGeo.nx_pos bMin bMax il opt B I O H). assert (Y := BlockGeo.ny_pos bMin bMax il opt B I O H).
    destruct (has_cluster sortZ cs g old toAdd p S C ltac:(lia) ltac:(lia) N IP BP) as [a CA]. destruct (has_cluster sortZ cs g old toAdd q S C ltac:(lia) ltac:(lia) N IQ BQ) as [b CB].
    split.
    - exact (at_most_once sortZ cs bMin bMax il opt old toAdd newton3 layout S C B I O H N W D M now SP order A p q a b IP IQ NE CA CB).
    - exact (exactly_once sortZ cs bMin bMax il opt old toAdd newton3 layout S C B I O H N W D M now SP order A p q a b IP IQ NE CA CB).
  Qed.
  Lemma tails i : (tFirstTail (towers i) <= tClusters (towers i))%nat.
  Proof using valid. destruct valid as (S & C & _). now apply final_tails. Qed.
  Lemma overlap : comp (dimLong (selectorDims bMin bMax il opt)) (vclOverlap il (selectorSize bMin bMax il opt)) = 2 * gNIL g /\ 1 <= gNIL g /\ 2 <= gNX g /\ 2 <= gNY g.
  Proof using valid. destruct valid as (S & C & B & I & O & H & _). exact (overlap_long bMin bMax il opt B I O H). Qed.

  Lemma c06_once newton3 : let tasks := c06Tasks g (byXY g towers) newton3 in
    once newton3 (concat (concat tasks)) /\ Forall (separate newton3 (lists newton3)) tasks.
  Proof using valid.
    cbv zeta. destruct overlap as (_ & NI & _). split; [apply props_once, c06_all; [apply tails|exact NI]|]. apply c06_separate; [exact NI|apply tails].
  Qed.

  Lemma iteration_once : let tasks := clusterIterationTasks g (byXY g towers) false in
    once false (concat (concat tasks)) /\ Forall (separate false (lists false)) tasks.
  Proof using valid.
    cbv zeta. assert (A := iteration_all g towers false tails). split; [now apply props_once|]. apply Forall_forall. intros ph I. eapply separate_alone; [apply A|exact I].
  Qed.

  Lemma balanced_once listSize pairsPerThread threads ranges : (0 < threads)%nat ->
    let partition := fillClusterRanges (towerRanges g towers) listSize pairsPerThread threads ranges in
    let tasks := map (fun r => map (clusterAt g) (threadClusters (towerRanges g towers) r)) partition in
    once false (concat tasks) /\ separate false (lists false) tasks /\ length tasks = threads.
  Proof using valid.
    intros T. cbv zeta. destruct (partition_complete listSize pairsPerThread threads T (towerRanges g towers) ranges) as [P L].
    assert (X := overlap). assert (A := balanced_all g towers ltac:(lia) tails). rewrite <- P in A.
    assert (E : forall l, concat (map (fun r => map (clusterAt g) (threadClusters (towerRanges g towers) r)) l) = map (clusterAt g) (concat (map (threadClusters (towerRanges g towers)) l))).
    { induction l as [|r l IH]; [reflexivity|]. cbn [map concat]. rewrite map_app, IH. reflexivity. }
    rewrite E. split; [now apply props_once|]. split; [|rewrite map_length; exact L].
    apply (separate_alone (lists false) [map (fun r => map (clusterAt g) (threadClusters (towerRanges g towers) r)) (fillClusterRanges (towerRanges g towers) listSize pairsPerThread threads ranges)]); [|now left].
    cbn [concat]. rewrite app_nil_r, E. apply A.
  Qed.

  Notation dims := (selectorDims bMin bMax il opt).
  Notation len := (comp (dimLong (selectorDims bMin bMax il opt)) (selectorDims bMin bMax il opt)).
  Notation ov := (comp (dimLong (selectorDims bMin bMax il opt)) (vclOverlap il (selectorSize bMin bMax il opt))).

  Lemma slicing_thick t : vclSlicing len ov t -> ov + 1 <= len -> thick (ov + 1) 1 t /\ zsum t = len.
  Proof using valid.
    destruct overlap as (E & NI & _). rewrite E. intros T A.
    rename A into L.
    assert (W : forall t, thick (2 * gNIL g + 1) (2 * gNIL g + 1) t -> thick (2 * gNIL g + 1) 1 t).
    { clear - NI. induction t as [|x [|y l] IH]; cbn [thick]; intros H; [exact I|lia|]. destruct H as [H1 H2]. split; [exact H1|]. now apply IH. }
    destruct T as [->|(grow & threads & TH & TE)].
    - destruct (init_thickness len (2 * gNIL g + 1) (2 * gNIL g) false ltac:(lia) ltac:(lia) ltac:(lia)) as (_ & B & C). cbv zeta in B, C. rewrite Z.sub_0_r in *. split; [now apply W|exact B].
    - destruct (balanced_thickness grow len (2 * gNIL g + 1) (2 * gNIL g) false threads ltac:(lia) ltac:(lia) ltac:(lia) TH) as (t' & E' & _ & B & C). rewrite TE in E'. injection E' as <-.
      cbv zeta in B, C. rewrite Z.sub_0_r in *. split; [now apply W|exact B].
  Qed.

  Lemma sliced_once newton3 t k done st : vclSlicing len ov t -> ov + 1 <= len ->
    let n := Z.of_nat (length t) in
    reach n (initState (sliceProg t ov)) k done st ->
    ((forall s ev st', ~ step n st s ev st') -> once newton3 (flat_map (layerClusters (byXY g towers) newton3 dims) done)) /\
    (forall s1 s2 l1 l2 c, 0 <= s1 < n -> 0 <= s2 < n -> s1 <> s2 -> processing st s1 l1 -> processing st s2 l2 ->
       changes newton3 (lists newton3) (layerClusters (byXY g towers) newton3 dims l1) c ->
       changes newton3 (lists newton3) (layerClusters (byXY g towers) newton3 dims l2) c -> False).
  Proof using valid.
    intros V A n R. destruct (slicing_thick t V A) as [T S]. destruct overlap as (E & NI & NX & NY). split.
    - intros Q. destruct (sliced_stuck_done t ov k done st ltac:(lia) T R Q) as [_ P]. rewrite S in P. apply props_once.
      rewrite (dims_grid bMin bMax il opt) in *. apply layers_all; [apply tails|lia|lia|exact P].
    - intros s1 s2 l1 l2 c S1 S2 NE P1 P2. rewrite (dims_grid bMin bMax il opt) in *.
      exact (sliced_separate cs g towers _ newton3 tails ltac:(lia) NX NY _ E ltac:(lia) t T k done st s1 s2 l1 l2 c R S1 S2 NE P1 P2).
  Qed.

  Lemma c02_once newton3 : ov <= len ->
    let t := initSliceThickness len ov ov false in
    let tasks := map (map (flat_map (layerClusters (byXY g towers) newton3 dims))) (c02Tasks t) in
    once newton3 (concat (concat tasks)) /\ Forall (separate newton3 (lists newton3)) tasks.
  Proof using valid.
    intros L. cbv zeta. destruct overlap as (E & NI & NX & NY).
    destruct (init_thickness len ov ov false ltac:(lia) ltac:(lia) ltac:(lia)) as (_ & B & C). cbv zeta in B, C. rewrite Z.sub_0_r in *. set (t := initSliceThickness len ov ov false) in *.
    split.
    - apply props_once.
      assert (F : forall l : list (list (list Z)), concat (concat (map (map (flat_map (layerClusters (byXY g towers) newton3 dims))) l)) = flat_map (layerClusters (byXY g towers) newton3 dims) (concat (concat l))).
      { induction l as [|a l IH]; [reflexivity|]. cbn [map concat]. rewrite !concat_app, flat_map_app, IH. f_equal. clear. induction a as [|b a IH]; [reflexivity|]. cbn [map concat]. rewrite flat_map_app, IH. reflexivity. }
      rewrite F. rewrite (dims_grid bMin bMax il opt) in *. apply layers_all; [apply tails|lia|lia|]. rewrite <- B. apply c02_layers_perm.
      intros s Hs. destruct (Z.eq_dec s (Z.of_nat (length t) - 1)) as [->|Hne].
      + pose proof (thick_nth_last _ _ t _ C eq_refl ltac:(lia)). lia.
      + pose proof (thick_nth _ _ t s C ltac:(lia)). lia.
    - rewrite (dims_grid bMin bMax il opt) in *. exact (c02_separate cs g towers _ newton3 tails ltac:(lia) NX NY _ E t C).
  Qed.
End Props.

(** A case with four towers per dimension, two owned particles and a halo particle. *)
Lemma valid_example : validRebuild insertionSort 4 lMin lMax 1 1 [] lAdd /\
  (forall p, In p lAdd -> inBox (haloMin (estimatedGrid lMin lMax 1 1)) (haloMax (estimatedGrid lMin lMax 1 1)) (ppos p)) /\
  (dist3 (ppos (lP 1 (9 / 10) 1 1 stOwned)) (ppos (lP 2 (11 / 10) 1 1 stOwned)) <= 1)%R /\
  sameParticles 4 (estimatedGrid lMin lMax 1 1) (finalTower insertionSort 4 (estimatedGrid lMin lMax 1 1) [] lAdd)
    (fun '(x, y, k) => clusterOf 4 (byXY (estimatedGrid lMin lMax 1 1) (finalTower insertionSort 4 (estimatedGrid lMin lMax 1 1) [] lAdd) x y) k) /\
  selectorDims lMin lMax 1 1 = mkI3 6 6 1 /\
  comp (dimLong (selectorDims lMin lMax 1 1)) (vclOverlap 1 (selectorSize lMin lMax 1 1)) = 2 /\
  vclSlicing 6 2 [3; 3] /\ 2 + 1 <= 6.
Proof.
  destruct lExample as (S & B & H & N & W & HB & D & _).
  assert (CE : forall (n : Z) x, (IZR n - 1 < x <= IZR n)%R -> Zceil x = n) by (intros n x X; apply Zceil_imp; rewrite minus_IZR; exact X).
  assert (OT : ownedTowers (4 - 0) 1 = 4) by (unfold ownedTowers; apply CE; lra).
  assert (SL : sideLength (4 - 0) 1 = 1%R) by (unfold sideLength; rewrite OT; lra).
  assert (DI : selectorDims lMin lMax 1 1 = mkI3 6 6 1).
  { unfold selectorDims, lMin, lMax, numTowers. cbn [rx ry]. rewrite SL, OT. unfold haloTowers. rewrite (CE 1 (1 / 1)%R) by lra. reflexivity. }
  split; [|split; [exact HB|split; [exact D|split; [|split; [exact DI|split; [|split]]]]]].
  - unfold validRebuild. repeat (split; [first [exact S|exact B|exact H|exact N|exact W|lia|lra]|]).
    split.
    + unfold distinctIds. cbn [before flat_map app lAdd map lP pid]. repeat constructor; cbn [In]; lia.
    + cbn [before flat_map app lAdd]. repeat constructor; cbn [lP pid]; lia.
  - intros x y k _. reflexivity.
  - rewrite DI. change (dimLong (mkI3 6 6 1)) with 1. unfold comp, vclOverlap, selectorSize, lMin, lMax. cbn [rx ry rz ix iy iz Z.eqb]. rewrite SL. rewrite (CE 1 (1 / 1)%R) by lra. reflexivity.
  - left. vm_compute. reflexivity.
  - lia.
Qed.

(** 256 particles in a box of side 4 at the rebuild, 32 when the traversal is generated. *)
Definition dPos : R3 := mkR3 (7 / 2) (7 / 2) 1.
Lemma changed_number t newton3 k : let g := estimatedGrid lMin lMax 1 1 in
  isOptimal lMin lMax 256 4 1 /\ isOptimal lMin lMax 32 4 2 /\
  let dims := selectorDims lMin lMax 1 2 in
  inBox lMin lMax dPos /\
  ~ In (towerAt g dPos, k) (flat_map (layerClusters (byXY g t) newton3 dims) (zrange 0 (comp (dimLong dims) dims))).
Proof.
  cbv zeta. assert (CE : forall (n : Z) x, (IZR n - 1 < x <= IZR n)%R -> Zceil x = n) by (intros n x X; apply Zceil_imp; rewrite minus_IZR; exact X).
  split; [|split; [|split]].
  - unfold isOptimal, lMin, lMax. cbn [rx ry rz]. rewrite !INR_IZR_INZ. cbn [Z.of_nat Pos.of_succ_nat Pos.succ]. field.
  - unfold isOptimal, lMin, lMax. cbn [rx ry rz]. rewrite !INR_IZR_INZ. cbn [Z.of_nat Pos.of_succ_nat Pos.succ]. field.
  - unfold inBox, lMin, lMax, dPos. cbn [rx ry rz]. lra.
  - assert (O1 : ownedTowers (4 - 0) 1 = 4) by (unfold ownedTowers; apply CE; lra).
    assert (S1 : sideLength (4 - 0) 1 = 1%R) by (unfold sideLength; rewrite O1; lra).
    assert (H1 : haloTowers 1 1 = 1) by (unfold haloTowers; apply CE; lra).
    assert (O2 : ownedTowers (4 - 0) 2 = 2) by (unfold ownedTowers; apply CE; lra).
    assert (S2 : sideLength (4 - 0) 2 = 2%R) by (unfold sideLength; rewrite O2; lra).
    assert (H2 : haloTowers 1 2 = 1) by (unfold haloTowers; apply CE; lra).
    assert (D : selectorDims lMin lMax 1 2 = mkI3 4 4 1).
    { unfold selectorDims, lMin, lMax, numTowers. cbn [rx ry]. rewrite S2, O2, H2. reflexivity. }
    assert (TA : towerAt (estimatedGrid lMin lMax 1 1) dPos = (4, 4)).
    { unfold towerAt, estimatedGrid, lMin, lMax, numTowers. cbn [rx ry gNX gNY]. rewrite S1, O1, H1.
      cbn [Z.mul Z.add Z.eqb Pos.mul Pos.add Pos.eqb]. cbv iota. unfold towerDim. cbn [gNIL gIL gMin gMax gSideX gSideY gNX gNY rx ry rz dPos].
      destruct (Rle_dec (4 + 1) (7 / 2)); [lra|]. destruct (Rlt_dec (7 / 2) (0 - 1)); [lra|].
      rewrite (Zfloor_imp 3); [reflexivity|]. rewrite plus_IZR. lra. }
    rewrite D, TA. intros I. apply in_flat_map in I. destruct I as (l & Il & I).
    unfold layerClusters in I. apply in_flat_map in I. destruct I as (c & Ic & I). unfold towerClusters in I. apply in_map_iff in I. destruct I as (k' & E & _).
    injection E as E1 E2 _.
    assert (C : ix c < 4).
    { change (dimLong (mkI3 4 4 1)) with 1 in Il. change (comp 1 (mkI3 4 4 1)) with 4 in Il.
      change (zrange 0 4) with [0; 1; 2; 3] in Il.
      cbn [In] in Il. destruct Il as [<-|[<-|[<-|[<-|[]]]]]; vm_compute in Ic; repeat (destruct Ic as [<-|Ic]; [cbn; lia|]); destruct Ic. }
    lia.
Qed.
