(** No two concurrent tasks of the traversals of the cluster lists change the same cluster. *)
From Coq Require Import Reals Lra Lia Psatz Permutation.
From Flocq Require Import Core.
From Verif.Base Require Import ZRange Occ Lists.
From Verif.Grid Require Import IndexModel IndexSpec CellBlockSpec.
From Verif.Functor Require Import SortModel CellFunctorModel FunctorSpec.
From Verif.Container Require Import ParticleModel IteratorModel IteratorContainers.
From Verif.Traversal Require Import ColorModel ColorProofs SliceModel SliceSpec SliceProofs LockModel LockProofs SliceCells.
From Verif.Cluster Require Import TowerModel TowerSpec TowerProofs BlockModel BlockGeo BlockBuild ListsCount ListsSpec.
From Verif.Cluster Require Import ClusterTraversalModel TraversalSpec TraversalOrders PartitionProofs.
Local Open Scope Z_scope.

(** vcl_c01_balanced *)
Lemma in_ownedFrom ts : forall i c k, In (c, k) (ownedFrom i ts) <-> (i <= c)%nat /\ exists fo ft, nth_error ts (c - i) = Some (fo, ft) /\ (fo <= k < ft)%nat.
Proof.
  induction ts as [|[fo ft] ts IH]; intros i c k.
  - split; [intros []|]. intros (_ & fo & ft & E & _). destruct (c - i)%nat; discriminate.
  - rewrite ownedFrom_cons, in_app_iff, IH, in_map_iff. split.
    + intros [(k' & E & K)|(C & fo' & ft' & N & K)].
      * injection E as <- <-. apply in_seq in K. split; [lia|]. exists fo, ft. rewrite Nat.sub_diag. split; [reflexivity|lia].
      * split; [lia|]. exists fo', ft'. replace (c - i)%nat with (S (c - S i)) by lia. auto.
    + intros (C & fo' & ft' & N & K). destruct (Nat.eq_dec i c) as [->|NE].
      * left. exists k. rewrite Nat.sub_diag in N. injection N as <- <-. split; [reflexivity|]. apply in_seq. lia.
      * right. split; [lia|]. exists fo', ft'. replace (c - i)%nat with (S (c - S i)) in N by lia. auto.
Qed.
Lemma ownedFrom_NoDup ts : forall i, NoDup (ownedFrom i ts).
Proof.
  induction ts as [|[fo ft] ts IH]; intros i; [constructor|]. rewrite ownedFrom_cons. apply NoDup_app_intro.
  - apply FinFun.Injective_map_NoDup; [intros ? ? E; congruence|apply seq_NoDup].
  - apply IH.
  - intros [c k] A B. apply in_map_iff in A. destruct A as (? & E & _). injection E as <- _. apply ownedFrom_ge in B. cbn in B. lia.
Qed.

Lemma balanced_all g t : 1 <= gNX g -> (forall i, (tFirstTail (t i) <= tClusters (t i))%nat) ->
  processesAll g t false (map (clusterAt g) (ownedClusters (towerRanges g t))).
Proof.
  intros NX T. change (ownedClusters (towerRanges g t)) with (ownedFrom 0 (towerRanges g t)).
  assert (IN : forall i k, In (i, k) (ownedFrom 0 (towerRanges g t)) <-> (i < numNew g)%nat /\ (tFirstOwned (t i) <= k < tFirstTail (t i))%nat).
  { intros i k. rewrite in_ownedFrom. rewrite Nat.sub_0_r. unfold towerRanges. rewrite nth_error_map. split.
    - intros (_ & fo & ft & N & K). destruct (nth_error (seq 0 (numNew g)) i) as [j|] eqn:E; [|discriminate]. cbn in N. injection N as <- <-.
      assert (i < length (seq 0 (numNew g)))%nat by (apply nth_error_Some; congruence). rewrite seq_length in H.
      apply nth_error_nth with (d := 0%nat) in E. rewrite seq_nth in E by exact H. cbn in E. subst j. auto.
    - intros [I K]. split; [lia|]. exists (tFirstOwned (t i)), (tFirstTail (t i)). split; [|exact K].
      rewrite (nth_error_nth' _ 0%nat) by (rewrite seq_length; exact I). rewrite seq_nth by exact I. reflexivity. }
  split.
  - assert (ND := ownedFrom_NoDup (towerRanges g t) 0). assert (IN' : forall c, In c (ownedFrom 0 (towerRanges g t)) -> (fst c < numNew g)%nat) by (intros [i k] I; apply IN in I; apply I).
    clear IN. induction ND as [|[i k] l NI ND IH]; [constructor|]. cbn [map]. constructor; [|apply IH; intros c C; apply IN'; now right].
    intros I. apply in_map_iff in I. destruct I as ([j k'] & E & I). apply NI. unfold clusterAt in E. cbn [fst snd] in E. injection E as E1 E2 E3. subst k'.
    assert (A := of_index g NX i (IN' (i, k) (or_introl eq_refl))). assert (B := of_index g NX j (IN' (j, k) (or_intror I))).
    replace i with j; [exact I|]. rewrite <- (proj2 A), <- (proj2 B), E1, E2. reflexivity.
  - intros [[x y] k]. rewrite in_map_iff. split.
    + intros ([i k'] & E & I). unfold clusterAt in E. cbn [fst snd] in E. injection E as <- <- <-. apply IN in I. destruct I as [I K].
      destruct (of_index g NX i I) as [[GX GY] E]. unfold isCluster, inOwnedRange, byXY. rewrite E. specialize (T i). split; [|right; exact K]. split; [exact GX|]. split; [exact GY|]. lia.
    + intros ((X & Y & K) & [O|O]); [discriminate|]. destruct (index_of g x y (conj X Y)) as (N & XO & YO). exists (Z.to_nat (tower1D g x y), k). split.
      * unfold clusterAt. cbn [fst snd]. rewrite XO, YO. reflexivity.
      * apply IN. split; [exact N|exact O].
Qed.

Lemma NoDup_tasks {A} (tasks : list (list A)) : NoDup (concat tasks) -> forall i j a b d, i <> j -> nth_error tasks i = Some a -> nth_error tasks j = Some b -> In d a -> In d b -> False.
Proof.
  induction tasks as [|x l IH]; intros ND [|i] [|j] a b d NE EA EB IA IB; cbn in EA, EB; try discriminate; try congruence; cbn [concat] in ND; apply NoDup_app_inv in ND; destruct ND as (N1 & N2 & N3).
  - injection EA as <-. apply nth_error_In in EB. apply (N3 d IA). apply in_concat. eauto.
  - injection EB as <-. apply nth_error_In in EA. apply (N3 d IB). apply in_concat. eauto.
  - eapply (IH N2 i j a b d); eauto.
Qed.
Lemma separate_alone lists phases : NoDup (concat (concat phases)) -> forall phase, In phase phases -> separate false lists phase.
Proof.
  intros ND phase I i j a b d NE EA EB (c & CA & CD) (c' & CB & CD'). destruct CD as [->|[H _]]; [|discriminate]. destruct CD' as [->|[H _]]; [|discriminate].
  assert (N : NoDup (concat phase)).
  { clear - ND I. induction phases as [|x l IH]; [destruct I|]. cbn [concat] in ND. rewrite concat_app in ND. apply NoDup_app_inv in ND. destruct ND as (N1 & N2 & _). destruct I as [->|I]; auto. }
  eapply (NoDup_tasks phase N i j a b c'); eauto.
Qed.

Section Lists.
  Variables (cs : nat) (g : Grid) (tower : Z -> Z -> Tower) (newton3 : bool).
  Lemma list_near x y k x' y' k' : In (x', y', k') (neighborList cs g tower newton3 (x, y, k)) ->
    Z.abs (x - x') <= gNIL g /\ Z.abs (y - y') <= gNIL g /\ 0 <= x' < gNX g /\ 0 <= y' < gNY g /\ (newton3 = true -> isForward g x y x' y' = true).
  Proof.
    unfold neighborList. destruct (hasList newton3 (tower x y) k); [|intros []]. intros I. apply in_flat_map in I. destruct I as (ny & NY & I). apply in_flat_map in I.
    destruct I as (nx & NX & I). apply in_zrange in NX, NY.
    assert (E : x' = nx /\ y' = ny /\ (newton3 = true -> isForward g x y nx ny = true)).
    { destruct (newton3 && negb (isForward g x y nx ny)) eqn:F; [destruct I|]. destruct (towersNear g x y nx ny); [|destruct I].
      unfold neighborsInTower in I. destruct (clusterEmpty _); [destruct I|]. apply in_flat_map in I. destruct I as (kb & _ & I).
      cbv zeta in I. destruct ((x =? nx) && (y =? ny) && (k =? kb)%nat); [destruct I|]. destruct (isHaloCluster _ _ && isHaloCluster _ _); [destruct I|].
      destruct (clusterEmpty _); [destruct I|]. destruct (clustersNear _ _ _); [|destruct I]. destruct I as [I|[]]. injection I as -> -> _.
      split; [reflexivity|]. split; [reflexivity|]. intros ->. cbn [andb] in F. destruct (isForward g x y x' y'); [reflexivity|discriminate]. }
    destruct E as (-> & -> & F). split; [lia|]. split; [lia|]. split; [lia|]. split; [lia|]. exact F.
  Qed.

End Lists.

(** Interaction cells of forward neighbours. *)
Section Forward.
  Variable g : Grid.
  Hypothesis nil1 : 1 <= gNIL g.
  Lemma div_near a b : Z.abs (a - b) <= gNIL g -> Z.abs (a / gNIL g - b / gNIL g) <= 1.
  Proof using nil1.
    intros H. assert (DA := Z.div_mod a (gNIL g) ltac:(lia)). assert (DB := Z.div_mod b (gNIL g) ltac:(lia)).
    assert (MA := Z.mod_pos_bound a (gNIL g) ltac:(lia)). assert (MB := Z.mod_pos_bound b (gNIL g) ltac:(lia)). nia.
  Qed.
  Lemma forward_cells x y x' y' : 0 <= x < gNX g -> 0 <= x' < gNX g -> 0 <= y -> 0 <= y' -> Z.abs (x - x') <= gNIL g -> Z.abs (y - y') <= gNIL g -> isForward g x y x' y' = true ->
    -1 <= x' / gNIL g - x / gNIL g <= 1 /\ 0 <= y' / gNIL g - y / gNIL g <= 1.
  Proof using nil1.
    intros X X' Y Y' AX AY F. apply div_near in AX, AY. split; [lia|]. unfold isForward, interactionCell in F. fold (coloringCells g (gNX g)) in F.
    assert (CX := coloring_covers g nil1 (gNX g) x X). assert (CX' := coloring_covers g nil1 (gNX g) x' X').
    destruct (Z.ltb_spec (x / gNIL g + coloringCells g (gNX g) * (y / gNIL g)) (x' / gNIL g + coloringCells g (gNX g) * (y' / gNIL g))) as [L|L]; [nia|].
    destruct (Z.ltb_spec (x' / gNIL g + coloringCells g (gNX g) * (y' / gNIL g)) (x / gNIL g + coloringCells g (gNX g) * (y / gNIL g))) as [L'|L']; [discriminate|]. nia.
  Qed.
End Forward.

(** vcl_c06 *)
Lemma c06_separate cs g t tower newton3 : 1 <= gNIL g -> (forall i, (tFirstTail (t i) <= tClusters (t i))%nat) ->
  Forall (separate newton3 (neighborList cs g tower newton3)) (c06Tasks g (byXY g t) newton3).
Proof.
  intros N1 T. apply Forall_forall. intros phase IP. destruct newton3.
  2:{ apply separate_alone with (c06Tasks g (byXY g t) false); [|exact IP]. apply (c06_all g t false T N1). }
  unfold c06Tasks in IP. apply in_map_iff in IP. destruct IP as (cells & <- & IC). fold (c06Cells g) in IC.
  intros i j a b d NE EA EB CA CB. rewrite nth_error_map in EA, EB.
  destruct (nth_error cells i) as [ca|] eqn:NA; [|discriminate]. destruct (nth_error cells j) as [cb|] eqn:NB; [|discriminate]. injection EA as <-. injection EB as <-.
  assert (ND := colorTraversal_color_NoDup _ _ _ cells stride_pos IC).
  assert (DIF : ca <> cb). { intros E. subst cb. apply NE. eapply NoDup_nth_error; [exact ND|apply nth_error_Some; congruence|congruence]. }
  destruct (colorTraversal_same_color _ _ _ cells ca cb stride_pos IC (nth_error_In _ _ NA) (nth_error_In _ _ NB)) as (kx & ky & kz & KX & KY & KZ). cbn [ix iy iz] in KX, KY, KZ.
  assert (GA : In ca (concat (c06Cells g))) by (apply in_concat; exists cells; eauto using nth_error_In).
  assert (GB : In cb (concat (c06Cells g))) by (apply in_concat; exists cells; eauto using nth_error_In).
  apply in_c06Cells in GA, GB.
  assert (Q : forall c, 0 <= ix c -> 0 <= iy c -> changes true (neighborList cs g tower true) (colorCellClusters g (byXY g t) true c) d ->
     -1 <= fst (fst d) / gNIL g - ix c <= 1 /\ 0 <= snd (fst d) / gNIL g - iy c <= 1).
  { clear - N1 T. intros c CX CY ([[x y] k] & I & H). rewrite colorCell_towers in I. apply in_flat_map in I. destruct I as ([x0 y0] & IT & I).
    apply (in_towerClusters g t true T) in I. destruct I as (k0 & E & _). injection E as <- <- <-. apply (in_colorTowers g N1) in IT. destruct IT as (EX & EY & XB & YB).
    assert (X0 : 0 <= x). { assert (D := Z.div_mod x (gNIL g) ltac:(lia)). assert (M := Z.mod_pos_bound x (gNIL g) ltac:(lia)). nia. }
    assert (Y0 : 0 <= y). { assert (D := Z.div_mod y (gNIL g) ltac:(lia)). assert (M := Z.mod_pos_bound y (gNIL g) ltac:(lia)). nia. }
    rewrite EX, EY. destruct H as [->|[_ H]]; cbn [fst snd]; [lia|]. destruct d as [[x' y'] k']. cbn [fst snd].
    apply list_near in H. destruct H as (AX & AY & GX & GY & F). apply (forward_cells g N1 x y x' y'); try lia. exact (F eq_refl). }
  apply Q in CA; [|lia|lia]. apply Q in CB; [|lia|lia]. apply DIF. destruct ca as [a1 a2 a3], cb as [b1 b2 b3]. cbn in *. f_equal; lia.
Qed.

(** The sliced traversals. *)
Lemma long_xy g : 2 <= gNX g -> 2 <= gNY g -> dimLong (mkI3 (gNX g) (gNY g) 1) = 0 \/ dimLong (mkI3 (gNX g) (gNY g) 1) = 1.
Proof.
  intros X Y. unfold dimLong. cbn [ix iy iz]. destruct (Z.leb_spec (Z.max (gNX g) (gNY g)) 1); [lia|]. destruct (gNX g <=? gNY g); auto.
Qed.
Section Sliced.
  Variables (cs : nat) (g : Grid) (t : nat -> Tower) (tower : Z -> Z -> Tower) (newton3 : bool).
  Hypothesis tails : forall i, (tFirstTail (t i) <= tClusters (t i))%nat.
  Hypothesis nil0 : 0 <= gNIL g.
  Hypothesis nx2 : 2 <= gNX g.
  Hypothesis ny2 : 2 <= gNY g.
  Notation dims := (mkI3 (gNX g) (gNY g) 1).
  Notation lists := (neighborList cs g tower newton3).

  Notation long := (long_xy g nx2 ny2).
  Definition layerOf (c : ClusterId) : Z := let '(x, y, _) := c in comp (dimLong dims) (mkI3 x y 0).
  Lemma in_layer l c : In c (layerClusters (byXY g t) newton3 dims l) -> layerOf c = l.
  Proof using All.
    unfold layerClusters. intros I. apply in_flat_map in I. destruct I as (i & CI & I). apply (in_towerClusters g t newton3 tails) in I. destruct I as (k & -> & _).
    apply in_layerCells in CI. destruct CI as [<- _]. unfold layerOf. destruct long as [E|E]; rewrite E; reflexivity.
  Qed.
  Lemma changes_layer layers d : changes newton3 lists (flat_map (layerClusters (byXY g t) newton3 dims) layers) d ->
    exists l, In l layers /\ l - gNIL g <= layerOf d <= l + gNIL g.
  Proof using All.
    intros (c & I & H). apply in_flat_map in I. destruct I as (l & L & I). exists l. split; [exact L|]. assert (E := in_layer l c I).
    destruct H as [->|[_ H]]; [lia|]. destruct c as [[x y] k], d as [[x' y'] k']. apply list_near in H. destruct H as (AX & AY & _).
    unfold layerOf in *. destruct long as [EE|EE]; rewrite EE in *; unfold comp in *; cbn [Z.eqb Pos.eqb ix iy iz] in *; lia.
  Qed.
  Lemma layers_apart l1 l2 d : 2 * gNIL g < Z.abs (l1 - l2) ->
    changes newton3 lists (layerClusters (byXY g t) newton3 dims l1) d -> changes newton3 lists (layerClusters (byXY g t) newton3 dims l2) d -> False.
  Proof using All.
    intros H A B. rewrite <- (app_nil_r (layerClusters _ _ _ l1)) in A. rewrite <- (app_nil_r (layerClusters _ _ _ l2)) in B.
    apply (changes_layer [l1] d) in A. apply (changes_layer [l2] d) in B. destruct A as (a & [<-|[]] & A). destruct B as (b & [<-|[]] & B). lia.
  Qed.

  Lemma sliced_separate ov : ov = 2 * gNIL g -> 0 < ov -> forall th, thick (ov + 1) 1 th ->
    let n := Z.of_nat (length th) in
    forall k done st s1 s2 l1 l2 d, reach n (initState (sliceProg th ov)) k done st ->
    0 <= s1 < n -> 0 <= s2 < n -> s1 <> s2 -> processing st s1 l1 -> processing st s2 l2 ->
    changes newton3 lists (layerClusters (byXY g t) newton3 dims l1) d -> changes newton3 lists (layerClusters (byXY g t) newton3 dims l2) d -> False.
  Proof using All.
    intros EO PO th TH n k done st s1 s2 l1 l2 d R S1 S2 NE P1 P2. apply layers_apart.
    destruct (Z.lt_ge_cases s1 s2).
    - assert (X := sliced_exclusion_lt th ov PO TH k done st s1 s2 l1 l2 R S1 S2 ltac:(lia) P1 P2). lia.
    - assert (X := sliced_exclusion_lt th ov PO TH k done st s2 s1 l2 l1 R S2 S1 ltac:(lia) P2 P1). lia.
  Qed.

  Lemma c02_separate ov : ov = 2 * gNIL g -> forall th, thick ov ov th ->
    Forall (separate newton3 lists) (map (map (flat_map (layerClusters (byXY g t) newton3 dims))) (c02Tasks th)).
  Proof using All.
    intros EO th TH.
    assert (Hpos : forall s, 0 <= s < Z.of_nat (length th) -> 0 <= thicknessOf th s).
    { intros s Hs. destruct (Z.eq_dec s (Z.of_nat (length th) - 1)) as [->|Hne].
      - pose proof (thick_nth_last _ _ th _ TH eq_refl ltac:(lia)). lia.
      - pose proof (thick_nth _ _ th s TH ltac:(lia)). lia. }
    apply Forall_forall. intros phase IP. apply in_map_iff in IP. destruct IP as (ph & <- & IP). unfold c02Tasks in IP. apply in_map_iff in IP. destruct IP as (o & <- & IO).
    apply in_zrange in IO. rewrite map_map. intros i j a b d NE EA EB CA CB. rewrite nth_error_map in EA, EB.
    destruct (nth_error (zsteps o (Z.of_nat (length th)) 2) i) as [s1|] eqn:NA; [|discriminate]. destruct (nth_error (zsteps o (Z.of_nat (length th)) 2) j) as [s2|] eqn:NB; [|discriminate].
    injection EA as <-. injection EB as <-.
    assert (DIF : s1 <> s2). { intros E. subst s2. apply NE. eapply NoDup_nth_error; [apply (NoDup_zsteps o (Z.of_nat (length th)) 2); lia|apply nth_error_Some; congruence|congruence]. }
    apply nth_error_In in NA, NB. apply in_zsteps in NA, NB; try lia.
    apply changes_layer in CA, CB. destruct CA as (l1 & L1 & A). destruct CB as (l2 & L2 & B).
    assert (Main : forall s1 s2 l1 l2, 0 <= s1 -> s1 + 2 <= s2 < Z.of_nat (length th) -> In l1 (c02SliceLayers th s1) -> In l2 (c02SliceLayers th s2) -> ov < l2 - l1).
    { clear - TH Hpos. intros s1 s2 l1 l2 S1 S2 L1 L2. apply in_zrange in L1, L2.
      pose proof (sliceStart_succ th s1 ltac:(lia)) as E1. pose proof (sliceStart_succ th (s1 + 1) ltac:(lia)) as E2.
      pose proof (thick_nth _ _ th (s1 + 1) TH ltac:(lia)) as T1. pose proof (sliceStart_mono th (s1 + 1 + 1) s2 Hpos ltac:(lia) ltac:(lia) ltac:(lia)). lia. }
    destruct (Z.lt_ge_cases s1 s2).
    - assert (X := Main s1 s2 l1 l2 ltac:(lia) ltac:(lia) L1 L2). lia.
    - assert (X := Main s2 s1 l2 l1 ltac:(lia) ltac:(lia) L2 L1). lia.
  Qed.
End Sliced.

(** The overlap of the sliced traversals for the tower sizes at the rebuild. *)
Section Overlap.
  Variables (bMin bMax : R3) (il opt : R).
  Hypothesis box_ok : below bMin bMax.
  Hypothesis il_pos : (0 < il)%R.
  Hypothesis opt_pos : (0 < opt)%R.
  Hypothesis same_halo : haloTowers il (sideLength (rx bMax - rx bMin) opt) = haloTowers il (sideLength (ry bMax - ry bMin) opt).
  Let g := estimatedGrid bMin bMax il opt.
  Let dims := selectorDims bMin bMax il opt.
  Lemma dims_grid : dims = mkI3 (gNX g) (gNY g) 1.
  Proof using. reflexivity. Qed.
  Lemma overlap_long : comp (dimLong dims) (vclOverlap il (selectorSize bMin bMax il opt)) = 2 * gNIL g /\ 1 <= gNIL g /\ 2 <= gNX g /\ 2 <= gNY g.
  Proof using All.
    assert (NX := nx_pos bMin bMax il opt box_ok il_pos opt_pos same_halo). assert (NY := ny_pos bMin bMax il opt box_ok il_pos opt_pos same_halo). fold g in NX, NY.
    assert (NI := nil_pos bMin bMax il opt box_ok il_pos opt_pos). fold g in NI. split; [|lia].
    assert (L := long_xy g ltac:(lia) ltac:(lia)). rewrite <- dims_grid in L.
    assert (X := nil_x bMin bMax il opt same_halo). assert (Y := nil_y bMin bMax il opt same_halo). fold g in X, Y. unfold haloTowers in X, Y. cbn [g estimatedGrid gSideX gSideY] in X, Y.
    unfold vclOverlap, selectorSize. destruct L as [->| ->]; unfold comp; cbn [Z.eqb Pos.eqb ix iy iz rx ry]; lia.
  Qed.
End Overlap.
