(** Each traversal of the cluster lists processes every cluster once. *)
From Coq Require Import Reals Lra Lia Psatz Permutation.
From Flocq Require Import Core.
From Verif.Base Require Import ZRange Occ Lists.
From Verif.Grid Require Import IndexModel IndexSpec.
From Verif.Functor Require Import SortModel CellFunctorModel FunctorSpec.
From Verif.Container Require Import ParticleModel IteratorModel IteratorContainers.
From Verif.Traversal Require Import ColorModel ColorProofs SliceModel SliceSpec SliceProofs LockModel LockProofs SliceCells.
From Verif.Cluster Require Import TowerModel TowerSpec TowerProofs BlockModel BlockBuild ListsCount ListsSpec ClusterTraversalModel TraversalSpec.
Local Open Scope Z_scope.

(** A list of towers that has every tower once gives an order that processes all. *)
Section Towers.
  Variable g : Grid.
  Variable t : nat -> Tower.
  Variable newton3 : bool.
  Hypothesis tails : forall i, (tFirstTail (t i) <= tClusters (t i))%nat.

  Lemma in_towerClusters x y c : In c (towerClusters (byXY g t) newton3 x y) <->
    exists k, c = (x, y, k) /\ (k < tClusters (byXY g t x y))%nat /\ (newton3 = true \/ inOwnedRange g t (x, y, k)).
  Proof using tails.
    unfold towerClusters. cbv zeta. rewrite in_map_iff. unfold inOwnedRange.
    assert (T : (tFirstTail (byXY g t x y) <= tClusters (byXY g t x y))%nat) by apply tails.
    split; intros (k & H); exists k.
    - destruct H as [<- H]. split; [reflexivity|]. destruct newton3; apply in_seq in H; (split; [lia|]); [left; reflexivity|right; lia].
    - destruct H as (-> & K & O). split; [reflexivity|]. destruct newton3; apply in_seq; [lia|]. destruct O as [O|O]; [discriminate|lia].
  Qed.
  Lemma towerClusters_NoDup x y : NoDup (towerClusters (byXY g t) newton3 x y).
  Proof using. unfold towerClusters. apply FinFun.Injective_map_NoDup; [intros k k' E; congruence|]. destruct newton3; apply seq_NoDup. Qed.

  Lemma towers_all (cells : list (Z * Z)) : NoDup cells -> (forall x y, In (x, y) cells <-> 0 <= x < gNX g /\ 0 <= y < gNY g) ->
    processesAll g t newton3 (flat_map (fun '(x, y) => towerClusters (byXY g t) newton3 x y) cells).
  Proof using tails.
    intros ND I. split.
    - apply NoDup_flat_map; [exact ND| |].
      + intros [x y] _. apply towerClusters_NoDup.
      + intros [x y] [x' y'] c _ _ A B. apply in_towerClusters in A, B. destruct A as (k & -> & _). destruct B as (k' & E & _). congruence.
    - intros [[x y] k]. rewrite in_flat_map. split.
      + intros ([x' y'] & J & C). apply in_towerClusters in C. destruct C as (k' & E & K & O). injection E as <- <- <-. apply I in J. split; [|exact O].
        unfold isCluster. tauto.
      + intros ((X & Y & K) & O). exists (x, y). split; [apply I; auto|]. apply in_towerClusters. exists k. auto.
  Qed.

  Lemma processes_perm o o' : Permutation o o' -> processesAll g t newton3 o -> processesAll g t newton3 o'.
  Proof using.
    intros P [ND I]. split; [eapply Permutation_NoDup; eauto|]. intros c. rewrite <- I. split; apply Permutation_in; [symmetry|]; exact P.
  Qed.

  (** vcl_cluster_iteration *)
  Lemma iteration_all : processesAll g t newton3 (concat (concat (clusterIterationTasks g (byXY g t) newton3))).
  Proof using tails.
    unfold clusterIterationTasks. cbn [concat]. rewrite app_nil_r.
    replace (concat _) with (flat_map (fun '(x, y) => towerClusters (byXY g t) newton3 x y) (flat_map (fun x => map (fun y => (x, y)) (zrange 0 (gNY g))) (zrange 0 (gNX g)))).
    - apply towers_all.
      + apply NoDup_flat_map; [apply NoDup_zrange| |].
        * intros x _. apply FinFun.Injective_map_NoDup; [intros ? ? E; congruence|apply NoDup_zrange].
        * intros x x' c _ _ A B. apply in_map_iff in A, B. destruct A as (? & <- & _). destruct B as (? & E & _). congruence.
      + intros x y. rewrite in_flat_map. split.
        * intros (x' & X & H). apply in_map_iff in H. destruct H as (y' & E & Y). injection E as <- <-. apply in_zrange in X, Y. auto.
        * intros [X Y]. exists x. split; [now apply in_zrange|]. apply in_map_iff. exists y. split; [reflexivity|now apply in_zrange].
    - generalize (zrange 0 (gNY g)) as ys. induction (zrange 0 (gNX g)) as [|x xs IH]; intros ys; [reflexivity|]. cbn [flat_map]. rewrite flat_map_app, concat_app, IH. f_equal.
      induction ys as [|y ys IH']; [reflexivity|]. cbn [map flat_map concat]. rewrite IH'. reflexivity.
  Qed.

  (** vcl_c06 *)
  Definition colorTowers (cell : I3) : list (Z * Z) :=
    flat_map (fun yInner => flat_map (fun xInner =>
      let y := (iy cell * gNIL g + yInner)%Z in
      let x := (ix cell * gNIL g + xInner)%Z in
      if (gNX g <=? x)%Z || (gNY g <=? y)%Z then [] else [(x, y)])
      (zrange 0 (gNIL g))) (zrange 0 (gNIL g)).
  Lemma colorCell_towers cell : colorCellClusters g (byXY g t) newton3 cell = flat_map (fun '(x, y) => towerClusters (byXY g t) newton3 x y) (colorTowers cell).
  Proof using.
    clear tails. unfold colorCellClusters, colorTowers. cbv zeta. set (xs := zrange 0 (gNIL g)) at 1 3. clearbody xs.
    induction (zrange 0 (gNIL g)) as [|b bs IH]; [reflexivity|]. cbn [flat_map]. rewrite flat_map_app, <- IH. f_equal. clear IH.
    induction xs as [|a xs IH']; [reflexivity|]. cbn [flat_map]. rewrite flat_map_app, <- IH'. f_equal. destruct (_ || _); cbn [flat_map]; [reflexivity|now rewrite app_nil_r].
  Qed.
  Hypothesis nil1 : 1 <= gNIL g.
  Lemma in_colorTowers cell x y : In (x, y) (colorTowers cell) <-> ix cell = x / gNIL g /\ iy cell = y / gNIL g /\ x < gNX g /\ y < gNY g.
  Proof using nil1.
    clear tails. unfold colorTowers. rewrite in_flat_map. cbv zeta. split.
    - intros (yi & Y & H). apply in_flat_map in H. destruct H as (xi & X & H). apply in_zrange in X, Y.
      destruct (Z.leb_spec (gNX g) (ix cell * gNIL g + xi)); [destruct H|]. destruct (Z.leb_spec (gNY g) (iy cell * gNIL g + yi)); [destruct H|].
      destruct H as [E|[]]. injection E as <- <-. rewrite !Z.div_add_l by lia. rewrite !Z.div_small by lia. lia.
    - intros (X & Y & NX & NY). assert (DX := Z.div_mod x (gNIL g) ltac:(lia)). assert (DY := Z.div_mod y (gNIL g) ltac:(lia)).
      exists (y mod gNIL g). split; [apply in_zrange; apply Z.mod_pos_bound; lia|]. apply in_flat_map. exists (x mod gNIL g). split; [apply in_zrange; apply Z.mod_pos_bound; lia|].
      rewrite X, Y. replace (x / gNIL g * gNIL g + x mod gNIL g) with x by lia. replace (y / gNIL g * gNIL g + y mod gNIL g) with y by lia.
      destruct (Z.leb_spec (gNX g) x); [lia|]. destruct (Z.leb_spec (gNY g) y); [lia|]. now left.
  Qed.
  Lemma colorTowers_NoDup cell : NoDup (colorTowers cell).
  Proof using nil1.
    clear tails. unfold colorTowers. cbv zeta. apply NoDup_flat_map; [apply NoDup_zrange| |].
    - intros yi _. apply NoDup_flat_map; [apply NoDup_zrange| |].
      + intros xi _. destruct (_ || _); constructor; [intros []|constructor].
      + intros a b [x y] _ _ A B. destruct (_ || _) in A; [destruct A|]. destruct (_ || _) in B; [destruct B|]. destruct A as [A|[]]. destruct B as [B|[]].
        injection A as <- <-. injection B as B. lia.
    - intros a b [x y] _ _ A B. apply in_flat_map in A, B. destruct A as (u & _ & A). destruct B as (v & _ & B).
      destruct (_ || _) in A; [destruct A|]. destruct (_ || _) in B; [destruct B|]. destruct A as [A|[]]. destruct B as [B|[]].
      injection A as <- <-. injection B as _ B. lia.
  Qed.
  Lemma coloring_covers n x : 0 <= x < n -> 0 <= x / gNIL g < coloringCells g n.
  Proof using nil1.
    clear tails. intros X. split; [apply Z.div_pos; lia|]. unfold coloringCells.
    assert (D := Z.div_mod x (gNIL g) ltac:(lia)). assert (M := Z.mod_pos_bound x (gNIL g) ltac:(lia)).
    assert (UB := Zceil_ub (IZR n / IZR (gNIL g))). apply lt_IZR. apply Rlt_le_trans with (2 := UB).
    assert (0 < IZR (gNIL g))%R by (apply IZR_lt; lia). apply Rmult_lt_reg_r with (IZR (gNIL g)); [assumption|]. unfold Rdiv. rewrite Rmult_assoc, Rinv_l, Rmult_1_r by lra.
    rewrite <- mult_IZR. apply IZR_lt. nia.
  Qed.

  Definition c06Cells : list (list I3) := colorTraversal (mkI3 (coloringCells g (gNX g)) (coloringCells g (gNY g)) 1) (mkI3 3 2 1) (mkI3 0 0 0).
  Lemma stride_pos : positive (mkI3 3 2 1).
  Proof using. unfold positive. cbn. lia. Qed.
  Lemma in_c06Cells cell : In cell (concat c06Cells) <-> 0 <= ix cell < coloringCells g (gNX g) /\ 0 <= iy cell < coloringCells g (gNY g) /\ iz cell = 0.
  Proof using. clear tails nil1. unfold c06Cells. rewrite (colorTraversal_in _ _ _ _ stride_pos). cbn [ix iy iz]. lia. Qed.

  Lemma c06_all : processesAll g t newton3 (concat (concat (c06Tasks g (byXY g t) newton3))).
  Proof using tails nil1.
    replace (concat (concat (c06Tasks g (byXY g t) newton3))) with (flat_map (fun '(x, y) => towerClusters (byXY g t) newton3 x y) (flat_map colorTowers (concat c06Cells))).
    - apply towers_all.
      + apply NoDup_flat_map; [apply colorTraversal_NoDup, stride_pos|intros; apply colorTowers_NoDup|].
        intros a b [x y] A B XA XB. apply in_c06Cells in A, B. apply in_colorTowers in XA, XB. destruct a as [a1 a2 a3], b as [b1 b2 b3]. cbn in A, B, XA, XB. f_equal; lia.
      + intros x y. rewrite in_flat_map. split.
        * intros (cell & C & H). apply in_c06Cells in C. apply in_colorTowers in H. destruct C as (CX & CY & _). destruct H as (EX & EY & X & Y).
          assert (DX := Z.div_mod x (gNIL g) ltac:(lia)). assert (DY := Z.div_mod y (gNIL g) ltac:(lia)).
          assert (MX := Z.mod_pos_bound x (gNIL g) ltac:(lia)). assert (MY := Z.mod_pos_bound y (gNIL g) ltac:(lia)). split; nia.
        * intros [X Y]. exists (mkI3 (x / gNIL g) (y / gNIL g) 0). split; [apply in_c06Cells; cbn [ix iy iz]; auto using coloring_covers|].
          apply in_colorTowers. cbn [ix iy]. lia.
    - unfold c06Tasks. fold c06Cells. induction c06Cells as [|ph l IH]; [reflexivity|]. cbn [map concat]. rewrite !flat_map_app, concat_app, IH. f_equal.
      induction ph as [|c ph IH']; [reflexivity|]. cbn [map concat flat_map]. rewrite flat_map_app, IH', colorCell_towers. reflexivity.
  Qed.

  (** The sliced traversals: every layer once. *)
  Notation dims := (mkI3 (gNX g) (gNY g) 1).
  Lemma flat_cells (l : list I3) : flat_map (fun i => towerClusters (byXY g t) newton3 (ix i) (iy i)) l =
    flat_map (fun '(x, y) => towerClusters (byXY g t) newton3 x y) (map (fun i => (ix i, iy i)) l).
  Proof using. clear. induction l as [|a l IH]; [reflexivity|]. cbn [flat_map map]. rewrite IH. reflexivity. Qed.

  Lemma layers_all d : 0 <= gNX g -> 0 <= gNY g -> Permutation d (zrange 0 (comp (dimLong dims) dims)) ->
    processesAll g t newton3 (flat_map (layerClusters (byXY g t) newton3 dims) d).
  Proof using tails.
    clear nil1. intros NX0 NY0 P.
    apply processes_perm with (flat_map (layerClusters (byXY g t) newton3 dims) (zrange 0 (comp (dimLong dims) dims))); [apply Permutation_flat_map; symmetry; exact P|].
    replace (flat_map (layerClusters (byXY g t) newton3 dims) (zrange 0 (comp (dimLong dims) dims)))
      with (flat_map (fun '(x, y) => towerClusters (byXY g t) newton3 x y) (map (fun i => (ix i, iy i)) (flat_map (layerCells dims (mkI3 0 0 0)) (zrange 0 (comp (dimLong dims) dims))))).
    - assert (B := in_layer_bases dims (mkI3 0 0 0) [comp (dimLong dims) dims]). assert (N := NoDup_layer_bases dims (mkI3 0 0 0) [comp (dimLong dims) dims]).
      replace (zsum [comp (dimLong dims) dims]) with (comp (dimLong dims) dims) in * by (cbn [zsum fold_right]; lia).
      assert (Z0 : comp (dimLong dims) (mkI3 0 0 0) = 0) by (unfold comp; repeat destruct (_ =? _); reflexivity).
      assert (H0 : forall s, 0 <= s < Z.of_nat (length [comp (dimLong dims) dims]) -> 0 <= thicknessOf [comp (dimLong dims) dims] s).
      { intros s HS. cbn [length] in HS. replace s with 0 by lia. unfold thicknessOf. cbn [Z.to_nat nth]. unfold comp. repeat destruct (_ =? _); cbn [ix iy iz]; lia. }
      specialize (B H0 (eq_sym (eq_trans (f_equal (fun z => comp (dimLong dims) dims - z) Z0) (Z.sub_0_r _)))). unfold C08Bases.c08Box in B.
      apply towers_all.
      + revert N B. generalize (flat_map (layerCells dims (mkI3 0 0 0)) (zrange 0 (comp (dimLong dims) dims))). clear. intros l N B.
        assert (Q : forall c, In c l -> iz c = 0). { intros c C. apply B in C. cbn [iz] in C. lia. } clear B. induction N as [|a l NI N IH]; [constructor|]. cbn [map]. constructor.
        * intros I. apply in_map_iff in I. destruct I as (b & E & I). apply NI. replace a with b; [exact I|]. injection E as E1 E2.
          assert (Z1 := Q a (or_introl eq_refl)). assert (Z2 := Q b (or_intror I)). destruct a as [a1 a2 a3], b as [b1 b2 b3]. cbn in E1, E2, Z1, Z2. congruence.
        * apply IH. intros c C. apply Q. now right.
      + intros x y. rewrite in_map_iff. split.
        * intros (c & E & C). injection E as <- <-. apply B in C. cbn [ix iy iz] in C. lia.
        * intros [X Y]. exists (mkI3 x y 0). split; [reflexivity|]. apply B. cbn [ix iy iz]. lia.
    - clear P. induction (zrange 0 (comp (dimLong dims) dims)) as [|l ls IH]; [reflexivity|]. cbn [flat_map]. rewrite map_app, flat_map_app, IH. f_equal.
      unfold layerClusters. symmetry. apply flat_cells.
  Qed.
End Towers.

(** The towers after a rebuild. *)
Lemma ownedRange_bound cls : forall i fo ft fo' ft', TowerModel.ownedRange cls i fo ft = (fo', ft') ->
  (forall a, fo = Some a -> (a <= i)%nat) -> (forall a, ft = Some a -> (a <= i)%nat) ->
  (forall a, fo' = Some a -> (a <= i + length cls)%nat) /\ (forall a, ft' = Some a -> (a <= i + length cls)%nat).
Proof.
  induction cls as [|c r IH]; intros i fo ft fo' ft' E F T; cbn [TowerModel.ownedRange length] in *.
  - injection E as <- <-. split; intros a A; [specialize (F a A)|specialize (T a A)]; lia.
  - cbv zeta in E. apply IH in E.
    + destruct E as [E1 E2]. split; intros a A; [specialize (E1 a A)|specialize (E2 a A)]; lia.
    + intros a A. destruct fo as [b|]; [injection A as <-; specialize (F b eq_refl); lia|]. destruct (match ft with None => _ | Some _ => _ end); [injection A as <-; lia|discriminate].
    + intros a A. destruct ft as [b|]; [injection A as <-; specialize (T b eq_refl); lia|].
      destruct (match fo with None => _ | Some _ => _ end); [|discriminate]. destruct (anyOwned c); [discriminate|]. injection A as <-. lia.
Qed.

Lemma final_tails sortZ cs g old toAdd : sortsByZ sortZ -> (0 < cs)%nat ->
  forall i, (tFirstTail (finalTower sortZ cs g old toAdd i) <= tClusters (finalTower sortZ cs g old toAdd i))%nat.
Proof.
  intros S C i. destruct (tower_steps sortZ cs g old toAdd S C i) as (F & P & Z & G & SD & L2 & A & D' & C1 & FO & FT & PD & F' & A' & D'' & C' & FO' & FT').
  rewrite C', FT'. destruct (gen_ok sortZ cs S C (filledTower g old toAdd i) eq_refl) as (t1 & G1 & _ & _ & _ & _ & R).
  rewrite G in G1. injection G1 as <-. destruct (TowerModel.ownedRange _ 0 None None) as [fo ft] eqn:E. cbv zeta in R. injection R as _ R2.
  apply ownedRange_bound in E; try discriminate. rewrite map_length, seq_length in E. destruct E as [_ E]. rewrite R2. destruct ft as [b|]; [specialize (E b eq_refl)|]; lia.
Qed.
