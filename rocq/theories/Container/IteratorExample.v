(** Concrete instances for the theorems about iterators. *)
From Coq Require Import Reals Lra.
From Flocq Require Import Core.
From Verif.Base Require Import ZRange Lists.
From Verif.Grid Require Import IndexModel IndexSpec CellBlockModel CellBlockSpec CellBlockProofs CellBlockFloat CellBlockExact.
From Verif.Functor Require Import CellFunctorModel SortModel.
From Verif.Container Require Import LinkedCellsModel LinkedCellsSpec LinkedCellsBuild IteratorModel IteratorContainers IteratorSpec IteratorLemmas IteratorGrid IteratorRegion.
Open Scope Z_scope.

(** Particles are numbers; [ids] below 100 are owned, from 100 on halo. *)
Definition exOwner (x : Z) : Z := if x <? 100 then 1 else 2.
Definition exPosition (x : Z) : R3 := if x <? 100 then mkR3 (IZR x) 3 9 else mkR3 3 10 2.

Lemma ex_double_10 : forall z, (0 <= z <= 1000)%Z -> rndDouble (IZR z) = IZR z.
Proof. intros z Hz. apply rndDouble_id, isDouble_IZR. lia. Qed.

Lemma ex_grid : floatGrid 1 1 (mkR3 0 0 0) (mkR3 10 10 10).
Proof.
  assert (D0 : isDouble 0) by now apply (isDouble_IZR 0). assert (D1 : isDouble 1) by now apply (isDouble_IZR 1).
  assert (D10 : isDouble 10) by now apply (isDouble_IZR 10).
  assert (HB : (10 <= bpow radix2 1023)%R).
  { apply Rle_trans with (bpow radix2 4); [change (bpow radix2 4) with 16%R; lra|apply bpow_le; lia]. }
  repeat split; cbn [rx ry rz]; try assumption; try lra;
  (destruct H as [H|[H|H]]; injection H as -> ->; [| |]); try (rewrite Rminus_0_r; assumption);
  unfold cellsPerDim; rewrite Rminus_0_r, Rmult_1_l, (rndDouble_id 10), (rndDouble_id 1) by assumption;
  replace (10 / 1)%R with 10%R by field; rewrite (rndDouble_id 10) by assumption; change 10%R with (IZR 10); rewrite Zfloor_IZR; reflexivity.
Qed.

Lemma ex_dim : rebuildDim rndDouble 1 1 0 10 = mkDim 0 10 10 1 1 1 (-1) 11.
Proof.
  unfold rebuildDim, cellsPerDim, cellsPerInteractionLength.
  destruct (Rle_dec 1 1) as [Hl|H]; [clear Hl|destruct (H (Rle_refl 1))].
  rewrite Rminus_0_r, Rmult_1_l, (ex_double_10 10), (ex_double_10 1) by lia.
  replace (10 / 1)%R with 10%R by field. rewrite (ex_double_10 10) by lia. rewrite Zfloor_IZR.
  change (Z.max 10 1) with 10. rewrite (ex_double_10 10) by lia. replace (10 / 10)%R with 1%R by field.
  rewrite (ex_double_10 1) by lia. rewrite Rmult_1_l, (ex_double_10 1) by lia. 
  replace (0 - 1)%R with (-1)%R by lra. replace (10 + 1)%R with (IZR 11) by lra.
  rewrite (ex_double_10 11) by lia.
  replace (rndDouble (IZR (-1))) with (IZR (-1)); [reflexivity|].
  symmetry. apply rndDouble_id, isDouble_IZR. reflexivity.
Qed.

Lemma ex_linked_cells :
  let b := rebuild rndDouble 1 1 (mkR3 0 0 0) (mkR3 10 10 10) in
  let ps := [1; 101; 7; 3] in
  floatGrid 1 1 (mkR3 0 0 0) (mkR3 10 10 10) /\
  (forall p, In p ps -> (exOwner p = 1 /\ inBox (mkR3 0 0 0) (mkR3 10 10 10) (exPosition p)) \/
    (exOwner p = 2 /\ ~ inBox (mkR3 0 0 0) (mkR3 10 10 10) (exPosition p) /\
     get1DIndexOfPosition rndDouble b (exPosition p) <> None)) /\
  numCells (blockDims b) < sizeMax /\ size ps < sizeMax.
Proof.
  intros b ps. split; [exact ex_grid|].
  assert (Eb : b = mkBlock (mkDim 0 10 10 1 1 1 (-1) 11) (mkDim 0 10 10 1 1 1 (-1) 11) (mkDim 0 10 10 1 1 1 (-1) 11)).
  { unfold b, rebuild. cbn [rx ry rz]. now rewrite ex_dim. }
  split; [|split].
  - assert (Q : forall x, (0 < x < 10)%R -> inBox (mkR3 0 0 0) (mkR3 10 10 10) (mkR3 x 3 9)).
    { intros x Hx. unfold inBox. cbn [rx ry rz]. lra. }
    intros p [<-|[<-|[<-|[<-|[]]]]]; unfold exOwner, exPosition; cbn [Z.ltb Z.compare Pos.compare Pos.compare_cont];
      [left; split; [reflexivity|apply Q; lra]| |left; split; [reflexivity|apply Q; lra]|left; split; [reflexivity|apply Q; lra]].
    right. split; [reflexivity|]. split; [unfold inBox; cbn [rx ry rz]; lra|].
    rewrite Eb. unfold get1DIndexOfPosition, get3DIndexOfPosition. cbn [bX bY bZ rx ry rz]. unfold cellIndexOf.
    cbn [dMin dMax dCells dHalo dRecip]. rewrite !Rminus_0_r. rewrite !(ex_double_10 3), !(ex_double_10 10), !(ex_double_10 2) by lia.
    rewrite !Rmult_1_r, !(ex_double_10 3), !(ex_double_10 10), !(ex_double_10 2) by lia. rewrite !Zfloor_IZR.
    unfold toLong. cbn -[Rle_dec Rlt_dec].
    repeat destruct (Rle_dec _ _); repeat destruct (Rlt_dec _ _); discriminate.
  - rewrite Eb. reflexivity.
  - reflexivity.
Qed.

(** A direct sum container with owned particles 1, 2, two halo particles, one of
    them in a buffer. *)
Definition exStore : Store Z := mkStore [[1; 2]; [100]; []; []; []; []; []] [[3]; []; [101]; []].
Definition exEmpty : Store Z := mkStore [[1; 2]; []; []; []; []; []; []] [[]; []; []; []].

Lemma nth_cases {A} (l : list A) b x (Q : nat -> A -> Prop) :
  nth_error l b = Some x -> (forall k, (k < length l)%nat -> forall y, nth_error l k = Some y -> Q k y) -> Q b x.
Proof. intros E H. apply H; [apply nth_error_Some; congruence|exact E]. Qed.

Lemma ex_direct_sum : loopThreads 3 2 2 /\ dsPlaced exOwner (cells exStore) /\ validBuffers exOwner 2 (buffers exStore) /\
  gather 3 2 exStore <> [] /\
  allowedSchedule (fun _ _ x => x =? 2) 2 ([1; 0] ++ concat (repeat [0; 1] 8))%nat /\
  fairSchedule 2 exStore ([1; 0] ++ concat (repeat [0; 1] 8))%nat.
Proof.
  split; [split; [lia|]; left; split; [right; right; now left|reflexivity]|]. split; [|split; [|split; [discriminate|split]]].
  - split; [reflexivity|]. intros c l H. apply at_some in H. destruct H as [Hr H]. unfold size in Hr. cbn in Hr.
    assert (Hc : c = 0 \/ c = 1 \/ c = 2 \/ c = 3 \/ c = 4 \/ c = 5 \/ c = 6) by lia.
    destruct Hc as [->|[->|[->|[->|[->|[->| ->]]]]]]; cbn in H; injection H as <-;
      (split; [reflexivity|]); intros x Hx; cbn in Hx; repeat (destruct Hx as [<-|Hx]); try contradiction;
      unfold exOwner, validState; cbn; repeat split; intros; try lia; auto.
  - split; [cbn; lia|]. split; [reflexivity|]. split.
    + intros l [<-|[<-|[<-|[<-|[]]]]]; reflexivity.
    + intros k l x E Hx. destruct k as [|[|[|[|k]]]]; cbn in E; try (injection E as <-); try (destruct k; discriminate);
        cbn in Hx; repeat (destruct Hx as [<-|Hx]); try contradiction; unfold exOwner, validState; cbn; repeat split; intros; try lia; auto.
  - right. exists [1; 0]%nat, (concat (repeat [0; 1] 8))%nat. split; [apply perm_swap|reflexivity].
  - intros [|[|t]] Ht; cbn; lia.
Qed.

(** One particle that was sorted into the first cell of the box [0,3)^3 and has
    moved into the next one. *)
Definition exOld (x : Z) : R3 := mkR3 (1 / 2) (1 / 2) (1 / 2).
Definition exNow (x : Z) : R3 := mkR3 (11 / 10) (1 / 2) (1 / 2).
Definition exMoved : Store Z := mkStore (setAt (repeat [] 125) 31 [1]) [[]; []].

Lemma ex_dim_exact : rebuildDim rndExact 1 1 0 3 = mkDim 0 3 3 1 1 1 (-1) 4.
Proof.
  unfold rebuildDim, cellsPerDim, cellsPerInteractionLength, rndExact.
  destruct (Rle_dec 1 1) as [Hl|H]; [clear Hl|destruct (H (Rle_refl 1))].
  replace ((3 - 0) / (1 * 1))%R with (IZR 3) by lra. rewrite Zfloor_IZR. change (Z.max 3 1) with 3.
  f_equal; lra.
Qed.

Lemma ex_region :
  let b := rebuild rndExact 1 1 (mkR3 0 0 0) (mkR3 3 3 3) in
  validGrid 1 1 (mkR3 0 0 0) (mkR3 3 3 3) /\ loopThreads 1 4 4%nat /\
  lcPlaced exOwner b (cells exMoved) /\
  validBuffers exOwner 1 (buffers exMoved) /\ allowedSchedule (P := Z) (fun _ _ _ => false) 4 [0; 3; 3; 1; 2]%nat /\
  (forall c l x, at_ (cells exMoved) c = Some l -> In x l ->
       inBox (getHaloBoxMin b) (getHaloBoxMax b) (exOld x) /\
       get1DIndexOfPosition rndExact b (exOld x) = Some c /\ movedWithin exOld exNow (7 / 10) x) /\
  inBox (mkR3 1 0 0) (mkR3 2 1 1) (exNow 1) /\ ~ inBox (mkR3 1 0 0) (mkR3 2 1 1) (exOld 1) /\ In 1 (contents exMoved).
Proof.
  intros b.
  assert (Eb : b = mkBlock (mkDim 0 3 3 1 1 1 (-1) 4) (mkDim 0 3 3 1 1 1 (-1) 4) (mkDim 0 3 3 1 1 1 (-1) 4)).
  { unfold b, rebuild. cbn [rx ry rz]. now rewrite ex_dim_exact. }
  assert (Hcell : forall c l x, at_ (cells exMoved) c = Some l -> In x l -> c = 31 /\ x = 1 /\ l = [1]).
  { intros c l x E Hx. apply at_some in E. destruct E as [Hr E]. unfold exMoved in E. cbn [cells] in E.
    destruct (Nat.eq_dec 31 (Z.to_nat c)) as [H|H].
    - rewrite <- H, setAt_same in E by (rewrite repeat_length; lia). injection E as <-. destruct Hx as [<-|[]]. split; [lia|auto].
    - rewrite setAt_other in E by exact H. apply nth_error_In, repeat_spec in E. subst l. destruct Hx. }
  split; [|split; [|split; [|split; [|split; [|split]]]]].
  - fold b. unfold validGrid. fold b. rewrite Eb. unfold below, longEnough, rndExact. cbn [rx ry rz].
    repeat split; try lra; reflexivity.
  - split; [lia|]. left. split; [now left|reflexivity].
  - split; [rewrite Eb; reflexivity|]. split; [reflexivity|]. intros c l E. split.
    + apply at_some in E. destruct E as [_ E]. unfold exMoved in E. cbn [cells] in E. destruct (Nat.eq_dec 31 (Z.to_nat c)) as [H|H].
      * rewrite <- H, setAt_same in E by (rewrite repeat_length; lia). injection E as <-. reflexivity.
      * rewrite setAt_other in E by exact H. apply nth_error_In, repeat_spec in E. subst l. reflexivity.
    + intros x Hx. destruct (Hcell c l x E Hx) as (-> & -> & _). rewrite Eb. split; [right; now left|]. split; [reflexivity|discriminate].
  - split; [cbn; lia|]. split; [reflexivity|]. split; [intros l [<-|[<-|[]]]; reflexivity|].
    intros k l x E Hx. destruct k as [|[|k]]; cbn in E; try (injection E as <-); try (destruct k; discriminate); destruct Hx.
  - now left.
  - intros c l x E Hx. destruct (Hcell c l x E Hx) as (-> & -> & _). rewrite Eb. unfold inBox, getHaloBoxMin, getHaloBoxMax, exOld, exNow, movedWithin.
    cbn [bX bY bZ dHaloMin dHaloMax rx ry rz]. split; [lra|]. split.
    + unfold get1DIndexOfPosition, get3DIndexOfPosition, cellIndexOf, rndExact. cbn [bX bY bZ rx ry rz dMin dMax dCells dHalo dRecip].
      replace (Zfloor ((1 / 2 - 0) * 1)) with 0 by (symmetry; apply Zfloor_imp; change (0 + 1) with 1; lra).
      cbn -[Rle_dec Rlt_dec]. repeat (destruct (Rle_dec _ _); [lra|]). repeat (destruct (Rlt_dec _ _); [lra|]). reflexivity.
    + repeat split; unfold Rabs; destruct (Rcase_abs _); lra.
  - split; [unfold inBox, exNow; cbn [rx ry rz]; lra|]. split; [unfold inBox, exOld; cbn [rx ry rz]; lra|].
    unfold contents. apply in_or_app. left. apply in_concat. exists [1]. split; [|now left].
    apply nth_error_In with 31%nat. reflexivity.
Qed.
