(** Cases that meet the hypotheses of C32 and C33, and where C32 fails. *)
From Coq Require Import Reals Lra.
From Flocq Require Import Core.
From Verif.Base Require Import ZRange Lists Occ.
From Verif.Grid Require Import IndexModel IndexSpec IndexProofs CellBlockModel CellBlockSpec CellBlockProofs CellBlockFloat CellBlockExact.
From Verif.Functor Require Import SortModel.
From Verif.Container Require Import LinkedCellsModel LinkedCellsSpec LinkedCellsGeo IteratorModel IteratorContainers IteratorSpec IteratorLemmas IteratorInstances IteratorRegion IteratorExample
  ParticleModel CollectModel CollectSpec CollectProofs CollectRun CollectContainers UpdateModel UpdateProofs.
Import ListNotations.
Local Open Scope Z_scope.

(** An owned particle that has just left the box [0,3)^3, a halo particle that has
    entered it, and a deleted particle. *)
Definition exLeft : Particle := mkParticle 1 (mkR3 (-1 / 10) (1 / 2) (1 / 2)) 1 0.
Definition exEntered : Particle := mkParticle 2 (mkR3 (1 / 10) (1 / 2) (1 / 2)) 2 0.
Definition exDeleted : Particle := mkParticle 3 (mkR3 (1 / 2) (1 / 2) (1 / 2)) 0 0.
Definition exDS : list (list Particle) := [[exLeft; exDeleted]; [exEntered]; []; []; []; []; []].
Definition exLC : list (list Particle) := setAt (setAt (repeat [] 125) 31 [exLeft; exDeleted]) 30 [exEntered].
Definition exWas (p : Particle) : R3 := if (pid p =? 2) then mkR3 (-1 / 10) (1 / 2) (1 / 2) else mkR3 (1 / 10) (1 / 2) (1 / 2).

Lemma exLC_cases c p : In p (nth c exLC []) -> (c = 31%nat /\ (p = exLeft \/ p = exDeleted)) \/ (c = 30%nat /\ p = exEntered).
Proof.
  intros H. assert (E : nth_error exLC c = Some (nth c exLC [])).
  { apply nth_error_nth'. destruct (Nat.lt_ge_cases c (length exLC)) as [L|L]; [exact L|]. rewrite nth_overflow in H by exact L. destruct H. }
  revert H E. generalize (nth c exLC []). intros l H E. unfold exLC in E. destruct (Nat.eq_dec 30 c) as [<-|N].
  - rewrite setAt_same in E by (rewrite setAt_length, repeat_length; lia). injection E as <-. destruct H as [<-|[]]. right. auto.
  - rewrite setAt_other in E by exact N. destruct (Nat.eq_dec 31 c) as [<-|N'].
    + rewrite setAt_same in E by (rewrite repeat_length; lia). injection E as <-. destruct H as [<-|[<-|[]]]; left; auto.
    + rewrite setAt_other in E by exact N'. apply nth_error_In, repeat_spec in E. subst l. destruct H.
Qed.

Lemma ex_block : rebuild rndExact 1 1 (mkR3 0 0 0) (mkR3 3 3 3) = mkBlock (mkDim 0 3 3 1 1 1 (-1) 4) (mkDim 0 3 3 1 1 1 (-1) 4) (mkDim 0 3 3 1 1 1 (-1) 4).
Proof. unfold rebuild. cbn [rx ry rz]. now rewrite ex_dim_exact. Qed.

Lemma ex_grid : validGrid 1 1 (mkR3 0 0 0) (mkR3 3 3 3).
Proof. exact (proj1 ex_region). Qed.

Lemma ex_collect :
  let b := rebuild rndExact 1 1 (mkR3 0 0 0) (mkR3 3 3 3) in
  validGrid 1 1 (mkR3 0 0 0) (mkR3 3 3 3) /\ atLeast (2 / 5) (mkR3 0 0 0) (mkR3 3 3 3) /\
  (forall p, In p (concat exDS) -> validState (pown p)) /\
  (forall c p, In p (nth c exLC []) -> validState (pown p) /\
     (pown p <> 0 -> inBox (getHaloBoxMin b) (getHaloBoxMax b) (exWas p) /\
        get1DIndexOfPosition rndExact b (exWas p) = Some (Z.of_nat c) /\ movedWithin exWas ppos (1 / 5)%R p /\
        (pown p = 1 -> cellCanContainOwnedParticles b (Z.of_nat c) = true) /\
        (pown p = 2 -> cellCanContainHaloParticles b (Z.of_nat c) = true))) /\
  (pown exLeft = 1 /\ ~ inBox (mkR3 0 0 0) (mkR3 3 3 3) (ppos exLeft) /\ inGrownBox 1 (mkR3 0 0 0) (mkR3 3 3 3) (ppos exLeft)) /\
  (pown exEntered = 2 /\ inGrownBox 1 (mkR3 0 0 0) (mkR3 3 3 3) (ppos exEntered) /\
     ~ inGrownBox (- (2 / 5 / 2)) (mkR3 0 0 0) (mkR3 3 3 3) (ppos exEntered)).
Proof.
  intros b. split; [exact ex_grid|]. split; [unfold atLeast; cbn [rx ry rz]; lra|]. split; [|split; [|split]].
  - intros p H. cbn in H. destruct H as [<-|[<-|[<-|[]]]]; unfold validState; cbn; auto.
  - intros c p H. unfold b. rewrite ex_block. apply exLC_cases in H as [(-> & [->| ->])|(-> & ->)].
    + split; [right; left; reflexivity|]. intros _. split; [unfold inBox, getHaloBoxMin, getHaloBoxMax; cbn -[IZR Rdiv]; lra|]. split; [|split; [|split; [reflexivity|discriminate]]].
      * unfold get1DIndexOfPosition, get3DIndexOfPosition, cellIndexOf, rndExact. cbn [bX bY bZ rx ry rz dMin dMax dCells dHalo dRecip exWas exLeft pid Z.eqb Pos.eqb].
        replace (Zfloor ((1 / 10 - 0) * 1)) with 0 by (symmetry; apply Zfloor_imp; change (0 + 1) with 1; lra).
        replace (Zfloor ((1 / 2 - 0) * 1)) with 0 by (symmetry; apply Zfloor_imp; change (0 + 1) with 1; lra).
        cbn -[Rle_dec Rlt_dec]. repeat (destruct (Rle_dec _ _); [lra|]). repeat (destruct (Rlt_dec _ _); [lra|]). reflexivity.
      * unfold movedWithin, exWas, exLeft. cbn [pid Z.eqb Pos.eqb ppos rx ry rz]. repeat split; unfold Rabs; destruct (Rcase_abs _); lra.
    + split; [left; reflexivity|]. intros N. destruct (N eq_refl).
    + split; [right; right; reflexivity|]. intros _. split; [unfold inBox, getHaloBoxMin, getHaloBoxMax; cbn -[IZR Rdiv]; lra|]. split; [|split; [|split; [discriminate|reflexivity]]].
      * unfold get1DIndexOfPosition, get3DIndexOfPosition, cellIndexOf, rndExact. cbn [bX bY bZ rx ry rz dMin dMax dCells dHalo dRecip exWas exEntered pid Z.eqb Pos.eqb].
        replace (Zfloor ((-1 / 10 - 0) * 1)) with (-1) by (symmetry; apply Zfloor_imp; change (-1 + 1) with 0; lra).
        replace (Zfloor ((1 / 2 - 0) * 1)) with 0 by (symmetry; apply Zfloor_imp; change (0 + 1) with 1; lra).
        cbn -[Rle_dec Rlt_dec]. repeat (destruct (Rle_dec _ _); try lra); repeat (destruct (Rlt_dec _ _); try lra). reflexivity.
      * unfold movedWithin, exWas, exEntered. cbn [pid Z.eqb Pos.eqb ppos rx ry rz]. repeat split; unfold Rabs; destruct (Rcase_abs _); lra.
  - unfold exLeft, inBox, inGrownBox, growLow, growHigh. cbn [pown ppos rx ry rz]. repeat split; try lra. unfold inBox; cbn [rx ry rz]. lra. all: cbn [rx ry rz]; lra.
  - unfold exEntered, inGrownBox, growLow, growHigh, inBox. cbn [pown ppos rx ry rz]. repeat split; lra.
Qed.

(** A halo particle that is exactly one interaction length away from the box is never
    discarded. *)
Definition exFarHalo : Particle := mkParticle 1 (mkR3 4 (1 / 2) (1 / 2)) 2 0.
Definition exFar : list (list Particle) := [[]; []; [exFarHalo]; []; []; []; []].
Lemma far_halo : exists il skin bMin bMax cells p,
  (0 < il)%R /\ (0 < skin)%R /\ atLeast il bMin bMax /\ In p (concat cells) /\ pown p = 2 /\
  ~ inBox bMin bMax (ppos p) /\ inGrownBox (il + skin / 2) bMin bMax (ppos p) /\
  forall visits, Permutation visits (regionVisits (map (clampVolume il bMin bMax) (haloVolumes rndExact il skin bMin bMax)) dsRegionCells cells) ->
    collectRun bMin bMax visits cells = (cells, []).
Proof.
  exists 1%R, (2 / 5)%R, (mkR3 0 0 0), (mkR3 3 3 3), exFar, exFarHalo.
  split; [lra|]. split; [lra|]. split; [unfold atLeast; cbn [rx ry rz]; lra|]. split; [cbn; auto|]. split; [reflexivity|].
  split; [unfold inBox, exFarHalo; cbn [ppos rx ry rz]; lra|]. split; [unfold inGrownBox, growLow, growHigh, inBox, exFarHalo; cbn [ppos rx ry rz]; lra|].
  intros visits HP. destruct (ds_collect 1 (2 / 5) (mkR3 0 0 0) (mkR3 3 3 3) ltac:(lra) ltac:(lra)) with (cells := exFar) (visits := visits) as (out & E & P); auto.
  - unfold atLeast; cbn [rx ry rz]; lra.
  - intros p H. cbn in H. destruct H as [<-|[]]. right. right. reflexivity.
  - assert (D : inBoxb (growLow 1 (mkR3 0 0 0)) (growHigh 1 (mkR3 3 3 3)) (ppos exFarHalo) = false).
    { destruct (inBoxb _ _ _) eqn:I; [|reflexivity]. apply inBoxb_iff in I. unfold inBox, growLow, growHigh, exFarHalo in I. cbn [ppos rx ry rz] in I. lra. }
    rewrite E. f_equal.
    + unfold exFar. cbn [map]. unfold markDropped, droppedb, leavingb, outsideShell. rewrite D, andb_false_r. cbn [andb orb]. rewrite andb_false_r. reflexivity.
    + unfold exFar in P. cbn [concat app filter] in P. unfold leavingb in P. rewrite D, andb_false_r in P. apply Permutation_nil. symmetry. exact P.
Qed.

Lemma ex_update :
  validGrid 1 1 (mkR3 0 0 0) (mkR3 3 3 3) /\ placedCells (rebuild rndExact 1 1 (mkR3 0 0 0) (mkR3 3 3 3)) exLC /\
  In exLeft (concat exLC) /\ In exEntered (concat exLC).
Proof.
  split; [exact ex_grid|]. split; [split|split].
  - rewrite ex_block. unfold exLC, size. rewrite !setAt_length, repeat_length. reflexivity.
  - intros k p H. rewrite ex_block. apply exLC_cases in H as [(-> & [->| ->])|(-> & ->)].
    + split; [right; left; reflexivity|]. split; [reflexivity|discriminate].
    + split; [left; reflexivity|]. split; discriminate.
    + split; [right; right; reflexivity|]. split; [discriminate|reflexivity].
  - apply in_concat. exists [exLeft; exDeleted]. split; [apply nth_error_In with 31%nat; reflexivity|left; reflexivity].
  - apply in_concat. exists [exEntered]. split; [apply nth_error_In with 30%nat; reflexivity|left; reflexivity].
Qed.
