(** A history of a container of references, and two calls after which it shows something
    wrong. *)
From Coq Require Import Reals Lra Permutation Bool.
From Flocq Require Import Core.
From Verif.Base Require Import ZRange Lists OptionM.
From Verif.Grid Require Import IndexModel IndexSpec CellBlockModel CellBlockSpec CellBlockExact.
From Verif.Functor Require Import SortModel.
From Verif.Container Require Import LinkedCellsGeo IteratorModel IteratorContainers ParticleModel CollectSpec UpdateExample.
From Verif.Logic Require Import HandlerModel.
From Verif.Refs Require Import RefModel RefSpec.
Import ListNotations.
Local Open Scope Z_scope.

Definition exLo : R3 := mkR3 0 0 0.
Definition exHi : R3 := mkR3 3 3 3.
Definition exB : Block := rebuild rndExact 1 1 exLo exHi.
Definition exGrow (n : nat) : nat := (2 * n + 1)%nat.
(** A halo particle, an owned particle, and the same particle in a neighbour cell. *)
Definition exH : Particle := mkParticle 1 (mkR3 (-1 / 2) (1 / 2) (1 / 2)) 2 0.
Definition exP : Particle := mkParticle 2 (mkR3 (1 / 2) (1 / 2) (1 / 2)) 1 0.
Definition exQ : Particle := mkParticle 2 (mkR3 (3 / 2) (1 / 2) (1 / 2)) 1 0.

Lemma fl0 : Zfloor ((1 / 2 - 0) * 1) = 0.
Proof. apply Zfloor_imp. change (0 + 1) with 1. lra. Qed.
Lemma fl1 : Zfloor ((3 / 2 - 0) * 1) = 1.
Proof. apply Zfloor_imp. change (1 + 1) with 2. lra. Qed.
Lemma flm : Zfloor ((-1 / 2 - 0) * 1) = -1.
Proof. apply Zfloor_imp. change (-1 + 1) with 0. lra. Qed.

Ltac look := unfold exB, exLo, exHi; rewrite ex_block; unfold get1DIndexOfPosition, get3DIndexOfPosition, cellIndexOf, rndExact;
  cbn [bX bY bZ rx ry rz dMin dMax dCells dHalo dRecip ppos exH exP exQ]; rewrite ?fl0, ?fl1, ?flm;
  cbn -[Rle_dec Rlt_dec]; repeat (destruct (Rle_dec _ _); try lra); repeat (destruct (Rlt_dec _ _); try lra); reflexivity.
Lemma lookH : get1DIndexOfPosition rndExact exB (ppos exH) = Some 30.
Proof. look. Qed.
Lemma lookP : get1DIndexOfPosition rndExact exB (ppos exP) = Some 31.
Proof. look. Qed.
Lemma lookQ : get1DIndexOfPosition rndExact exB (ppos exQ) = Some 32.
Proof. look. Qed.

Notation reached := (Reached rndExact exGrow exB 1 exLo exHi (1 / 5)).
Notation stepE := (step rndExact exGrow exB exLo exHi (1 / 5)).

(** The states: the halo particle is added, then the owned one. *)
Definition exCells (f : nat -> list Ref) : list (list Ref) := map f (seq 0 125).
Definition exSt1 : Refs := mkRefs (mkVec 1 1 [exH] false 1) (exCells (fun k => if (k =? 30)%nat then [(1, 0)]%nat else [])).
Definition exSt2 : Refs := mkRefs (mkVec 2 3 [exH; exP] false 2)
  (exCells (fun k => if (k =? 30)%nat then [(2, 0)]%nat else if (k =? 31)%nat then [(2, 1)]%nat else [])).
Definition exSt3 : Refs := mkRefs (mkVec 2 3 [exH; exQ] false 2) (rCells exSt2).
Definition exSt4 : Refs := mkRefs (mkVec 2 3 [exQ] false 1) (exCells (fun k => if (k =? 32)%nat then [(2, 0)]%nat else [])).

Lemma can30 : cellCanContainHaloParticles exB 30 = true.
Proof. unfold exB, exLo, exHi. rewrite ex_block. reflexivity. Qed.
Lemma can31 : cellCanContainOwnedParticles exB 31 = true.
Proof. unfold exB, exLo, exHi. rewrite ex_block. reflexivity. Qed.
Lemma can32 : cellCanContainOwnedParticles exB 32 = true.
Proof. unfold exB, exLo, exHi. rewrite ex_block. reflexivity. Qed.
Lemma exEmpty : emptyRefs exB = mkRefs (mkVec 0 0 [] false 0) (exCells (fun _ => [])).
Proof. unfold exB, exLo, exHi. rewrite ex_block. reflexivity. Qed.

Lemma exAdd1 : addParticle rndExact exGrow exB (emptyRefs exB) exH = Some exSt1.
Proof.
  rewrite exEmpty. unfold addParticle, updateDirtyParticleReferences, push_back.
  cbn [rVec rCells vCap vParts length Nat.eqb vDirty vIndex vBuf app skipn addDirty]. cbn [isDummy exH pown stDummy Z.eqb].
  rewrite lookH. unfold addParticleReference. change (isHaloP exH) with true. cbv iota. rewrite can30. reflexivity.
Qed.
Lemma exAdd2 : addParticle rndExact exGrow exB exSt1 exP = Some exSt2.
Proof.
  unfold addParticle, updateDirtyParticleReferences, push_back.
  cbn [exSt1 rVec rCells vCap vParts length Nat.eqb vDirty vIndex vBuf app skipn addDirty]. cbn [isDummy exH exP pown stDummy Z.eqb].
  change (mkParticle 1 (mkR3 (-1 / 2) (1 / 2) (1 / 2)) 2 0) with exH. change (mkParticle 2 (mkR3 (1 / 2) (1 / 2) (1 / 2)) 1 0) with exP.
  rewrite lookH. unfold addParticleReference. change (isHaloP exH) with true. cbv iota. rewrite can30.
  cbn [Z.ltb Z.compare orb negb]. rewrite lookP. change (isHaloP exP) with false. cbv iota. rewrite can31. reflexivity.
Qed.

Lemma exHalo : haloPosition 1 exLo exHi (ppos exH).
Proof. unfold haloPosition, inGrownBox, inBox, growLow, growHigh, exLo, exHi, exH. cbn [ppos rx ry rz]. split; [lra|]. repeat split; lra. Qed.
Lemma exInside : inBox exLo exHi (ppos exP).
Proof. unfold inBox, exLo, exHi, exP. cbn [ppos rx ry rz]. repeat split; lra. Qed.

Lemma exReached1 : reached exSt1 [exH].
Proof.
  apply (ReachedStep _ _ _ _ _ _ _ (emptyRefs exB) [] (EAddHalo exH)); [constructor| |rewrite <- exAdd1; constructor|cbn; reflexivity].
  cbn. split; [reflexivity|]. split; [exact exHalo|]. split; intros p [].
Qed.
Lemma exReached2 : reached exSt2 [exP; exH].
Proof.
  apply (ReachedStep _ _ _ _ _ _ _ exSt1 [exH] (EAdd exP)); [exact exReached1| |rewrite <- exAdd2; constructor|cbn; reflexivity].
  cbn. split; [reflexivity|]. split; [exact exInside|]. split; intros p [<-|[]] O; [discriminate|exact exHalo].
Qed.
(** The owned particle has moved to another cell. *)
Lemma exReached3 : reached exSt3 [exQ; exH].
Proof.
  apply (ReachedStep _ _ _ _ _ _ _ exSt2 [exP; exH] (EModify exP exQ)); [exact exReached2| | |].
  - cbn. split; [left; reflexivity|reflexivity].
  - change (Some exSt3) with (modifyParticle exSt2 31 0 exQ). apply (SModify _ _ _ _ _ _ exSt2 exP exQ 31 0 (2, 1)%nat); reflexivity.
  - cbn. exists [exH]. split; reflexivity.
Qed.

Lemma update_happens rnd grow b bMin bMax skin st : exists out o, step rnd grow b bMin bMax skin st (EUpdate out) o.
Proof.
  destruct (updateSweep rnd b st) as [(st1, moved)|] eqn:E1; [|exists [], None; apply SUpdateFails1, E1].
  destruct (updateReinsert rnd grow b bMin bMax st1 moved) as [(st2, out)|] eqn:E2.
  - exists out, (updateFinish rnd b st2). apply (SUpdate _ _ _ _ _ _ st st1 moved moved st2 out E1); [reflexivity|exact E2].
  - exists [], None. apply (SUpdateFails2 _ _ _ _ _ _ st st1 moved moved [] E1); [reflexivity|exact E2].
Qed.

(** deleteAllParticles of a reached container, and then an update. *)
Definition exDeleted2 : Refs := deleteAllParticles exSt2.
Lemma sweep_empty rnd b v : forall (cs : list (list Ref)) i, sweepCells rnd b v i (map (fun _ => []) cs) = Some (v, map (fun _ => []) cs, []).
Proof.
  induction cs as [|c cs IH]; intros i; [reflexivity|]. cbn [map sweepCells dropDummies length].
  destruct (getCellBoundingBox rnd b (oneToThreeD i (blockDims b))) as (lo, hi). cbn [sweepRefs nth_error]. rewrite IH. reflexivity.
Qed.
Definition exBack : Refs := mkRefs (mkVec 2 3 [exP] false 1) (exCells (fun k => if (k =? 31)%nat then [(2, 0)]%nat else [])).
Lemma exClear (cells : list (list Ref)) : cells = exCells (fun _ => []) -> clearHaloCells exB cells = Some (exCells (fun _ => [])).
Proof. intros ->. unfold exB, exLo, exHi. rewrite ex_block. vm_compute. reflexivity. Qed.
Lemma exUpdated : stepE exDeleted2 (EUpdate []) (Some exBack).
Proof.
  replace (Some exBack) with (updateFinish rndExact exB exDeleted2).
  { apply (SUpdate _ _ _ _ _ _ exDeleted2 exDeleted2 [] [] exDeleted2 []); [|reflexivity|reflexivity].
    unfold updateSweep, exDeleted2, deleteAllParticles. cbn [rVec rCells]. rewrite sweep_empty. reflexivity. }
  unfold updateFinish, deleteHaloParticles. rewrite exClear by reflexivity.
  unfold updateDirtyParticleReferences. cbn [exDeleted2 deleteAllParticles exSt2 rVec rCells clearHaloParticles deleteDummyParticles vParts vBuf vCap vDirty vIndex].
  change (filter (fun p => negb (isDummy p)) (filter (fun q => negb (isHaloP q)) [exH; exP])) with [exP].
  cbn [Nat.eqb skipn addDirty]. change (isDummy exP) with false. cbv iota. rewrite lookP. unfold addParticleReference. change (isHaloP exP) with false. cbv iota. rewrite can31. reflexivity.
Qed.

(** deleteHaloParticles of a reached container. *)
Definition exHaloDeleted : Refs := mkRefs (mkVec 2 3 [exP] true 0) (exCells (fun k => if (k =? 31)%nat then [(2, 1)]%nat else [])).
Lemma exHaloGone : deleteHaloParticles exB exSt2 = Some exHaloDeleted.
Proof.
  unfold deleteHaloParticles. assert (E : clearHaloCells exB (rCells exSt2) = Some (rCells exHaloDeleted)).
  { unfold exB, exLo, exHi. rewrite ex_block. vm_compute. reflexivity. }
  rewrite E. reflexivity.
Qed.
