(** Cases that meet the hypotheses of C30, and lambda iterations that go wrong. *)
From Coq Require Import Reals Lra.
From Flocq Require Import Core.
From Verif.Base Require Import ZRange Lists Occ OptionM.
From Verif.Grid Require Import IndexModel IndexSpec CellBlockModel CellBlockSpec CellBlockFloat CellBlockExact.
From Verif.Functor Require Import SortModel.
From Verif.Container Require Import LinkedCellsModel LinkedCellsSpec IteratorModel IteratorContainers IteratorSpec IteratorRegion IteratorExample
  ParticleModel CollectSpec UpdateProofs UpdateExample ForEachModel ForEachProofs.
From Verif.Logic Require Import RemainderModel RemainderSpec RemainderProofs RemainderContainers.
Import ListNotations.
Local Open Scope Z_scope.

(** A buffered owned particle near exLeft, and a buffered halo particle near exLeft. *)
Definition exB : Particle := mkParticle 21 (mkR3 (1 / 5) (1 / 2) (1 / 2)) 1 0.
Definition exH : Particle := mkParticle 22 (mkR3 (-2 / 5) (1 / 2) (1 / 2)) 2 0.

Lemma ex_remainder :
  let il := (4 / 5 + 1 / 5)%R in let b := rebuild rndExact il 1 (mkR3 0 0 0) (mkR3 3 3 3) in
  validGrid il 1 (mkR3 0 0 0) (mkR3 3 3 3) /\ size exLC = numCells (blockDims b) /\
  (forall k p, In p (nth k exLC []) -> validState (pown p) /\
     (pown p = 1 -> cellCanContainOwnedParticles b (Z.of_nat k) = true) /\
     (pown p = 2 -> cellCanContainHaloParticles b (Z.of_nat k) = true) /\
     (pown p <> 0 -> inBox (getHaloBoxMin b) (getHaloBoxMax b) (exWas p) /\
        get1DIndexOfPosition rndExact b (exWas p) = Some (Z.of_nat k) /\ movedWithin exWas ppos (1 / 5) p)) /\
  NoDup (concat [[exB]; []] ++ concat [[]; [exH]] ++ concat exLC) /\
  (forall p, In p (concat [[exB]; []]) -> pown p = 1 /\ inGrownBox il (mkR3 0 0 0) (mkR3 3 3 3) (ppos p)) /\
  (forall p, In p (concat [[]; [exH]]) -> pown p = 2 /\ inGrownBox il (mkR3 0 0 0) (mkR3 3 3 3) (ppos p)) /\
  In exLeft (concat exLC) /\ closer (4 / 5) (ppos exLeft) (ppos exB) /\ closer (4 / 5) (ppos exLeft) (ppos exH).
Proof.
  intros il b. assert (E : il = 1%R) by (unfold il; lra). unfold b. rewrite E. clear E il b.
  destruct ex_collect as (G & _ & _ & Pl & _). destruct ex_update as (_ & (Sz & _) & IL & _).
  split; [exact G|]. split; [exact Sz|]. split; [|split; [|split; [|split; [|split; [exact IL|split]]]]].
  - intros k p Hp. destruct (Pl k p Hp) as (V & A). destruct (Z.eq_dec (pown p) 0) as [Z0|Z0].
    + split; [exact V|]. rewrite Z0. split; [discriminate|]. split; [discriminate|]. intros N. destruct (N eq_refl).
    + destruct (A Z0) as (A1 & A2 & A3 & A4 & A5). exact (conj V (conj A4 (conj A5 (fun _ => conj A1 (conj A2 A3))))).
  - assert (Ec : concat exLC = [exEntered; exLeft; exDeleted]) by reflexivity. rewrite Ec.
    apply (NoDup_map_inv pid). cbn. repeat constructor; cbn; intuition discriminate.
  - intros p [<-|[]]. split; [reflexivity|]. unfold inGrownBox, inBox, growLow, growHigh, exB. cbn [ppos rx ry rz]. lra.
  - intros p [<-|[]]. split; [reflexivity|]. unfold inGrownBox, inBox, growLow, growHigh, exH. cbn [ppos rx ry rz]. lra.
  - unfold closer, exLeft, exB. cbn [ppos rx ry rz]. lra.
  - unfold closer, exLeft, exH. cbn [ppos rx ry rz]. lra.
Qed.

Lemma ex_remainder_ds :
  (forall k p, In p (nth k exDS []) -> validState (pown p) /\ (k = 0%nat -> pown p <> 2) /\ (k <> 0%nat -> pown p <> 1)) /\
  NoDup (concat [[exB]; []] ++ concat [[]; [exH]] ++ concat exDS) /\ In exLeft (concat exDS).
Proof.
  split; [|split].
  - intros k p H. do 7 (destruct k as [|k]; [cbn in H; intuition (subst; unfold validState; cbn in *; auto; try discriminate)|]).
    destruct k; destruct H.
  - apply (NoDup_map_inv pid). cbn. repeat constructor; cbn; intuition discriminate.
  - left. reflexivity.
Qed.

(** DirectSum::forEach calls the lambda with deleted particles, too. *)
Lemma ds_for_each_dummies : dsForEach 1 [[exLeft; exDeleted]; []; []; []; []; []; []] = Some [exLeft; exDeleted] /\ wantedb 1 (pown exDeleted) = false.
Proof. split; reflexivity. Qed.

(** A region that contains the whole box but has far away corners. *)
Lemma far_region : exists il csf bMin bMax lo hi,
  validGrid il csf bMin bMax /\ (rx lo <= rx bMin /\ ry lo <= ry bMin /\ rz lo <= rz bMin)%R /\ hi = bMax /\
  forall skin behavior cells, (0 <= skin <= 1)%R -> lcForEachInRegion rndExact (rebuild rndExact il csf bMin bMax) skin behavior lo hi cells = None.
Proof.
  exists 1%R, 1%R, (mkR3 0 0 0), (mkR3 3 3 3), (mkR3 (IZR (- 2 ^ 70)) 0 0), (mkR3 3 3 3).
  split; [exact ex_grid|]. split; [cbn [rx ry rz]; split; [apply IZR_le; lia|lra]|]. split; [reflexivity|].
  intros skin behavior cells Hs. unfold lcForEachInRegion. rewrite ex_block. unfold get3DIndexOfPosition at 1. cbn [bX bY bZ rx ry rz].
  assert (E : cellIndexOf rndExact (mkDim 0 3 3 1 1 1 (-1) 4) (rndExact (IZR (- 2 ^ 70) - skin)) = None).
  { unfold cellIndexOf, rndExact. cbn [dMin dRecip].
    assert (H : Zfloor ((IZR (- 2 ^ 70) - skin - 0) * 1) < - 2 ^ 63).
    { apply Z.le_lt_trans with (Zfloor (IZR (- 2 ^ 70))); [apply Zfloor_le; lra|]. rewrite Zfloor_IZR. lia. }
    unfold toLong. destruct (Z.leb_spec (- 2 ^ 63) (Zfloor ((IZR (- 2 ^ 70) - skin - 0) * 1))) as [L|L]; [lia|reflexivity]. }
  rewrite E. reflexivity.
Qed.

(** The same for the region iterator, which only clamps the far sides. *)
Lemma far_region_iterator {P} (ownership : P -> Z) (pos : P -> R3) : exists il csf bMin bMax lo hi,
  validGrid il csf bMin bMax /\ below lo hi /\
  forall behavior numThreads margin marks t, (0 <= margin <= 1)%R ->
    lcRegionConf ownership behavior numThreads pos rndExact (rebuild rndExact il csf bMin bMax) margin (clampLow il bMin lo) (clampHigh il bMax hi) marks t = None.
Proof.
  exists 1%R, 1%R, (mkR3 0 0 0), (mkR3 3 3 3), (mkR3 (IZR (2 ^ 70)) 0 0), (mkR3 (IZR (2 ^ 71)) 1 1).
  split; [exact ex_grid|]. split; [unfold below; cbn [rx ry rz]; split; [apply IZR_lt; lia|lra]|].
  intros behavior numThreads margin marks t Hm. unfold lcRegionConf. rewrite ex_block. unfold get1DIndexOfPosition at 1, get3DIndexOfPosition at 1.
  unfold shift at 1, clampLow at 1. cbn [bX bY bZ rx ry rz].
  assert (Eb : (1 < IZR (2 ^ 70))%R) by (apply IZR_lt; lia).
  rewrite (Rmax_left (IZR (2 ^ 70))) by lra.
  assert (E : cellIndexOf rndExact (mkDim 0 3 3 1 1 1 (-1) 4) (IZR (2 ^ 70) + - margin) = None).
  { unfold cellIndexOf, rndExact. cbn [dMin dRecip].
    assert (H : 2 ^ 63 <= Zfloor ((IZR (2 ^ 70) + - margin - 0) * 1)).
    { apply Zfloor_lub. assert ((IZR (2 ^ 63) <= IZR (2 ^ 70 - 1))%R) by (apply IZR_le; lia). rewrite minus_IZR in H. lra. }
    unfold toLong. destruct (Z.ltb_spec (Zfloor ((IZR (2 ^ 70) + - margin - 0) * 1)) (2 ^ 63)) as [L|L]; [lia|]. now rewrite andb_false_r. }
  rewrite E. reflexivity.
Qed.
