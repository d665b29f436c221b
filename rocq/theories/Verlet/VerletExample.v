(** A concrete case of the Verlet list theorems, and the effect of rounding. *)
From Coq Require Import Reals Lra.
From Flocq Require Import Core.
From Verif.Base Require Import ZRange.
From Verif.Grid Require Import IndexModel IndexSpec CellBlockModel CellBlockSpec CellBlockExact CellBlockRounding.
From Verif.Functor Require Import CellFunctorModel FunctorSpec SortModel SortSpec.
From Verif.Traversal Require Import C08Model.
From Verif.Container Require Import LinkedCellsModel LinkedCellsSpec LinkedCellsExample.
From Verif.Verlet Require Import VerletModel VerletSpec VerletStore.
Open Scope R_scope.

Lemma ex_movedLess : movedLess exOld exPos (1 / 4) exPs.
Proof.
  unfold movedLess, exPs, exPos, exOld. repeat (apply Forall_cons || apply Forall_nil);
    (apply Rle_lt_trans with (1 / 10); [|lra]); unfold dist3, dot, rsub; cbn [rx ry rz];
    rewrite <- (sqrt_Rsqr (1 / 10)) by lra; apply sqrt_le_1_alt; unfold Rsqr; lra.
Qed.

Lemma ex_setup cf : useNewton3 cf || bidirectional cf = true ->
  verletSetup (fun p => p) exHalo exOld exPos (sortBy exOld) cf (3 / 4) (1 / 4) (1 / 2) (mkR3 0 0 0) (mkR3 3 3 3) exPs /\
  dist3 (exPos 0) (exPos 1) <= 3 / 4 /\ dist3 (exPos 0) (exPos 2) <= 3 / 4 /\ exHalo 0 = false.
Proof.
  intros Hn. destruct lc_example as (G & V & D & Vp & M & D1 & D2 & H0 & _).
  assert (E : (3 / 4 + 1 / 4) = 1) by lra. assert (Em : Rmax 1 (1 / 2) = 1) by (apply Rmax_left; lra).
  split; [|split; [|split; [|exact H0]]].
  - unfold verletSetup, verletBlock. rewrite E, Em. split; [lra|]. split; [lra|]. split; [exact G|]. split; [exact D|]. split; [exact Vp|].
    split; [exact ex_movedLess|]. split; [intros; apply sortBy_sorted|exact Hn].
  - unfold exPos, exOld, dist3, dot, rsub. cbn [rx ry rz]. rewrite <- (sqrt_Rsqr (3 / 4)) by lra. apply sqrt_le_1_alt. unfold Rsqr. lra.
  - unfold exPos, exOld, dist3, dot, rsub. cbn [rx ry rz]. rewrite <- (sqrt_Rsqr (3 / 4)) by lra. apply sqrt_le_1_alt. unfold Rsqr. lra.
Qed.

(** A schedule with two threads exists for every grid. *)
Definition exSchedule (colors : list (list I3)) : list (list (I3 * nat)) :=
  map (map (fun b => (b, if Z.even (ix b + iy b + iz b) then 1%nat else 0%nat))) colors.
Lemma ex_schedule colors : Forall2 (fun sch color => Permutation (map fst sch) color) (exSchedule colors) colors /\
  (forall sch base t, In sch (exSchedule colors) -> In (base, t) sch -> (t < 2)%nat).
Proof.
  split.
  - induction colors as [|c l IH]; [constructor|]. constructor; [|exact IH]. cbn beta. rewrite map_map, map_id. reflexivity.
  - intros sch base t Hs H. apply in_map_iff in Hs as (c & <- & _). apply in_map_iff in H as (b & E & _). injection E as <- <-.
    destruct (Z.even _); lia.
Qed.

Lemma modifyAt_out {A} (f : A -> option A) l i : (length l <= i)%nat -> modifyAt f l i = None.
Proof.
  revert i. induction l as [|x l IH]; intros i H; [reflexivity|]. destruct i as [|i]; cbn [length] in H; [lia|].
  cbn [modifyAt]. now rewrite IH by lia.
Qed.

Lemma vvl_out {P} (pid : P -> Z) pos il nn st color thread calls : (length st <= color)%nat -> flat_map (genPushes pos il nn) calls <> [] ->
  vvlStep pid pos il nn st (color, thread, calls) = None.
Proof.
  intros Hl Hne. unfold vvlStep. destruct (flat_map (genPushes pos il nn) calls) as [|[i j] r]; [now elim Hne|].
  cbn [pushAll]. now rewrite modifyAt_out by exact Hl.
Qed.

Lemma vvl_rounding : exists cut box, isDouble cut /\ isDouble box /\
  let b := verletBlock rndDouble cut 0 1 (mkR3 0 0 0) (mkR3 box box box) in
  let il := cut + 0 in
  let dims := blockDims b in let ov := blockOverlap rndDouble il b in
  longEnough rndDouble il 0 box /\
  exists color bases base, (vvlNumColors <= color)%nat /\ nth_error (c08Colors dims ov) color = Some bases /\ In base bases /\
    cellCanContainOwnedParticles b (threeToOneD base dims) = true /\
    (forall near, near 0%Z 0%Z 0%Z = true ->
       In (threeToOneD base dims, threeToOneD base dims)
          (c08ProcessBaseCell (computePairwiseCellOffsetsC08 near ov dims) (threeToOneD base dims))) /\
    (forall P (pid : P -> Z) pos nn threads st thread calls, length st = length (@vvlInit P threads) ->
       flat_map (genPushes pos il nn) calls <> [] -> vvlStep pid pos il nn st (color, thread, calls) = None).
Proof.
  exists il13, box117. split; [apply il13_double|]. split; [apply box117_double|]. cbv zeta.
  unfold verletBlock. rewrite Rplus_0_r, Rmax_left by lra. split; [apply longEnough13|].
  unfold rebuild. cbn [rx ry rz]. destruct dim13 as (lo & hi & rc & ->). unfold blockOverlap. cbn [bX bY bZ dLen]. rewrite overlap13.
  unfold blockDims, dWithHalo. cbn [bX bY bZ dCells dHalo]. change (9 + 2 * 1)%Z with 11%Z.
  exists 13%nat. eexists. exists (mkI3 4 4 4). split; [vm_compute; lia|]. split; [vm_compute; reflexivity|].
  split; [cbn [In]; tauto|]. split; [reflexivity|]. split.
  - intros near Hn. unfold c08ProcessBaseCell, computePairwiseCellOffsetsC08. rewrite map_map. apply in_map_iff.
    exists (0, 0, 0, frontLeft)%Z. split; [reflexivity|]. apply filter_In. split; [vm_compute; tauto|].
    unfold c08Include. cbn [toMaskXY includeCellPair]. cbn [andb ix iy iz]. exact Hn.
  - intros P pid pos nn threads st thread calls Hl Hne. apply vvl_out; [|exact Hne]. rewrite Hl. unfold vvlInit. rewrite repeat_length. vm_compute. lia.
Qed.
