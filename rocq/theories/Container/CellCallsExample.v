(** A concrete case of the direct sum and triplet theorems. *)
From Coq Require Import Reals Lra.
From Verif.Base Require Import ZRange.
From Verif.Grid Require Import CellBlockModel CellBlockSpec.
From Verif.Functor Require Import SortModel SortSpec.
From Verif.Container Require Import LinkedCellsExample CellCallsSpec.
Local Open Scope R_scope.

Lemma triplet_example :
  validInBox exHalo exOld (mkR3 0 0 0) (mkR3 3 3 3) exPs /\ pairwiseWithin exPos (4 / 5) 0%Z 1%Z 2%Z /\
  exHalo 0 = false /\ exHalo 2 = true.
Proof.
  assert (Hd : forall x y z u v w r, 0 <= r -> (x - u) * (x - u) + (y - v) * (y - v) + (z - w) * (z - w) <= r * r ->
             dist3 (mkR3 x y z) (mkR3 u v w) <= r).
  { intros x y z u v w r Hr H. unfold dist3, dot, rsub. cbn [rx ry rz]. rewrite <- (sqrt_Rsqr r Hr). apply sqrt_le_1_alt. exact H. }
  split; [|split; [|split; reflexivity]].
  - unfold validInBox, exPs, exHalo, inBox, exOld.
    repeat (apply Forall_cons || apply Forall_nil); cbn [Z.eqb Pos.eqb rx ry rz]; split; intros; first [reflexivity | discriminate | lra | exfalso; lra].
  - unfold pairwiseWithin, exPos, exOld. split; [|split]; apply Hd; lra.
Qed.
