(** The intervals lc_c04_combined_SoA works with for one cell per interaction
    length. *)
From Verif.Base Require Import ZRange Occ.
From Verif.Grid Require Import IndexModel IndexSpec IndexProofs.
From Verif.Traversal Require Import CellSpec C08Model.
From Verif.Container Require Import CombinedC04Model.

Section Offsets.
  Variable near : Z -> Z -> Z -> bool.
  Variable dims : I3.
  Notation one := (mkI3 1 1 1).
  Hypothesis Hdx : 2 <= ix dims.
  Hypothesis Hdy : 2 <= iy dims.
  Hypothesis Hnear : forall x y z, 0 <= x <= 1 -> 0 <= y <= 1 -> 0 <= z <= 1 -> near x y z = true.
  Notation dx := (ix dims).
  Notation dxy := (iy dims * ix dims).

  Lemma flat_at x y z : threeToOneD (mkI3 x y z) dims = x + y * dx + z * dxy.
  Proof. unfold threeToOneD. cbn [ix iy iz]. ring. Qed.

  Lemma baseOffsets_eq x : baseOffsets one dims x = [x; x + dx].
  Proof.
    unfold baseOffsets. change (zrange 0 (iy one + 1)) with [0; 1]. cbn [map]. rewrite !flat_at. f_equal; [ring|f_equal; ring].
  Qed.

  Lemma filter_near x : filter (fun t => let '(x', _, _, _) := t in (x' =? x) && c08Include near one t) (c08Loop one) =
    filter (fun t => let '(x', _, _, _) := t in (x' =? x) && c08Include (fun _ _ _ => true) one t) (c08Loop one).
  Proof.
    apply filter_ext_in. intros [[[x' y] z] d] Hin. f_equal. unfold c08Include.
    unfold c08Loop in Hin. apply in_flat_map in Hin as (? & Hx & Hin). apply in_flat_map in Hin as (? & Hy & Hin).
    apply in_flat_map in Hin as (? & Hz & Hin). apply in_map_iff in Hin as (? & E & _). injection E as -> -> -> ->.
    cbn [ix iy iz] in *. apply in_zrange in Hx, Hy, Hz.
    destruct d; cbn [toMaskXY]; rewrite Hnear by lia; reflexivity.
  Qed.

  Lemma stripe0 : c04CellPairs near one dims 0 =
    [(0, 0); (dxy, 0); (dxy + dx, 0); (dxy + 1, 0); (dxy + dx + 1, 0); (0, dx); (1, dx); (dxy, dx); (dxy + 1, dx)].
  Proof.
    unfold c04CellPairs. rewrite filter_near.
    match goal with |- map _ ?l = _ => let v := eval vm_compute in l in change l with v end.
    cbn [map c08Offset1 c08Offset2 toMaskXY ix iy iz]. rewrite !flat_at. repeat match goal with |- (_ :: _) = (_ :: _) => apply f_equal2 | |- (_, _) = (_, _) => apply f_equal2 end; try reflexivity; ring.
  Qed.

  Lemma stripe1 : c04CellPairs near one dims 1 =
    [(0, 1); (dxy, 1); (dxy + dx, 1); (0, 1 + dx); (dxy, 1 + dx)].
  Proof.
    unfold c04CellPairs. rewrite filter_near.
    match goal with |- map _ ?l = _ => let v := eval vm_compute in l in change l with v end.
    cbn [map c08Offset1 c08Offset2 toMaskXY ix iy iz]. rewrite !flat_at. repeat match goal with |- (_ :: _) = (_ :: _) => apply f_equal2 | |- (_, _) = (_, _) => apply f_equal2 end; try reflexivity; ring.
  Qed.

  Lemma dxy_bound : 2 * dx <= dxy.
  Proof. nia. Qed.

  Lemma sort0 : stableSort (c04CellPairs near one dims 0) =
    [(0, 0); (0, dx); (1, dx); (dxy, 0); (dxy, dx); (dxy + 1, 0); (dxy + 1, dx); (dxy + dx, 0); (dxy + dx + 1, 0)].
  Proof.
    rewrite stripe0. pose proof dxy_bound as B. unfold stableSort. generalize dxy B. intros e Be.
    cbn [fold_right sortInsert fst].
    repeat (match goal with |- context [Z.leb ?a ?b] =>
      let H := fresh in first
        [ assert (H : Z.leb a b = true) by (apply Z.leb_le; lia)
        | assert (H : Z.leb a b = false) by (apply Z.leb_gt; lia) ]; rewrite H; clear H end; cbn [fold_right sortInsert fst]).
    reflexivity.
  Qed.

  Lemma sort1 : stableSort (c04CellPairs near one dims 1) =
    [(0, 1); (0, 1 + dx); (dxy, 1); (dxy, 1 + dx); (dxy + dx, 1)].
  Proof.
    rewrite stripe1. pose proof dxy_bound as B. unfold stableSort. generalize dxy B. intros e Be.
    cbn [fold_right sortInsert fst].
    repeat (match goal with |- context [Z.leb ?a ?b] =>
      let H := fresh in first
        [ assert (H : Z.leb a b = true) by (apply Z.leb_le; lia)
        | assert (H : Z.leb a b = false) by (apply Z.leb_gt; lia) ]; rewrite H; clear H end; cbn [fold_right sortInsert fst]).
    reflexivity.
  Qed.

  Ltac decide_eqs :=
    repeat (match goal with |- context [Z.eqb ?a ?b] =>
      let H := fresh in first
        [ assert (H : Z.eqb a b = true) by (apply Z.eqb_eq; lia)
        | assert (H : Z.eqb a b = false) by (apply Z.eqb_neq; lia) ]; rewrite H; clear H end; cbn [intervals indexOf]).

  Lemma offsets0 : offsets near one dims 0 =
    [(0, (0, 2)%nat); (1, (1, 2)%nat); (dxy, (0, 2)%nat); (dxy + 1, (0, 2)%nat); (dxy + dx, (0, 1)%nat); (dxy + dx + 1, (0, 1)%nat)].
  Proof.
    unfold offsets. rewrite sort0, baseOffsets_eq. pose proof dxy_bound as B. revert B. generalize dxy. intros e Be.
    cbn [intervals indexOf]. decide_eqs. reflexivity.
  Qed.

  Lemma offsets1 : offsets near one dims 1 =
    [(0, (0, 2)%nat); (dxy, (0, 2)%nat); (dxy + dx, (0, 1)%nat)].
  Proof.
    unfold offsets. rewrite sort1, baseOffsets_eq. pose proof dxy_bound as B. revert B. generalize dxy. intros e Be.
    cbn [intervals indexOf]. decide_eqs. reflexivity.
  Qed.
End Offsets.
