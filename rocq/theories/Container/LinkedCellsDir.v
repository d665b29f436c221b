(** The calls of the traversals point from the first cell to the second. *)
From Coq Require Import Reals.
From Verif.Base Require Import ZRange Occ.
From Verif.Grid Require Import IndexModel IndexSpec IndexProofs.
From Verif.Traversal Require Import ColorModel ColorProofs CellSpec CellLemmas C08Model C08Proofs C08Bases C04Model C18Model C18Proofs C01Model C01Proofs.
From Verif.Functor Require Import SortModel SortProofs.
From Verif.Container Require Import LinkedCellsModel LinkedCellsCount.
Open Scope Z_scope.

Lemma c08StepsDir_fst near dims ov bases : map fst (c08StepsDir near dims ov bases) = c08BaseSteps near dims ov bases.
Proof.
  unfold c08StepsDir, c08BaseSteps. induction bases as [|b l IH]; [reflexivity|]. cbn [flat_map].
  rewrite map_app, IH. f_equal. unfold c08BaseDir, c08ProcessBaseCell. rewrite <- c08Dir_offsets, !map_map.
  apply map_ext. intros [[o1 o2] d]. reflexivity.
Qed.

Lemma i3sub_add b v w : i3sub (i3add b v) (i3add b w) = i3sub v w.
Proof. unfold i3sub, i3add. cbn. f_equal; lia. Qed.

Lemma c08StepsDir_directed near dims ov bases : gridFits dims ov ->
  (forall b, In b bases -> c08Box dims ov b) -> directed dims (c08StepsDir near dims ov bases).
Proof.
  intros (Hp & _) Hb c1 c2 dir Hin. apply in_flat_map in Hin as (b & Hbb & Hin). specialize (Hb b Hbb).
  apply in_map_iff in Hin as ([[o1 o2] d] & E & Hin). injection E as <- <- <-.
  destruct (c08Dir_points near ov dims o1 o2 d Hin) as (v1 & v2 & -> & -> & Hd & R1 & R2).
  exists (i3add b v1), (i3add b v2). unfold positive, c08Box in *.
  split; [unfold inGrid, i3add; cbn [ix iy iz]; lia|]. split; [unfold inGrid, i3add; cbn [ix iy iz]; lia|].
  split; [now rewrite threeToOneD_add|]. split; [now rewrite threeToOneD_add|].
  intros Hne. rewrite i3sub_add. apply Hd. intros ->. now apply Hne.
Qed.

Lemma c08_bases_box dims ov b : gridFits dims ov -> In b (concat (c08Colors dims ov)) -> c08Box dims ov b.
Proof.
  intros Hv H. pose proof (c08_stride_pos dims ov Hv) as Hs. unfold c08Colors in H.
  rewrite colorTraversal_in in H by assumption. exact H.
Qed.

Lemma c08CallsDir_fst near dims ov : map fst (c08CallsDir near dims ov) = c08Calls near dims ov.
Proof. unfold c08CallsDir. rewrite c08StepsDir_fst. unfold c08BaseSteps, c08Calls, c08Tasks. now rewrite concat_tasks. Qed.

Lemma c18CallsDir_eq near dims ov : gridFits2x dims ov ->
  map fst (c18CallsDir near dims ov) = concat (concat (c18TasksT near dims ov)).
Proof.
  intros Hv. unfold c18TasksT. rewrite concat_tasks. unfold c18CallsDir.
  assert (H : forall b, In b (concat (c18Colors dims ov)) -> inGrid dims b) by (intros b; now apply c18_bases_inGrid).
  revert H. induction (concat (c18Colors dims ov)) as [|b l IH]; intros H; [reflexivity|]. cbn [flat_map].
  rewrite map_app, IH by (intros; apply H; now right). f_equal.
  pose proof (c18ProcessBaseCell_ok near dims ov b Hv (H b (or_introl eq_refl))) as E.
  unfold c18ProcessBaseCell in E. destruct (c18Offsets _ _ _ _ _) as [offs|] eqn:Eo; [|discriminate].
  injection E as E. rewrite <- E. rewrite <- (c18Dir_offsets _ _ _ _ _ _ Eo), !map_map.
  apply map_ext. intros [o d]. reflexivity.
Qed.

Lemma c18CallsDir_directed near dims ov : gridFits2x dims ov -> directed dims (c18CallsDir near dims ov).
Proof.
  intros Hv c1 c2 dir Hin. apply in_flat_map in Hin as (b & Hb & Hin).
  pose proof (c18_bases_inGrid dims ov b Hv Hb) as Hg. pose proof Hb as Hb'. apply c18_bases in Hb'; [|assumption].
  apply in_map_iff in Hin as ([o d] & E & Hin). injection E as <- <- <-.
  unfold c18OffsetsDir in Hin.
  apply in_flat_map in Hin as (z & Hz & H). apply in_flat_map in H as (y & Hy & H).
  apply in_flat_map in H as (x & Hx & H).
  destruct (Z.ltb_spec (threeToOneD (mkI3 x y z) dims) 0) as [_|Hpos]; [destruct H|].
  destruct (_ && _) eqn:E in H; [|destruct H]. destruct H as [Eo|[]]. injection Eo as <- <-.
  apply in_zrange in Hx, Hy, Hz. rewrite !andb_true_iff, !Z.leb_le in E. destruct E as [[Cy Cx] _].
  pose proof Hv as (Hp & Gx & Gy & Gz). unfold positive, inGrid in *.
  apply (c18GetIndex_select (iy b) (iy dims) (iy ov) y) in Cy; [|lia..].
  apply (c18GetIndex_select (ix b) (ix dims) (ix ov) x) in Cx; [|lia..].
  exists b, (i3add b (mkI3 x y z)). split; [assumption|]. split; [unfold i3add; cbn [ix iy iz]; lia|].
  split; [reflexivity|]. split; [now rewrite threeToOneD_add|].
  intros Hne. rewrite dirOrOnes_neq.
  - clear. unfold i3sub, i3add. cbn [ix iy iz]. f_equal; ring.
  - intros E0. apply Hne. rewrite E0. unfold i3add. cbn [ix iy iz]. apply i3_ext; cbn [ix iy iz]; lia.
Qed.

Lemma c01CallsDir_eq near ov dims : map fst (c01CallsDir near ov dims) = concat (concat (c01Tasks near ov dims)).
Proof.
  rewrite c01Calls_eq. unfold c01CallsDir. induction (concat (c01Colors ov dims)) as [|b l IH]; [reflexivity|].
  cbn [flat_map]. rewrite map_app, IH. f_equal. unfold c01ProcessBaseCell. rewrite <- c01Dir_offsets, !map_map.
  apply map_ext. intros [o d]. reflexivity.
Qed.

Lemma c01CallsDir_directed near ov dims : gridFits2x dims ov -> directed dims (c01CallsDir near ov dims).
Proof.
  intros Hv c1 c2 dir Hin. apply in_flat_map in Hin as (b & Hb & Hin). apply c01_bases in Hb.
  apply in_map_iff in Hin as ([o d] & E & Hin). injection E as <- <- <-.
  apply c01Dir_points in Hin as (v & -> & Hd & Rx & Ry & Rz).
  destruct Hv as (Hp & Gx & Gy & Gz). unfold positive, ownedCell, inGrid in *.
  exists b, (i3add b v). split; [lia|]. split; [unfold i3add; cbn [ix iy iz]; lia|].
  split; [reflexivity|]. split; [now rewrite threeToOneD_add|].
  intros Hne. rewrite Hd.
  - unfold i3sub, i3add. apply i3_ext; cbn [ix iy iz]; lia.
  - intros ->. apply Hne. unfold i3add. apply i3_ext; cbn [ix iy iz]; lia.
Qed.

