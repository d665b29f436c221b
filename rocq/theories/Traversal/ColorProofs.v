From Verif.Base Require Import ZRange Occ.
From Verif.Grid Require Import IndexModel IndexSpec IndexProofs.
From Verif.Traversal Require Import ColorModel.

Lemma in_colorBases start end_ stride b : positive stride ->
  In b (colorBases start end_ stride) <->
  (ix start <= ix b < ix end_ /\ (ix b - ix start) mod ix stride = 0) /\
  (iy start <= iy b < iy end_ /\ (iy b - iy start) mod iy stride = 0) /\
  (iz start <= iz b < iz end_ /\ (iz b - iz start) mod iz stride = 0).
Proof.
  intros (Hx & Hy & Hz). unfold colorBases. rewrite in_flat_map. split.
  - intros (z & Hz' & H). rewrite in_flat_map in H. destruct H as (y & Hy' & H).
    rewrite in_map_iff in H. destruct H as (x & <- & Hx').
    rewrite in_zsteps in * by assumption. simpl. tauto.
  - intros (Bx & By & Bz). exists (iz b). split; [now apply in_zsteps|].
    rewrite in_flat_map. exists (iy b). split; [now apply in_zsteps|].
    rewrite in_map_iff. exists (ix b). split; [now destruct b|now apply in_zsteps].
Qed.

Lemma NoDup_colorBases start end_ stride : positive stride -> NoDup (colorBases start end_ stride).
Proof.
  intros (Hx & Hy & Hz). unfold colorBases.
  apply NoDup_flat_map; [now apply NoDup_zsteps| |].
  - intros z _. apply NoDup_flat_map; [now apply NoDup_zsteps| |].
    + intros y _. apply NoDup_map_inj; [|now apply NoDup_zsteps]. intros; congruence.
    + intros y1 y2 b _ _ H1 H2. rewrite in_map_iff in H1, H2.
      destruct H1 as (? & <- & _), H2 as (? & H2 & _). congruence.
  - intros z1 z2 b _ _ H1 H2. rewrite in_flat_map in H1, H2.
    destruct H1 as (? & _ & H1), H2 as (? & _ & H2).
    rewrite in_map_iff in H1, H2.
    destruct H1 as (? & <- & _), H2 as (? & H2 & _). congruence.
Qed.

Definition i3mod (a m : I3) : I3 := mkI3 (ix a mod ix m) (iy a mod iy m) (iz a mod iz m).
Definition i3sub (a b : I3) : I3 := mkI3 (ix a - ix b) (iy a - iy b) (iz a - iz b).

Lemma mod_sub_zero a s m : 0 < m -> 0 <= s < m -> (a - s) mod m = 0 -> s = a mod m.
Proof.
  intros Hm Hs H. apply Z.mod_unique with (q := (a - s) / m); [now left|].
  pose proof (Z.div_mod (a - s) m ltac:(lia)). lia.
Qed.

Lemma sub_mod_self a m : 0 < m -> (a - a mod m) mod m = 0.
Proof.
  intros Hm. pose proof (Z.div_mod a m ltac:(lia)).
  replace (a - a mod m) with (a / m * m) by lia. apply Z.mod_mul. lia.
Qed.

(** All bases of one colour: the coordinates relative to the offset have the same remainders. *)
Lemma in_colorTraversal_col end_ stride offset col b :
  positive stride -> 0 <= col < numCells stride ->
  In b (colorBases (i3add (oneToThreeD col stride) offset) end_ stride) <->
  (ix offset <= ix b < ix end_ /\ iy offset <= iy b < iy end_ /\ iz offset <= iz b < iz end_) /\
  col = threeToOneD (i3mod (i3sub b offset) stride) stride.
Proof.
  intros Hs Hc.
  pose proof (oneToThreeD_inGrid stride col Hs Hc) as Hg.
  pose proof (threeToOneD_oneToThreeD stride col Hs Hc) as Hr.
  rewrite in_colorBases by assumption.
  set (s := oneToThreeD col stride) in *. clearbody s.
  unfold inGrid, positive in *. split.
  - intros ((Bx & Mx) & (By & My) & (Bz & Mz)). simpl in *. split; [lia|].
    rewrite <- Hr. f_equal. unfold i3mod, i3sub; simpl.
    apply i3_ext; simpl; apply mod_sub_zero; try lia.
    + now replace (ix b - ix offset - ix s) with (ix b - (ix s + ix offset)) by ring.
    + now replace (iy b - iy offset - iy s) with (iy b - (iy s + iy offset)) by ring.
    + now replace (iz b - iz offset - iz s) with (iz b - (iz s + iz offset)) by ring.
  - intros ((Bx & By & Bz) & E).
    assert (Es : s = i3mod (i3sub b offset) stride).
    { apply (threeToOneD_inj stride); [exact Hg| |congruence].
      unfold inGrid, i3mod; simpl. repeat split; try (apply Z.mod_pos_bound; lia). }
    rewrite Es. unfold i3add, i3mod, i3sub; simpl.
    assert (A : forall a o m, 0 < m -> o <= a -> (a - o) mod m + o <= a /\
                (a - ((a - o) mod m + o)) mod m = 0).
    { intros a o m Hm Ho. pose proof (Z.mod_le (a - o) m ltac:(lia) Hm). split; [lia|].
      replace (a - ((a - o) mod m + o)) with (a - o - (a - o) mod m) by ring.
      now apply sub_mod_self. }
    pose proof (A (ix b) (ix offset) (ix stride) ltac:(lia) ltac:(lia)).
    pose proof (A (iy b) (iy offset) (iy stride) ltac:(lia) ltac:(lia)).
    pose proof (A (iz b) (iz offset) (iz stride) ltac:(lia) ltac:(lia)).
    tauto.
Qed.

Lemma colorTraversal_in end_ stride offset b : positive stride ->
  In b (concat (colorTraversal end_ stride offset)) <->
  ix offset <= ix b < ix end_ /\ iy offset <= iy b < iy end_ /\ iz offset <= iz b < iz end_.
Proof.
  intros Hs. unfold colorTraversal. rewrite <- flat_map_concat_map, in_flat_map.
  fold (numCells stride). split.
  - intros (col & Hc & H). rewrite in_zrange in Hc. apply in_colorTraversal_col in H; tauto.
  - intros H. exists (threeToOneD (i3mod (i3sub b offset) stride) stride).
    assert (R : 0 <= threeToOneD (i3mod (i3sub b offset) stride) stride < numCells stride).
    { apply threeToOneD_range. unfold inGrid, i3mod, positive in *; simpl.
      repeat split; try (apply Z.mod_pos_bound; lia). }
    split; [now apply in_zrange|]. apply in_colorTraversal_col; auto.
Qed.

Lemma colorTraversal_NoDup end_ stride offset : positive stride ->
  NoDup (concat (colorTraversal end_ stride offset)).
Proof.
  intros Hs. unfold colorTraversal. rewrite <- flat_map_concat_map. fold (numCells stride).
  apply NoDup_flat_map; [apply NoDup_zrange| |].
  - intros col _. now apply NoDup_colorBases.
  - intros c1 c2 b H1 H2 B1 B2. rewrite in_zrange in H1, H2.
    apply in_colorTraversal_col in B1, B2; try assumption. destruct B1, B2; congruence.
Qed.

(** Two bases in one colour differ by multiples of the stride. *)
Lemma mod_eq_diff a b m : 0 < m -> a mod m = b mod m -> exists k, a - b = k * m.
Proof.
  intros Hm H. exists (a / m - b / m).
  pose proof (Z.div_mod a m ltac:(lia)). pose proof (Z.div_mod b m ltac:(lia)). nia.
Qed.

Lemma colorTraversal_same_color end_ stride offset colors b1 b2 : positive stride ->
  In colors (colorTraversal end_ stride offset) -> In b1 colors -> In b2 colors ->
  exists kx ky kz, ix b1 - ix b2 = kx * ix stride /\ iy b1 - iy b2 = ky * iy stride /\
                   iz b1 - iz b2 = kz * iz stride.
Proof.
  intros Hs Hc H1 H2. unfold colorTraversal in Hc. fold (numCells stride) in Hc.
  apply in_map_iff in Hc as (col & <- & Hcol). rewrite in_zrange in Hcol.
  apply in_colorTraversal_col in H1 as [_ E1]; [|assumption..].
  apply in_colorTraversal_col in H2 as [_ E2]; [|assumption..].
  assert (E : i3mod (i3sub b1 offset) stride = i3mod (i3sub b2 offset) stride).
  { unfold positive in Hs. apply (threeToOneD_inj stride); [..|congruence];
    unfold inGrid, i3mod; simpl; repeat split; try (apply Z.mod_pos_bound; lia). }
  unfold i3mod, i3sub in E; simpl in E. injection E as Ex Ey Ez. unfold positive in Hs.
  apply mod_eq_diff in Ex as [kx Ex]; [|lia]. apply mod_eq_diff in Ey as [ky Ey]; [|lia].
  apply mod_eq_diff in Ez as [kz Ez]; [|lia].
  exists kx, ky, kz. lia.
Qed.

Lemma colorTraversal_color_NoDup end_ stride offset colors : positive stride ->
  In colors (colorTraversal end_ stride offset) -> NoDup colors.
Proof.
  intros Hs Hc. apply in_map_iff in Hc as (col & <- & _). now apply NoDup_colorBases.
Qed.
