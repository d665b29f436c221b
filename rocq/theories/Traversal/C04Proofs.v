From Verif.Base Require Import ZRange Occ.
From Verif.Grid Require Import IndexModel IndexSpec IndexProofs.
From Verif.Traversal Require Import ColorModel ColorProofs CellSpec CellLemmas C08Model C08Proofs C04Model C08Bases.

Definition o1 := mkI3 1 1 1.

Definition ext (x : Z) : Prop := x = 0 \/ x = 3.
Definition inS (o : I3) : Prop :=
  0 <= ix o <= 3 /\ 0 <= iy o <= 3 /\ 0 <= iz o <= 3 /\
  ~ (ext (ix o) /\ ext (iy o)) /\ ~ (ext (ix o) /\ ext (iz o)) /\ ~ (ext (iy o) /\ ext (iz o)).

Lemma in_pack32 o : In o c04Offsets32Pack <-> inS o.
Proof.
  unfold c04Offsets32Pack, c04Layer0, inS, ext. rewrite !in_app_iff.
  destruct o as [x y z]. cbn [ix iy iz]. split.
  - intros [H|[H|H]].
    + repeat (destruct H as [H|H]; [injection H as <- <- <-; lia|]). destruct H.
    + apply in_flat_map in H as (z' & Hz & H). unfold c04Layer1 in H.
      apply in_flat_map in H as (y' & Hy & H); apply in_flat_map in H as (x' & Hx & H);
      apply in_zrange in Hy, Hx, Hz.
      destruct (((x' =? 0) && (y' =? 0)) || ((x' =? 3) && (y' =? 0)) || ((x' =? 0) && (y' =? 3)) || ((x' =? 3) && (y' =? 3))) eqn:E; [destruct H|destruct H as [H|[]]; injection H as <- <- <-; lia].
    + repeat (destruct H as [H|H]; [injection H as <- <- <-; lia|]). destruct H.
  - intros (Hx & Hy & Hz & H1 & H2 & H3).
    assert (Cz : z = 0 \/ z = 1 \/ z = 2 \/ z = 3) by lia.
    assert (Cx : x = 0 \/ x = 1 \/ x = 2 \/ x = 3) by lia.
    assert (Cy : y = 0 \/ y = 1 \/ y = 2 \/ y = 3) by lia.
    destruct Cz as [->|[->|[->| ->]]]; destruct Cx as [->|[->|[->| ->]]]; destruct Cy as [->|[->|[->| ->]]];
      try (exfalso; lia); vm_compute; tauto.
Qed.

Lemma NoDup_pack32 : NoDup c04Offsets32Pack.
Proof. vm_compute. repeat constructor; simpl; intuition discriminate. Qed.

Lemma c04IsIn_spec dims i : c04IsIn dims i = true <-> c08Box dims o1 i.
Proof. unfold c04IsIn, c08Box, o1; simpl. lia. Qed.

Lemma in_c04Pack32 dims base c : In c (c04Pack32 dims base) <->
  c08Box dims o1 c /\ inS (mkI3 (ix c - ix base) (iy c - iy base) (iz c - iz base)).
Proof.
  unfold c04Pack32. rewrite filter_In, c04IsIn_spec, in_map_iff. split.
  - intros [(o & <- & Ho) Hb]. apply in_pack32 in Ho. split; [assumption|].
    unfold i3add, inS in *; simpl. replace (ix base + ix o - ix base) with (ix o) by lia.
    replace (iy base + iy o - iy base) with (iy o) by lia. replace (iz base + iz o - iz base) with (iz o) by lia. assumption.
  - intros [Hb Ho]. split; [|assumption]. eexists; split; [|apply in_pack32, Ho].
    apply i3_ext; unfold i3add; simpl; lia.
Qed.

Definition c04Start (color : Z) : Z := if Z.rem color 2 =? 0 then -2 else 0.

Lemma in_c04Packs dims color b : 0 <= color < 4 ->
  In b (c04Packs dims color) <->
  let s := c04Start color in
  (s <= ix b < ix dims - 1 /\ (ix b - s) mod 4 = 0) /\ (s <= iy b < iy dims - 1 /\ (iy b - s) mod 4 = 0) /\
  (s <= iz b < iz dims - 1 /\ (iz b - s) mod 4 = 0) /\
  (ix b + iy b + iz b - 3 * s) mod 8 = if 2 <=? color then 4 else 0.
Proof.
  intros Hc. unfold c04Packs. fold (c04Start color). set (s := c04Start color).
  assert (Hs : s = -2 \/ s = 0) by (unfold s, c04Start; destruct (Z.rem color 2 =? 0); lia).
  assert (P : forall x y z, s <= x -> s <= y -> s <= z -> (x-s) mod 4 = 0 -> (y-s) mod 4 = 0 -> (z-s) mod 4 = 0 ->
     ((c04Parity x y z =? c04Parity s s s + (if 2 <=? color then 4 else 0)) = true <->
      (x + y + z - 3 * s) mod 8 = if 2 <=? color then 4 else 0)).
  { intros x y z Hx Hy Hz Mx My Mz. unfold c04Parity.
    rewrite !Z.rem_mod_nonneg by lia. rewrite Z.eqb_eq. destruct (2 <=? color); destruct Hs as [-> | ->]; lia. }
  cbv zeta. rewrite in_flat_map. split.
  - intros (z & Hz & H). apply in_flat_map in H as (y & Hy & H). apply in_flat_map in H as (x & Hx & H).
    apply in_zsteps in Hx, Hy, Hz; try lia.
    destruct (c04Parity x y z =? c04Parity s s s + (if 2 <=? color then 4 else 0)) eqn:E; [|destruct H].
    destruct H as [<-|[]]; simpl. apply P in E; try tauto; lia.
  - destruct b as [x y z]; simpl. intros (Hx & Hy & Hz & E). exists z. rewrite in_zsteps by lia. split; [tauto|].
    apply in_flat_map. exists y. rewrite in_zsteps by lia. split; [tauto|].
    apply in_flat_map. exists x. rewrite in_zsteps by lia. split; [tauto|].
    apply P in E; try lia. rewrite E. now left.
Qed.

Lemma in_if_one {A} (c : bool) (v b : A) : In b (if c then [v] else []) -> b = v.
Proof. destruct c; simpl; intuition. Qed.

Lemma NoDup_c04Packs dims color : NoDup (c04Packs dims color).
Proof.
  unfold c04Packs. apply NoDup_flat_map; [apply NoDup_zsteps; lia| |].
  - intros z _. apply NoDup_flat_map; [apply NoDup_zsteps; lia| |].
    + intros y _. apply NoDup_flat_map; [apply NoDup_zsteps; lia| |].
      * intros x _. destruct (_ =? _); repeat constructor. intros [].
      * intros x x' b _ _ H1 H2. apply in_if_one in H1, H2. congruence.
    + intros y y' b _ _ H1 H2. apply in_flat_map in H1 as (x1 & _ & H1). apply in_flat_map in H2 as (x2 & _ & H2).
      apply in_if_one in H1, H2. congruence.
  - intros y y' b _ _ H1 H2. apply in_flat_map in H1 as (y1 & _ & H1). apply in_flat_map in H2 as (y2 & _ & H2).
    apply in_flat_map in H1 as (x1 & _ & H1). apply in_flat_map in H2 as (x2 & _ & H2).
    apply in_if_one in H1, H2. congruence.
Qed.

Definition c04AllPacks (dims : I3) : list (Z * I3) :=
  flat_map (fun color => map (pair color) (c04Packs dims color)) (zrange 0 4).

Definition c04Bases (dims : I3) : list I3 := flat_map (fun cp => c04Pack32 dims (snd cp)) (c04AllPacks dims).

Lemma in_c04AllPacks dims c b : In (c, b) (c04AllPacks dims) <-> 0 <= c < 4 /\ In b (c04Packs dims c).
Proof.
  unfold c04AllPacks. rewrite in_flat_map. split.
  - intros (c' & Hc & H). apply in_map_iff in H as (b' & E & H). injection E as -> ->. rewrite in_zrange in Hc. tauto.
  - intros [Hc H]. exists c. rewrite in_zrange. split; [lia|]. now apply in_map.
Qed.

Lemma NoDup_c04AllPacks dims : NoDup (c04AllPacks dims).
Proof.
  unfold c04AllPacks. apply NoDup_flat_map; [apply NoDup_zrange| |].
  - intros c _. apply NoDup_map_inj; [intros; congruence|apply NoDup_c04Packs].
  - intros c c' [k b] _ _ H1 H2. apply in_map_iff in H1 as (? & E1 & _), H2 as (? & E2 & _). congruence.
Qed.

Lemma NoDup_c04Pack32 dims b : NoDup (c04Pack32 dims b).
Proof.
  unfold c04Pack32. apply NoDup_filter, NoDup_map_inj; [|apply NoDup_pack32].
  intros x y _ _ E. unfold i3add in E. injection E as E1 E2 E3. apply i3_ext; lia.
Qed.

Lemma color_cases c : 0 <= c < 4 -> c = 0 \/ c = 1 \/ c = 2 \/ c = 3.
Proof. lia. Qed.

(** a cell is in only one pack *)
Lemma c04_pack_unique dims c1 b1 c2 b2 i : In (c1, b1) (c04AllPacks dims) -> In (c2, b2) (c04AllPacks dims) ->
  In i (c04Pack32 dims b1) -> In i (c04Pack32 dims b2) -> (c1, b1) = (c2, b2).
Proof.
  intros H1 H2 I1 I2. apply in_c04AllPacks in H1 as [C1 H1], H2 as [C2 H2].
  apply in_c04Packs in H1; [|assumption]. apply in_c04Packs in H2; [|assumption].
  apply in_c04Pack32 in I1 as [B1 S1], I2 as [_ S2]. unfold c08Box, inS, ext, o1 in *; simpl in *.
  destruct b1 as [x1 y1 z1], b2 as [x2 y2 z2], i as [x y z]; simpl in *.
  assert (x1 = x2 /\ y1 = y2 /\ z1 = z2 /\ c1 = c2) as (-> & -> & -> & ->); [|reflexivity].
  destruct (color_cases c1 C1) as [->|[->|[->| ->]]]; destruct (color_cases c2 C2) as [->|[->|[->| ->]]];
    unfold c04Start in *; simpl in *; lia.
Qed.

Lemma c04_pack_exists dims i : c08Box dims o1 i -> exists c b, In (c, b) (c04AllPacks dims) /\ In i (c04Pack32 dims b).
Proof.
  intros B. destruct i as [x y z]. unfold c08Box, o1 in B; simpl in B.
  set (b0 := mkI3 (x - x mod 4) (y - y mod 4) (z - z mod 4)).
  set (b2 := mkI3 (x - (x + 2) mod 4) (y - (y + 2) mod 4) (z - (z + 2) mod 4)).
  assert (D : inS (mkI3 (x mod 4) (y mod 4) (z mod 4)) \/ inS (mkI3 ((x + 2) mod 4) ((y + 2) mod 4) ((z + 2) mod 4))).
  { unfold inS, ext; simpl. lia. }
  assert (E0 : forall a m, a - (a - m) = m) by (intros; lia).
  destruct D as [D|D].
  - assert (P : (ix b0 + iy b0 + iz b0) mod 8 = 0 \/ (ix b0 + iy b0 + iz b0) mod 8 = 4) by (unfold b0; simpl; lia).
    assert (I : In (mkI3 x y z) (c04Pack32 dims b0)).
    { apply in_c04Pack32. split; [unfold c08Box, o1; simpl; lia|]. unfold b0; simpl. rewrite !E0. exact D. }
    destruct P as [P|P]; [exists 1, b0|exists 3, b0]; (split; [|assumption]); apply in_c04AllPacks; (split; [lia|]);
      apply in_c04Packs; try lia; unfold c04Start, b0 in *; simpl in *; lia.
  - assert (P : (ix b2 + iy b2 + iz b2 + 6) mod 8 = 0 \/ (ix b2 + iy b2 + iz b2 + 6) mod 8 = 4) by (unfold b2; simpl; lia).
    assert (I : In (mkI3 x y z) (c04Pack32 dims b2)).
    { apply in_c04Pack32. split; [unfold c08Box, o1; simpl; lia|]. unfold b2; simpl. rewrite !E0. exact D. }
    destruct P as [P|P]; [exists 0, b2|exists 2, b2]; (split; [|assumption]); apply in_c04AllPacks; (split; [lia|]);
      apply in_c04Packs; try lia; unfold c04Start, b2 in *; simpl in *; lia.
Qed.

Lemma in_c04Bases dims i : In i (c04Bases dims) <-> c08Box dims o1 i.
Proof.
  unfold c04Bases. rewrite in_flat_map. split.
  - intros ((c & b) & _ & H). now apply in_c04Pack32 in H.
  - intros H. apply c04_pack_exists in H as (c & b & H & I). exists (c, b). auto.
Qed.

Lemma NoDup_c04Bases dims : NoDup (c04Bases dims).
Proof.
  unfold c04Bases. apply NoDup_flat_map; [apply NoDup_c04AllPacks|intros; apply NoDup_c04Pack32|].
  intros [c1 b1] [c2 b2] i H1 H2 I1 I2. eapply c04_pack_unique; eauto.
Qed.

Lemma c04_calls near dims :
  concat (concat (c04Tasks near dims o1)) = c08BaseSteps near dims o1 (c04Bases dims).
Proof.
  unfold c04Tasks. rewrite <- map_map with (f := fun color => map (c04Pack32 dims) (c04Packs dims color))
    (g := map (c08BaseSteps near dims o1)) || idtac.
  transitivity (concat (concat (map (map (c08BaseSteps near dims o1))
     (map (fun color => map (c04Pack32 dims) (c04Packs dims color)) (zrange 0 4))))).
  { rewrite map_map. f_equal. f_equal. apply map_ext. intros. now rewrite map_map. }
  rewrite c08_tasks_concat. f_equal. unfold c04Bases, c04AllPacks.
  induction (zrange 0 4) as [|c l IH]; [reflexivity|]. cbn [map concat flat_map].
  rewrite concat_app, IH, flat_map_app. f_equal.
  induction (c04Packs dims c) as [|p q IHq]; [reflexivity|]. cbn [map concat flat_map snd]. now rewrite IHq.
Qed.

Lemma c04_perm near dims : gridFits dims o1 ->
  Permutation (concat (concat (c04Tasks near dims o1))) (c08Calls near dims o1).
Proof.
  intros Hv. rewrite c04_calls. apply c08_calls_perm; [assumption|apply NoDup_c04Bases|apply in_c04Bases].
Qed.

Lemma c04_raceFree near dims : gridFits dims o1 -> Forall raceFree (c04Tasks near dims o1).
Proof.
  intros Hv. apply Forall_forall. intros col Hcol. unfold c04Tasks in Hcol.
  apply in_map_iff in Hcol as (color & <- & Hc). apply in_zrange in Hc.
  apply raceFree_map; [apply NoDup_c04Packs|].
  intros b1 b2 c H1 H2 Hne A1 A2.
  apply c08BaseSteps_accesses in A1 as (i1 & p1 & I1 & G1 & E1 & P1);
    [|assumption|intros b Hb; now apply in_c04Pack32 in Hb].
  apply c08BaseSteps_accesses in A2 as (i2 & p2 & I2 & G2 & E2 & P2);
    [|assumption|intros b Hb; now apply in_c04Pack32 in Hb].
  assert (p1 = p2) by (apply (threeToOneD_inj dims); congruence). subst p2.
  apply in_c04Packs in H1; [|lia]. apply in_c04Packs in H2; [|lia].
  apply in_c04Pack32 in I1 as [_ S1], I2 as [_ S2]. unfold inS, ext, o1 in *; simpl in *.
  apply Hne. clear Hne E1 E2 G1 G2 Hv.
  destruct b1 as [x1 y1 z1], b2 as [x2 y2 z2], i1 as [a1 e1 f1], i2 as [a2 e2 f2], p1 as [x y z]; simpl in *.
  assert (Kx : exists k, x1 - x2 = 4 * k) by (exists ((x1 - x2) / 4); destruct (c04Start color); lia).
  assert (Ky : exists k, y1 - y2 = 4 * k) by (exists ((y1 - y2) / 4); destruct (c04Start color); lia).
  assert (Kz : exists k, z1 - z2 = 4 * k) by (exists ((z1 - z2) / 4); destruct (c04Start color); lia).
  assert (Ks : exists k, x1 + y1 + z1 - (x2 + y2 + z2) = 8 * k).
  { exists ((x1 + y1 + z1 - (x2 + y2 + z2)) / 8). destruct (2 <=? color); lia. }
  destruct Kx as (kx & Kx), Ky as (ky & Ky), Kz as (kz & Kz), Ks as (ks & Ks).
  clear H1 H2 Hc color.
  assert (Rx : kx = -1 \/ kx = 0 \/ kx = 1) by lia.
  assert (Ry : ky = -1 \/ ky = 0 \/ ky = 1) by lia.
  assert (Rz : kz = -1 \/ kz = 0 \/ kz = 1) by lia.
  destruct Rx as [->|[->| ->]]; destruct Ry as [->|[->| ->]]; destruct Rz as [->|[->| ->]];
    try (exfalso; lia). f_equal; lia.
Qed.
