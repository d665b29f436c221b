From Verif.Base Require Import ZRange Occ.
From Verif.Grid Require Import IndexModel IndexSpec IndexProofs.
From Verif.Traversal Require Import ColorModel ColorProofs CellSpec CellLemmas C08Model C08Proofs C04Model C08Bases.

Definition ov1 := mkI3 1 1 1.

Lemma hcpIsIn_spec dims i : hcpIsIn dims ov1 i = true <-> c08Box dims ov1 i.
Proof. unfold hcpIsIn, c08Box, ov1; simpl. lia. Qed.

Lemma in_hcpPack6 dims b i : In i (hcpPack6 dims ov1 b) <->
  c08Box dims ov1 i /\ 0 <= ix i - ix b < 2 /\ iy i = iy b /\ 0 <= iz i - iz b < 3.
Proof.
  unfold hcpPack6. rewrite filter_In, hcpIsIn_spec, in_flat_map. split.
  - intros [(z & Hz & H) B]. apply in_map_iff in H as (x & <- & Hx). apply in_zrange in Hz, Hx. simpl. split; [assumption|lia].
  - intros (B & Hx & Hy & Hz). split; [|assumption]. exists (iz i - iz b). rewrite in_zrange. split; [lia|].
    apply in_map_iff. exists (ix i - ix b). rewrite in_zrange. split; [|lia]. apply i3_ext; simpl; lia.
Qed.

Lemma NoDup_hcpPack6 dims b : NoDup (hcpPack6 dims ov1 b).
Proof.
  unfold hcpPack6. apply NoDup_filter, NoDup_flat_map; [apply NoDup_zrange| |].
  - intros z _. apply NoDup_map_inj; [|apply NoDup_zrange]. intros x y _ _ E. injection E. lia.
  - intros z z' i _ _ H1 H2. apply in_map_iff in H1 as (? & <- & _), H2 as (? & E & _). injection E. lia.
Qed.

(** shift as function of residues, total *)
Definition shiftM (y dz : Z) : Z :=
  (let s := (dz mod 12) / 4 in if s =? 0 then 0 else if s =? 1 then -4 else -2) + 3 * (y mod 2).

Lemma hcpShift_M y z s : 0 <= y -> s <= z -> hcpShift y z s = shiftM y (z - s).
Proof.
  intros Hy Hz. unfold hcpShift, shiftM. rewrite Z.sub_0_r.
  rewrite !Z.rem_mod_nonneg by lia. rewrite Z.quot_div_nonneg by lia.
  assert (H : 0 <= (z - s) mod 12 / 4 < 3) by lia.
  f_equal.
  - cbv zeta. destruct (Z.eqb_spec ((z - s) mod 12 / 4) 0); [reflexivity|].
    destruct (Z.eqb_spec ((z - s) mod 12 / 4) 1); [reflexivity|].
    destruct (Z.eqb_spec ((z - s) mod 12 / 4) 2); [reflexivity|lia].
  - destruct (Z.eqb_spec (y mod 2) 0) as [E|E]; simpl; lia.
Qed.

Lemma in_hcpPacks dims color b : 0 <= color < 4 ->
  In b (hcpPacks dims color) <->
  let sx := hcpStartX color in let sz := hcpStartZ color in
  let x := ix b - shiftM (iy b) (iz b - sz) in
  (sx <= x < ix dims + 3 /\ (x - sx) mod 6 = 0) /\ 0 <= iy b < iy dims - 1 /\
  (sz <= iz b < iz dims - 1 /\ (iz b - sz) mod 4 = 0).
Proof.
  intros Hc. unfold hcpPacks. cbv zeta. rewrite in_flat_map. split.
  - intros (z & Hz & H). apply in_flat_map in H as (y & Hy & H). apply in_map_iff in H as (x & <- & Hx).
    apply in_zsteps in Hx, Hy, Hz; try lia. cbn [ix iy iz]. rewrite hcpShift_M by lia.
    replace (x + shiftM y (z - hcpStartZ color) - shiftM y (z - hcpStartZ color)) with x by lia. lia.
  - destruct b as [x y z]; cbn [ix iy iz]. intros (Hx & Hy & Hz). exists z. rewrite in_zsteps by lia. split; [lia|].
    apply in_flat_map. exists y. rewrite in_zsteps by lia. split; [rewrite Z.mod_1_r; lia|].
    apply in_map_iff. exists (x - shiftM y (z - hcpStartZ color)). rewrite in_zsteps by lia. split; [|lia].
    apply i3_ext; cbn [ix iy iz]; try reflexivity. rewrite hcpShift_M by lia. lia.
Qed.

Lemma NoDup_hcpPacks dims color : NoDup (hcpPacks dims color).
Proof.
  unfold hcpPacks. apply NoDup_flat_map; [apply NoDup_zsteps; lia| |].
  - intros z _. apply NoDup_flat_map; [apply NoDup_zsteps; lia| |].
    + intros y _. apply NoDup_map_inj; [|apply NoDup_zsteps; lia]. intros x x' _ _ E. injection E. lia.
    + intros y y' b _ _ H1 H2. apply in_map_iff in H1 as (? & <- & _), H2 as (? & E & _). congruence.
  - intros z z' b _ _ H1 H2. apply in_flat_map in H1 as (? & _ & H1), H2 as (? & _ & H2).
    apply in_map_iff in H1 as (? & <- & _), H2 as (? & E & _). congruence.
Qed.

Definition hcpAllPacks (dims : I3) : list (Z * I3) :=
  flat_map (fun color => map (pair color) (hcpPacks dims color)) (zrange 0 4).
Definition hcpBases (dims : I3) : list I3 := flat_map (fun cp => hcpPack6 dims ov1 (snd cp)) (hcpAllPacks dims).

Lemma in_hcpAllPacks dims c b : In (c, b) (hcpAllPacks dims) <-> 0 <= c < 4 /\ In b (hcpPacks dims c).
Proof.
  unfold hcpAllPacks. rewrite in_flat_map. split.
  - intros (c' & Hc & H). apply in_map_iff in H as (b' & E & H). injection E as -> ->. rewrite in_zrange in Hc. tauto.
  - intros [Hc H]. exists c. rewrite in_zrange. split; [lia|]. now apply in_map.
Qed.

Lemma NoDup_hcpAllPacks dims : NoDup (hcpAllPacks dims).
Proof.
  unfold hcpAllPacks. apply NoDup_flat_map; [apply NoDup_zrange| |].
  - intros c _. apply NoDup_map_inj; [intros; congruence|apply NoDup_hcpPacks].
  - intros c c' [k b] _ _ H1 H2. apply in_map_iff in H1 as (? & E1 & _), H2 as (? & E2 & _). congruence.
Qed.

(** The colour whose packs contain a cell depends only on residues. *)
Definition covers (x y z c : Z) : bool :=
  let dz := z - hcpStartZ c in
  (dz mod 4 <? 3) && ((x - hcpStartX c - shiftM y (dz - dz mod 4)) mod 6 <? 2).

Lemma covers_residue x y z c : covers x y z c = covers (x mod 6) (y mod 2) (z mod 12) c.
Proof.
  unfold covers. cbv zeta. set (sz := hcpStartZ c). set (sx := hcpStartX c).
  assert (E4 : (z - sz) mod 4 = (z mod 12 - sz) mod 4) by lia.
  rewrite E4. set (r := (z mod 12 - sz) mod 4) in *.
  assert (ES : shiftM y (z - sz - r) = shiftM (y mod 2) (z mod 12 - sz - r)).
  { unfold shiftM. rewrite Z.mod_mod by lia.
    replace ((z - sz - r) mod 12) with ((z mod 12 - sz - r) mod 12); [reflexivity|].
    clear. set (k := sz + r). replace (z mod 12 - sz - r) with (z mod 12 - k) by lia.
    replace (z - sz - r) with (z - k) by lia. apply Zminus_mod_idemp_l. }
  rewrite ES. set (w := shiftM _ _). f_equal. f_equal.
  replace (x - sx - w) with (x - (sx + w)) by lia. replace (x mod 6 - sx - w) with (x mod 6 - (sx + w)) by lia.
  symmetry. apply Zminus_mod_idemp_l.
Qed.

Definition exactlyOneCovers (x y z : Z) : bool := (length (filter (covers x y z) (zrange 0 4)) =? 1)%nat.

Lemma covers_table : forallb (fun x => forallb (fun y => forallb (fun z => exactlyOneCovers x y z)
  (zrange 0 12)) (zrange 0 2)) (zrange 0 6) = true.
Proof. vm_compute. reflexivity. Qed.

Lemma covers_one x y z : exists c, 0 <= c < 4 /\ covers x y z c = true /\
  forall c', 0 <= c' < 4 -> covers x y z c' = true -> c' = c.
Proof.
  pose proof covers_table as T. rewrite forallb_forall in T. specialize (T (x mod 6)).
  rewrite forallb_forall in T. 
  assert (T1 := T ltac:(apply in_zrange; lia) (y mod 2) ltac:(apply in_zrange; lia)). clear T.
  rewrite forallb_forall in T1. specialize (T1 (z mod 12) ltac:(apply in_zrange; lia)).
  unfold exactlyOneCovers in T1. apply Nat.eqb_eq in T1.
  assert (F : filter (covers (x mod 6) (y mod 2) (z mod 12)) (zrange 0 4) = filter (covers x y z) (zrange 0 4)).
  { apply filter_ext. intros. symmetry. apply covers_residue. }
  rewrite F in T1. clear F.
  destruct (filter (covers x y z) (zrange 0 4)) as [|c [|]] eqn:E; try discriminate.
  assert (Hc : In c (filter (covers x y z) (zrange 0 4))) by (rewrite E; now left).
  apply filter_In in Hc as [Hc Hcov]. apply in_zrange in Hc. exists c. repeat split; try lia; try assumption.
  intros c' Hc' Hcov'. assert (I : In c' (filter (covers x y z) (zrange 0 4))) by (apply filter_In; rewrite in_zrange; tauto).
  rewrite E in I. destruct I as [->|[]]. reflexivity.
Qed.

Lemma shiftM_range y dz : -4 <= shiftM y dz <= 3.
Proof.
  unfold shiftM. cbv zeta. pose proof (Z.mod_pos_bound y 2 ltac:(lia)).
  destruct (_ =? 0); [lia|]. destruct (_ =? 1); lia.
Qed.

(** pack of colour c containing the cell, as computed from the cell *)
Definition packBase (c x y z : Z) : I3 :=
  let dz := z - hcpStartZ c in
  let zb := z - dz mod 4 in
  mkI3 (x - (x - hcpStartX c - shiftM y (dz - dz mod 4)) mod 6) y zb.

Lemma hcp_pack_sound dims c b i : In (c, b) (hcpAllPacks dims) -> In i (hcpPack6 dims ov1 b) ->
  covers (ix i) (iy i) (iz i) c = true /\ b = packBase c (ix i) (iy i) (iz i).
Proof.
  intros H I. apply in_hcpAllPacks in H as [Hc H]. apply in_hcpPacks in H; [|assumption].
  apply in_hcpPack6 in I as (_ & Hx & Hy & Hz). cbv zeta in H. destruct H as (Bx & By & Bz).
  unfold covers, packBase. cbv zeta. rewrite Hy.
  set (sz := hcpStartZ c) in *. set (sx := hcpStartX c) in *.
  assert (E : (iz i - sz) mod 4 = iz i - iz b) by lia. rewrite E.
  replace (iz i - sz - (iz i - iz b)) with (iz b - sz) by lia.
  set (w := shiftM (iy b) (iz b - sz)) in *.
  assert (E6 : (ix i - sx - w) mod 6 = ix i - ix b) by lia. rewrite E6. split; [lia|].
  apply i3_ext; cbn [ix iy iz]; lia.
Qed.

Lemma hcp_pack_exists dims i : c08Box dims ov1 i -> exists c b, In (c, b) (hcpAllPacks dims) /\ In i (hcpPack6 dims ov1 b).
Proof.
  intros B. destruct (covers_one (ix i) (iy i) (iz i)) as (c & Hc & Hcov & _).
  exists c, (packBase c (ix i) (iy i) (iz i)).
  unfold covers in Hcov. cbv zeta in Hcov. unfold packBase. cbv zeta.
  rewrite in_hcpAllPacks, in_hcpPacks, in_hcpPack6 by assumption. cbn [ix iy iz]. cbv zeta.
  set (sz := hcpStartZ c) in *. set (sx := hcpStartX c) in *.
  replace (iz i - (iz i - sz) mod 4 - sz) with (iz i - sz - (iz i - sz) mod 4) in * by lia.
  set (dz := iz i - sz - (iz i - sz) mod 4) in *.
  assert (Hsz : -2 <= sz <= 1 /\ (sz = 1 \/ sz <= 0)).
  { unfold sz, hcpStartZ. destruct (c =? 0); [lia|]. destruct (c =? 1); [lia|]. destruct (c =? 2); lia. }
  assert (Hs1 : sz <= iz i - (iz i - sz) mod 4).
  { unfold c08Box, ov1 in B; simpl in B. apply andb_prop in Hcov as [Hcov _]. apply Z.ltb_lt in Hcov. lia. }
  apply andb_prop in Hcov as [C1 C2]. apply Z.ltb_lt in C1, C2.
  (* the start in x direction is far enough left *)
  assert (Hx : sx <= ix i - (ix i - sx - shiftM (iy i) dz) mod 6 - shiftM (iy i) dz).
  { unfold c08Box, ov1 in B; simpl in B.
    assert (Hw : sx + shiftM (iy i) dz <= 5 /\ (sx + shiftM (iy i) dz <= 1 \/ sx + shiftM (iy i) dz = 3 \/ sx + shiftM (iy i) dz = 2)).
    { unfold shiftM. cbv zeta. pose proof (Z.mod_pos_bound (iy i) 2 ltac:(lia)).
      unfold sx, hcpStartX. destruct (c =? 0), (c =? 1), (c =? 2); (destruct (_ =? 0); [lia|]; destruct (_ =? 1); lia). }
    set (w := shiftM (iy i) dz) in *. lia. }
  pose proof (shiftM_range (iy i) dz) as Hr. set (w := shiftM (iy i) dz) in *.
  unfold c08Box, ov1 in *; cbn [ix iy iz] in *.
  split; [|split; [lia|]].
  - split; [lia|]. split; [|split; lia]. split; [|lia]. split; [lia|]. lia.
  - split; [lia|split; [reflexivity|lia]].
Qed.

Lemma in_hcpBases dims i : In i (hcpBases dims) <-> c08Box dims ov1 i.
Proof.
  unfold hcpBases. rewrite in_flat_map. split.
  - intros ((c & b) & _ & H). now apply in_hcpPack6 in H.
  - intros H. apply hcp_pack_exists in H as (c & b & H & I). exists (c, b). auto.
Qed.

Lemma NoDup_hcpBases dims : NoDup (hcpBases dims).
Proof.
  unfold hcpBases. apply NoDup_flat_map; [apply NoDup_hcpAllPacks|intros; apply NoDup_hcpPack6|].
  intros [c1 b1] [c2 b2] i H1 H2 I1 I2. cbn [snd] in *.
  pose proof (hcp_pack_sound _ _ _ _ H1 I1) as [C1 E1]. pose proof (hcp_pack_sound _ _ _ _ H2 I2) as [C2 E2].
  apply in_hcpAllPacks in H1 as [K1 _], H2 as [K2 _].
  destruct (covers_one (ix i) (iy i) (iz i)) as (c & _ & _ & U).
  assert (c1 = c2) by (rewrite (U c1 K1 C1), (U c2 K2 C2); reflexivity). congruence.
Qed.

Lemma hcp_calls near dims :
  concat (concat (hcpTasks near dims ov1)) = c08BaseSteps near dims ov1 (hcpBases dims).
Proof.
  unfold hcpTasks.
  transitivity (concat (concat (map (map (c08BaseSteps near dims ov1))
     (map (fun color => map (hcpPack6 dims ov1) (hcpPacks dims color)) (zrange 0 4))))).
  { rewrite map_map. f_equal. f_equal. apply map_ext. intros. now rewrite map_map. }
  rewrite c08_tasks_concat. f_equal. unfold hcpBases, hcpAllPacks.
  induction (zrange 0 4) as [|c l IH]; [reflexivity|]. cbn [map concat flat_map].
  rewrite concat_app, IH, flat_map_app. f_equal.
  induction (hcpPacks dims c) as [|p q IHq]; [reflexivity|]. cbn [map concat flat_map snd]. now rewrite IHq.
Qed.

Lemma hcp_perm near dims : gridFits dims ov1 ->
  Permutation (concat (concat (hcpTasks near dims ov1))) (c08Calls near dims ov1).
Proof.
  intros Hv. rewrite hcp_calls. apply c08_calls_perm; [assumption|apply NoDup_hcpBases|apply in_hcpBases].
Qed.

Lemma hcp_raceFree near dims : gridFits dims ov1 -> Forall raceFree (hcpTasks near dims ov1).
Proof.
  intros Hv. apply Forall_forall. intros col Hcol. unfold hcpTasks in Hcol.
  apply in_map_iff in Hcol as (color & <- & Hc). apply in_zrange in Hc.
  apply raceFree_map; [apply NoDup_hcpPacks|].
  intros b1 b2 c H1 H2 Hne A1 A2.
  apply c08BaseSteps_accesses in A1 as (i1 & p1 & I1 & G1 & E1 & P1);
    [|assumption|intros b Hb; now apply in_hcpPack6 in Hb].
  apply c08BaseSteps_accesses in A2 as (i2 & p2 & I2 & G2 & E2 & P2);
    [|assumption|intros b Hb; now apply in_hcpPack6 in Hb].
  assert (p1 = p2) by (apply (threeToOneD_inj dims); congruence). subst p2.
  apply in_hcpPacks in H1; [|lia]. apply in_hcpPacks in H2; [|lia]. cbv zeta in *.
  apply in_hcpPack6 in I1 as [_ S1], I2 as [_ S2]. cbn [ov1 ix iy iz] in *.
  apply Hne. clear Hne E1 E2 G1 G2 Hv.
  assert (Ez : iz b1 = iz b2) by lia.
  rewrite Ez in *. set (sx := hcpStartX color) in *. set (dz := iz b2 - hcpStartZ color) in *.
  assert (Dy : shiftM (iy b1) dz - shiftM (iy b2) dz = 3 * (iy b1 mod 2 - iy b2 mod 2)) by (unfold shiftM; lia).
  set (w1 := shiftM (iy b1) dz) in *. set (w2 := shiftM (iy b2) dz) in *.
  clearbody w1 w2 sx dz.
  assert (Ey : iy b1 = iy b2) by lia.
  rewrite Ey in *. apply i3_ext; lia.
Qed.
