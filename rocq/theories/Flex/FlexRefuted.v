(** Runs of the load balancer and the exchange of particles. *)
From Coq Require Import Reals Lra List ZArith Lia Bool.
From Verif.Base Require Import OptionM ZRange.
From Verif.Grid Require Import IndexModel.
From Verif.Functor Require Import SortModel.
From Verif.Container Require Import IteratorModel ParticleModel.
From Verif.Flex Require Import DomainModel DomainSpec DomainProofs GridProofs ExchangeModel ExchangeSpec HaloProofs BalanceProofs FlexExample.
Import ListNotations.
Local Open Scope R_scope.

Lemma near_far x y : 0 <= x <= 10 -> 0 <= y <= 10 -> 1 / 10 < x - y \/ 1 / 10 < y - x -> isNearRel x y = false.
Proof.
  intros Hx Hy H. unfold isNearRel. destruct (Rle_dec _ _) as [L|_]; [|reflexivity]. exfalso. rewrite (Rabs_right x), (Rabs_right y) in L by lra.
  assert (M : Rmax x y <= 10) by (apply Rmax_lub; lra). assert (A : 1 / 10 < Rabs (x - y)) by (unfold Rabs; destruct Rcase_abs; lra). lra.
Qed.

(** Load balancing with more work of rank 0. *)
Definition exWork (r : Z) : R := if (r =? 0)%Z then 3 else 1.
Lemma ex_plane : balancedMax exMin exMax exGrid 3 exBoxes exWork AX 0 = Some (7 / 2).
Proof.
  destruct ex_box0 as [A1 A2]. destruct ex_box2 as [C1 C2]. unfold balancedMax. change (rightNeighbor exGrid AX 0) with 2%Z. rewrite A1, A2, C1, C2. cbn [at3 exMin exMax rx].
  rewrite !near_far by lra. unfold averageWork. change (1 <? iy exGrid * iz exGrid)%Z with true. cbn iota.
  change (plane exGrid AX 0) with [0%Z; 1%Z]. change (plane exGrid AX 2) with [2%Z; 3%Z]. cbn [fold_left].
  change (exWork 0) with 3. change (exWork 1) with 1. change (exWork 2) with 1. change (exWork 3) with 1. change (IZR (iy exGrid * iz exGrid)) with 2.
  unfold balanceAdjacentDomains. destruct (Req_EM_T _ _) as [Q|_]; [lra|]. destruct (Rlt_dec _ _) as [_|Q]; [|exfalso; apply Q; lra]. f_equal. lra.
Qed.
Lemma ex_balanced : exists bs, reachableBoxes exMin exMax exGrid 3 bs /\ boxMax bs 0 <> boxMax exBoxes 0.
Proof.
  assert (Hw : forall r, isRank exGrid r -> 0 < exWork r) by (intros r _; unfold exWork; destruct (Z.eqb r 0); lra).
  destruct ex_grid as [B G]. destruct (balance_grid _ _ _ _ _ _ G (proj1 (proj2 ex_suitable)) (proj1 ex_suitable) exWork Hw) as (bs & B' & E & _ & _).
  exists bs. split; [apply boxes_balanced with exBoxes exWork; [constructor|exact Hw|exact E]|].
  specialize (E 0%Z ltac:(unfold isRank; cbn; lia)). intros Eq. rewrite Eq in E.
  unfold balancedBox in E. rewrite ex_plane in E. destruct ex_box0 as [_ A2]. rewrite A2 in E.
  repeat match type of E with context [match ?u with _ => _ end] => destruct u; [|discriminate] end. injection E. intros. lra.
Qed.

Lemma ex_migrate_balanced : exists cfg x, suitable exMin exMax exGrid 3 /\ (forall r, isRank exGrid r -> 0 < exWork r) /\
  (forall r, isRank exGrid r -> balancedBox exMin exMax exGrid 3 exBoxes exWork r = Some (boxMin (boxes cfg) r, boxMax (boxes cfg) r)) /\
  globalMin cfg = exMin /\ globalMax cfg = exMax /\ decomposition cfg = exGrid /\ justInsideBox cfg /\ (forall a, (1 <= sendSteps cfg a)%nat) /\
  inRankBox exBoxes 0 x /\ ~ inRankBox (boxes cfg) 0 x.
Proof.
  assert (Hw : forall r, isRank exGrid r -> 0 < exWork r) by (intros r _; unfold exWork; destruct (Z.eqb r 0); lra).
  destruct ex_grid as [B G]. destruct (balance_grid _ _ _ _ _ _ G (proj1 (proj2 ex_suitable)) (proj1 ex_suitable) exWork Hw) as (bs & B' & E & G' & _).
  exists (mkConfig 1 (1/2) exMin exMax (fun _ => Periodic) exGrid bs (fun _ => 7) (fun _ => 1%nat)), (mkR3 (15/4) 1 1). cbn [boxes globalMin globalMax decomposition].
  split; [exact ex_suitable|]. split; [exact Hw|]. split; [exact E|]. split; [reflexivity|]. split; [reflexivity|]. split; [reflexivity|]. split; [|split; [intros a; constructor|split]].
  - intros a. cbn [justInside globalMax boxes decomposition]. split; [destruct a; cbn; lra|]. intros r H. pose proof (box_width _ _ _ _ _ _ G' r a H). pose proof (box_inside _ _ _ _ _ _ G' (proj1 ex_suitable) r a H) as [_ K].
    destruct a; cbn [at3 exMax rx ry rz] in *; lra.
  - destruct ex_box0 as [A1 A2]. intros a. rewrite A1, A2. destruct a; cbn [at3 rx ry rz]; lra.
  - intros H. specialize (H AX). specialize (E 0%Z ltac:(unfold isRank; cbn; lia)). unfold balancedBox in E. rewrite ex_plane in E.
    repeat match type of E with context [match ?u with _ => _ end] => destruct u; [|discriminate] end. injection E as _ Q. rewrite <- Q in H. cbn [at3 rx] in H. lra.
Qed.

(** Two ranks with boxes of the width 11/10; cutoff and skin are 1 together. *)
Definition narrowMax : R3 := mkR3 (22 / 10) 4 4.
Lemma narrow_refuted : exists gMin gMax d w, 0 < w /\ distinguishable gMin gMax (w / 2) /\
  (forall r a, isRank d r -> w / 2 <= at3 a (initialMax gMin gMax d r) - at3 a (initialMin gMin gMax d r)) /\
  exists r lo hi, isRank d r /\
    balancedBox gMin gMax d w (mkBoxes (initialMin gMin gMax d) (initialMax gMin gMax d)) (fun _ => 1) r = Some (lo, hi) /\ at3 AX hi - at3 AX lo < w / 2.
Proof.
  exists exMin, narrowMax, (mkI3 2 1 1), 2. split; [lra|].
  assert (Ds : distinguishable exMin narrowMax (2 / 2)).
  { intros a. assert (E : Rmax (Rabs (at3 a exMin)) (Rabs (at3 a narrowMax)) <= 4); [|lra].
    destruct a; cbn [at3 exMin narrowMax rx ry rz]; rewrite Rabs_R0, Rabs_right, Rmax_right by lra; lra. }
  split; [exact Ds|].
  assert (G : gridOf exMin narrowMax (mkI3 2 1 1) (2 / 2) (mkBoxes (initialMin exMin narrowMax (mkI3 2 1 1)) (initialMax exMin narrowMax (mkI3 2 1 1))) (fun a i => IZR i * localWidth exMin narrowMax (mkI3 2 1 1) a + at3 a exMin)).
  { apply initial_grid; intros a; destruct a; cbn [iat at3 exMin narrowMax rx ry rz ix iy iz]; lia || lra. }
  split; [intros r a H; exact (box_width _ _ _ _ _ _ G r a H)|].
  set (bs := mkBoxes _ _) in *. set (d := mkI3 2 1 1) in *.
  assert (B0 : boxMin bs 0 = mkR3 0 0 0 /\ boxMax bs 0 = mkR3 (11 / 10) 4 4).
  { cbn [bs boxMin boxMax]. unfold initialMin, initialMax. change (indexToId 0 d) with (mkI3 0 0 0). unfold localWidth. cbn [iat at3 exMin narrowMax d rx ry rz ix iy iz]. rewrite ?plus_IZR. split; f_equal; lra. }
  assert (B1 : boxMin bs 1 = mkR3 (11 / 10) 0 0 /\ boxMax bs 1 = mkR3 (22 / 10) 4 4).
  { cbn [bs boxMin boxMax]. unfold initialMin, initialMax. change (indexToId 1 d) with (mkI3 1 0 0). unfold localWidth. cbn [iat at3 exMin narrowMax d rx ry rz ix iy iz]. rewrite ?plus_IZR. split; f_equal; lra. }
  destruct B0 as [A1 A2]. destruct B1 as [C1 C2].
  exists 1%Z, (mkR3 (31 / 20) 0 0), (mkR3 (22 / 10) 4 4). split; [unfold isRank; cbn; lia|]. split; [|cbn [at3 rx]; lra].
  assert (M : balancedMin exMin narrowMax d 2 bs (fun _ => 1) AX 1 = Some (31 / 20)).
  { unfold balancedMin. change (leftNeighbor d AX 1) with 0%Z. rewrite A1, A2, C1, C2. cbn [at3 exMin narrowMax rx]. rewrite !near_far by lra.
    unfold averageWork. change (1 <? iy d * iz d)%Z with false. cbn iota. unfold balanceAdjacentDomains. destruct (Req_EM_T _ _) as [Q|_]; [lra|].
    destruct (Rlt_dec _ _) as [_|Q]; [|exfalso; apply Q; lra]. f_equal. lra. }
  assert (My : balancedMin exMin narrowMax d 2 bs (fun _ => 1) AY 1 = Some 0) by (unfold balancedMin; rewrite C1; cbn [at3 exMin ry]; rewrite near_self; reflexivity).
  assert (Mz : balancedMin exMin narrowMax d 2 bs (fun _ => 1) AZ 1 = Some 0) by (unfold balancedMin; rewrite C1; cbn [at3 exMin rz]; rewrite near_self; reflexivity).
  assert (Ux : balancedMax exMin narrowMax d 2 bs (fun _ => 1) AX 1 = Some (22 / 10)) by (unfold balancedMax; rewrite C2; cbn [at3 narrowMax rx]; rewrite near_self; reflexivity).
  assert (Uy : balancedMax exMin narrowMax d 2 bs (fun _ => 1) AY 1 = Some 4) by (unfold balancedMax; rewrite C2; cbn [at3 narrowMax ry]; rewrite near_self; reflexivity).
  assert (Uz : balancedMax exMin narrowMax d 2 bs (fun _ => 1) AZ 1 = Some 4) by (unfold balancedMax; rewrite C2; cbn [at3 narrowMax rz]; rewrite near_self; reflexivity).
  unfold balancedBox. rewrite M, My, Mz, Ux, Uy, Uz. reflexivity.
Qed.

(** ** Runs of the exchange *)
Ltac decideR :=
  repeat match goal with
  | |- context [Rle_dec ?x ?y] => let H := fresh in destruct (Rle_dec x y) as [H|H]; [|try (exfalso; apply H; lra)]; try (exfalso; lra)
  | |- context [Rlt_dec ?x ?y] => let H := fresh in destruct (Rlt_dec x y) as [H|H]; [|try (exfalso; apply H; lra)]; try (exfalso; lra)
  end.
Ltac evalR := unfold leaveLeft, leaveRight, insideLocal, insideDomain, nearLeft, nearRight, inInterval, forallb, axes, lo, hi, gLo, gHi, pcoord, withCoord, withPos;
  cbn [at3 set3 rx ry rz ppos boxes boxMin boxMax cutoffWidth skin globalMin globalMax Z.eqb]; decideR; try reflexivity.

(** One rank; the box is periodic in two dimensions and has the lengths 3/2 there; cutoff and
    skin are 1/2. *)
Definition narrowConfig : Config :=
  mkConfig (1/2) (1/2) (mkR3 0 0 0) (mkR3 (3/2) (3/2) 4) (fun a => match a with AZ => Reflective | _ => Periodic end) (mkI3 1 1 1)
    (mkBoxes (fun _ => mkR3 0 0 0) (fun _ => mkR3 (3/2) (3/2) 4)) (fun _ => 1) (fun _ => 1%nat).
Definition at_ (x y z : R) : Particle := mkParticle 5 (mkR3 x y z) stOwned 9.
Definition narrowOwned (_ : Z) : list Particle := [at_ (1/4) (3/4) 1].
Lemma narrow_near a r : atMin narrowConfig a r = true /\ atMax narrowConfig a r = true.
Proof. unfold atMin, atMax. split; destruct a; apply near_self. Qed.
Lemma single_step a h l : skips narrowConfig a 0 = false -> boundary narrowConfig a = Periodic -> leftNeighbor (mkI3 1 1 1) a 0 = 0%Z -> h 0%Z = Some l ->
  haloStep narrowConfig narrowOwned h a 0 = Some (l ++ (collectForLeft narrowConfig a 0 (narrowOwned 0) ++ forwardLeft narrowConfig a 0 l) ++ (collectForRight narrowConfig a 0 (narrowOwned 0) ++ forwardRight narrowConfig a 0 l)).
Proof.
  intros Sk Pe Ln E. unfold haloStep. rewrite E, Sk. unfold sendAndReceive. change (decomposition narrowConfig) with (mkI3 1 1 1). rewrite Ln, Z.eqb_refl. unfold haloSends. rewrite E, Sk, Pe.
  cbn [isPeriodic orb]. rewrite <- !app_assoc. reflexivity.
Qed.
Lemma narrow_run : exchangeHaloParticles narrowConfig narrowOwned 0 =
  Some [at_ (1/4 + (3/2 - 0)) (3/4) 1; at_ (1/4) (3/4 + (3/2 - 0)) 1; at_ (1/4 + (3/2 - 0)) (3/4 + (3/2 - 0)) 1; at_ (1/4) (3/4 + - (3/2 - 0)) 1].
Proof.
  unfold exchangeHaloParticles. cbn [fold_left axes].
  assert (E1 : haloStep narrowConfig narrowOwned (fun _ => Some []) AX 0 = Some [at_ (1/4 + (3/2 - 0)) (3/4) 1]).
  { rewrite (single_step AX _ []) by reflexivity. cbn [app]. unfold collectForLeft, collectForRight, forwardLeft, forwardRight. cbn [filter map app narrowOwned].
    destruct (narrow_near AX 0) as [-> ->]. assert (A : insideDomain (boxMin (boxes narrowConfig) 0) (set3 AX (lo narrowConfig AX 0 + cutoffWidth narrowConfig + skin narrowConfig) (boxMax (boxes narrowConfig) 0)) (ppos (at_ (1/4) (3/4) 1)) = true) by (unfold narrowConfig, at_; evalR).
    assert (B : insideDomain (set3 AX (hi narrowConfig AX 0 - cutoffWidth narrowConfig - skin narrowConfig) (boxMin (boxes narrowConfig) 0)) (boxMax (boxes narrowConfig) 0) (ppos (at_ (1/4) (3/4) 1)) = false) by (unfold narrowConfig, at_; evalR).
    rewrite A, B. reflexivity. }
  assert (E2 : haloStep narrowConfig narrowOwned (haloStep narrowConfig narrowOwned (fun _ => Some []) AX) AY 0 = Some [at_ (1/4 + (3/2 - 0)) (3/4) 1; at_ (1/4) (3/4 + (3/2 - 0)) 1; at_ (1/4 + (3/2 - 0)) (3/4 + (3/2 - 0)) 1; at_ (1/4) (3/4 + - (3/2 - 0)) 1]).
  { rewrite (single_step AY _ _) with (4 := E1); [|reflexivity|reflexivity|reflexivity]. unfold collectForLeft, collectForRight, forwardLeft, forwardRight. cbn [filter map app narrowOwned].
    destruct (narrow_near AY 0) as [-> ->].
    assert (A : insideDomain (boxMin (boxes narrowConfig) 0) (set3 AY (lo narrowConfig AY 0 + cutoffWidth narrowConfig + skin narrowConfig) (boxMax (boxes narrowConfig) 0)) (ppos (at_ (1/4) (3/4) 1)) = true) by (unfold narrowConfig, at_; evalR).
    assert (B : insideDomain (set3 AY (hi narrowConfig AY 0 - cutoffWidth narrowConfig - skin narrowConfig) (boxMin (boxes narrowConfig) 0)) (boxMax (boxes narrowConfig) 0) (ppos (at_ (1/4) (3/4) 1)) = true) by (unfold narrowConfig, at_; evalR).
    assert (C : nearLeft narrowConfig AY 0 (at_ (1/4 + (3/2 - 0)) (3/4) 1) = true) by (unfold narrowConfig, at_; evalR).
    rewrite A, B, C. reflexivity. }
  unfold haloStep at 1. rewrite E2. destruct (narrow_near AZ 0) as [Z1 Z2]. unfold skips. rewrite Z1, Z2. reflexivity.
Qed.
Lemma halo_narrow_refuted : exists cfg owned q, 0 < cutoffWidth cfg /\ 0 <= skin cfg /\ (forall a, exchangeable cfg a) /\ isRank (decomposition cfg) 0 /\
  (forall a, cutoffWidth cfg + skin cfg <= at3 a (boxMax (boxes cfg) 0) - at3 a (boxMin (boxes cfg) 0)) /\
  (forall r p, In p (owned r) -> inRankBox (boxes cfg) r (ppos p)) /\
  haloImage cfg owned 0 q /\ exists halo, exchangeHaloParticles cfg owned 0 = Some halo /\ ~ In q halo.
Proof.
  exists narrowConfig, narrowOwned, (at_ (1/4 + (3/2 - 0)) (3/4 - (3/2 - 0)) 1). cbn [cutoffWidth skin narrowConfig decomposition]. split; [lra|]. split; [lra|].
  split; [intros a; destruct a; [left; reflexivity|left; reflexivity|right; left; reflexivity]|]. split; [unfold isRank; cbn; lia|]. split; [intros a; destruct a; cbn [boxes narrowConfig boxMax boxMin at3 rx ry rz]; lra|].
  split; [intros r p [<-|[]] a; destruct a; cbn [boxes narrowConfig boxMax boxMin at3 rx ry rz at_ ppos]; lra|]. split.
  - exists 0%Z, (at_ (1/4) (3/4) 1), (fun a => match a with AX => 1 | AY => -1 | AZ => 0 end)%Z. split; [unfold isRank; cbn; lia|]. split; [now left|].
    split; [intros a N; destruct a; [now destruct N|now destruct N|reflexivity]|]. split; [|split].
    + repeat split. intros a; destruct a; cbn [at3 at_ ppos rx ry rz globalMin globalMax narrowConfig]; lra.
    + intros a; destruct a; cbn [boxes narrowConfig boxMax boxMin at3 rx ry rz at_ ppos cutoffWidth skin]; lra.
    + intros H. specialize (H AX). cbn [boxes narrowConfig boxMax boxMin at3 rx ry rz at_ ppos] in H. lra.
  - eexists. split; [exact narrow_run|]. intros [H|[H|[H|[H|[]]]]]; injection H; intros; lra.
Qed.

(** Two ranks along y; the box is periodic in x only. *)
Definition wallConfig : Config :=
  mkConfig 1 (1/2) (mkR3 0 0 0) (mkR3 8 8 8) (fun a => match a with AX => Periodic | _ => Reflective end) (mkI3 1 2 1)
    (mkBoxes (fun r => if (r =? 0)%Z then mkR3 0 0 0 else mkR3 0 4 0) (fun r => if (r =? 0)%Z then mkR3 8 4 8 else mkR3 8 8 8)) (fun _ => 7) (fun _ => 1%nat).
Definition wallOwned (r : Z) : list Particle := if (r =? 0)%Z then [at_ (1/4) (1/4) 1] else [].
Lemma wall_grid : gridOf (globalMin wallConfig) (globalMax wallConfig) (decomposition wallConfig) 4 (boxes wallConfig)
  (fun a i => match a with AY => 4 * IZR i | _ => 8 * IZR i end).
Proof.
  split.
  - intros a; destruct a; cbn; lia.
  - intros a; destruct a; cbn [globalMin wallConfig at3 rx ry rz]; lra.
  - intros a; destruct a; cbn [globalMax wallConfig at3 rx ry rz decomposition iat ix iy iz]; lra.
  - intros a i _. destruct a; rewrite plus_IZR; lra.
  - intros r a H. assert (r = 0 \/ r = 1)%Z as [-> | ->] by (unfold isRank in H; cbn in H; lia).
    + change (indexToId 0 (decomposition wallConfig)) with (mkI3 0 0 0). destruct a; cbn [boxes wallConfig boxMin Z.eqb at3 rx ry rz iat ix iy iz]; lra.
    + change (indexToId 1 (decomposition wallConfig)) with (mkI3 0 1 0). destruct a; cbn [boxes wallConfig boxMin Z.eqb at3 rx ry rz iat ix iy iz]; lra.
  - intros r a H. assert (r = 0 \/ r = 1)%Z as [-> | ->] by (unfold isRank in H; cbn in H; lia).
    + change (indexToId 0 (decomposition wallConfig)) with (mkI3 0 0 0). rewrite plus_IZR. destruct a; cbn [boxes wallConfig boxMax Z.eqb at3 rx ry rz iat ix iy iz]; lra.
    + change (indexToId 1 (decomposition wallConfig)) with (mkI3 0 1 0). rewrite plus_IZR. destruct a; cbn [boxes wallConfig boxMax Z.eqb at3 rx ry rz iat ix iy iz]; lra.
Qed.
Lemma wall_distinct : distinguishable (globalMin wallConfig) (globalMax wallConfig) 4.
Proof.
  intros a. assert (E : Rmax (Rabs (at3 a (globalMin wallConfig))) (Rabs (at3 a (globalMax wallConfig))) = 8); [|rewrite E; lra].
  destruct a; cbn [at3 wallConfig globalMin globalMax rx ry rz]; rewrite Rabs_R0, (Rabs_right 8), Rmax_right by lra; reflexivity.
Qed.
Lemma wall_min a r : isRank (mkI3 1 2 1) r -> atMin wallConfig a r = (iat a (indexToId r (mkI3 1 2 1)) =? 0)%Z.
Proof. apply (near_min _ _ _ _ _ _ wall_grid ltac:(lra) wall_distinct). Qed.
Lemma wall_max a r : isRank (mkI3 1 2 1) r -> atMax wallConfig a r = (iat a (indexToId r (mkI3 1 2 1)) + 1 =? iat a (mkI3 1 2 1))%Z.
Proof. apply (near_max _ _ _ _ _ _ wall_grid ltac:(lra) wall_distinct). Qed.
Lemma wall_rank0 : isRank (mkI3 1 2 1) 0. Proof. unfold isRank; cbn; lia. Qed.
Lemma wall_rank1 : isRank (mkI3 1 2 1) 1. Proof. unfold isRank; cbn; lia. Qed.

Lemma wall_run : exchangeHaloParticles wallConfig wallOwned 1 = Some [at_ (1/4 + (8 - 0)) (1/4 + (8 - 0)) 1].
Proof.
  unfold exchangeHaloParticles. cbn [fold_left axes].
  pose proof (wall_min AX 0 wall_rank0) as X0. pose proof (wall_max AX 0 wall_rank0) as X0'. pose proof (wall_min AX 1 wall_rank1) as X1. pose proof (wall_max AX 1 wall_rank1) as X1'.
  pose proof (wall_min AY 0 wall_rank0) as Y0. pose proof (wall_max AY 0 wall_rank0) as Y0'. pose proof (wall_min AY 1 wall_rank1) as Y1. pose proof (wall_max AY 1 wall_rank1) as Y1'.
  pose proof (wall_min AZ 1 wall_rank1) as Z1. pose proof (wall_max AZ 1 wall_rank1) as Z1'. cbn in X0, X0', X1, X1', Y0, Y0', Y1, Y1', Z1, Z1'.
  assert (E0 : haloStep wallConfig wallOwned (fun _ => Some []) AX 0 = Some [at_ (1/4 + (8 - 0)) (1/4) 1]).
  { unfold haloStep. change (skips wallConfig AX 0) with false. cbn iota. unfold sendAndReceive. change (leftNeighbor (decomposition wallConfig) AX 0) with 0%Z. cbn [Z.eqb]. unfold haloSends.
    change (skips wallConfig AX 0) with false. cbn iota. cbn [boundary wallConfig isPeriodic orb app]. unfold collectForLeft, collectForRight, forwardLeft, forwardRight. cbn [filter map app wallOwned Z.eqb].
    change (wallOwned 0) with [at_ (1/4) (1/4) 1]. cbn [filter].
    fold wallConfig. assert (A : insideDomain (boxMin (boxes wallConfig) 0) (set3 AX (lo wallConfig AX 0 + cutoffWidth wallConfig + skin wallConfig) (boxMax (boxes wallConfig) 0)) (ppos (at_ (1/4) (1/4) 1)) = true) by (unfold wallConfig, at_; evalR).
    assert (B : insideDomain (set3 AX (hi wallConfig AX 0 - cutoffWidth wallConfig - skin wallConfig) (boxMin (boxes wallConfig) 0)) (boxMax (boxes wallConfig) 0) (ppos (at_ (1/4) (1/4) 1)) = false) by (unfold wallConfig, at_; evalR).
    rewrite A, B, X0. reflexivity. }
  assert (E1 : haloStep wallConfig wallOwned (fun _ => Some []) AX 1 = Some []).
  { unfold haloStep. change (skips wallConfig AX 1) with false. cbn iota. unfold sendAndReceive. change (leftNeighbor (decomposition wallConfig) AX 1) with 1%Z. cbn [Z.eqb Pos.eqb]. unfold haloSends.
    change (skips wallConfig AX 1) with false. cbn iota. cbn [boundary wallConfig isPeriodic orb app]. reflexivity. }
  assert (F1 : haloStep wallConfig wallOwned (haloStep wallConfig wallOwned (fun _ => Some []) AX) AY 1 = Some [at_ (1/4 + (8 - 0)) (1/4 + (8 - 0)) 1]).
  { set (H := haloStep wallConfig wallOwned (fun _ => Some []) AX) in *. unfold haloStep. rewrite E1. assert (S1 : skips wallConfig AY 1 = false) by (unfold skips; rewrite Y1; apply andb_false_intro1, andb_false_r). rewrite S1.
    unfold sendAndReceive. change (leftNeighbor (decomposition wallConfig) AY 1) with 0%Z. change (rightNeighbor (decomposition wallConfig) AY 1) with 0%Z. cbn [Z.eqb].
    unfold messages. unfold haloSends. rewrite E0. assert (S0 : skips wallConfig AY 0 = false) by (unfold skips; rewrite Y0'; apply andb_false_r). rewrite S0.
    change (leftNeighbor (decomposition wallConfig) AY 0) with 1%Z. change (rightNeighbor (decomposition wallConfig) AY 0) with 1%Z. cbn [Z.eqb Pos.eqb app].
    cbn [boundary isPeriodic]. change (isPeriodic (boundary wallConfig AY)) with false. rewrite Y0, Y0'. cbn [orb negb app].
    unfold collectForRight, forwardLeft, forwardRight. change (wallOwned 0) with [at_ (1/4) (1/4) 1]. cbn [filter].
    assert (B : insideDomain (set3 AY (hi wallConfig AY 0 - cutoffWidth wallConfig - skin wallConfig) (boxMin (boxes wallConfig) 0)) (boxMax (boxes wallConfig) 0) (ppos (at_ (1/4) (1/4) 1)) = false) by (unfold wallConfig, at_; evalR).
    assert (C : nearLeft wallConfig AY 0 (at_ (1/4 + (8 - 0)) (1/4) 1) = true) by (unfold wallConfig, at_; evalR).
    rewrite B, C, Y0. cbn [negb andb map app]. reflexivity. }
  set (H := haloStep wallConfig wallOwned (haloStep wallConfig wallOwned (fun _ => Some []) AX) AY) in *. unfold haloStep. rewrite F1.
  assert (S1 : skips wallConfig AZ 1 = true) by (unfold skips; rewrite Z1, Z1'; reflexivity). rewrite S1. reflexivity.
Qed.
Lemma halo_wall_refuted : exists cfg minWidth B owned q, gridOf (globalMin cfg) (globalMax cfg) (decomposition cfg) minWidth (boxes cfg) B /\
  distinguishable (globalMin cfg) (globalMax cfg) minWidth /\ 0 < cutoffWidth cfg /\ 0 <= skin cfg /\ 2 * (cutoffWidth cfg + skin cfg) <= minWidth /\
  (forall r p, In p (owned r) -> inRankBox (boxes cfg) r (ppos p)) /\ isRank (decomposition cfg) 1 /\
  (exists halo, exchangeHaloParticles cfg owned 1 = Some halo /\ In q halo) /\ ~ haloImage cfg owned 1 q.
Proof.
  eexists wallConfig, 4, _, wallOwned, _. split; [exact wall_grid|]. split; [exact wall_distinct|]. cbn [cutoffWidth skin wallConfig]. split; [lra|]. split; [lra|]. split; [lra|].
  split; [|split; [exact wall_rank1|split; [eexists; split; [exact wall_run|now left]|]]].
  - intros r p I. unfold wallOwned in I. destruct (Z.eqb_spec r 0) as [->|_]; [|destruct I]. destruct I as [<-|[]]. intros a. destruct a; cbn [boxes wallConfig boxMin boxMax Z.eqb at3 rx ry rz at_ ppos]; lra.
  - intros (s & p & k & _ & I & Np & (_ & _ & _ & Im) & _). specialize (Im AY). rewrite (Np AY) in Im by discriminate. unfold wallOwned in I. destruct (s =? 0)%Z; [|destruct I]. destruct I as [<-|[]].
    cbn [at3 at_ ppos ry] in Im. lra.
Qed.

(** Two ranks along x, without any boundary treatment. *)
Definition openConfig : Config :=
  mkConfig 1 (1/2) (mkR3 0 0 0) (mkR3 8 8 8) (fun _ => NoBoundary) (mkI3 2 1 1)
    (mkBoxes (fun r => if (r =? 0)%Z then mkR3 0 0 0 else mkR3 4 0 0) (fun r => if (r =? 0)%Z then mkR3 4 8 8 else mkR3 8 8 8)) (fun _ => 79/10) (fun _ => 1%nat).
Definition openLeaving (r : Z) : list Particle := if (r =? 0)%Z then [at_ (- (1/4)) 1 1] else [].
Lemma open_near : atMin openConfig AX 0 = true /\ atMax openConfig AX 0 = false /\ atMin openConfig AX 1 = false /\ (forall a, a <> AX -> atMin openConfig a 1 = true /\ atMax openConfig a 1 = true).
Proof.
  split; [apply near_self|]. split; [apply near_far; cbn; lra|]. split; [apply near_far; cbn; lra|]. intros a N. destruct a; [contradiction| |]; split; apply near_self.
Qed.
Lemma open_run : exchangeMigratingParticles openConfig openLeaving 1 = Some [at_ (- (1/4) + (8 - 0)) 1 1].
Proof.
  destruct open_near as (N1 & N2 & N3 & N4). unfold exchangeMigratingParticles. cbn [fold_left axes]. unfold migrationAxis. cbn [sendSteps openConfig Nat.iter nat_rect]. fold openConfig.
  set (m0 := fun r' => Some (mkMig (openLeaving r') [])).
  assert (E1 : migrationStep openConfig m0 AX 1 = Some (mkMig [] [at_ (- (1/4) + (8 - 0)) 1 1])).
  { unfold migrationStep. unfold m0 at 1. assert (S1 : skips openConfig AX 1 = false) by (unfold skips; rewrite N3; reflexivity). rewrite S1.
    unfold sendAndReceive. change (leftNeighbor (decomposition openConfig) AX 1) with 0%Z. change (rightNeighbor (decomposition openConfig) AX 1) with 0%Z. cbn [Z.eqb].
    unfold messages, migrationSends. unfold m0. assert (S0 : skips openConfig AX 0 = false) by (unfold skips; rewrite N1, N2; reflexivity). rewrite S0.
    change (leftNeighbor (decomposition openConfig) AX 0) with 1%Z. change (rightNeighbor (decomposition openConfig) AX 0) with 1%Z.
    change (openLeaving 0) with [at_ (- (1/4)) 1 1]. change (openLeaving 1) with (@nil Particle). cbn [emigrants inserted]. unfold categorize. cbn [filter map fst snd Z.eqb Pos.eqb app].
    assert (L : leaveLeft openConfig AX 0 (at_ (- (1/4)) 1 1) = true) by (unfold openConfig, at_; evalR).
    assert (K : leaveRight openConfig AX 0 (at_ (- (1/4)) 1 1) = false) by (unfold leaveRight; rewrite L; reflexivity).
    rewrite L, K. cbn [map app]. unfold sentLeft. rewrite N1. change (justInside openConfig AX) with (79/10).
    rewrite Rmin_right by (cbn; lra). change (withCoord AX (pcoord AX (at_ (- (1/4)) 1 1) + (gHi openConfig AX - gLo openConfig AX)) (at_ (- (1/4)) 1 1)) with (at_ (- (1/4) + (8 - 0)) 1 1).
    assert (I : insideLocal openConfig 1 (at_ (- (1/4) + (8 - 0)) 1 1) = true) by (unfold openConfig, at_, insideLocal; cbn [Z.eqb boxes boxMin boxMax]; evalR).
    cbn [app filter]. rewrite I. reflexivity. }
  assert (Sy : skips openConfig AY 1 = true) by (unfold skips; destruct (N4 AY ltac:(discriminate)) as [-> ->]; reflexivity).
  assert (Sz : skips openConfig AZ 1 = true) by (unfold skips; destruct (N4 AZ ltac:(discriminate)) as [-> ->]; reflexivity).
  set (m1 := migrationStep openConfig m0 AX) in *.
  assert (E2 : migrationStep openConfig m1 AY 1 = Some (mkMig [] [at_ (- (1/4) + (8 - 0)) 1 1])) by (unfold migrationStep; rewrite E1, Sy; reflexivity).
  set (m2 := migrationStep openConfig m1 AY) in *. unfold migrationStep at 1. rewrite E2, Sz. reflexivity.
Qed.
