(** Examples: four ranks that divide the box [0, 8)^3, and runs of the exchange. *)
From Coq Require Import Reals Lra List ZArith Lia Bool.
From Verif.Base Require Import OptionM ZRange.
From Verif.Grid Require Import IndexModel.
From Verif.Functor Require Import SortModel.
From Verif.Container Require Import IteratorModel ParticleModel.
From Verif.Flex Require Import DomainModel DomainSpec DomainProofs GridProofs ExchangeModel ExchangeSpec HaloProofs BalanceProofs.
Import ListNotations.
Local Open Scope R_scope.

Definition exMin : R3 := mkR3 0 0 0.
Definition exMax : R3 := mkR3 8 8 8.
Definition exGrid : I3 := mkI3 2 1 2.
Lemma ex_generated : generateDecomposition 4 true false true = Some exGrid.
Proof. reflexivity. Qed.
Definition exBoxes : Boxes := mkBoxes (initialMin exMin exMax exGrid) (initialMax exMin exMax exGrid).
Lemma ex_suitable : suitable exMin exMax exGrid 3.
Proof.
  split; [lra|]. split.
  - intros a. assert (E : Rmax (Rabs (at3 a exMin)) (Rabs (at3 a exMax)) = 8); [|rewrite E; lra].
    destruct a; cbn [at3 exMin exMax rx ry rz]; rewrite Rabs_R0, (Rabs_right 8), Rmax_right by lra; reflexivity.
  - intros a. destruct a; cbn [iat at3 exMin exMax exGrid rx ry rz ix iy iz]; split; (lia || lra).
Qed.
(** Cutoff 1, skin 1/2, a periodic box. *)
Definition exConfig : Config :=
  mkConfig 1 (1/2) exMin exMax (fun _ => Periodic) exGrid exBoxes (fun _ => 7) (fun _ => 1%nat).
Lemma ex_grid : exists B, gridOf exMin exMax exGrid 3 exBoxes B.
Proof. apply reachable_grid; [exact ex_suitable|constructor]. Qed.

(** The boxes. *)
Lemma ex_box r : isRank exGrid r -> (r = 0 \/ r = 1 \/ r = 2 \/ r = 3)%Z.
Proof. unfold isRank, exGrid. cbn. lia. Qed.
Lemma ex_box0 : boxMin exBoxes 0 = mkR3 0 0 0 /\ boxMax exBoxes 0 = mkR3 4 8 4.
Proof.
  cbn [exBoxes boxMin boxMax]. unfold initialMin, initialMax. change (indexToId 0 exGrid) with (mkI3 0 0 0).
  unfold localWidth. cbn [iat at3 exMin exMax exGrid rx ry rz ix iy iz Z.add Pos.add]. rewrite ?plus_IZR. split; f_equal; lra.
Qed.
Lemma ex_box2 : boxMin exBoxes 2 = mkR3 4 0 0 /\ boxMax exBoxes 2 = mkR3 8 8 4.
Proof.
  cbn [exBoxes boxMin boxMax]. unfold initialMin, initialMax. change (indexToId 2 exGrid) with (mkI3 1 0 0).
  unfold localWidth. cbn [iat at3 exMin exMax exGrid rx ry rz ix iy iz Z.add Pos.add]. rewrite ?plus_IZR. split; f_equal; lra.
Qed.
(** One particle near a corner of the global box, owned by rank 0. *)
Definition exParticle : Particle := mkParticle 5 (mkR3 (1/4) (1/4) (1/4)) stOwned 9.
Definition exOwned (r : Z) : list Particle := if (r =? 0)%Z then [exParticle] else [].
Lemma ex_owned r p : isRank exGrid r -> In p (exOwned r) -> inRankBox exBoxes r (ppos p).
Proof.
  intros _ I. unfold exOwned in I. destruct (Z.eqb_spec r 0) as [->|_]; [|destruct I]. destruct I as [<-|[]]. destruct ex_box0 as [E1 E2].
  intros a. rewrite E1, E2. destruct a; cbn [at3 exParticle ppos rx ry rz]; lra.
Qed.
(** Its image beyond the corner is a halo particle of rank 2. *)
Definition exImage : Particle := mkParticle 5 (mkR3 (1/4 + 8) (1/4 + 8) (1/4)) stOwned 9.
Lemma ex_image : haloImage exConfig exOwned 2 exImage.
Proof.
  exists 0%Z, exParticle, (fun a => match a with AX => 1 | AY => 1 | AZ => 0 end)%Z. split; [unfold isRank; cbn; lia|]. split; [now left|]. split; [intros a N; now destruct N|].
  destruct ex_box2 as [E1 E2]. split; [|split].
  - repeat split. intros a. destruct a; cbn [at3 exImage exParticle exConfig globalMin globalMax exMin exMax ppos rx ry rz]; lra.
  - intros a. cbn [boxes exConfig cutoffWidth skin]. rewrite E1, E2. destruct a; cbn [at3 exImage ppos rx ry rz]; lra.
  - intros H. specialize (H AX). cbn [boxes exConfig] in H. rewrite E1, E2 in H. cbn [at3 exImage ppos rx ry rz] in H. lra.
Qed.

(** A particle of rank 0 that moved across the boundary of the global box in x and to the next
    rank in z. *)
Definition exGone : Particle := mkParticle 6 (mkR3 (- (1/4)) 1 5) stOwned 9.
Definition exLeaving (r : Z) : list Particle := if (r =? 0)%Z then [exGone] else [].
Lemma ex_leaving r p : isRank exGrid r -> In p (exLeaving r) -> leavingParticle exConfig 3 r p.
Proof.
  intros _ I. unfold exLeaving in I. destruct (Z.eqb_spec r 0) as [->|_]; [|destruct I]. destruct I as [<-|[]]. destruct ex_box0 as [E1 E2]. cbn [exConfig boxes]. split.
  - intros H. specialize (H AX). cbn [exConfig boxes] in H. rewrite E1, E2 in H. cbn [at3 exGone ppos rx] in H. lra.
  - intros a. cbn [exConfig boxes]. rewrite E1, E2. split; [now left|]. left. split; [constructor|]. left. destruct a; cbn [at3 exGone ppos rx ry rz]; lra.
Qed.
Lemma ex_boxMin r a : isRank exGrid r -> at3 a (boxMin exBoxes r) <= 7.
Proof.
  intros H. destruct (ex_box r H) as [->|[->|[->| ->]]]; cbn [exBoxes boxMin]; unfold initialMin, localWidth.
  - change (indexToId 0 exGrid) with (mkI3 0 0 0). destruct a; cbn [iat at3 exMin exMax exGrid rx ry rz ix iy iz]; lra.
  - change (indexToId 1 exGrid) with (mkI3 0 0 1). destruct a; cbn [iat at3 exMin exMax exGrid rx ry rz ix iy iz]; lra.
  - change (indexToId 2 exGrid) with (mkI3 1 0 0). destruct a; cbn [iat at3 exMin exMax exGrid rx ry rz ix iy iz]; lra.
  - change (indexToId 3 exGrid) with (mkI3 1 0 1). destruct a; cbn [iat at3 exMin exMax exGrid rx ry rz ix iy iz]; lra.
Qed.
