(** Lennard-Jones particles after the history of ComputeExample.v. *)
From Coq Require Import Reals Lra List ZArith Permutation.
From Verif.Functor Require Import SortModel.
From Verif.Base Require Import ZRange OptionM.
From Verif.Grid Require Import CellBlockModel CellBlockSpec.
From Verif.Container Require Import IteratorModel IteratorContainers IteratorRegion ParticleModel ForEachModel.
From Verif.Logic Require Import BalanceModel RemainderModel ComputeExample.
From Verif.MD Require Import MixingModel LJModel LJSpec LJPhysics LJComputeSpec.
Import ListNotations.
Local Open Scope R_scope.

Definition samePoint (a b : R3) : bool :=
  (if Req_EM_T (rx a) (rx b) then true else false) && (if Req_EM_T (ry a) (ry b) then true else false) && (if Req_EM_T (rz a) (rz b) then true else false).
Definition sameParticle (p q : Particle) : bool :=
  Z.eqb (pid p) (pid q) && samePoint (ppos p) (ppos q) && Z.eqb (pown p) (pown q) && Z.eqb (pdata p) (pdata q).
Lemma sameParticle_eq p q : sameParticle p q = true <-> p = q.
Proof.
  unfold sameParticle, samePoint. destruct p as [i [x y z] o d], q as [i' [x' y' z'] o' d']. cbn [pid ppos pown pdata rx ry rz].
  rewrite !Bool.andb_true_iff, !Z.eqb_eq. split.
  - intros (((H1 & ((H2 & H3) & H4)) & H5) & H6).
    destruct (Req_EM_T x x'), (Req_EM_T y y'), (Req_EM_T z z'); try discriminate. congruence.
  - intros [= -> -> -> -> -> ->]. destruct (Req_EM_T x' x'), (Req_EM_T y' y'), (Req_EM_T z' z'); try contradiction. repeat split.
Qed.

Definition zField : Field := mkField (1 / 2) (fun _ _ => 1) (fun _ _ => 1 / 4) (fun _ _ => 0).
Lemma z_setup lib : setUp (setParticleProperties (24 * 1) (1 / 4 * (1 / 4)) (mkLJC false false true false (1 / 2 * (1 / 2)) (mkLJ 0 0 0) lib)) zField (fun _ => True).
Proof. apply (setUp_constants (1 / 2) 1 (1 / 4) false true false lib (mkLJ 0 0 0) (fun _ => True)). lra. Qed.

Lemma z_distance i j x y o o' : distance (ppos (zAt i x o)) (ppos (zAt j y o')) = Rabs (x - y).
Proof.
  unfold distance. cbn [zAt ppos rx ry rz]. replace ((x - y) * (x - y) + (1 / 2 - 1 / 2) * (1 / 2 - 1 / 2) + (1 / 2 - 1 / 2) * (1 / 2 - 1 / 2)) with (Rsqr (x - y)) by (unfold Rsqr; ring).
  apply sqrt_Rsqr_abs.
Qed.
Lemma z_position : generalPosition (1 / 2) (zOwned ++ zHalo).
Proof.
  intros p q Hp Hq N. cbn [zOwned zHalo app In] in Hp, Hq.
  repeat (destruct Hp as [<-|Hp]; [repeat (destruct Hq as [<-|Hq]; [first [exfalso; apply N; reflexivity|rewrite z_distance; split;
    [intros E; apply (f_equal rx) in E; cbn [zAt ppos rx] in E; lra|unfold Rabs; destruct (Rcase_abs _); lra]]|]); destruct Hq|]). destruct Hp.
Qed.
(** The first two particles repel each other. *)
Lemma z_force : forceOf (fun p => p) (fun _ => O) zField (zAt 1 (1 / 4 + 1 / 8) 1) (zAt 2 (1 / 2 + 1 / 8) 1) <> rzero.
Proof.
  unfold forceOf, interacting, ljForce. rewrite z_distance. replace (1 / 4 + 1 / 8 - (1 / 2 + 1 / 8)) with (- (1 / 4)) by lra. rewrite Rabs_Ropp, Rabs_pos_eq by lra.
  cbn [cutoffOf epsilonOf sigmaOf zField isDummy zAt pown Z.eqb stDummy negb andb]. destruct (Rle_dec (1 / 4) (1 / 2)) as [_|N]; [|lra].
  intros E. apply (f_equal rx) in E. unfold rscale, rsub, rzero in E. cbn [rx ppos] in E.
  replace (1 / 4 / (1 / 4)) with 1 in E by field. rewrite !pow1 in E.
  replace (24 * 1 * (2 * 1 - 1) / (1 / 4 * (1 / 4))) with 384 in E by field. cbn [zAt ppos rx] in E. lra.
Qed.

(** * A pair exactly at the cutoff distance, one of them in a buffer
    One particle in a buffer, one in the container (direct sum). *)
Definition twoCalls (inBuffer inContainer : Particle) : option (list RemainderModel.Call) :=
  remainder2B rndExact false (1 / 2) (fun b l h => dsForEachInRegion b l h [[inContainer]; []; []; []; []; []; []]) 2 [[inBuffer]] [[]].
Lemma two_right : twoCalls (zAt 1 0 1) (zAt 2 (1 / 2) 1) = Some [SoAFunctorSingle [zAt 1 0 1] true; SoAFunctorPair [zAt 1 0 1] [] false].
Proof.
  assert (B : inBoxb (low rndExact (1 / 2) (zAt 1 0 1)) (high rndExact (1 / 2) (zAt 1 0 1)) (ppos (zAt 2 (1 / 2) 1)) = false).
  { destruct (inBoxb _ _ _) eqn:E; [|reflexivity]. exfalso. apply inBoxb_iff in E. unfold low, high, rndExact in E. unfold inBox in E. cbn [zAt ppos rx ry rz] in E. lra. }
  unfold twoCalls, remainder2B. cbn -[inBoxb low high zAt]. unfold bufferContainer, flatM, bufferParticle. cbn -[inBoxb low high zAt].
  change (behaviorContains bhOwnedOrHalo (zAt 2 (1 / 2) 1)) with (Some true). cbn -[inBoxb low high zAt]. rewrite B. reflexivity.
Qed.
Lemma two_left : twoCalls (zAt 1 (1 / 2) 1) (zAt 2 0 1) =
  Some [AoSFunctor (zAt 1 (1 / 2) 1) (zAt 2 0 1) false; AoSFunctor (zAt 2 0 1) (zAt 1 (1 / 2) 1) false; SoAFunctorSingle [zAt 1 (1 / 2) 1] true; SoAFunctorPair [zAt 1 (1 / 2) 1] [] false].
Proof.
  assert (B : inBoxb (low rndExact (1 / 2) (zAt 1 (1 / 2) 1)) (high rndExact (1 / 2) (zAt 1 (1 / 2) 1)) (ppos (zAt 2 0 1)) = true).
  { apply inBoxb_iff. unfold low, high, rndExact, inBox. cbn [zAt ppos rx ry rz]. lra. }
  unfold twoCalls, remainder2B. cbn -[inBoxb low high zAt]. unfold bufferContainer, flatM, bufferParticle. cbn -[inBoxb low high zAt].
  change (behaviorContains bhOwnedOrHalo (zAt 2 0 1)) with (Some true). cbn -[inBoxb low high zAt]. rewrite B. reflexivity.
Qed.
Lemma at_cutoff : forceOf (fun p => p) (fun _ => O) zField (zAt 1 0 1) (zAt 2 (1 / 2) 1) <> rzero.
Proof.
  unfold forceOf, interacting, ljForce. rewrite z_distance. replace (0 - 1 / 2) with (- (1 / 2)) by lra. rewrite Rabs_Ropp, Rabs_pos_eq by lra.
  cbn [cutoffOf epsilonOf sigmaOf zField isDummy zAt pown Z.eqb stDummy negb andb]. destruct (Rle_dec (1 / 2) (1 / 2)) as [_|N]; [|lra].
  intros E. apply (f_equal rx) in E. unfold rscale, rsub, rzero in E. cbn [rx ppos] in E.
  replace (1 / 4 / (1 / 2)) with (1 / 2) in E by field. cbn [zAt ppos rx] in E.
  replace (24 * 1 * (2 * (1 / 2) ^ 12 - (1 / 2) ^ 6) / (1 / 2 * (1 / 2))) with (- (93 / 64)) in E by field. lra.
Qed.
