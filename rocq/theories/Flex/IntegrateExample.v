(** Concrete simulations: what goes wrong if forces are reset after a tuning phase, and a
    system that meets the hypotheses of the theorems. *)
From Coq Require Import Reals List Bool Arith Lra Lia.
From Verif.Functor Require Import SortModel SortSpec.
From Verif.MD Require Import LJModel.
From Verif.Flex Require Import IntegrateModel IntegrateSpec IntegrateProofs IntegrateTheorem.
Import ListNotations.
Local Open Scope R_scope.

Definition ex1 : R3 := mkR3 1 0 0.
Definition restMol : Mol := mkMol rzero rzero rzero rzero 1.

Lemma calc_one : forall g skin m, calculatePositionsAndResetForces 1 g skin false [m] =
  Some [mkMol (radd (mPos m) (radd (rscale (mVel m) 1) (rscale (mForce m) (1 * 1 / (2 * mMass m)))))
              (mVel m) g (mForce m) (mMass m)].
Proof. intros. rewrite calcP_nothrow by reflexivity. reflexivity. Qed.

Lemma moves_one : forall s, moves 1 s = negb (sPaused s).
Proof. intros s. unfold moves. destruct (Req_EM_T 1 0); [lra | reflexivity]. Qed.

Local Arguments moves : simpl never.
Local Arguments calculatePositionsAndResetForces : simpl never.
Ltac sim := unfold initSim; cbn; repeat (first [rewrite moves_one | rewrite calc_one | progress unfold needsMoreIterations, pass, passPositions, passVelocities, passCount]; cbn); reflexivity.

(** ** A boundary force is lost at the end of a tuning phase. *)
Definition exTuning (c : nat) : bool := (c =? 0)%nat.
Definition exBoundary (_ : nat) (_ : R3) : R3 := ex1.
Definition noForce (_ : list R3) (_ : nat) : R3 := rzero.

Lemma lost_run : exists s,
  run 1 rzero 1 false true 1 0 (fun p => p) exBoundary noForce exTuning 2 (initSim [restMol]) = Some s /\
  sPaused s = false /\ sIter s = 1%nat /\ vec (map mForce (sMols s)) 0 = rzero /\ vec (map mVel (sMols s)) 0 = rzero.
Proof.
  eexists. split; [| split; [| split; [| split]]].
  - sim.
  - reflexivity.
  - reflexivity.
  - cbn. r3.
  - cbn. unfold Rdiv. r3.
Qed.

(** ** The simulation goes on while tuning: the repeated force computation at the end of a
    tuning phase is the first iteration of the next phase. *)
Definition exTuning2 (c : nat) : bool := negb (c =? 1)%nat.

Lemma proceeds_run : exists s s',
  run 1 rzero 1 false true 3 0 (fun p => p) (fun _ _ => rzero) noForce exTuning2 2 (initSim [restMol]) = Some s /\
  pass 1 rzero 1 false true (fun p => p) (fun _ _ => rzero) noForce exTuning2 s = Some s' /\
  sCalls s = 3%nat /\ sCalls s' = 4%nat /\ sIter s' = S (sIter s).
Proof.
  eexists. eexists. split; [| split; [| split; [| split]]].
  - sim.
  - sim.
  - reflexivity.
  - reflexivity.
  - reflexivity.
Qed.

(** ** A simulation that starts with zero forces is not reversible: one step of a molecule at
    rest in a uniform field and back. *)
Definition flip (m : Mol) : Mol := mkMol (mPos m) (rneg (mVel m)) (mForce m) (mOldF m) (mMass m).
Definition exRun1 := run 1 ex1 1 false false 1 0 (fun p => p) (fun _ _ => rzero) noForce (fun _ => false) 1.

Lemma one_step : forall m, exists s, exRun1 (initSim [m]) = Some s /\ sPaused s = false /\ sIter s = 1%nat /\
  sMols s = [mkMol (radd (mPos m) (radd (rscale (mVel m) 1) (rscale (mForce m) (1 * 1 / (2 * mMass m)))))
                   (radd (mVel m) (rscale (radd (radd (radd ex1 rzero) rzero) (mForce m)) (1 / (2 * mMass m))))
                   (radd (radd ex1 rzero) rzero) (mForce m) (mMass m)].
Proof.
  intros m. eexists. split; [| split; [| split]].
  - unfold exRun1. sim.
  - reflexivity.
  - reflexivity.
  - reflexivity.
Qed.

Lemma not_reversible : exists s s',
  exRun1 (initSim [restMol]) = Some s /\ exRun1 (initSim (map flip (sMols s))) = Some s' /\
  sIter s' = sIter s /\ map mVel (sMols s') <> map rneg (map mVel [restMol]).
Proof.
  destruct (one_step restMol) as [s [A [B [C D]]]]. destruct (one_step (flip (nth 0 (sMols s) mol0))) as [s' [A' [B' [C' D']]]].
  exists s, s'. split; [exact A |]. split; [| split; [congruence |]].
  - rewrite <- A'. f_equal. f_equal. rewrite D. reflexivity.
  - rewrite D', D. cbn. intros E. injection E. intros. lra.
Qed.

(** ** The check of fast particles does nothing if the skin is tiny. *)
Lemma calc_tiny : calculatePositionsAndResetForces 1 rzero (/ 1000000) true [mkMol rzero ex1 rzero rzero 1] =
  Some [mkMol (radd rzero (radd (rscale ex1 1) (rscale rzero (1 * 1 / (2 * 1))))) ex1 rzero rzero 1].
Proof.
  unfold calculatePositionsAndResetForces. cbn [map existsb].
  assert (E : snd (movePosition 1 rzero (/ 1000000) true (mkMol rzero ex1 rzero rzero 1)) = false).
  { unfold movePosition, addRDistanceCheck, setRDistanceCheck. cbn [snd].
    replace (isNearAbs _ 0 _) with true; [rewrite orb_true_r; reflexivity |].
    symmetry. unfold isNearAbs, maxAllowedDistanceMovedSquared, maxAllowedDistanceMoved.
    destruct (Rle_dec _ _) as [_ | N]; [reflexivity | exfalso; apply N].
    rewrite Rminus_0_r, Rabs_pos_eq; lra. }
  rewrite E. reflexivity.
Qed.
Lemma tiny_skin : exists skin ms s, 0 < skin /\
  run 1 rzero skin true false 1 0 (fun p => p) (fun _ _ => rzero) noForce (fun _ => false) 1 (initSim ms) = Some s /\
  exists m, ms = [m] /\ l2Norm (rsub (vec (map mPos (sMols s)) 0) (mPos m)) > skin / 2.
Proof.
  exists (/ 1000000), [mkMol rzero ex1 rzero rzero 1]. eexists. split; [lra |]. split.
  - unfold initSim; cbn; unfold pass, passPositions; rewrite moves_one; cbn; rewrite calc_tiny; sim.
  - eexists. split; [reflexivity |]. unfold l2Norm.
    match goal with |- sqrt (dot ?a ?a) > _ => replace (dot a a) with 1 end.
    + rewrite sqrt_1. lra.
    + unfold dot. cbn. unfold Rdiv. ring.
Qed.

(** ** Two molecules attracting each other by a spring: the hypotheses of the theorems hold. *)
Definition spring (xs : list R3) (i : nat) : R3 :=
  match i with
  | O => rsub (vec xs 1) (vec xs 0)
  | S O => rsub (vec xs 0) (vec xs 1)
  | _ => rzero
  end.
Definition springMols : list Mol :=
  [mkMol rzero rzero ex1 rzero 1; mkMol ex1 rzero (mkR3 (-1) 0 0) rzero 2].
Lemma spring_sum : forall xs, vsum 2 (totalForce rzero (fun _ _ => rzero) spring xs) = rscale rzero (INR 2).
Proof. intros xs. unfold vsum, totalForce. cbn. r3. Qed.
Lemma spring_init : forall i, (i < 2)%nat ->
  mForce (nth i springMols mol0) = totalForce rzero (fun _ _ => rzero) spring (map mPos springMols) i.
Proof. intros [| [| i]] Hi; [| | lia]; unfold totalForce; cbn; r3. Qed.
