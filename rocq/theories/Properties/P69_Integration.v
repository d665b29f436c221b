(** C69: time integration of md-flexible. *)
From Coq Require Import Reals List Bool Arith Lra Lia.
From Verif.Functor Require Import SortModel SortSpec.
From Verif.MD Require Import LJModel.
From Verif.Flex Require Import IntegrateModel IntegrateSpec IntegrateProofs IntegrateTheorem IntegrateExample IntegrateResult.
Import ListNotations.
Local Open Scope R_scope.

(** Whatever iterations are tuning iterations and whether or not the simulation pauses while
    tuning, after [sIter s] time steps the molecules are where the Störmer-Verlet scheme puts
    them: the trajectory depends on the initial state only.  A paused simulation has moved the
    molecules of the next step and nothing else.  Reflective boundaries are excluded if the
    simulation pauses, see below. *)
Theorem C69_trajectory : forall dt g relocate boundaryForce interaction ms, dt <> 0 ->
  exists x v f,
    stoermerVerlet (length ms) dt (fun i => nth i (map mMass ms) 1) relocate
      (fun xs i => radd (radd g (boundaryForce i (vec xs i))) (interaction xs i)) x v f /\
    x 0%nat = map mPos ms /\ v 0%nat = map mVel ms /\ f 0%nat = map mForce ms /\
    forall skin throws pause iterations tuningPhases tuning k s,
      (pause = true -> forall i p, boundaryForce i p = rzero) ->
      run dt g skin throws pause iterations tuningPhases relocate boundaryForce interaction tuning k (initSim ms) = Some s ->
      map mVel (sMols s) = v (sIter s) /\
      (sPaused s = false -> map mPos (sMols s) = x (sIter s) /\ map mForce (sMols s) = f (sIter s)) /\
      (sPaused s = true -> map mPos (sMols s) = x (S (sIter s))).
Proof. exact trajectory_any. Qed.
Print Assumptions C69_trajectory.

(** A simulation that ends is not paused and has done exactly the requested number of steps; and
    it ends if no tuning phase goes on for ever. *)
Theorem C69_ends :
  (forall dt g skin throws pause iterations tuningPhases relocate boundaryForce interaction tuning k s ms,
    run dt g skin throws pause iterations tuningPhases relocate boundaryForce interaction tuning k (initSim ms) = Some s ->
    needsMoreIterations iterations tuningPhases s = false ->
    sPaused s = false /\ (tuningPhases = 0%nat -> sIter s = iterations)) /\
  (forall dt g skin pause iterations relocate boundaryForce interaction tuning ms,
    (forall c, exists d, (c <= d)%nat /\ tuning d = false) ->
    exists k s, run dt g skin false pause iterations 0 relocate boundaryForce interaction tuning k (initSim ms) = Some s /\
                sIter s = iterations /\ sPaused s = false).
Proof. exact (conj ends terminates). Qed.
Print Assumptions C69_ends.

(** Running a simulation, reversing the velocities and running it as long again returns to the
    initial positions with reversed velocities, even if the tuning phases are different, as
    long as the initial forces are those of the initial positions and nothing re-enters a
    periodic domain. *)
Theorem C69_reversible : forall dt g boundaryForce interaction ms, dt <> 0 ->
  forall skin throws pause its phases tuning k s skin' throws' pause' its' phases' tuning' k' s',
    (pause = true \/ pause' = true -> forall i p, boundaryForce i p = rzero) ->
    (forall i, (i < length ms)%nat ->
       vec (map mForce ms) i =
       radd (radd g (boundaryForce i (vec (map mPos ms) i))) (interaction (map mPos ms) i)) ->
    run dt g skin throws pause its phases (fun p => p) boundaryForce interaction tuning k (initSim ms) = Some s ->
    sPaused s = false ->
    run dt g skin' throws' pause' its' phases' (fun p => p) boundaryForce interaction tuning' k'
        (initSim (map (fun m => mkMol (mPos m) (rneg (mVel m)) (mForce m) (mOldF m) (mMass m)) (sMols s))) = Some s' ->
    sPaused s' = false -> sIter s' = sIter s ->
    map mPos (sMols s') = map mPos ms /\ map mVel (sMols s') = map rneg (map mVel ms) /\
    map mForce (sMols s') = map mForce ms.
Proof.
  intros dt g bF inter ms Hdt skin throws pause its phases tuning k s skin' throws' pause' its' phases' tuning' k' s' Hb H0.
  apply (reversible dt g bF inter ms Hdt skin throws pause its phases tuning k s skin' throws' pause' its' phases' tuning' k' s' Hb).
  intros i Hi. rewrite <- vecForce. now apply H0.
Qed.
Print Assumptions C69_reversible.

(** If interactions satisfy Newton's third law, the total momentum changes by the global force
    times the elapsed time only: it is constant if there is no global force. *)
Theorem C69_momentum : forall dt g boundaryForce interaction ms, dt <> 0 ->
  forall skin throws pause its phases relocate tuning k s,
    (forall i p, boundaryForce i p = rzero) ->
    (forall m, In m ms -> mMass m <> 0) ->
    (forall xs, vsum (length ms) (interaction xs) = rzero) ->
    vsum (length ms) (vec (map mForce ms)) = rscale g (INR (length ms)) ->
    run dt g skin throws pause its phases relocate boundaryForce interaction tuning k (initSim ms) = Some s ->
    sPaused s = false ->
    momentum (fun i => nth i (map mMass ms) 1) (length ms) (map mVel (sMols s)) =
    radd (momentum (fun i => nth i (map mMass ms) 1) (length ms) (map mVel ms))
         (rscale g (INR (sIter s) * dt * INR (length ms))).
Proof.
  intros dt g bF inter ms Hdt skin throws pause its phases relocate tuning k s Hb Hm Hi H0 HR Hp.
  apply (momentum_run dt g bF inter ms Hdt skin throws pause its phases relocate tuning k s); auto.
  - intros i Hlt. apply Hm. now apply nth_In.
  - intros xs. rewrite <- (vsum_const (length ms) g).
    rewrite (vsum_ext _ _ (fun i => radd g (inter xs i))) by (intros i _; unfold totalForce; rewrite Hb; r3).
    rewrite vsum_add, Hi. r3.
Qed.
Print Assumptions C69_momentum.

(** With fastParticlesThrow, no molecule of a simulation that goes on has moved half the skin per
    time step or farther in any step: the assumption under which the containers guarantee all
    interactions. *)
Theorem C69_displacement : forall dt g skin pause its phases relocate boundaryForce interaction tuning ms k s x v f,
  dt <> 0 -> (pause = true -> forall i p, boundaryForce i p = rzero) ->
  0 < skin -> / 1000000000000 < (skin / 2) * (skin / 2) ->
  stoermerVerlet (length ms) dt (fun i => nth i (map mMass ms) 1) relocate
    (fun xs i => radd (radd g (boundaryForce i (vec xs i))) (interaction xs i)) x v f ->
  x 0%nat = map mPos ms -> v 0%nat = map mVel ms -> f 0%nat = map mForce ms ->
  run dt g skin true pause its phases relocate boundaryForce interaction tuning k (initSim ms) = Some s ->
  forall n i, (n < sIter s + if sPaused s then 1 else 0)%nat -> (i < length ms)%nat ->
    l2Norm (radd (rscale (vec (v n) i) dt) (rscale (vec (f n) i) (dt * dt / (2 * nth i (map mMass ms) 1)))) < skin / 2.
Proof. exact displacement_bound. Qed.
Print Assumptions C69_displacement.

(** Two molecules with different masses and a spring between them meet all hypotheses. *)
Example C69_hypotheses : 1 <> 0 /\ (forall m, In m springMols -> mMass m <> 0) /\
  (forall xs, vsum (length springMols) (spring xs) = rzero) /\
  vsum (length springMols) (vec (map mForce springMols)) = rscale rzero (INR (length springMols)) /\
  (forall i, (i < length springMols)%nat ->
     vec (map mForce springMols) i = radd (radd rzero rzero) (spring (map mPos springMols) i)) /\
  (exists k s, run 1 rzero 1 false true 7 0 (fun p => p) (fun _ _ => rzero) spring exTuning k (initSim springMols) = Some s /\
               sIter s = 7%nat /\ sPaused s = false).
Proof.
  split; [lra |]. split; [| split; [| split; [| split]]].
  - intros m [<- | [<- | []]]; cbn; lra.
  - intros xs. unfold vsum. cbn. r3.
  - unfold vsum. cbn. r3.
  - intros i Hi. rewrite vecForce. exact (spring_init i Hi).
  - apply terminates. intros c. exists (S c). split; [lia | reflexivity].
Qed.

(** Pausing and reflective boundaries together lose the force of the boundary: it is erased
    with the accumulated forces at the end of the tuning phase and not computed again. *)
Theorem C69_reflective_pause_refuted : exists interaction boundaryForce tuning ms s,
  run 1 rzero 1 false true 1 0 (fun p => p) boundaryForce interaction tuning 2 (initSim ms) = Some s /\
  sPaused s = false /\ sIter s = 1%nat /\ length ms = 1%nat /\
  vec (map mForce (sMols s)) 0 <>
    radd (radd rzero (boundaryForce 0%nat (vec (map mPos (sMols s)) 0))) (interaction (map mPos (sMols s)) 0%nat).
Proof.
  destruct lost_run as [s [A [B [C [D _]]]]]. exists noForce, exBoundary, exTuning, [restMol], s.
  repeat (split; [assumption || reflexivity |]). rewrite D. unfold exBoundary, noForce. cbn. intros E.
  injection E. lra.
Qed.
Print Assumptions C69_reflective_pause_refuted.

(** Although pausing is enabled, time steps are done in tuning iterations if the force
    computation repeated at the end of a tuning phase is the first one of the next phase. *)
Theorem C69_pause_refuted : exists interaction boundaryForce tuning ms s s',
  run 1 rzero 1 false true 3 0 (fun p => p) boundaryForce interaction tuning 2 (initSim ms) = Some s /\
  pass 1 rzero 1 false true (fun p => p) boundaryForce interaction tuning s = Some s' /\
  (forall c, (2 <= c)%nat -> tuning c = true) /\ sCalls s = 3%nat /\ sCalls s' = 4%nat /\ sIter s' = S (sIter s).
Proof.
  destruct proceeds_run as [s [s' [A [B [C [D E]]]]]].
  exists noForce, (fun _ _ => rzero), exTuning2, [restMol], s, s'.
  repeat (split; [assumption |]). split; [| auto]. intros c Hc. unfold exTuning2.
  destruct (c =? 1)%nat eqn:Q; [apply Nat.eqb_eq in Q; lia | reflexivity].
Qed.
Print Assumptions C69_pause_refuted.

(** The first step of a simulation started from generated particles uses zero forces, so time
    reversal fails for it. *)
Theorem C69_zero_start_refuted : exists g interaction ms s s',
  (forall m, In m ms -> mForce m = rzero) /\
  run 1 g 1 false false 1 0 (fun p => p) (fun _ _ => rzero) interaction (fun _ => false) 1 (initSim ms) = Some s /\
  run 1 g 1 false false 1 0 (fun p => p) (fun _ _ => rzero) interaction (fun _ => false) 1
      (initSim (map (fun m => mkMol (mPos m) (rneg (mVel m)) (mForce m) (mOldF m) (mMass m)) (sMols s))) = Some s' /\
  sIter s' = sIter s /\ map mVel (sMols s') <> map rneg (map mVel ms).
Proof.
  destruct not_reversible as [s [s' [A [B [C D]]]]].
  exists ex1, noForce, [restMol], s, s'. split; [intros m [<- | []]; reflexivity |]. auto.
Qed.
Print Assumptions C69_zero_start_refuted.

(** The check for fast particles is switched off silently if half the skin per time step is at
    most 1e-6. *)
Theorem C69_tiny_skin_refuted : exists skin ms s, 0 < skin /\
  run 1 rzero skin true false 1 0 (fun p => p) (fun _ _ => rzero) noForce (fun _ => false) 1 (initSim ms) = Some s /\
  exists m, ms = [m] /\ l2Norm (rsub (vec (map mPos (sMols s)) 0) (mPos m)) > skin / 2.
Proof. exact tiny_skin. Qed.
Print Assumptions C69_tiny_skin_refuted.
