(** Model of the time integration and of the main loop of md-flexible
    (examples/md-flexible/src/TimeDiscretization.cpp, Simulation.cpp), single-site molecules,
    exact arithmetic, no thermostat.  The molecules of all ranks are one list.  What the
    container and the ranks do to the positions between two force computations (periodic
    re-entry), the force of reflective boundaries and the interaction forces are parameters:
    functions of the positions.  That computeInteractions adds such a function is C58, C59,
    C61 and C63; that the exchange between ranks keeps every particle is C65 and C66. *)
From Coq Require Import Reals List Bool Arith.
From Verif.Functor Require Import SortModel.
From Verif.MD Require Import LJModel.
Import ListNotations.
Local Open Scope R_scope.

(** The data of a molecule (MoleculeLJ.h, ParticleBase.h); the mass is
    ParticlePropertiesLibrary::getMolMass of its type. *)
Record Mol := mkMol { mPos : R3; mVel : R3; mForce : R3; mOldF : R3; mMass : R }.

(** ParticleBase.h:168-180, setRDistanceCheck: the position is set in any case; the result
    says whether the distance is fine.  isNearAbs: utils/Math.cpp. *)
Definition isNearAbs (a b eps : R) : bool := if Rle_dec (Rabs (a - b)) eps then true else false.
Definition setRDistanceCheck (m : Mol) (r : R3) (maxDistSquared : R) : Mol * bool :=
  let d := rsub r (mPos m) in
  (mkMol r (mVel m) (mForce m) (mOldF m) (mMass m),
   (if Rlt_dec (dot d d) maxDistSquared then true else false) || isNearAbs maxDistSquared 0 (/ 1000000000000)).
(** ParticleBase.h:202-206. *)
Definition addRDistanceCheck (m : Mol) (r : R3) (maxDistSquared : R) : Mol * bool :=
  setRDistanceCheck m (radd (mPos m) r) maxDistSquared.

Definition addF (m : Mol) (f : R3) : Mol := mkMol (mPos m) (mVel m) (radd (mForce m) f) (mOldF m) (mMass m).
Definition setF (f : R3) (m : Mol) : Mol := mkMol (mPos m) (mVel m) f (mOldF m) (mMass m).
Definition setR (m : Mol) (x : R3) : Mol := mkMol x (mVel m) (mForce m) (mOldF m) (mMass m).

(** A loop over the molecules that knows the index of each. *)
Fixpoint mapi {A B} (f : nat -> A -> B) (i : nat) (l : list A) : list B :=
  match l with [] => [] | a :: t => f i a :: mapi f (S i) t end.

Section Integrate.
  (** deltaT, globalForce, verletSkinPerTimestep, fastParticlesThrow,
      pauseSimulationDuringTuning, iterations, tuningPhases of the configuration. *)
  Variables (dt : R) (g : R3) (skinPerTimestep : R) (fastParticlesThrow pauseDuringTuning : bool)
            (iterations tuningPhases : nat).
  (** Effect of updateContainer and of the migration on a position; force that
      reflectParticlesAtBoundaries adds to molecule [i]; forces that the functors add. *)
  Variables (relocate : R3 -> R3) (boundaryForce : nat -> R3 -> R3) (interaction : list R3 -> nat -> R3).
  (** Result of the [c]-th call of computeInteractions: was this a tuning iteration? *)
  Variable tuning : nat -> bool.

  (** TimeDiscretization.cpp:23-24. *)
  Definition maxAllowedDistanceMoved : R := skinPerTimestep / 2.
  Definition maxAllowedDistanceMovedSquared : R := maxAllowedDistanceMoved * maxAllowedDistanceMoved.

  (** Loop body, TimeDiscretization.cpp:31-53: the new molecule, and whether it sets
      throwException. *)
  Definition movePosition (m : Mol) : Mol * bool :=
    let v := rscale (mVel m) dt in
    let f := rscale (mForce m) (dt * dt / (2 * mMass m)) in
    let m1 := mkMol (mPos m) (mVel m) g (mForce m) (mMass m) in
    let r := addRDistanceCheck m1 (radd v f) maxAllowedDistanceMovedSquared in
    (fst r,
     negb (snd r) && (if Rlt_dec 0 maxAllowedDistanceMovedSquared then true else false) && fastParticlesThrow).
  (** TimeDiscretization.cpp:17-59; [None] is the exception of line 57. *)
  Definition calculatePositionsAndResetForces (ms : list Mol) : option (list Mol) :=
    let r := map movePosition ms in
    if existsb snd r then None else Some (map fst r).
  (** TimeDiscretization.cpp:142-155. *)
  Definition changeVelocity (m : Mol) : Mol :=
    let c := rscale (radd (mForce m) (mOldF m)) (dt / (2 * mMass m)) in
    mkMol (mPos m) (radd (mVel m) c) (mForce m) (mOldF m) (mMass m).
  Definition calculateVelocities (ms : list Mol) : list Mol := map changeVelocity ms.

  (** updateContainer, load balancing and exchangeMigratingParticles (Simulation.cpp:228-262) as
      far as they change positions, then reflectParticlesAtBoundaries (265-268). *)
  Definition exchange (ms : list Mol) : list Mol :=
    mapi (fun i m => addF m (boundaryForce i (mPos m))) 0 (map (fun m => setR m (relocate (mPos m))) ms).
  (** computeInteractions of all functors. *)
  Definition addInteractions (ms : list Mol) : list Mol :=
    mapi (fun i m => addF m (interaction (map mPos ms) i)) 0 ms.

  (** The members of Simulation the loop uses: _iteration, _simulationIsPaused,
      _currentIterationIsTuningIteration, _previousIterationWasTuningIteration,
      _numTuningPhasesCompleted; [sCalls] counts the calls of computeInteractions. *)
  Record Sim := mkSim { sMols : list Mol; sIter : nat; sPaused : bool; sCurrent : bool; sPrevious : bool;
                        sPhases : nat; sCalls : nat }.

  (** Simulation.cpp:448-482, updateInteractionForces. *)
  Definition updateInteractionForces (s : Sim) : Sim :=
    let prev := sCurrent s in
    let cur := tuning (sCalls s) in
    mkSim (addInteractions (sMols s)) (sIter s) (sPaused s) cur prev
          (if negb cur && prev then S (sPhases s) else sPhases s) (S (sCalls s)).

  (** Simulation.cpp:562-583, updateSimulationPauseState: the two if statements in turn. *)
  Definition pauseAtStart (s : Sim) : Sim :=
    if sCurrent s && negb (sPrevious s)
    then mkSim (sMols s) (sIter s) true (sCurrent s) (sPrevious s) (sPhases s) (sCalls s) else s.
  Definition resumeAtEnd (s : Sim) : Sim :=
    if sPrevious s && negb (sCurrent s) then
      let s1 := mkSim (map (setF g) (sMols s)) (sIter s) (sPaused s) (sCurrent s) (sPrevious s) (sPhases s) (sCalls s) in
      let s2 := updateInteractionForces s1 in
      mkSim (sMols s2) (sIter s2) false (sCurrent s2) (sPrevious s2) (sPhases s2) (sCalls s2)
    else s.
  Definition updateSimulationPauseState (s : Sim) : Sim := resumeAtEnd (pauseAtStart s).

  (** deltaT.value != 0 and not _simulationIsPaused. *)
  Definition moves (s : Sim) : bool := (if Req_EM_T dt 0 then false else true) && negb (sPaused s).

  (** One pass of the loop, Simulation.cpp:214-306. *)
  Definition passPositions (s : Sim) : option Sim :=
    if moves s then
      match calculatePositionsAndResetForces (sMols s) with
      | Some ms => Some (mkSim (exchange ms) (sIter s) (sPaused s) (sCurrent s) (sPrevious s) (sPhases s) (sCalls s))
      | None => None
      end
    else Some s.
  Definition passPause (s : Sim) : Sim := if pauseDuringTuning then updateSimulationPauseState s else s.
  Definition passVelocities (s : Sim) : Sim :=
    if moves s
    then mkSim (calculateVelocities (sMols s)) (sIter s) (sPaused s) (sCurrent s) (sPrevious s) (sPhases s) (sCalls s)
    else s.
  Definition passCount (s : Sim) : Sim :=
    if negb (sPaused s)
    then mkSim (sMols s) (S (sIter s)) (sPaused s) (sCurrent s) (sPrevious s) (sPhases s) (sCalls s) else s.
  Definition pass (s : Sim) : option Sim :=
    match passPositions s with
    | Some s1 => Some (passCount (passVelocities (passPause (updateInteractionForces s1))))
    | None => None
    end.

  (** Simulation.cpp:661-663. *)
  Definition needsMoreIterations (s : Sim) : bool :=
    (sIter s <? iterations)%nat || (sPhases s <? tuningPhases)%nat.

  (** The loop of Simulation::run, Simulation.cpp:212-307, stopped after at most [fuel] passes. *)
  Fixpoint run (fuel : nat) (s : Sim) : option Sim :=
    match fuel with
    | O => Some s
    | S k => if needsMoreIterations s then match pass s with Some s' => run k s' | None => None end else Some s
    end.
End Integrate.

(** The members as initialised in Simulation.h:99-124. *)
Definition initSim (ms : list Mol) : Sim := mkSim ms 0 false false false 0 0.
