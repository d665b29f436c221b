(** Model of VerletClusterLists.h: iterators, updateContainer, deleteHaloParticles, forEach
    and forEachInRegion, over the real numbers. *)
From Coq Require Import Reals.
From Verif.Base Require Import ZRange OptionM.
From Verif.Functor Require Import SortModel.
From Verif.Container Require Import IteratorModel IteratorContainers ParticleModel ForEachModel.
From Verif.Cluster Require Import TowerModel BlockModel.
Local Open Scope Z_scope.

(** getTowerIndex1DAtPosition, ClusterTowerBlock2D.h:218-221, 252-255, for [n] towers. *)
Definition towerIndexAt (g : Grid) (n : Z) (p : R3) : Z :=
  if n =? 1 then 0 else tower1D g (fst (towerAt g p)) (snd (towerAt g p)).

Section Iteration.
  Context {P : Type}.
  Variable ownership : P -> Z.
  Variable behavior numThreads : Z.
  Variable g : Grid.
  (** _towerBlock.size() *)
  Variable n : Z.
  (** internal::markParticleAsDeleted *)
  Variable mark : P -> P.

  (** getParticleImpl<false>, VerletClusterLists.h:278-344, and advanceIteratorIndices,
      1175-1222.  The cells of [getParticle] are the actual particles of the towers
      (getNumActualParticles), the padding is not looked at.  (An end index below 0 is a
      size_t that wraps around; the start index is then past the last tower and the end
      index is not used.) *)
  Definition vclConf (t : Z) : Conf P :=
    let start := if hasFlag behavior bhHalo then 0 else firstOwnedTower g in
    let end_ := if hasFlag behavior bhHalo then n - 1 else lastOwnedTower g in
    mkConf (fun _ => true) start end_ end_ (itStride behavior numThreads) (itThread behavior t)
      (fun x => fulfills behavior true (ownership x)) (Some mark).

  (** getParticleImpl<true>.  [lo], [hi] is the clamped region, [margin] is
      _skinPerTimestep * getStepsSinceLastRebuild(). *)
  Definition vclRegionConf (pos : P -> R3) (margin : R) (lo hi : R3) (t : Z) : Conf P :=
    let loM := shift lo (- margin) in
    let hiM := shift hi margin in
    let start := towerIndexAt g n loM in
    let end_ := towerIndexAt g n hiM in
    mkConf (fun c => (n =? 1) || boxesOverlap (towerLo g (c mod gNX g) (c / gNX g)) (towerHi g (c mod gNX g) (c / gNX g)) loM hiM)
      start end_ end_ (itStride behavior numThreads) (itThread behavior t)
      (fun x => fulfills behavior (inBoxb lo hi (pos x)) (ownership x)) (Some mark).

  (** The vectors begin() and getRegionIterator() pass on, VerletClusterLists.h:403-427,
      555-580, 1273-1283.  The buffers of the store are those of the logic handler, the
      first [nHandler], and then _particlesToAdd.  [valid]: _isValid is not invalid.  The
      exception for a valid container with particles to add is not modelled: the theorems
      assume that there are none. *)
  Definition vclGather (nOwned nHandler : nat) (valid : bool) (st : Store P) : list nat :=
    gather behavior nOwned (mkStore (cells st) (firstn nHandler (buffers st))) ++
    (if valid then [] else seq nHandler (length (buffers st) - nHandler)).
End Iteration.

(** internal::markParticleAsDeleted: setOwnershipState(dummy). *)
Definition markDeleted (p : Particle) : Particle := withOwn stDummy p.

(** deleteHaloParticles, VerletClusterLists.h:210-222: one vector of particles to add. *)
Fixpoint eraseHalos (fuel : nat) (l : list Particle) (j : nat) : option (list Particle) :=
  match fuel with
  | O => None
  | S f =>
      match nth_error l j with
      | None => Some l
      | Some p => if isHaloP p then eraseHalos f (swapDelete l j) j else eraseHalos f l (S j)
      end
  end.

(** The inner loop for one tower, VerletClusterLists.h:229-243: the particles and the
    number of dummies at the end. *)
Fixpoint sweepTower (fuel : nat) (ps : list Particle) (numTailDummies j : nat) : option (list Particle * nat) :=
  match fuel with
  | O => None
  | S f =>
      if (numTailDummies <? length ps)%nat && (j <? length ps - numTailDummies)%nat then
        match nth_error ps j with
        | None => None
        | Some p =>
            if isHaloP p then
              let lst := (length ps - 1 - numTailDummies)%nat in
              match nth_error ps lst with
              | None => None
              | Some q => sweepTower f (setAt (setAt ps j q) lst (markDeleted q)) (S numTailDummies) j
              end
            else sweepTower f ps numTailDummies (S j)
        end
      else Some (ps, numTailDummies)
  end.

(** The whole loop body, 225-247.  [before]: deletedSomething of the thread when it comes
    to this tower.  Returns the tower and whether something was deleted in it. *)
Definition eraseTower (before : bool) (t : Tower) : option (Tower * bool) :=
  match sweepTower (S (length (tParts t))) (tParts t) (tDummies t) 0 with
  | None => None
  | Some (ps, nt) =>
      let deletedHere := negb (nt =? tDummies t)%nat in
      let t' := withParts t ps in
      Some (if before || deletedHere then deleteDummyParticles t' else t', deletedHere)
  end.

(** deleteHaloParticles, VerletClusterLists.h:210-251.  [before i]: as above, for tower i
    (it depends on the distribution of the towers to the threads). *)
Definition deleteHaloParticles (before : nat -> bool) (towers : list Tower) (toAdd : list (list Particle)) (valid : bool)
  : option (list Tower * list (list Particle) * bool) :=
  match mapM (fun l => eraseHalos (S (length l)) l 0) toAdd,
        mapM (fun it => eraseTower (before (fst it)) (snd it)) (combine (seq 0 (length towers)) towers) with
  | Some toAdd', Some r => Some (map fst r, toAdd', valid && negb (existsb snd r))
  | _, _ => None
  end.

(** updateContainer(false) up to the parallel region, VerletClusterLists.h:362-368. *)
Definition vclUpdateStart (before : nat -> bool) (towers : list Tower) (toAdd : list (list Particle)) (valid : bool)
  : option (list Tower * list (list Particle) * bool) :=
  match deleteHaloParticles before towers toAdd valid with
  | Some (towers', toAdd', valid') => Some (map deleteDummyParticles towers', toAdd', valid')
  | None => None
  end.

(** The parallel region, VerletClusterLists.h:373-384: the iterators start without vectors of the
    logic handler; a particle outside the box is copied and deleted. *)
Definition leftBox (bMin bMax : R3) (p : Particle) : bool := negb (inBoxb bMin bMax (ppos p)).
Definition vclUpdateLoop (g : Grid) (bMin bMax : R3) (numThreads : Z) (T : nat) (towers : list Tower)
    (toAdd : list (list Particle)) (valid : bool) (schedule : list nat) : option (Store Particle * list (Thread Particle)) :=
  runParallel (vclConf pown bhOwned numThreads g (size towers) markDeleted) (vclGather bhOwned 0 0 valid)
    (fun _ _ p => leftBox bMin bMax p) schedule
    (mkStore (map collectAllActualParticles towers) toAdd) (repeat NotStarted T).
(** What is returned: the particles each thread has copied. *)
Definition leavers (bMin bMax : R3) (th : Thread Particle) : list Particle :=
  match th with NotStarted => [] | Running _ seen => filter (leftBox bMin bMax) seen end.

(** forEach, VerletClusterLists.h:459-472 (the const version, 480-503, does the same if there are
    no particles to add while the container is valid). *)
Definition vclForEach (behavior : Z) (towers : list Tower) (toAdd : list (list Particle)) : option (list Particle) :=
  match mapM (fun t => cellForEach behavior (fun _ => true) (tParts t)) towers, mapM (cellForEach behavior (fun _ => true)) toAdd with
  | Some a, Some b => Some (concat a ++ concat b)
  | _, _ => None
  end.

(** CellBorderAndFlagManager::ignoreCellForIteration, CellBorderAndFlagManager.h:49-60, with
    ClusterTowerBlock2D.h:362-382. *)
Definition ignoreTower (g : Grid) (i behavior : Z) : bool :=
  if hasFlag behavior bhHalo then false
  else if hasFlag behavior bhOwned && canContainOwned g i then false
  else if hasFlag behavior bhDummy then false
  else true.

(** forEachInRegion, VerletClusterLists.h:610-637; [skin] is getVerletSkin(). *)
Definition vclForEachInRegion (g : Grid) (skin : R) (behavior : Z) (lo hi : R3) (towers : list Tower) (toAdd : list (list Particle))
  : option (list Particle) :=
  match mapM (fun it =>
          let i := Z.of_nat (fst it) in
          if ignoreTower g i behavior then Some []
          else if boxesOverlap (shift (towerLo g (i mod gNX g) (i / gNX g)) (- (skin * / 2)))
                               (shift (towerHi g (i mod gNX g) (i / gNX g)) (skin * / 2)) lo hi
               then cellForEach behavior (inBoxb lo hi) (tParts (snd it))
               else Some [])
          (combine (seq 0 (length towers)) towers),
        mapM (cellForEach behavior (inBoxb lo hi)) toAdd with
  | Some a, Some b => Some (concat a ++ concat b)
  | _, _ => None
  end.
