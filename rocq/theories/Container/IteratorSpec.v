(** Specification vocabulary for iteration over a container and the buffers. *)
From Coq Require Import Reals.
From Verif.Base Require Import ZRange.
From Verif.Grid Require Import IndexSpec CellBlockModel.
From Verif.Functor Require Import SortModel.
From Verif.Container Require Import IteratorModel.

(** All particles stored in the cells and in the buffers. *)
Definition contents {P} (st : Store P) : list P := concat (cells st) ++ concat (buffers st).

(** Given the particles a loop visited, in this order, those its body deleted. *)
Fixpoint chosenFrom {P} (decide : list P -> P -> bool) (before seen : list P) : list P :=
  match seen with
  | [] => []
  | x :: r => (if decide before x then [x] else []) ++ chosenFrom decide (before ++ [x]) r
  end.
Definition chosen {P} (decide : list P -> P -> bool) (seen : list P) : list P := chosenFrom decide [] seen.

(** What thread [t] visited, and deleted, so far. *)
Definition visitedBy {P} (ths : list (Thread P)) (t : nat) : list P :=
  match nth_error ths t with Some (Running _ seen) => seen | _ => [] end.
Definition deletedBy {P} (decide : Z -> list P -> P -> bool) (ths : list (Thread P)) (t : nat) : list P :=
  chosen (decide (Z.of_nat t)) (visitedBy ths t).

(** The loop of the thread ended because the iterator became invalid. *)
Definition finished {P} (th : Thread P) : Prop :=
  match th with NotStarted => False | Running it _ => current it = None end.

(** Every thread visits all, over all threads. *)
Definition visited {P} (numThreads : nat) (ths : list (Thread P)) : list P :=
  flat_map (visitedBy ths) (seq 0 numThreads).
Definition deletedParticles {P} (decide : Z -> list P -> P -> bool) (numThreads : nat) (ths : list (Thread P)) : list P :=
  flat_map (deletedBy decide ths) (seq 0 numThreads).

(** What an iterator behaviour asks for: bit 0 owned particles, bit 1 halo
    particles, bit 2 dummies. *)
Definition wantedb (behavior ownership : Z) : bool :=
  (Z.testbit behavior 0 && (ownership =? 1)) || (Z.testbit behavior 1 && (ownership =? 2)) ||
  (Z.testbit behavior 2 && (ownership =? 0)).

(** owned, halo, ownedOrHalo or ownedOrHaloOrDummy, and the same with
    forceSequential. *)
Definition plainBehavior (behavior : Z) : Prop := behavior = 1 \/ behavior = 2 \/ behavior = 3 \/ behavior = 7.
Definition sequentialBehavior (behavior : Z) : Prop := behavior = 9 \/ behavior = 10 \/ behavior = 11 \/ behavior = 15.

(** A loop over the container is run by all [T] threads of a parallel region, or,
    with forceSequential, by one thread, whatever the number of threads. *)
Definition loopThreads (behavior numThreads : Z) (T : nat) : Prop :=
  (0 < T)%nat /\
  ((plainBehavior behavior /\ numThreads = Z.of_nat T) \/ (sequentialBehavior behavior /\ T = 1%nat)).

(** dummy, owned or halo. *)
Definition validState (o : Z) : Prop := o = 0 \/ o = 1 \/ o = 2.

(** How the particles are stored: the particle buffers hold no halo particles and
    the halo buffers no owned ones, and no vector is as long as the largest
    size_t. *)
Definition validBuffers {P} (ownership : P -> Z) (nOwned : nat) (bufs : list (list P)) : Prop :=
  (nOwned <= length bufs)%nat /\ size bufs < sizeMax /\ (forall l, In l bufs -> size l < sizeMax) /\
  (forall b l x, nth_error bufs b = Some l -> In x l ->
     validState (ownership x) /\
     ((b < nOwned)%nat -> ownership x <> 2) /\ ((nOwned <= b)%nat -> ownership x <> 1)).

(** In the cells of a linked cells container owned particles are in cells for
    owned particles and halo particles in halo cells. *)
Definition lcPlaced {P} (ownership : P -> Z) (b : Block) (cs : list (list P)) : Prop :=
  size cs = numCells (blockDims b) /\ size cs < sizeMax /\
  forall c l, at_ cs c = Some l -> size l < sizeMax /\
    forall x, In x l -> validState (ownership x) /\
      (ownership x = 1 -> cellCanContainOwnedParticles b c = true) /\
      (ownership x = 2 -> cellCanContainHaloParticles b c = true).

(** Direct sum: cell 0 is for owned particles, cells 1 to 6 are for halo particles. *)
Definition dsPlaced {P} (ownership : P -> Z) (cs : list (list P)) : Prop :=
  size cs = 7 /\
  forall c l, at_ cs c = Some l -> size l < sizeMax /\
    forall x, In x l -> validState (ownership x) /\ (c = 0 -> ownership x <> 2) /\ (c <> 0 -> ownership x <> 1).

(** Schedules: nothing is deleted, or all threads create their iterators, in any
    order, before the first deletion. *)
Definition allowedSchedule {P} (decide : Z -> list P -> P -> bool) (numThreads : nat) (schedule : list nat) : Prop :=
  (forall t seen x, decide t seen x = false) \/
  (exists order rest, Permutation order (seq 0 numThreads) /\ schedule = order ++ rest).
(** Every thread gets enough steps: one to create the iterator and one per
    particle suffice. *)
Definition fairSchedule {P} (numThreads : nat) (st : Store P) (schedule : list nat) : Prop :=
  forall t, (t < numThreads)%nat -> (length (contents st) + 1 < count_occ Nat.eq_dec schedule t)%nat.

(** What iteration promises: the parallel loops, run by any allowed schedule, never
    access anything out of range; if every thread gets enough steps all loops end;
    then the particles visited by all threads together are exactly, with
    multiplicity, those that were asked for; and the particles removed from the
    store are exactly the ones that were deleted, where with [marks] they are replaced
    by marked particles. *)
Definition iterationCorrectBy {P} (gatherNow : Store P -> list nat) (ownership : P -> Z) (behavior : Z) (T : nat)
    (region : P -> bool) (conf : Z -> Conf P) (marks : option (P -> P)) (decide : Z -> list P -> P -> bool) (st : Store P)
    (schedule : list nat) : Prop :=
  let asked x := region x && wantedb behavior (ownership x) in
  exists st' ths, runParallel conf gatherNow decide schedule st (repeat NotStarted T) = Some (st', ths) /\
    (fairSchedule T st schedule -> Forall finished ths) /\
    (Forall finished ths -> Permutation (visited T ths) (filter asked (contents st))) /\
    ((forall t seen x, decide t seen x = false) -> st' = st) /\
    match marks with
    | None => Permutation (contents st) (deletedParticles decide T ths ++ contents st')
    | Some m =>
        (exists marked, Forall (fun x => exists y, x = m y) marked /\
           Permutation (marked ++ contents st) (deletedParticles decide T ths ++ contents st')) /\
        (behavior <> 7 /\ behavior <> 15 ->
         Permutation (filter asked (contents st)) (deletedParticles decide T ths ++ filter asked (contents st')))
    end.
(** With the buffers [gather] selects. *)
Definition iterationCorrect {P} (ownership : P -> Z) (behavior : Z) (nOwned T : nat) (region : P -> bool)
    (conf : Z -> Conf P) (marks : option (P -> P)) (decide : Z -> list P -> P -> bool) (st : Store P)
    (schedule : list nat) : Prop :=
  iterationCorrectBy (gather behavior nOwned) ownership behavior T region conf marks decide st schedule.

(** The same for deleting all particles with [d] if there are no particles in the
    buffers asked for.  Each particle asked for is visited, the ones with [d] once,
    the others once or twice; the ones with [d] are removed and no others. *)
Definition iterationOrRestartBy {P} (gatherNow : Store P -> list nat) (ownership : P -> Z) (behavior : Z) (T : nat)
    (region : P -> bool) (conf : Z -> Conf P) (marks : option (P -> P)) (d : P -> bool) (st : Store P) (schedule : list nat) : Prop :=
  let asked x := region x && wantedb behavior (ownership x) in
  exists st' ths, runParallel conf gatherNow (fun _ _ x => d x) schedule st (repeat NotStarted T) = Some (st', ths) /\
    ((forall t, (t < T)%nat -> (2 * length (contents st) + 1 < count_occ Nat.eq_dec schedule t)%nat) -> Forall finished ths) /\
    (Forall finished ths ->
      (exists again never, Permutation (visited T ths) (filter asked (contents st) ++ again) /\
         Permutation (again ++ never) (filter (fun x => negb (d x)) (filter asked (contents st)))) /\
      match marks with
      | None => Permutation (contents st) (filter d (filter asked (contents st)) ++ contents st')
      | Some m =>
          (exists marked, Forall (fun x => exists y, x = m y) marked /\
             Permutation (marked ++ contents st) (filter d (filter asked (contents st)) ++ contents st')) /\
          Permutation (filter asked (contents st)) (filter d (filter asked (contents st)) ++ filter asked (contents st'))
      end).
Definition iterationOrRestart {P} (ownership : P -> Z) (behavior : Z) (nOwned T : nat) (region : P -> bool)
    (conf : Z -> Conf P) (marks : option (P -> P)) (d : P -> bool) (st : Store P) (schedule : list nat) : Prop :=
  iterationOrRestartBy (gather behavior nOwned) ownership behavior T region conf marks d st schedule.

(** [x] moved at most [margin] in every dimension. *)
Definition movedWithin {P} (old pos : P -> R3) (margin : R) (x : P) : Prop :=
  (Rabs (rx (pos x) - rx (old x)) <= margin)%R /\ (Rabs (ry (pos x) - ry (old x)) <= margin)%R /\
  (Rabs (rz (pos x) - rz (old x)) <= margin)%R.
