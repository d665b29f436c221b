(** The remainder traversal for triplets: LogicHandler.h, computeRemainderInteractions3B,
    and one three-body computeInteractions.  The model computes the functor calls; calls
    by different threads may come in any order. *)
From Coq Require Import Reals.
From Verif.Base Require Import ZRange OptionM.
From Verif.Grid Require Import IndexModel CellBlockModel CellBlockSpec.
From Verif.Functor Require Import CellFunctorModel CellFunctor3BModel SortModel.
From Verif.Container Require Import LinkedCellsModel IteratorModel IteratorContainers ParticleModel CellCallsModel ForEachModel.
From Verif.Logic Require Import HandlerModel RemainderModel ComputeModel.
Import ListNotations.
Local Open Scope Z_scope.

(** What AoSFunctor(i, j, k, newton3) adds (baseFunctors/TriwiseFunctor.h:43-56): the
    force of the pair {j, k} on i and with Newton 3 also the other two.  As (target,
    (source, source)); SoA calls are represented by AoS calls in CellFunctor3BModel. *)
Definition added3 {P} (c : Call3 P) : list (P * (P * P)) :=
  (p3a c, (p3b c, p3c c)) :: (if p3n c then [(p3b c, (p3a c, p3c c)); (p3c c, (p3a c, p3b c))] else []).

Section Iterators.
  Variable cf : Conf Particle.
  Variable st : Store Particle.

  (** The particles an iterator still visits: [for (; it.isValid(); ++it)]. *)
  Fixpoint visits (fuel : nat) (it : Iter Particle) : option (list Particle) :=
    match current it with
    | None => Some []
    | Some x =>
        match fuel with
        | O => None
        | S f => match next cf st it with None => None | Some it' => option_map (cons x) (visits f it') end
        end
    end.

  (** The loops over p2Iter and its copy p3Iter, LogicHandler.h:1477-1484: the pairs
      (p2, p3). *)
  Fixpoint nestedVisits (fuel : nat) (p2Iter : Iter Particle) : option (list (Particle * Particle)) :=
    match current p2Iter with
    | None => Some []
    | Some p2 =>
        match fuel with
        | O => None
        | S f =>
            match next cf st p2Iter with
            | None => None
            | Some p3Iter =>
                match visits f p3Iter, nestedVisits f p3Iter with
                | Some p3s, Some rest => Some (map (pair p2) p3s ++ rest)
                | _, _ => None
                end
            end
        end
    end.
End Iterators.

Section Remainder3.
  Variable rnd : R -> R.
  Variable newton3 : bool.
  Variable cutoff : R.
  (** container.forEachInRegion *)
  Variable inRegion : Z -> R3 -> R3 -> option (list Particle).
  (** the nested loops with region iterators *)
  Variable regionPairs : R3 -> R3 -> option (list (Particle * Particle)).
  Notation low := (low rnd cutoff).
  Notation high := (high rnd cutoff).
  (** bufferParticles and numOwnedBufferParticles, collectBufferParticles,
      LogicHandler.h:1367-1397 *)
  Variable bufferParticles : list Particle.
  Variable numOwned : nat.
  Definition bp (i : nat) : Particle := nth i bufferParticles (mkParticle 0 (mkR3 0 0 0) stDummy 0).

  (** remainderHelper3bBufferBufferBuffer, LogicHandler.h:1399-1420. *)
  Definition bufferBufferBuffer : list (Call3 Particle) :=
    let n := length bufferParticles in
    flat_map (fun i => flat_map (fun j =>
      if (i =? j)%nat then [] else
      flat_map (fun k => if (k =? i)%nat then [] else [mkCall3 (bp i) (bp j) (bp k) false])
        (seq (j + 1) (n - (j + 1)))) (seq 0 n)) (seq 0 numOwned).

  (** remainderHelper3bBufferBufferContainer, LogicHandler.h:1422-1457.  The locks, and
      the index into their array, are not modelled here (C34). *)
  Definition bufferBufferContainer : option (list (Call3 Particle)) :=
    let n := length bufferParticles in
    flatM (fun i => flatM (fun j =>
      if (j =? i)%nat then Some [] else
      match inRegion bhOwnedOrHalo (low (bp i)) (high (bp i)) with
      | None => None
      | Some ps => Some (flat_map (fun p3 =>
          (if (i <? numOwned)%nat then [mkCall3 (bp i) (bp j) p3 false] else []) ++
          (if negb (isHaloP p3) && (i <? j)%nat then [mkCall3 p3 (bp i) (bp j) false] else [])) ps)
      end) (seq 0 n)) (seq 0 n).

  (** remainderHelper3bBufferContainerContainer, LogicHandler.h:1459-1504. *)
  Definition bufferContainerContainer : option (list (Call3 Particle)) :=
    flatM (fun i =>
      match regionPairs (low (bp i)) (high (bp i)) with
      | None => None
      | Some prs => Some (flat_map (fun '(p2, p3) =>
          if newton3 then [mkCall3 (bp i) p2 p3 true]
          else (if (i <? numOwned)%nat then [mkCall3 (bp i) p2 p3 false] else []) ++
               (if isOwned p2 then [mkCall3 p2 (bp i) p3 false] else []) ++
               (if isOwned p3 then [mkCall3 p3 (bp i) p2 false] else [])) prs)
      end) (seq 0 (length bufferParticles)).

  Definition remainderCalls : option (list (Call3 Particle)) :=
    match bufferBufferContainer, bufferContainerContainer with
    | Some a, Some b => Some (bufferBufferBuffer ++ a ++ b)
    | _, _ => None
    end.
End Remainder3.

(** computeRemainderInteractions3B, LogicHandler.h:1318-1364. *)
Definition remainder3B rnd newton3 cutoff inRegion regionPairs (particleBuffers haloBuffers : list (list Particle)) :
    option (list (Call3 Particle)) :=
  remainderCalls rnd newton3 cutoff inRegion regionPairs (concat particleBuffers ++ concat haloBuffers)
    (length (concat particleBuffers)).

Section Compute3.
  Variables (cutoff spt : R) (freq : Z).
  Variable view : (Slot -> R3) -> R3 -> list Slot -> list Slot.

  (** The region iterators of the containers, LinkedCells.h:228-285, DirectSum.h:390-440,
      with ownedOrHalo | forceSequential and without additional vectors,
      LogicHandler.h:1475-1476.  [sinceRebuild] is getStepsSinceLastRebuild(). *)
  Definition regionConfOf (lo hi : R3) (c : Cont) (sinceRebuild : Z) (l h : R3) : option (Conf Particle) :=
    let behavior := Z.lor bhOwnedOrHalo bhForceSequential in
    let len := il cutoff spt freq in
    match kind c with
    | KDirectSum => Some (dsRegionConf pown behavior 1 ppos (size (ccells c)) (clampLow len lo l) (clampHigh len hi h) 0)
    | KLinkedCells csf =>
        lcRegionConf pown behavior 1 ppos rndExact (grid cutoff spt freq csf lo hi) (spt * IZR sinceRebuild)%R
          (clampLow len lo l) (clampHigh len hi h) None 0
    end.
  Definition regionPairsOf (lo hi : R3) (c : Cont) (sinceRebuild : Z) (l h : R3) : option (list (Particle * Particle)) :=
    let st := mkStore (ccells c) [] in
    match regionConfOf lo hi c sinceRebuild l h with
    | None => None
    | Some cf => match begin_ cf st [] with
                 | None => None
                 | Some it => nestedVisits cf st (S (length (concat (ccells c)))) it
                 end
    end.

  (** container.computeInteractions with a three-body functor: DirectSum.h:152-158 and
      LinkedCells.h:128-134.  Linked cells have the traversal lc_c01 only
      (options/TraversalOption.h:236); it is not applicable with Newton 3
      (LCC01Traversal.h:125-128). *)
  Definition containerCalls3 (lo hi : R3) (c : Cont) (t : Traversal) (lay : Layout) (newton3 : bool) (threshold : nat)
    : option (list (Call3 Slot)) :=
    let cells := ccells c in
    match kind c, t with
    | KDirectSum, DSSequential =>
        Some (dsInteract3 (slotHalo cells) (view (slotPos cells)) (slotPos cells) lay newton3 threshold cutoff
                (slotCells (fun i => i =? 0) cells))
    | KLinkedCells csf, LCC01 =>
        let b := grid cutoff spt freq csf lo hi in
        let len := il cutoff spt freq in
        if newton3 then None
        else Some (lcInteract3 (slotHalo cells) (view (slotPos cells)) (slotPos cells) lay threshold len
                     (slotCells (cellCanContainOwnedParticles b) cells)
                     (c01CallsDir3B (nearR (blockLength b) len) (blockOverlap rndExact len b) (blockDims b) (blockLength b)))
    | _, _ => None
    end.

  (** computeInteractions, LogicHandler.h:1041-1101, with a three-body functor, after the
      tuner selected the last of the containers [ks] and a configuration for it. *)
  Definition computeTriplets (s : State) (ks : list Kind) (t : Traversal) (lay : Layout) (newton3 : bool) (threshold : nat)
    : option (list (Particle * (Particle * Particle))) :=
    match select cutoff spt freq s ks with
    | None => None
    | Some s1 =>
        match containerCalls3 (boxLo s1) (boxHi s1) (cont s1) t lay newton3 threshold,
              remainder3B rndExact newton3 cutoff (inRegionOf cutoff spt freq (boxLo s1) (boxHi s1) (cont s1))
                (regionPairsOf (boxLo s1) (boxHi s1) (cont s1) (contSteps s1)) (bufs s1) (halos s1) with
        | Some calls, Some rest =>
            let particle := slotParticle (ccells (cont s1)) in
            Some (map (fun '(x, (y, z)) => (particle x, (particle y, particle z))) (flat_map added3 calls) ++ flat_map added3 rest)
        | _, _ => None
        end
    end.
End Compute3.
