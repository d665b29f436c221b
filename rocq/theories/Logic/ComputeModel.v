(** Model of one pairwise computeInteractions: the container is traversed, then the
    remainder traversal handles the buffers.  The result are the pairs (target, source)
    for which the functor is asked to add the force of the source to the target. *)
From Coq Require Import Reals.
From Verif.Base Require Import ZRange OptionM.
From Verif.Grid Require Import IndexModel IndexSpec CellBlockModel CellBlockSpec.
From Verif.Traversal Require Import C08Model.
From Verif.Functor Require Import CellFunctorModel SortModel.
From Verif.Container Require Import LinkedCellsModel IteratorModel IteratorContainers ParticleModel CellCallsModel ForEachModel.
From Verif.Logic Require Import HandlerModel RemainderModel.
Import ListNotations.
Local Open Scope Z_scope.

(** The functor gets references to particles: (cell, index in the cell). *)
Definition Slot : Type := nat * nat.
Definition slotParticle (cells : list (list Particle)) (x : Slot) : Particle :=
  nth (snd x) (nth (fst x) cells []) (mkParticle 0 (mkR3 0 0 0) stDummy 0).
Definition slotPos (cells : list (list Particle)) (x : Slot) : R3 := ppos (slotParticle cells x).
Definition slotHalo (cells : list (list Particle)) (x : Slot) : bool := isHaloP (slotParticle cells x).
(** The cells as the traversals see them; [owned i]: getPossibleParticleOwnerships of
    cell i contains owned. *)
Definition slotCells (owned : Z -> bool) (cells : list (list Particle)) : list (Cell Slot) :=
  map (fun k => mkCell (map (pair k) (seq 0 (length (nth k cells [])))) (owned (Z.of_nat k))) (seq 0 (length cells)).

(** What AoSFunctor(i, j, newton3) adds (baseFunctors/PairwiseFunctor.h:40-85; SoA calls
    are represented by AoS calls in CellFunctorModel). *)
Definition added {P} (c : CellFunctorModel.Call P) : list (P * P) :=
  (fstP c, sndP c) :: (if n3 c then [(sndP c, fstP c)] else []).

(** The traversals.  lc_c08 with the order in which the base cells are processed: so are
    lc_c04, lc_c04_HCP, lc_sliced, lc_sliced_c02 and lc_sliced_balanced (C10, C12, C15). *)
Inductive Traversal := DSSequential | LCC08 (bases : list I3) | LCC18 | LCC01.

Section Compute.
  Variables (cutoff spt : R) (freq : Z).
  (** SortedCellView: the order in which particles at the given positions are sorted
      along a direction. *)
  Variable view : (Slot -> R3) -> R3 -> list Slot -> list Slot.

  (** The cell functor calls of a traversal of linked cells and whether its cell functor
      is bidirectional: LCC08CellHandler.h:95-97, LCC18Traversal.h:89-91,
      LCC01Traversal.h:145-148. *)
  Definition lcCalls (b : Block) (t : Traversal) : option (list (Z * Z * I3) * bool) :=
    let near := nearR (blockLength b) (il cutoff spt freq) in
    let ov := blockOverlap rndExact (il cutoff spt freq) b in
    match t with
    | DSSequential => None
    | LCC08 bases => Some (c08StepsDir near (blockDims b) ov bases, true)
    | LCC18 => Some (c18CallsDir near (blockDims b) ov, true)
    | LCC01 => Some (c01CallsDir near ov (blockDims b), false)
    end.

  (** container.computeInteractions: LinkedCells.h:128-134, DirectSum.h:152-158.  A
      traversal for another container is an exception (LinkedCells.h:542-556,
      DirectSum.h:485-496). *)
  Definition containerCalls (lo hi : R3) (c : Cont) (t : Traversal) (lay : Layout) (newton3 : bool) (threshold : nat)
    : option (list (CellFunctorModel.Call Slot)) :=
    let cells := ccells c in
    match kind c, t with
    | KDirectSum, DSSequential =>
        Some (dsInteract (slotHalo cells) (view (slotPos cells)) (slotPos cells) lay newton3 threshold cutoff lo hi
                (slotCells (fun i => i =? 0) cells))
    | KDirectSum, _ => None
    | KLinkedCells csf, _ =>
        let b := grid cutoff spt freq csf lo hi in
        match lcCalls b t with
        | None => None
        | Some (calls, both) =>
            Some (lcInteract (slotHalo cells) (view (slotPos cells)) (slotPos cells) (mkCF lay newton3 both threshold)
                    (il cutoff spt freq) (blockLength b) (slotCells (cellCanContainOwnedParticles b) cells) calls)
        end
    end.

  (** container.forEachInRegion as the remainder traversal calls it. *)
  Definition inRegionOf (lo hi : R3) (c : Cont) (behavior : Z) (l h : R3) : option (list Particle) :=
    match kind c with
    | KDirectSum => dsForEachInRegion behavior l h (ccells c)
    | KLinkedCells csf => lcForEachInRegion rndExact (grid cutoff spt freq csf lo hi) (skin spt freq) behavior l h (ccells c)
    end.

  (** computeInteractions, LogicHandler.h:1041-1101, after the tuner selected the last of
      the containers [ks] and a configuration for it.  For these containers there are no
      neighbour lists to rebuild.  There are max(2, threads) buffer locks and one buffer
      per thread (LogicHandler.h:61, 70). *)
  Definition computePairs (s : State) (ks : list Kind) (t : Traversal) (lay : Layout) (newton3 : bool) (threshold : nat)
    : option (list (Particle * Particle)) :=
    match select cutoff spt freq s ks with
    | None => None
    | Some s1 =>
        match containerCalls (boxLo s1) (boxHi s1) (cont s1) t lay newton3 threshold,
              remainder2B rndExact newton3 cutoff (inRegionOf (boxLo s1) (boxHi s1) (cont s1)) (Nat.max 2 (length (bufs s1)))
                (bufs s1) (halos s1) with
        | Some calls, Some rest =>
            let particle := slotParticle (ccells (cont s1)) in
            Some (map (fun xy => (particle (fst xy), particle (snd xy))) (flat_map added calls) ++ flat_map forces rest)
        | _, _ => None
        end
    end.
End Compute.
