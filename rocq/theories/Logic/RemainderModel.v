(** The remainder traversal for pairs: LogicHandler.h, computeRemainderInteractions2B.
    The model computes the functor calls; calls by different threads may come in any
    order. *)
From Coq Require Import Reals.
From Verif.Base Require Import ZRange OptionM.
From Verif.Functor Require Import SortModel.
From Verif.Container Require Import IteratorModel ParticleModel.
From Verif.Logic Require Import BalanceModel.

(** Calls of the functor. *)
Inductive Call :=
| AoSFunctor (i j : Particle) (newton3 : bool)
| SoAFunctorSingle (soa : list Particle) (newton3 : bool)
| SoAFunctorPair (soa1 soa2 : list Particle) (newton3 : bool).

(** What the functor interface promises (baseFunctors/PairwiseFunctor.h:40-85): the
    force of the second argument on the first one is added, and with Newton 3 also
    the opposite one; the single functor handles all pairs within the SoA.  As
    (target, source).  The functor itself ignores pairs farther apart than the cutoff
    and dummies. *)
Fixpoint ordered (l : list Particle) : list (Particle * Particle) :=
  match l with
  | [] => []
  | p :: r => map (fun q => (p, q)) r ++ map (fun q => (q, p)) r ++ ordered r
  end.
Definition forces (c : Call) : list (Particle * Particle) :=
  match c with
  | AoSFunctor i j n3 => (i, j) :: (if n3 then [(j, i)] else [])
  | SoAFunctorSingle l _ => ordered l
  | SoAFunctorPair a b n3 => list_prod a b ++ (if n3 then list_prod b a else [])
  end.

Section Remainder.
  Variable rnd : R -> R.
  Variable newton3 : bool.
  Variable cutoff : R.
  (** container.forEachInRegion *)
  Variable inRegion : Z -> R3 -> R3 -> option (list Particle).

  Definition low (p : Particle) : R3 :=
    mkR3 (rnd (rx (ppos p) - cutoff)%R) (rnd (ry (ppos p) - cutoff)%R) (rnd (rz (ppos p) - cutoff)%R).
  Definition high (p : Particle) : R3 :=
    mkR3 (rnd (rx (ppos p) + cutoff)%R) (rnd (ry (ppos p) + cutoff)%R) (rnd (rz (ppos p) + cutoff)%R).

  (** LogicHandler.h:1226-1244: one particle of a particle buffer. *)
  Definition bufferParticle (p1 : Particle) : option (list Call) :=
    match inRegion bhOwnedOrHalo (low p1) (high p1) with
    | None => None
    | Some ps => Some (flat_map (fun p2 =>
        if newton3 then [AoSFunctor p1 p2 true]
        else AoSFunctor p1 p2 false :: (if negb (isHaloP p2) then [AoSFunctor p2 p1 false] else [])) ps)
    end.
  (** LogicHandler.h:1247-1261: one particle of a halo particle buffer. *)
  Definition haloBufferParticle (p1halo : Particle) : option (list Call) :=
    match inRegion bhOwned (low p1halo) (high p1halo) with
    | None => None
    | Some ps => Some (map (fun p2 => AoSFunctor p2 p1halo newton3) ps)
    end.
  Definition flatM {A B} (f : A -> option (list B)) (l : list A) : option (list B) :=
    match mapM f l with Some r => Some (concat r) | None => None end.

  (** remainderHelperBufferContainer, LogicHandler.h:1218-1263.  haloParticleBuffers is
      indexed with the indices of particleBuffers: out of range is undefined. *)
  Definition bufferContainer (particleBuffers haloBuffers : list (list Particle)) : option (list Call) :=
    flatM (fun id =>
      match nth_error particleBuffers id, nth_error haloBuffers id with
      | Some pb, Some hb => match flatM bufferParticle pb, flatM haloBufferParticle hb with
                            | Some a, Some b => Some (a ++ b)
                            | _, _ => None
                            end
      | _, _ => None
      end) (seq 0 (length particleBuffers)).

  (** remainderHelperBufferBuffer, LogicHandler.h:1283-1296. *)
  Definition bufferBuffer (particleBuffers : list (list Particle)) : list Call :=
    let n := length particleBuffers in
    flat_map (fun i => map (fun jj =>
        let j := ((i + jj) mod n)%nat in
        if (i =? j)%nat then SoAFunctorSingle (nth i particleBuffers []) true
        else SoAFunctorPair (nth i particleBuffers []) (nth j particleBuffers []) false) (seq 0 n)) (seq 0 n).

  (** remainderHelperBufferHaloBuffer, LogicHandler.h:1306-1315. *)
  Definition bufferHaloBuffer (particleBuffers haloBuffers : list (list Particle)) : list Call :=
    let n := length haloBuffers in
    flat_map (fun offset => map (fun i =>
        SoAFunctorPair (nth i particleBuffers []) (nth ((i + offset) mod n) haloBuffers []) false)
      (seq 0 (length particleBuffers))) (seq 0 n).

  (** computeRemainderInteractions2B, LogicHandler.h:1127-1188.  [numLocks] is
      _bufferLocks.size().  The SoAs are loaded from the buffers after balancing and
      extracted in the end. *)
  Definition remainder2B (numLocks : nat) (particleBuffers haloBuffers : list (list Particle)) : option (list Call) :=
    if (numLocks <? length particleBuffers)%nat then None
    else match balanceVectors 1 particleBuffers, balanceVectors 1 haloBuffers with
         | Some pb, Some hb =>
             match bufferContainer pb hb with
             | Some c => Some (c ++ bufferBuffer pb ++ bufferHaloBuffer pb hb)
             | None => None
             end
         | _, _ => None
         end.
End Remainder.
