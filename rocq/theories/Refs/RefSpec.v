(** What a particle container holds after a history of calls. *)
From Coq Require Import Reals Permutation.
From Verif.Base Require Import ZRange.
From Verif.Grid Require Import IndexModel CellBlockModel CellBlockSpec.
From Verif.Functor Require Import SortModel.
From Verif.Container Require Import ParticleModel CollectSpec.
From Verif.Refs Require Import RefModel.
Import ListNotations.
Local Open Scope Z_scope.

Section Spec.
  (** The interaction length and the box. *)
  Variable il : R.
  Variables bMin bMax : R3.

  (** A halo particle is outside of the box, but less than the interaction length away. *)
  Definition haloPosition (x : R3) : Prop := ~ inBox bMin bMax x /\ inGrownBox il bMin bMax x.
  Definition halosSettled (l : list Particle) : Prop := forall p, In p l -> pown p = 2 -> haloPosition (ppos p).
  Definition ownedSettled (l : list Particle) : Prop := forall p, In p l -> pown p = 1 -> inBox bMin bMax (ppos p).

  (** When the container holds [l], the event may happen.  Particles are only added
      directly to the container right after an update, when none is outside of where it
      belongs (otherwise the LogicHandler puts them into a buffer). *)
  Definition allowed (l : list Particle) (e : Event) : Prop :=
    match e with
    | EAdd p => pown p = 1 /\ inBox bMin bMax (ppos p) /\ ownedSettled l /\ halosSettled l
    | EAddHalo p => pown p = 2 /\ haloPosition (ppos p) /\ ownedSettled l /\ halosSettled l
    | EUpdateHalo p _ => pown p = 2 /\ haloPosition (ppos p)
    | EDelete p => In p l
    | EModify p p' => In p l /\ pown p' = pown p
    | EUpdate _ => halosSettled l
    | ERebuild => True
    end.

  (** What the container has to hold afterwards. *)
  Definition after (l : list Particle) (e : Event) (l' : list Particle) : Prop :=
    match e with
    | EAdd p | EAddHalo p => Permutation l' (p :: l)
    | EUpdateHalo p None => Permutation l' l
    | EUpdateHalo p (Some q) => pid q = pid p /\
        ((pown q = 0 /\ Permutation l' (p :: l)) \/
         (pown q = 2 /\ exists r, Permutation l (q :: r) /\ Permutation l' (p :: r)))
    | EDelete p => Permutation l (p :: l')
    | EModify p p' => exists r, Permutation l (p :: r) /\ Permutation l' (p' :: r)
    | EUpdate out => exists stays leaves,
        (forall p, stays p = true <-> pown p = 1 /\ inBox bMin bMax (ppos p)) /\
        (forall p, leaves p = true <-> pown p = 1 /\ ~ inBox bMin bMax (ppos p)) /\
        Permutation l' (filter stays l) /\ Permutation out (filter leaves l)
    | ERebuild => Permutation l' l
    end.

End Spec.

Section Seen.
  Variable b : Block.

  (** The container shows the particles [l]: all pointers are valid, no particle can be
      reached by two of them, and what is seen through the cells, apart from deleted
      particles, is [l]; so is what forEach over all particles visits. *)
  Definition holds (st : Refs) (l : list Particle) : Prop :=
    exists cells live, view st = Some cells /\ (forall p, live p = true <-> pown p <> 0) /\
      NoDup (concat (rCells st)) /\
      Permutation (filter live (concat cells)) l /\ Permutation (filter live (vParts (rVec st))) l.
  (** Every particle is in a cell for its kind. *)
  Definition sorted (st : Refs) : Prop :=
    forall cells k p, view st = Some cells -> In p (nth k cells []) ->
      (pown p = 1 -> cellCanContainOwnedParticles b (Z.of_nat k) = true) /\
      (pown p = 2 -> cellCanContainHaloParticles b (Z.of_nat k) = true).
  (** Every particle is in the cell of its position. *)
  Definition placed (rnd : R -> R) (st : Refs) : Prop :=
    forall cells k p, view st = Some cells -> In p (nth k cells []) -> get1DIndexOfPosition rnd b (ppos p) = Some (Z.of_nat k).
End Seen.

(** A container with a history, and what it should hold. *)
Inductive Reached (rnd : R -> R) (grow : nat -> nat) (b : Block) (il : R) (bMin bMax : R3) (skin : R) : Refs -> list Particle -> Prop :=
| ReachedEmpty : Reached rnd grow b il bMin bMax skin (emptyRefs b) []
| ReachedStep st l e st' l' : Reached rnd grow b il bMin bMax skin st l -> allowed il bMin bMax l e ->
    step rnd grow b bMin bMax skin st e (Some st') -> after bMin bMax l e l' ->
    Reached rnd grow b il bMin bMax skin st' l'.
