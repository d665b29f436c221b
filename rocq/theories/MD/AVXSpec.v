(** What calls of a Lennard-Jones functor are expected to do. *)
From Coq Require Import Reals List ZArith Bool Arith.
From Verif.Base Require Import ZRange OptionM.
From Verif.Functor Require Import CellFunctorModel SortModel.
From Verif.Container Require Import IteratorModel ParticleModel.
From Verif.Logic Require Import ComputeModel.
From Verif.MD Require Import MixingModel LJModel LJSpec AVXModel.
Import ListNotations.
Local Open Scope R_scope.

(** The four ways to call a functor. *)
Inductive FunctorCall (A : Type) : Type :=
| OnPair (i j : A) (newton3 : bool)
| OnSoA (view : list A)
| OnSoAs (newton3 : bool) (view1 view2 : list A)
| OnList (newton3 : bool) (view : list A) (first : nat) (neighbours : list nat).
Arguments OnPair {A}. Arguments OnSoA {A}. Arguments OnSoAs {A}. Arguments OnList {A}.

Section Effect.
  Context {A : Type}.
  Variable same : A -> A -> bool.
  Variable part : A -> Particle.
  Variable typeId : A -> nat.
  Variable cfg : LJConfig.
  Variable fld : Field.

  (** Each pair is called once: the forces on the first particle and, with newton3, on the
      second have been added; the sums of the thread have grown by six times the energies
      and by the virials of the owned particles. *)
  Definition effectOf (cs : list (Call A)) (s s' : State A) : Prop :=
    (forall a, forceAt s' a = radd (forceAt s a) (forcesOn part typeId fld same a (flat_map added cs))) /\
    (calcGlobals cfg = true ->
       potentialSum (sums s') = potentialSum (sums s) + 6 * ownedEnergy part typeId fld (flat_map added cs) /\
       virialSum (sums s') = radd (virialSum (sums s)) (ownedVirial part typeId fld (flat_map added cs))).

  (** The pairs a call is for. *)
  Definition pairsOf (o : FunctorCall A) : list (Call A) :=
    match o with
    | OnPair i j newton3 => [mkCall i j newton3]
    | OnSoA view => soaSingle view
    | OnSoAs newton3 view1 view2 => soaPair newton3 view1 view2
    | OnList newton3 view first neighbours =>
        match nth_error view first, mapM (nth_error view) neighbours with
        | Some i, Some js => map (fun j => mkCall i j newton3) js
        | _, _ => []
        end
    end.

  (** Calls that may be made: SoAs and neighbour lists hold no particle twice, all indices
      are valid, all types are known and interacting particles are not at the same place. *)
  Definition admissible (known : nat -> Prop) (o : FunctorCall A) : Prop :=
    match o with
    | OnPair _ _ _ => True
    | OnSoA view => NoDup view
    | OnSoAs _ _ view2 => NoDup view2
    | OnList _ view first neighbours =>
        nth_error view first <> None /\ exists js, mapM (nth_error view) neighbours = Some js /\ NoDup js
    end /\
    forall c, In c (pairsOf o) -> known (typeId (fstP c)) /\ known (typeId (sndP c)) /\ apart part fld (fstP c) (sndP c).

  (** The functor without counters, LJFunctorAVX.h:71-73 and 127-180. *)
  Definition noFlops (c : LJConfig) : LJConfig :=
    mkLJC (useMixing c) (applyShift c) (calcGlobals c) false (cutoffSquared c) (consts c) (library c).

  (** A call of the AVX functor; a sequence of calls. *)
  Definition avxCall (o : FunctorCall A) (s : State A) : option (State A) :=
    match o with
    | OnPair i j newton3 => aosFunctor same part typeId (noFlops cfg) (mkCall i j newton3) s
    | OnSoA view => avxFunctorSingle same part typeId cfg view s
    | OnSoAs newton3 view1 view2 => avxFunctorPair same part typeId cfg newton3 view1 view2 s
    | OnList newton3 view first neighbours => avxFunctorVerlet same part typeId cfg newton3 view first neighbours s
    end.
  Fixpoint avxCalls (os : list (FunctorCall A)) (s : State A) : option (State A) :=
    match os with
    | [] => Some s
    | o :: os' => match avxCall o s with Some s' => avxCalls os' s' | None => None end
    end.
End Effect.
