(** computeInteractions with the Lennard-Jones functor: the functor calls of a pairwise
    interaction computation, executed by threads. *)
From Coq Require Import Reals List ZArith Bool.
From Verif.Base Require Import OptionM.
From Verif.Grid Require Import CellBlockModel CellBlockSpec.
From Verif.Functor Require Import CellFunctorModel SortModel.
From Verif.Container Require Import IteratorModel ParticleModel.
From Verif.Logic Require Import HandlerModel RemainderModel ComputeModel.
From Verif.MD Require Import MixingModel LJModel.
Import ListNotations.

(** The functor calls of LogicHandler::computeInteractions, LogicHandler.h:1041-1101: those
    of the container (represented by AoSFunctor, see CellFunctorModel.v and C60), then
    those of the remainder traversal.  As ComputeModel.computePairs. *)
Definition computeCalls (cutoff spt : R) (freq : Z) (view : (Slot -> R3) -> R3 -> list Slot -> list Slot)
  (s : HandlerModel.State) (ks : list Kind) (t : Traversal) (lay : Layout) (newton3 : bool) (threshold : nat)
  : option (list RemainderModel.Call) :=
  match select cutoff spt freq s ks with
  | None => None
  | Some s1 =>
      match containerCalls cutoff spt freq view (boxLo s1) (boxHi s1) (cont s1) t lay newton3 threshold,
            remainder2B rndExact newton3 cutoff (inRegionOf cutoff spt freq (boxLo s1) (boxHi s1) (cont s1))
              (Nat.max 2 (length (bufs s1))) (bufs s1) (halos s1) with
      | Some calls, Some rest =>
          let particle := slotParticle (ccells (cont s1)) in
          Some (map (fun c => AoSFunctor (particle (fstP c)) (particle (sndP c)) (n3 c)) calls ++ rest)
      | _, _ => None
      end
  end.

Section Run.
  (** Equality of particles.  A particle that is no dummy is stored once, so that it
      identifies its place in memory. *)
  Variable same : Particle -> Particle -> bool.
  (** getTypeId. *)
  Variable typeId : Particle -> nat.
  Variable cfg : LJConfig.

  (** One call of the functor: AoSFunctor, SoAFunctorSingle, SoAFunctorPair. *)
  Definition runCall (c : RemainderModel.Call) (s : LJModel.State Particle) : option (LJModel.State Particle) :=
    match c with
    | AoSFunctor i j n => aosFunctor same (fun p => p) typeId cfg (mkCall i j n) s
    | SoAFunctorSingle l _ => soaFunctorSingle same (fun p => p) typeId cfg l s
    | SoAFunctorPair a b n => soaFunctorPair same (fun p => p) typeId cfg n a b s
    end.

  (** Calls executed one after the other by threads; every thread has its own sums
      (autopas_get_thread_num() selects them, e.g. LJFunctor.h:127).  Calls that overlap
      in time do not touch the same particles (C10-C20, C55) or, in the remainder
      traversal, exclude each other by locks. *)
  Fixpoint runSchedule (schedule : list (nat * RemainderModel.Call)) (m : Particle -> R3) (threads : nat -> Sums)
    : option ((Particle -> R3) * (nat -> Sums)) :=
    match schedule with
    | [] => Some (m, threads)
    | (k, c) :: r =>
        match runCall c (mkState m (threads k)) with
        | Some st => runSchedule r (forceAt st) (fun i => if Nat.eqb i k then sums st else threads i)
        | None => None
        end
    end.
End Run.
