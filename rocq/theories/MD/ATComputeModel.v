(** computeInteractions with the Axilrod-Teller functor: the functor calls of a three-body
    interaction computation, executed by threads. *)
From Coq Require Import Reals List ZArith Bool.
From Verif.Base Require Import OptionM.
From Verif.Grid Require Import CellBlockModel CellBlockSpec.
From Verif.Functor Require Import CellFunctorModel CellFunctor3BModel SortModel.
From Verif.Container Require Import IteratorModel ParticleModel.
From Verif.Logic Require Import HandlerModel RemainderModel ComputeModel Remainder3Model.
From Verif.MD Require Import MixingModel LJModel ATModel.
Import ListNotations.

(** The functor calls of LogicHandler::computeInteractions, LogicHandler.h:1041-1101, with a
    three-body functor in the AoS layout (the functor has no SoA functions): those of the
    container, then those of the remainder traversal.  As Remainder3Model.computeTriplets. *)
Definition computeCalls3 (cutoff spt : R) (freq : Z) (view : (Slot -> R3) -> R3 -> list Slot -> list Slot)
  (s : HandlerModel.State) (ks : list Kind) (t : Traversal) (newton3 : bool) (threshold : nat)
  : option (list (Call3 Particle)) :=
  match select cutoff spt freq s ks with
  | None => None
  | Some s1 =>
      match containerCalls3 cutoff spt freq view (boxLo s1) (boxHi s1) (cont s1) t AoS newton3 threshold,
            remainder3B rndExact newton3 cutoff (inRegionOf cutoff spt freq (boxLo s1) (boxHi s1) (cont s1))
              (regionPairsOf cutoff spt freq (boxLo s1) (boxHi s1) (cont s1) (contSteps s1)) (bufs s1) (halos s1) with
      | Some calls, Some rest =>
          let particle := slotParticle (ccells (cont s1)) in
          Some (map (fun c => mkCall3 (particle (p3a c)) (particle (p3b c)) (particle (p3c c)) (p3n c)) calls ++ rest)
      | _, _ => None
      end
  end.

Section Run.
  (** Equality of particles.  A particle that is no dummy is stored once, so that it
      identifies its place in memory. *)
  Variable same : Particle -> Particle -> bool.
  (** getTypeId. *)
  Variable typeId : Particle -> nat.
  Variable cfg : ATConfig.

  (** Calls executed one after the other by threads; every thread has its own sums
      (autopas_get_thread_num() selects them, AxilrodTellerFunctor.h:185).  Calls that
      overlap in time do not touch the same particles: ds_sequential is sequential,
      lc_c01 without Newton 3 changes particles of the base cell only, the remainder
      traversal excludes them by locks. *)
  Fixpoint runSchedule3 (schedule : list (nat * Call3 Particle)) (m : Particle -> R3) (threads : nat -> Sums)
    : option ((Particle -> R3) * (nat -> Sums)) :=
    match schedule with
    | [] => Some (m, threads)
    | (k, c) :: r =>
        match atFunctor same (fun p => p) typeId cfg c (mkState m (threads k)) with
        | Some st => runSchedule3 r (forceAt st) (fun i => if Nat.eqb i k then sums st else threads i)
        | None => None
        end
    end.
End Run.
