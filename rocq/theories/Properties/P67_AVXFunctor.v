(** C67: the AVX variant of the Lennard-Jones functor. *)
From Coq Require Import Reals List ZArith Lra.
From Verif.Base Require Import ZRange OptionM.
From Verif.Functor Require Import CellFunctorModel SortModel.
From Verif.Container Require Import IteratorModel ParticleModel.
From Verif.Logic Require Import ComputeModel.
From Verif.MD Require Import MixingModel MixingSpec LJModel LJSpec LJExample AVXModel AVXSpec AVXTheorem AVXExample.
Import ListNotations.
Local Open Scope R_scope.

(** SoAFunctorSingle adds the forces, energies and virials of all pairs of the SoA once,
    whatever its length; dummies may be anywhere. *)
Theorem C67_single : forall {A} same, (forall x y : A, same x y = true <-> x = y) ->
  forall part typeId cfg fld known, setUp cfg fld known ->
  forall view s, NoDup view ->
  (forall c, In c (soaSingle view) -> known (typeId (fstP c)) /\ known (typeId (sndP c)) /\ apart part fld (fstP c) (sndP c)) ->
  exists s', avxFunctorSingle same part typeId cfg view s = Some s' /\
    effectOf same part typeId cfg fld (soaSingle view) s s'.
Proof.
  exact (fun A same Eq part typeId cfg fld known H view s N U =>
    call_effect same Eq part typeId cfg fld known H (OnSoA view) s (conj N U)).
Qed.
Print Assumptions C67_single.

(** SoAFunctorPair adds those of all pairs of the product. *)
Theorem C67_pair : forall {A} same, (forall x y : A, same x y = true <-> x = y) ->
  forall part typeId cfg fld known, setUp cfg fld known ->
  forall newton3 v1 v2 s, NoDup v2 ->
  (forall c, In c (soaPair newton3 v1 v2) -> known (typeId (fstP c)) /\ known (typeId (sndP c)) /\ apart part fld (fstP c) (sndP c)) ->
  exists s', avxFunctorPair same part typeId cfg newton3 v1 v2 s = Some s' /\
    effectOf same part typeId cfg fld (soaPair newton3 v1 v2) s s'.
Proof.
  exact (fun A same Eq part typeId cfg fld known H n3 v1 v2 s N U =>
    call_effect same Eq part typeId cfg fld known H (OnSoAs n3 v1 v2) s (conj N U)).
Qed.
Print Assumptions C67_pair.

(** Any sequence of calls of the functor, AoSFunctor, SoAFunctorSingle, SoAFunctorPair and
    SoAFunctorVerlet in any order, adds those of all the pairs the calls are for. *)
Theorem C67_calls : forall {A} same, (forall x y : A, same x y = true <-> x = y) ->
  forall part typeId cfg fld known, setUp cfg fld known ->
  forall os s, (forall o, In o os -> admissible part typeId fld known o) ->
  exists s', avxCalls same part typeId cfg os s = Some s' /\
    effectOf same part typeId cfg fld (flat_map pairsOf os) s s'.
Proof. exact (fun A same Eq part typeId cfg fld known H os s U => calls_effect same Eq part typeId cfg fld known H os s U). Qed.
Print Assumptions C67_calls.

(** However the calls are divided among threads: endTraversal yields half of the sum, over
    the owned particles and the partners they were called for, of the energies and of the
    virials. *)
Theorem C67_globals : forall {A} same, (forall x y : A, same x y = true <-> x = y) ->
  forall part typeId cfg fld known, setUp cfg fld known ->
  forall oss ts, calcGlobals cfg = true -> (forall o, In o (concat oss) -> admissible part typeId fld known o) ->
  Forall2 (fun os t => exists s, sums s = noSums /\ avxCalls same part typeId cfg os s = Some t) oss ts ->
  endTraversal (map sums ts) =
    (ownedEnergy part typeId fld (flat_map added (flat_map pairsOf (concat oss))) / 2,
     rscale (ownedVirial part typeId fld (flat_map added (flat_map pairsOf (concat oss)))) (1 / 2)).
Proof. exact (fun A same Eq part typeId cfg fld known H oss ts G U F => threads_globals same Eq part typeId cfg fld known H oss ts G U F). Qed.
Print Assumptions C67_globals.

(** Two types with mixing; seven particles, so that there are a full block and a
    remainder; one is a dummy at the place of another particle. *)
Example C67_example : exists l', setUp (mkLJC true true true true (2 * 2) (mkLJ 0 0 0) l') mField (fun i => (i < 2)%nat) /\
  admissible vPart mType mField (fun i => (i < 2)%nat) (OnSoA vView) /\
  admissible vPart mType mField (fun i => (i < 2)%nat) (OnSoAs true [0; 1]%nat [2; 3; 4; 5; 6]%nat) /\
  admissible vPart mType mField (fun i => (i < 2)%nat) (OnList true vView 0 [1; 2; 3; 4; 5; 6]%nat) /\
  forceOf vPart mType mField 0%nat 1%nat <> rzero.
Proof.
  destruct m_setup as (l & l' & _ & _ & S). exists l'. split; [exact S|]. split; [exact v_soa|]. split; [exact v_soas|].
  split; [exact v_list|exact v_force].
Qed.
