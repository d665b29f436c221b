(** C60: the Lennard-Jones functor. *)
From Coq Require Import Reals List ZArith Lra.
From Flocq Require Import BinarySingleNaN.
From Verif.Base Require Import ZRange OptionM.
From Verif.Functor Require Import CellFunctorModel SortModel.
From Verif.Container Require Import IteratorModel ParticleModel.
From Verif.Logic Require Import ComputeModel.
From Verif.MD Require Import MixingModel MixingSpec MixingProofs LJModel LJSpec LJPhysics LJTheorem LJGradient LJExample LJFloat.
Import ListNotations.
Local Open Scope R_scope.

(** A functor without mixing, after setParticleProperties, describes the interaction with
    the given parameters; with applyShift the potential is zero at the cutoff. *)
Theorem C60_parameters : forall cutoff eps sigma shift globals flops lib p0 known, 0 < cutoff ->
  setUp (setParticleProperties (24 * eps) (sigma * sigma) (mkLJC false shift globals flops (cutoff * cutoff) p0 lib))
    (mkField cutoff (fun _ _ => eps) (fun _ _ => sigma) (fun _ _ => if shift then - ljPotential eps sigma cutoff else 0)) known.
Proof. exact (fun c e s b1 b2 b3 l p k H => setUp_constants c e s b1 b2 b3 l p k H). Qed.
Print Assumptions C60_parameters.

(** A functor with mixing: after any accepted history of registrations that sets
    Lennard-Jones parameters, calculateMixingCoefficients succeeds and the functor
    describes the interaction with the mixed parameters of the registered types. *)
Theorem C60_mixing : forall rs cutoff l shift globals flops p0, 0 < cutoff ->
  registerAll rs (newLibrary cutoff) = Some l -> usesLJ rs -> shift6 p0 = 0 ->
  exists l', calculateMixing l = Some l' /\
    setUp (mkLJC true shift globals flops (cutoff * cutoff) p0 l')
      (mkField cutoff (fun i j => mixedEpsilon (parametersOf rs i) (parametersOf rs j))
         (fun i j => mixedSigma (parametersOf rs i) (parametersOf rs j))
         (fun i j => if shift then - ljPotential (mixedEpsilon (parametersOf rs i) (parametersOf rs j))
                                    (mixedSigma (parametersOf rs i) (parametersOf rs j)) cutoff else 0))
      (fun i => (i < numSites rs)%nat).
Proof.
  intros rs c l b1 b2 b3 p0 C E U Z. destruct (mixing_defined _ _ _ E) as (l' & M).
  exists l'. split; [exact M|]. exact (setUp_mixing rs c l l' b1 b2 b3 p0 C E U M Z).
Qed.
Print Assumptions C60_mixing.

(** The force is the negative gradient of the potential. *)
Theorem C60_gradient : forall epsilon sigma (a b : R3), a <> b ->
  derivable_pt_lim (fun x => ljPotential epsilon sigma (distance (mkR3 x (ry a) (rz a)) b)) (rx a) (- rx (ljForce epsilon sigma a b)) /\
  derivable_pt_lim (fun y => ljPotential epsilon sigma (distance (mkR3 (rx a) y (rz a)) b)) (ry a) (- ry (ljForce epsilon sigma a b)) /\
  derivable_pt_lim (fun z => ljPotential epsilon sigma (distance (mkR3 (rx a) (ry a) z) b)) (rz a) (- rz (ljForce epsilon sigma a b)).
Proof.
  intros e s a b N. split; [exact (gradient_x e s a b N)|]. split; [exact (gradient_y e s a b N)|exact (gradient_z e s a b N)].
Qed.
Print Assumptions C60_gradient.

(** SoAFunctorSingle has the effect of AoSFunctor with newton3 on all pairs of the SoA. *)
Theorem C60_single : forall {A} same, (forall x y : A, same x y = true <-> x = y) ->
  forall part typeId cfg fld known, setUp cfg fld known ->
  forall view s, (forall a, In a view -> known (typeId a)) -> ForallOrdPairs (separate part) view ->
  agree (soaFunctorSingle same part typeId cfg view s) (aosCalls same part typeId cfg (soaSingle view) s).
Proof. exact (fun A same _ part typeId cfg fld known H view s K S => single_agree same part typeId cfg fld known H view s K S). Qed.
Print Assumptions C60_single.

(** SoAFunctorPair has the effect of AoSFunctor on all pairs of the product. *)
Theorem C60_pair : forall {A} same, (forall x y : A, same x y = true <-> x = y) ->
  forall part typeId cfg fld known, setUp cfg fld known ->
  forall newton3 v1 v2 s, (forall a, In a (v1 ++ v2) -> known (typeId a)) ->
  (forall i j, In i v1 -> In j v2 -> separate part i j) ->
  agree (soaFunctorPair same part typeId cfg newton3 v1 v2 s) (aosCalls same part typeId cfg (soaPair newton3 v1 v2) s).
Proof.
  exact (fun A same _ part typeId cfg fld known H newton3 v1 v2 s K S => pair_agree same part typeId cfg fld known H newton3 v1 v2 s K S).
Qed.
Print Assumptions C60_pair.

(** SoAFunctorVerlet has the effect of AoSFunctor on the particle and each of its
    neighbours, for every length of the list and every vector length. *)
Theorem C60_verlet : forall {A} same, (forall x y : A, same x y = true <-> x = y) ->
  forall part typeId cfg fld known, setUp cfg fld known ->
  forall vecsize newton3 view first neighbours i js s, nth_error view first = Some i ->
  mapM (nth_error view) neighbours = Some js -> known (typeId i) -> (forall j, In j js -> known (typeId j)) ->
  (forall j, In j js -> separate part i j) ->
  agree (soaFunctorVerlet same part typeId cfg vecsize newton3 view first neighbours s)
    (aosCalls same part typeId cfg (map (fun j => mkCall i j newton3) js) s).
Proof.
  exact (fun A same Eq part typeId cfg fld known H vs n3 view first nb i js s Hi Hj Ki Kj S =>
    verlet_agree same Eq part typeId cfg fld known H vs n3 view first nb i js s Hi Hj Ki Kj S).
Qed.
Print Assumptions C60_verlet.

(** A sequence of AoSFunctor calls adds to each particle the Lennard-Jones forces of the
    partners it was called for (both directions with newton3), nothing for dummies and
    beyond the cutoff; the sums of the thread grow by six times the potential energy and
    by the virial of the owned particles; the counters by the number of distance
    calculations and kernel calls. *)
Theorem C60_forces : forall {A} same, (forall x y : A, same x y = true <-> x = y) ->
  forall part typeId cfg fld known, setUp cfg fld known ->
  forall cs s, (forall c, In c cs -> known (typeId (fstP c)) /\ known (typeId (sndP c)) /\ apart part fld (fstP c) (sndP c)) ->
  exists s', aosCalls same part typeId cfg cs s = Some s' /\
    (forall a, forceAt s' a = radd (forceAt s a) (forcesOn part typeId fld same a (flat_map added cs))) /\
    (calcGlobals cfg = true -> potentialSum (sums s') = potentialSum (sums s) + 6 * ownedEnergy part typeId fld (flat_map added cs) /\
       virialSum (sums s') = radd (virialSum (sums s)) (ownedVirial part typeId fld (flat_map added cs))) /\
    (countFLOPs cfg = true -> distCalls (sums s') = (distCalls (sums s) + count (alive part) cs)%nat /\
       kernelsN3 (sums s') = (kernelsN3 (sums s) + count (fun c => n3 c && hits part fld c) cs)%nat /\
       kernelsNoN3 (sums s') = (kernelsNoN3 (sums s) + count (fun c => negb (n3 c) && hits part fld c) cs)%nat).
Proof. exact (fun A same _ part typeId cfg fld known H cs s U => forces_value same part typeId cfg fld known H cs s U). Qed.
Print Assumptions C60_forces.

(** However the calls are divided among threads: endTraversal yields half of the sum, over
    the owned particles and the partners they were called for, of the energies and of the
    virials. *)
Theorem C60_globals : forall {A} same, (forall x y : A, same x y = true <-> x = y) ->
  forall part typeId cfg fld known, setUp cfg fld known ->
  forall css ts, calcGlobals cfg = true ->
  (forall c, In c (concat css) -> known (typeId (fstP c)) /\ known (typeId (sndP c)) /\ apart part fld (fstP c) (sndP c)) ->
  Forall2 (fun cs t => exists s, sums s = noSums /\ aosCalls same part typeId cfg cs s = Some t) css ts ->
  endTraversal (map sums ts) =
    (ownedEnergy part typeId fld (flat_map added (concat css)) / 2, rscale (ownedVirial part typeId fld (flat_map added (concat css))) (1 / 2)).
Proof. exact (fun A same _ part typeId cfg fld known H css ts G U F => globals_value same part typeId cfg fld known H css ts G U F). Qed.
Print Assumptions C60_globals.

(** The condition [separate] is needed: in double precision the vectorised loops turn a
    dummy at the place of a particle into a force that is not a number, while AoSFunctor
    adds nothing. *)
Theorem C60_dummy_refuted : exists cutoff2 e24 s2 a b,
  is_nan (soaForceX true cutoff2 e24 s2 a b) = true /\ aosForceX true cutoff2 e24 s2 a b = None.
Proof. exists done_, done_, done_, (mkD3 done_ done_ done_), (mkD3 done_ done_ done_). split; vm_compute; reflexivity. Qed.
Print Assumptions C60_dummy_refuted.

(** Two types with mixing; two owned particles, a dummy and a halo particle in one SoA;
    the first two repel each other. *)
Example C60_example : exists l l', registerAll mRegs (newLibrary 2) = Some l /\ calculateMixing l = Some l' /\
  setUp (mkLJC true true true true (2 * 2) (mkLJ 0 0 0) l') mField (fun i => (i < 2)%nat) /\
  (forall a, (mType a < 2)%nat) /\ ForallOrdPairs (separate mPart) [0; 1; 2; 3]%nat /\
  forceOf mPart mType mField 0%nat 1%nat <> rzero /\
  mapM (nth_error [0; 1; 2; 3]%nat) [1; 2; 3]%nat = Some [1; 2; 3]%nat.
Proof.
  destruct m_setup as (l & l' & E1 & E2 & S). exists l, l'. split; [exact E1|]. split; [exact E2|]. split; [exact S|].
  split; [intros [|[|a]]; cbn; auto|]. split; [exact m_separate|]. split; [exact m_force|reflexivity].
Qed.
