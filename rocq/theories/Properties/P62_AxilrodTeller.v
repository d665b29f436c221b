(** C62: the Axilrod-Teller functor. *)
From Coq Require Import Reals List ZArith Bool Lra.
From Coquelicot Require Import Coquelicot.
From Verif.Functor Require Import CellFunctor3BModel SortModel.
From Verif.Container Require Import IteratorModel ParticleModel.
From Verif.Logic Require Import Remainder3Model.
From Verif.MD Require Import MixingModel MixingSpec MixingProofs LJModel LJSpec ATModel ATSpec ATPhysics ATTheorem ATExample.
Import ListNotations.
Local Open Scope R_scope.

(** A functor without mixing describes the interaction with the given parameter. *)
Theorem C62_parameters : forall cutoff nu globals flops lib known, 0 < cutoff ->
  setUp3 (mkATC false globals flops (cutoff * cutoff) nu lib) (mkATField cutoff (fun _ _ _ => nu)) known.
Proof. exact setUp3_constant. Qed.
Print Assumptions C62_parameters.

(** A functor with mixing: after any accepted history of registrations that sets
    Axilrod-Teller parameters, calculateMixingCoefficients succeeds and the functor describes
    the interaction whose parameter is the geometric mean of those of the three types. *)
Theorem C62_mixing : forall rs cutoff l globals flops n0, 0 < cutoff ->
  registerAll rs (newLibrary cutoff) = Some l -> usesAT rs ->
  exists l' nu, calculateMixing l = Some l' /\
    (forall i j k, nu i j k * nu i j k * nu i j k = nuOfType rs i * nuOfType rs j * nuOfType rs k) /\
    setUp3 (mkATC true globals flops (cutoff * cutoff) n0 l') (mkATField cutoff nu) (fun i => (i < numSites rs)%nat).
Proof.
  intros rs c l b1 b2 n0 C E U. destruct (mixing_defined _ _ _ E) as (l' & M).
  destruct (setUp3_mixing rs c l l' b1 b2 n0 C E U M) as (nu & N & S). exists l', nu. auto.
Qed.
Print Assumptions C62_mixing.

(** The force is the negative gradient of the potential: the derivatives exist. *)
Theorem C62_gradient : forall nu (a b c : R3), a <> b -> b <> c -> a <> c ->
  is_derive (fun x => atPotential nu (mkR3 x (ry a) (rz a)) b c) (rx a) (- rx (atForce nu a b c)) /\
  is_derive (fun y => atPotential nu (mkR3 (rx a) y (rz a)) b c) (ry a) (- ry (atForce nu a b c)) /\
  is_derive (fun z => atPotential nu (mkR3 (rx a) (ry a) z) b c) (rz a) (- rz (atForce nu a b c)).
Proof.
  intros nu a b c N1 N2 N3. rewrite force_first by assumption.
  split; [exact (gradient3_x nu a b c N1 N2 N3)|]. split; [exact (gradient3_y nu a b c N1 N2 N3)|exact (gradient3_z nu a b c N1 N2 N3)].
Qed.
Print Assumptions C62_gradient.

(** The forces on the three particles add up to zero, and the force on a particle does not
    depend on the order of the other two. *)
Theorem C62_newton3 : forall nu (a b c : R3), a <> b -> b <> c -> a <> c ->
  radd (radd (atForce nu a b c) (atForce nu b a c)) (atForce nu c a b) = rzero /\ atForce nu a c b = atForce nu a b c.
Proof.
  intros nu a b c N1 N2 N3. split; [|apply force_swap].
  rewrite (force_swap nu b c a), !force_first by auto. apply first_sum.
Qed.
Print Assumptions C62_newton3.

(** A sequence of AoSFunctor calls adds to each particle the forces of the pairs it was
    called for (in all three roles with newton3), nothing for dummies and when one distance
    exceeds the cutoff; the sums of the thread grow by three times the potential energy and
    by the virial of the owned particles; the counters by the number of distance
    calculations and kernel calls. *)
Theorem C62_forces : forall {A} same, (forall x y : A, same x y = true <-> x = y) ->
  forall part typeId cfg fld known, setUp3 cfg fld known ->
  forall cs s,
  (forall c, In c cs -> isDummy (part (p3a c)) = false -> isDummy (part (p3b c)) = false -> isDummy (part (p3c c)) = false ->
     (known (typeId (p3a c)) /\ known (typeId (p3b c)) /\ known (typeId (p3c c))) /\ apart3 part fld (p3a c) (p3b c) (p3c c)) ->
  exists s', atCalls same part typeId cfg cs s = Some s' /\
    (forall a, forceAt s' a = radd (forceAt s a) (forcesOn3 part typeId fld same a (flat_map added3 cs))) /\
    (atGlobals cfg = true -> potentialSum (sums s') = potentialSum (sums s) + 3 * ownedEnergy3 part typeId fld (flat_map added3 cs) /\
       virialSum (sums s') = radd (virialSum (sums s)) (ownedVirial3 part typeId fld (flat_map added3 cs))) /\
    (atFLOPs cfg = true -> distCalls (sums s') = (distCalls (sums s) + count (alive3 part) cs)%nat /\
       kernelsN3 (sums s') = (kernelsN3 (sums s) + count (fun c => p3n c && hits3 part fld c) cs)%nat /\
       kernelsNoN3 (sums s') = (kernelsNoN3 (sums s) + count (fun c => negb (p3n c) && hits3 part fld c) cs)%nat).
Proof. exact (fun A same _ part typeId cfg fld known H cs s U => forces3_value same part typeId cfg fld known H cs s U). Qed.
Print Assumptions C62_forces.

(** However the calls are divided among threads: endTraversal yields a third of the sum of
    the energies, and the sum of the virials, over the owned particles and the pairs they
    were called for. *)
Theorem C62_globals : forall {A} same, (forall x y : A, same x y = true <-> x = y) ->
  forall part typeId cfg fld known, setUp3 cfg fld known ->
  forall css ts, atGlobals cfg = true ->
  (forall c, In c (concat css) -> isDummy (part (p3a c)) = false -> isDummy (part (p3b c)) = false -> isDummy (part (p3c c)) = false ->
     (known (typeId (p3a c)) /\ known (typeId (p3b c)) /\ known (typeId (p3c c))) /\ apart3 part fld (p3a c) (p3b c) (p3c c)) ->
  Forall2 (fun cs t => exists s, sums s = noSums /\ atCalls same part typeId cfg cs s = Some t) css ts ->
  atEndTraversal (map sums ts) =
    (ownedEnergy3 part typeId fld (flat_map added3 (concat css)) / 3, ownedVirial3 part typeId fld (flat_map added3 (concat css))).
Proof. exact (fun A same _ part typeId cfg fld known H css ts G U F => globals3_value same part typeId cfg fld known H css ts G U F). Qed.
Print Assumptions C62_globals.

(** Two types with mixing (one parameter is set twice); two owned particles, a halo particle
    and a dummy at the place of a particle; the force on the first particle is not zero. *)
Example C62_example : exists l l' nu, registerAll tRegs (newLibrary 2) = Some l /\ calculateMixing l = Some l' /\
  (forall i j k, nu i j k * nu i j k * nu i j k = nuOfType tRegs i * nuOfType tRegs j * nuOfType tRegs k) /\
  setUp3 (mkATC true true true (2 * 2) 0 l') (mkATField 2 nu) (fun i => (i < numSites tRegs)%nat) /\
  (forall c, In c tCalls -> usable tPart tType (mkATField 2 nu) (fun i => (i < numSites tRegs)%nat) c) /\
  forceOf3 tPart tType (mkATField 2 nu) 0%nat 1%nat 2%nat <> rzero.
Proof. exact t_setup. Qed.
