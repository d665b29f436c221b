(** * C78 - the functor for several sites gives the same results in both data layouts

    Model: MD/MultisiteModel.v (LJMultisiteFunctor.h).  Specification: the calls for single pairs of molecules (C77),
    [pairsOf] (MD/MultisiteSpec.v).
    Full statement: the same for functors without mixing (sites and parameters set by setParticleProperties).  It is
    false there: C78_no_mixing_refuted. *)

From Coq Require Import Reals List Bool Arith.
From Verif.Functor Require Import SortModel.
From Verif.Container Require Import IteratorModel ParticleModel.
From Verif.MD Require Import MixingModel LJModel MultisiteModel MultisiteSpec MultisiteProofs MultisiteExample.
From Verif.Flex Require Import QuatModel.
Import ListNotations.
Open Scope R_scope.

(** One cell: the calls for every pair of its molecules, with Newton's third law. *)
Theorem C78_single_partial : forall A (same : A -> A -> bool) part quatOf typeOf shifted globals cutoff2 librarySites libraryProps
    constSites constProps view s,
  soaFunctorSingle same part quatOf typeOf true shifted globals cutoff2 librarySites libraryProps constSites constProps view s =
  Some (fold_left (fun s c => aosFunctor same part quatOf typeOf true shifted globals cutoff2 librarySites libraryProps
                                constSites constProps true (fst c) (snd c) s) (pairsOf view) s).
Proof. intros. apply soa_single. reflexivity. Qed.
Print Assumptions C78_single_partial.

(** Two cells: the calls for every molecule of the first with every molecule of the second. *)
Theorem C78_pair_partial : forall A (same : A -> A -> bool) part quatOf typeOf shifted globals cutoff2 librarySites libraryProps
    constSites constProps newton3 viewA viewB s,
  soaFunctorPair same part quatOf typeOf true shifted globals cutoff2 librarySites libraryProps constSites constProps newton3 viewA viewB s =
  Some (fold_left (fun s c => aosFunctor same part quatOf typeOf true shifted globals cutoff2 librarySites libraryProps
                                constSites constProps newton3 (fst c) (snd c) s) (list_prod viewA viewB) s).
Proof. intros. apply soa_pair. reflexivity. Qed.
Print Assumptions C78_pair_partial.

(** A neighbour list: the calls for the molecule with each of its neighbours. *)
Theorem C78_verlet_partial : forall A (same : A -> A -> bool) part quatOf typeOf shifted globals cutoff2 librarySites libraryProps
    constSites constProps newton3 prime neighbors s,
  soaFunctorVerlet same part quatOf typeOf true shifted globals cutoff2 librarySites libraryProps constSites constProps newton3 prime neighbors s =
  Some (fold_left (fun s b => aosFunctor same part quatOf typeOf true shifted globals cutoff2 librarySites libraryProps
                                constSites constProps newton3 prime b s) neighbors s).
Proof. intros. apply soa_verlet. reflexivity. Qed.
Print Assumptions C78_verlet_partial.

(** Without mixing the library is a null pointer, and all three read it as soon as there is something to do. *)
Theorem C78_no_mixing_refuted : forall A (same : A -> A -> bool) part quatOf typeOf shifted globals cutoff2 librarySites libraryProps
    constSites constProps newton3 a b rest s, isDummy (part a) = false ->
  soaFunctorSingle same part quatOf typeOf false shifted globals cutoff2 librarySites libraryProps constSites constProps (a :: b :: rest) s = None /\
  soaFunctorPair same part quatOf typeOf false shifted globals cutoff2 librarySites libraryProps constSites constProps newton3 [a] (b :: rest) s = None /\
  soaFunctorVerlet same part quatOf typeOf false shifted globals cutoff2 librarySites libraryProps constSites constProps newton3 a (b :: rest) s = None.
Proof.
  intros A same part quatOf typeOf shifted globals cutoff2 ls lp cs cp n3 a b rest s D.
  unfold soaFunctorSingle, soaFunctorPair, soaFunctorVerlet. cbn [singleMols pairMols]. unfold pairMol. rewrite D. repeat split.
Qed.
Print Assumptions C78_no_mixing_refuted.

(** Two molecules that interact, a halo molecule out of reach and a dummy: six calls. *)
Example C78_example :
  length (pairsOf [0%nat; 1%nat; 2%nat; 3%nat]) = 6%nat /\ isDummy (uPart 0%nat) = false /\
  LJSpec.interacting uPart uField 0%nat 1%nat = true.
Proof. split; [reflexivity|]. split; [reflexivity|]. exact u_interacting. Qed.
