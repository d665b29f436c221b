(** The interaction of molecules with several sites, independent of the functor. *)
From Coq Require Import Reals List ZArith Bool.
From Verif.Functor Require Import SortModel.
From Verif.Container Require Import IteratorModel ParticleModel.
From Verif.MD Require Import MixingModel LJModel LJSpec.
From Verif.Flex Require Import QuatModel QuatSpec.
Import ListNotations.
Local Open Scope R_scope.

Section Molecules.
  (** Molecules: centre of mass and ownership, orientation, sites (position in the molecule, site type).  The
      field gives the cutoff between centres of mass, and the parameters of pairs of site types. *)
  Context {A : Type}.
  Variable part : A -> Particle.
  Variable quatOf : A -> quat.
  Variable sitesIn : A -> list (R3 * nat).
  Variable fld : Field.

  (** Where the sites of a molecule are. *)
  Definition placed (a : A) : list (R3 * nat) :=
    map (fun s => (radd (ppos (part a)) (rotatePosition (quatOf a) (fst s)), snd s)) (sitesIn a).
  (** The pairs of sites that interact: all of two molecules whose centres are within the cutoff. *)
  Definition sitePairs (a b : A) : list ((R3 * nat) * (R3 * nat)) :=
    if interacting part fld a b then list_prod (placed a) (placed b) else [].

  (** Force of the site [snd st] on the site [fst st]. *)
  Definition siteForce (st : (R3 * nat) * (R3 * nat)) : R3 :=
    ljForce (epsilonOf fld (snd (fst st)) (snd (snd st))) (sigmaOf fld (snd (fst st)) (snd (snd st))) (fst (fst st)) (fst (snd st)).
  Definition siteEnergy (st : (R3 * nat) * (R3 * nat)) : R :=
    ljPotential (epsilonOf fld (snd (fst st)) (snd (snd st))) (sigmaOf fld (snd (fst st)) (snd (snd st)))
      (distance (fst (fst st)) (fst (snd st))) + shiftOf fld (snd (fst st)) (snd (snd st)).

  (** Force of b on a, torque of b on a about the centre of mass of a, energy and virial of the pair. *)
  Definition molForce (a b : A) : R3 := vsum (map siteForce (sitePairs a b)).
  Definition molTorque (a b : A) : R3 :=
    vsum (map (fun st => vectorProduct (rsub (fst (fst st)) (ppos (part a))) (siteForce st)) (sitePairs a b)).
  Definition molEnergy (a b : A) : R := rsum (map siteEnergy (sitePairs a b)).
  Definition molVirial (a b : A) : R3 :=
    vsum (map (fun st => rmul (rsub (fst (fst st)) (fst (snd st))) (siteForce st)) (sitePairs a b)).

  (** Interacting sites are not at the same place. *)
  Definition sitesApart (a b : A) : Prop := forall st, In st (sitePairs a b) -> fst (fst st) <> fst (snd st).

  (** A functor that is set up for these sites and parameters. *)
  Record setUpSites (typeOf : A -> nat) (mixing shifted : bool) (cutoff2 : R) (librarySites : nat -> list (R3 * nat))
      (libraryProps : nat -> nat -> LJProps) (constSites : list R3) (constProps : LJProps) : Prop := {
    sitesCutoff : 0 <= cutoffOf fld /\ cutoff2 = cutoffOf fld * cutoffOf fld;
    sitesMixing : forall a, mixing = true -> sitesIn a = librarySites (typeOf a);
    sitesConst : forall a, mixing = false -> sitesIn a = map (fun p => (p, 0%nat)) constSites;
    sitesProps : forall a b i j, In i (map snd (sitesIn a)) -> In j (map snd (sitesIn b)) ->
      let p := if mixing then libraryProps i j else constProps in
      epsilon24 p = 24 * epsilonOf fld i j /\ sigmaSquared p = sigmaOf fld i j * sigmaOf fld i j /\
      (if shifted then shift6 p = 6 * shiftOf fld i j else shiftOf fld i j = 0);
    sitesSymmetric : forall i j,
      epsilonOf fld i j = epsilonOf fld j i /\ sigmaOf fld i j = sigmaOf fld j i /\ shiftOf fld i j = shiftOf fld j i }.
End Molecules.

(** Every pair of a list once. *)
Fixpoint pairsOf {A} (view : list A) : list (A * A) :=
  match view with [] => [] | a :: rest => map (pair a) rest ++ pairsOf rest end.

(** The share of a pair in the sums over molecules: one half for every molecule that the call acts on and that
    is owned. *)
Definition share (newton3 : bool) (p q : Particle) : R :=
  (if isOwned p then 1 / 2 else 0) + (if newton3 && isOwned q then 1 / 2 else 0).
Definition trace (v : R3) : R := rx v + ry v + rz v.

(** Rates of the momentum and of the angular momentum (about the origin) of a molecule under a force and a torque
    about its centre of mass. *)
Definition angularRate (pos force torque : R3) : R3 := radd (vectorProduct pos force) torque.
