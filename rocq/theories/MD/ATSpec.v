(** The Axilrod-Teller interaction, independent of the functor. *)
From Coq Require Import Reals List ZArith Bool.
From Coquelicot Require Import Coquelicot.
From Verif.Functor Require Import CellFunctor3BModel SortModel.
From Verif.Container Require Import IteratorModel ParticleModel.
From Verif.MD Require Import MixingModel LJModel LJSpec ATModel.
Import ListNotations.
Local Open Scope R_scope.

(** The cosine of the angle at [a] in the triangle a b c. *)
Definition cosAt (a b c : R3) : R := dot (rsub b a) (rsub c a) / (distance a b * distance a c).
(** The potential energy of three particles. *)
Definition atPotential (nu : R) (a b c : R3) : R :=
  nu * (1 + 3 * cosAt a b c * cosAt b a c * cosAt c a b) / (distance a b * distance b c * distance c a) ^ 3.
(** The force on the particle at [a]: the negative gradient of the potential. *)
Definition atForce (nu : R) (a b c : R3) : R3 :=
  mkR3 (- Derive (fun x => atPotential nu (mkR3 x (ry a) (rz a)) b c) (rx a))
       (- Derive (fun y => atPotential nu (mkR3 (rx a) y (rz a)) b c) (ry a))
       (- Derive (fun z => atPotential nu (mkR3 (rx a) (ry a) z) b c) (rz a)).

(** Cutoff and parameters of the triples of types. *)
Record ATField := mkATField { atCutoff : R; nuOf : nat -> nat -> nat -> R }.

Section Triples.
  Context {A : Type}.
  Variable part : A -> Particle.
  Variable typeId : A -> nat.
  Variable fld : ATField.

  (** Two particles are not farther apart than the cutoff. *)
  Definition inReach (i j : A) : bool := if Rle_dec (distance (ppos (part i)) (ppos (part j))) (atCutoff fld) then true else false.
  (** Three particles interact: none is a dummy and all distances are within the cutoff. *)
  Definition interacting3 (i j k : A) : bool :=
    negb (isDummy (part i)) && negb (isDummy (part j)) && negb (isDummy (part k)) && inReach i j && inReach j k && inReach i k.
  (** Force of j and k on i. *)
  Definition forceOf3 (i j k : A) : R3 :=
    if interacting3 i j k
    then atForce (nuOf fld (typeId i) (typeId j) (typeId k)) (ppos (part i)) (ppos (part j)) (ppos (part k)) else rzero.
  (** Potential energy of the triple. *)
  Definition energyOf3 (i j k : A) : R :=
    if interacting3 i j k
    then atPotential (nuOf fld (typeId i) (typeId j) (typeId k)) (ppos (part i)) (ppos (part j)) (ppos (part k)) else 0.
  (** The part of i in the virial of the triple, by components. *)
  Definition virialOf3 (i j k : A) : R3 := rmul (forceOf3 i j k) (ppos (part i)).

  (** Interacting particles are at three places. *)
  Definition apart3 (i j k : A) : Prop := interacting3 i j k = true ->
    ppos (part i) <> ppos (part j) /\ ppos (part j) <> ppos (part k) /\ ppos (part i) <> ppos (part k).

  (** Sums over lists of triples (p, (q, r)), each standing for the effect of q and r on p:
      the force on one particle, the energies and virials of the owned particles. *)
  Variable same : A -> A -> bool.
  Definition forcesOn3 (a : A) (ts : list (A * (A * A))) : R3 :=
    vsum (map (fun t => forceOf3 (fst t) (fst (snd t)) (snd (snd t))) (filter (fun t => same a (fst t)) ts)).
  Definition ownedEnergy3 (ts : list (A * (A * A))) : R :=
    rsum (map (fun t => energyOf3 (fst t) (fst (snd t)) (snd (snd t))) (filter (fun t => isOwned (part (fst t))) ts)).
  Definition ownedVirial3 (ts : list (A * (A * A))) : R3 :=
    vsum (map (fun t => virialOf3 (fst t) (fst (snd t)) (snd (snd t))) (filter (fun t => isOwned (part (fst t))) ts)).

  (** Calls: between particles that are no dummies; between interacting particles. *)
  Definition alive3 (c : Call3 A) : bool :=
    negb (isDummy (part (p3a c))) && negb (isDummy (part (p3b c))) && negb (isDummy (part (p3c c))).
  Definition hits3 (c : Call3 A) : bool := interacting3 (p3a c) (p3b c) (p3c c).
End Triples.

(** A functor that is set up for these parameters, for the types that satisfy [known].
    The parameter of three types does not depend on their order. *)
Record setUp3 (cfg : ATConfig) (fld : ATField) (known : nat -> Prop) : Prop := {
  setUp3Cutoff : 0 <= atCutoff fld /\ atCutoffSquared cfg = atCutoff fld * atCutoff fld;
  setUp3Nu : forall i j k, known i -> known j -> known k -> tripleNu cfg i j k = Some (nuOf fld i j k);
  setUp3Symmetric : forall i j k, nuOf fld i j k = nuOf fld j i k /\ nuOf fld i j k = nuOf fld i k j }.
