(** The Lennard-Jones interaction, independent of the functor. *)
From Coq Require Import Reals List ZArith Bool.
From Verif.Functor Require Import CellFunctorModel SortModel.
From Verif.Container Require Import IteratorModel ParticleModel.
From Verif.MD Require Import MixingModel LJModel.
Import ListNotations.
Local Open Scope R_scope.

(** The distance of two points. *)
Definition distance (a b : R3) : R :=
  sqrt ((rx a - rx b) * (rx a - rx b) + (ry a - ry b) * (ry a - ry b) + (rz a - rz b) * (rz a - rz b)).

(** The 12-6 potential at distance r. *)
Definition ljPotential (epsilon sigma r : R) : R := 4 * epsilon * ((sigma / r) ^ 12 - (sigma / r) ^ 6).

(** The force on a particle at [a] from one at [b]. *)
Definition ljForce (epsilon sigma : R) (a b : R3) : R3 :=
  let r := distance a b in
  rscale (rsub a b) (24 * epsilon * (2 * (sigma / r) ^ 12 - (sigma / r) ^ 6) / (r * r)).

(** Sums over lists. *)
Definition vsum (l : list R3) : R3 := fold_right radd rzero l.
Definition rsum (l : list R) : R := fold_right Rplus 0 l.

(** Parameters of the pairs of types. *)
Record Field := mkField { cutoffOf : R; epsilonOf : nat -> nat -> R; sigmaOf : nat -> nat -> R; shiftOf : nat -> nat -> R }.

Section Pairs.
  Context {A : Type}.
  Variable part : A -> Particle.
  Variable typeId : A -> nat.
  Variable fld : Field.

  (** Two particles interact: neither is a dummy and they are not farther apart than the
      cutoff. *)
  Definition interacting (i j : A) : bool :=
    negb (isDummy (part i)) && negb (isDummy (part j)) &&
    (if Rle_dec (distance (ppos (part i)) (ppos (part j))) (cutoffOf fld) then true else false).
  (** Force of j on i. *)
  Definition forceOf (i j : A) : R3 :=
    if interacting i j
    then ljForce (epsilonOf fld (typeId i) (typeId j)) (sigmaOf fld (typeId i) (typeId j)) (ppos (part i)) (ppos (part j))
    else rzero.
  (** Potential energy of the pair. *)
  Definition energyOf (i j : A) : R :=
    if interacting i j
    then ljPotential (epsilonOf fld (typeId i) (typeId j)) (sigmaOf fld (typeId i) (typeId j))
           (distance (ppos (part i)) (ppos (part j))) + shiftOf fld (typeId i) (typeId j)
    else 0.
  (** Its contribution to the virial, by components. *)
  Definition virialOf (i j : A) : R3 := rmul (rsub (ppos (part i)) (ppos (part j))) (forceOf i j).

  (** Interacting particles are not at the same place. *)
  Definition apart (i j : A) : Prop := interacting i j = true -> ppos (part i) <> ppos (part j).

  (** Sums over lists of pairs (p, q), each standing for the effect of q on p: the force
      on one particle, and the energies and virials of the owned particles. *)
  Variable same : A -> A -> bool.
  Definition forcesOn (a : A) (pairs : list (A * A)) : R3 :=
    vsum (map (fun pq => forceOf (fst pq) (snd pq)) (filter (fun pq => same a (fst pq)) pairs)).
  Definition ownedEnergy (pairs : list (A * A)) : R :=
    rsum (map (fun pq => energyOf (fst pq) (snd pq)) (filter (fun pq => isOwned (part (fst pq))) pairs)).
  Definition ownedVirial (pairs : list (A * A)) : R3 :=
    vsum (map (fun pq => virialOf (fst pq) (snd pq)) (filter (fun pq => isOwned (part (fst pq))) pairs)).

  (** Calls: between particles that are no dummies; between interacting particles. *)
  Definition alive (c : Call A) : bool := negb (isDummy (part (fstP c))) && negb (isDummy (part (sndP c))).
  Definition hits (c : Call A) : bool := interacting (fstP c) (sndP c).
End Pairs.

Definition count {B} (f : B -> bool) (l : list B) : nat := length (filter f l).

(** A functor that is set up for these parameters, for the types that satisfy [known].
    The parameters of a pair of types do not depend on the order. *)
Record setUp (cfg : LJConfig) (fld : Field) (known : nat -> Prop) : Prop := {
  setUpCutoff : 0 <= cutoffOf fld /\ cutoffSquared cfg = cutoffOf fld * cutoffOf fld;
  setUpProps : forall i j, known i -> known j ->
    exists p, pairProps cfg i j = Some p /\ epsilon24 p = 24 * epsilonOf fld i j /\
              sigmaSquared p = sigmaOf fld i j * sigmaOf fld i j /\ shift6 p = 6 * shiftOf fld i j;
  setUpSymmetric : forall i j, known i -> known j ->
    epsilonOf fld i j = epsilonOf fld j i /\ sigmaOf fld i j = sigmaOf fld j i /\ shiftOf fld i j = shiftOf fld j i }.

(** Two runs end without error in the same state. *)
Definition agree {A} (x y : option (State A)) : Prop :=
  exists s t, x = Some s /\ y = Some t /\ (forall a, forceAt s a = forceAt t a) /\ sums s = sums t.

(** A particle that is no dummy is not at the place of the other one, dummy or not. *)
Definition separate {A} (part : A -> Particle) (i j : A) : Prop :=
  isDummy (part i) = false -> ppos (part i) <> ppos (part j).
