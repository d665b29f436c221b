(** What computeInteractions with the Lennard-Jones functor owes the user. *)
From Coq Require Import Reals List ZArith Bool.
From Verif.Functor Require Import SortModel.
From Verif.Container Require Import ParticleModel.
From Verif.MD Require Import MixingModel LJModel LJSpec.
Import ListNotations.
Local Open Scope R_scope.

Section Spec.
  Variable same : Particle -> Particle -> bool.
  Variable typeId : Particle -> nat.
  Variable fld : Field.

  Definition others (p : Particle) (l : list Particle) : list Particle := filter (fun q => negb (same p q)) l.
  (** The force on p: the sum of the Lennard-Jones forces of all other particles. *)
  Definition totalForce (visible : list Particle) (p : Particle) : R3 :=
    vsum (map (forceOf (fun x => x) typeId fld p) (others p visible)).
  (** The potential energy of the domain: half of the energies of the owned particles
      with all other particles. *)
  Definition totalEnergy (owned visible : list Particle) : R :=
    rsum (map (fun p => rsum (map (energyOf (fun x => x) typeId fld p) (others p visible))) owned) / 2.
  (** Its virial, by components. *)
  Definition totalVirial (owned visible : list Particle) : R3 :=
    rscale (vsum (map (fun p => vsum (map (virialOf (fun x => x) typeId fld p) (others p visible))) owned)) (1 / 2).
End Spec.

(** No two particles are at the same place, and no two exactly at the cutoff distance. *)
Definition generalPosition (cutoff : R) (l : list Particle) : Prop :=
  forall p q, In p l -> In q l -> p <> q -> ppos p <> ppos q /\ distance (ppos p) (ppos q) <> cutoff.
