(** What computeInteractions with the Axilrod-Teller functor owes the user. *)
From Coq Require Import Reals List ZArith Bool.
From Verif.Functor Require Import SortModel.
From Verif.Container Require Import ParticleModel.
From Verif.MD Require Import LJModel LJSpec LJComputeSpec ATSpec.
Import ListNotations.
Local Open Scope R_scope.

(** Every two elements of a list, without regard to their order. *)
Fixpoint couples {A} (l : list A) : list (A * A) :=
  match l with
  | [] => []
  | x :: r => map (pair x) r ++ couples r
  end.

Section Spec.
  Variable same : Particle -> Particle -> bool.
  Variable typeId : Particle -> nat.
  Variable fld : ATField.
  Notation part := (fun x : Particle => x).

  (** The force on p: the sum of the forces of any two other particles. *)
  Definition totalForce3 (visible : list Particle) (p : Particle) : R3 :=
    vsum (map (fun qr => forceOf3 part typeId fld p (fst qr) (snd qr)) (couples (others same p visible))).
  (** The potential energy of the domain: a third of the energies of the owned particles
      with any two other particles. *)
  Definition totalEnergy3 (owned visible : list Particle) : R :=
    rsum (map (fun p => rsum (map (fun qr => energyOf3 part typeId fld p (fst qr) (snd qr)) (couples (others same p visible)))) owned) / 3.
  (** Its virial, by components. *)
  Definition totalVirial3 (owned visible : list Particle) : R3 :=
    vsum (map (fun p => vsum (map (fun qr => virialOf3 part typeId fld p (fst qr) (snd qr)) (couples (others same p visible)))) owned).
End Spec.
