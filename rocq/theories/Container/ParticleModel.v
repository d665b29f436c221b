(** Particles as the containers see them. *)
From Coq Require Import Reals.
From Verif.Base Require Import ZRange.
From Verif.Functor Require Import SortModel.
From Verif.Container Require Import IteratorModel.

(** particles/Particle.h, particles/ParticleBase.h: id, position and ownership state
    (0 dummy, 1 owned, 2 halo).  Velocity, force and other data are copied along with
    the rest and never looked at: [pdata]. *)
Record Particle := mkParticle { pid : Z; ppos : R3; pown : Z; pdata : Z }.

(** setOwnershipState. *)
Definition withOwn (o : Z) (p : Particle) : Particle := mkParticle (pid p) (ppos p) o (pdata p).

Definition isOwned (p : Particle) : bool := pown p =? stOwned.
Definition isHaloP (p : Particle) : bool := pown p =? stHalo.
Definition isDummy (p : Particle) : bool := pown p =? stDummy.
