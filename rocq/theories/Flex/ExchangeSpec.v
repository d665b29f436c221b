(** Specification of the exchange of particles between ranks. *)
From Coq Require Import Reals List ZArith Bool.
From Verif.Grid Require Import IndexModel.
From Verif.Functor Require Import SortModel.
From Verif.Container Require Import ParticleModel.
From Verif.Flex Require Import DomainModel DomainSpec ExchangeModel.
Import ListNotations.
Local Open Scope R_scope.

(** [q] is the particle [p] moved by [k] times the lengths of the global box. *)
Definition isImage (gMin gMax : R3) (k : Axis -> Z) (p q : Particle) : Prop :=
  pid q = pid p /\ pown q = pown p /\ pdata q = pdata p /\
  forall a, at3 a (ppos q) = at3 a (ppos p) + IZR (k a) * (at3 a gMax - at3 a gMin).

(** The position is less than [w] outside of the box of the rank. *)
Definition aroundRankBox (bs : Boxes) (w : R) (r : Z) (x : R3) : Prop :=
  forall a, at3 a (boxMin bs r) - w <= at3 a x < at3 a (boxMax bs r) + w.

(** [q] is an image of a particle of some rank that lies in the halo of rank [r].  Particles
    have images only in periodic dimensions. *)
Definition haloImage (cfg : Config) (owned : Z -> list Particle) (r : Z) (q : Particle) : Prop :=
  exists s p k, isRank (decomposition cfg) s /\ In p (owned s) /\ (forall a, boundary cfg a <> Periodic -> k a = 0%Z) /\
    isImage (globalMin cfg) (globalMax cfg) k p q /\
    aroundRankBox (boxes cfg) (cutoffWidth cfg + skin cfg) r (ppos q) /\ ~ inRankBox (boxes cfg) r (ppos q).

(** The exchange along dimension [a] is periodic, or one rank spans the dimension, or no
    particle has been exchanged along the dimensions before. *)
Definition earlier (b a : Axis) : Prop :=
  match b, a with AX, AY | AX, AZ | AY, AZ => True | _, _ => False end.
Definition exchangeable (cfg : Config) (a : Axis) : Prop :=
  boundary cfg a = Periodic \/ iat a (decomposition cfg) = 1%Z \/
  forall b, earlier b a -> boundary cfg b <> Periodic /\ iat b (decomposition cfg) = 1%Z.

(** The coordinate of a particle that has left the global box, on the other side; at most the
    largest number below the upper boundary. *)
Definition wrapCoord (cfg : Config) (a : Axis) (x : R) : R :=
  let L := at3 a (globalMax cfg) - at3 a (globalMin cfg) in
  if Rlt_dec x (at3 a (globalMin cfg)) then Rmin (justInside cfg a) (x + L)
  else if Rle_dec (at3 a (globalMax cfg)) x then x - L else x.
Definition wrapParticle (cfg : Config) (p : Particle) : Particle :=
  mkParticle (pid p) (mkR3 (wrapCoord cfg AX (rx (ppos p))) (wrapCoord cfg AY (ry (ppos p))) (wrapCoord cfg AZ (rz (ppos p)))) (pown p) (pdata p).

(** A particle [p] that has left the box of rank [r]: it has not crossed a boundary of the
    global box that is not periodic; and in every dimension it has moved by at most the
    width of a subdomain, or (after load balancing) it is at the height of the box of the
    rank or of a rank next to it.  With enough steps (ALL load balancer) it may be anywhere
    in the global box or slightly outside of it. *)
Definition leavingParticle (cfg : Config) (minWidth : R) (r : Z) (p : Particle) : Prop :=
  ~ inRankBox (boxes cfg) r (ppos p) /\
  forall a, let x := at3 a (ppos p) in
    let l := at3 a (boxMin (boxes cfg) r) in let h := at3 a (boxMax (boxes cfg) r) in
    let gl := at3 a (globalMin cfg) in let gh := at3 a (globalMax cfg) in
    (boundary cfg a = Periodic \/ gl <= x < gh) /\
    ((1 <= sendSteps cfg a)%nat /\
       (l - minWidth <= x < h + minWidth \/
        exists s, isRank (decomposition cfg) s /\
          (Z.abs (iat a (indexToId s (decomposition cfg)) - iat a (indexToId r (decomposition cfg))) <= 1)%Z /\
          at3 a (boxMin (boxes cfg) s) <= x < at3 a (boxMax (boxes cfg) s)) \/
     (iat a (decomposition cfg) <= Z.of_nat (sendSteps cfg a))%Z /\ gl - minWidth <= x < gh + minWidth).

(** [justInside] is below the upper boundary of the global box, but not below a lower
    boundary of a subdomain. *)
Definition justInsideBox (cfg : Config) : Prop :=
  forall a, justInside cfg a < at3 a (globalMax cfg) /\ forall r, isRank (decomposition cfg) r -> at3 a (boxMin (boxes cfg) r) <= justInside cfg a.
