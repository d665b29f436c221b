(** Specification vocabulary for the linked cells container. *)
From Coq Require Import Reals.
From Verif.Base Require Import ZRange.
From Verif.Grid Require Import IndexModel CellBlockModel CellBlockSpec.
From Verif.Functor Require Import SortModel SortSpec.
Open Scope R_scope.

(** A box the container accepts (CellBlock3D's constructor does not throw), with
    less than 2^62 cells per dimension. *)
Definition validGrid (il csf : R) (bMin bMax : R3) : Prop :=
  0 < il /\ 0 < csf /\ below bMin bMax /\
  longEnough rndExact il (rx bMin) (rx bMax) /\ longEnough rndExact il (ry bMin) (ry bMax) /\
  longEnough rndExact il (rz bMin) (rz bMax) /\
  (dWithHalo (bX (rebuild rndExact il csf bMin bMax)) < 2 ^ 62)%Z /\
  (dWithHalo (bY (rebuild rndExact il csf bMin bMax)) < 2 ^ 62)%Z /\
  (dWithHalo (bZ (rebuild rndExact il csf bMin bMax)) < 2 ^ 62)%Z.

(** When they are added, owned particles are in the box and halo particles
    outside, but in the halo region. *)
Definition validParticles {P} (isHalo : P -> bool) (added : P -> R3) (b : Block) (bMin bMax : R3) (ps : list P) : Prop :=
  Forall (fun p => inBox (getHaloBoxMin b) (getHaloBoxMax b) (added p) /\
                   (isHalo p = false <-> inBox bMin bMax (added p))) ps.

(** No particle moved further than [s / 2] since it was added. *)
Definition movedAtMost {P} (added now : P -> R3) (s : R) (ps : list P) : Prop :=
  Forall (fun p => dist3 (now p) (added p) <= s / 2) ps.
