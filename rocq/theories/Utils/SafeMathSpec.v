(** What safe arithmetic is to return. *)
From Coq Require Import ZArith Reals.
From Flocq Require Import Core BinarySingleNaN.
From Verif.Utils Require Import SafeMathModel.
Local Open Scope Z_scope.

Definition inType (T : IntType) (z : Z) : Prop := tmin T <= z <= tmax T.
(** [r] is the exact result if it is representable, otherwise the value for its side. *)
Definition saturates (T : IntType) (exact under over r : Z) : Prop :=
  (inType T exact -> r = exact) /\ (exact < tmin T -> r = under) /\ (tmax T < exact -> r = over).
(** [r] is the rounded result unless that overflows. *)
Definition saturatesDouble (exact : R) (under over r : double) : Prop :=
  let rounded := round radix2 (SpecFloat.fexp 53 1024) ZnearestE exact in
  ((Rabs rounded < bpow radix2 1024)%R -> is_finite r = true /\ B2R r = rounded) /\
  ((bpow radix2 1024 <= rounded)%R -> r = over) /\ ((rounded <= - bpow radix2 1024)%R -> r = under).
