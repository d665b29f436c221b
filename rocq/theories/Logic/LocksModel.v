(** Model of the spatial locks of the remainder traversal, LogicHandler.h.  Every
    floating point operation is followed by the rounding function [rnd]. *)
From Coq Require Import Reals.
From Flocq Require Import Core.
From Verif.Base Require Import ZRange.
From Verif.Grid Require Import IndexModel.
From Verif.Functor Require Import SortModel.
Open Scope R_scope.

Section Rounded.
  Variable rnd : R -> R.

  Definition map3 (f : R -> R) (v : R3) : R3 := mkR3 (f (rx v)) (f (ry v)) (f (rz v)).
  Definition zip3 (f : R -> R -> R) (v w : R3) : R3 := mkR3 (f (rx v) (rx w)) (f (ry v) (ry w)) (f (rz v) (rz w)).

  (** maxNumSpacialLocks, LogicHandler.h:614. *)
  Definition maxNumSpacialLocks : Z := 1000000.

  (** std::cbrt of a positive number.  [x ^ (1/3)] for the real number 1/3, then
      rounded. *)
  Definition cbrt (x : R) : R := rnd (Rpower x (1 / 3)).

  (** initSpacialLocks, LogicHandler.h:617-648: number of locks per dimension.
      Casts of values that are not negative; the values are assumed to fit. *)
  Definition locksPerDim (boxLength : R3) (interactionLengthInv : R) : I3 :=
    let naive l := Zceil (rnd (l * interactionLengthInv)) in
    let n := mkI3 (naive (rx boxLength)) (naive (ry boxLength)) (naive (rz boxLength)) in
    if (ix n * iy n * iz n <=? maxNumSpacialLocks)%Z then n
    else
      let p1 := rnd (rx boxLength / ry boxLength) in
      let p2 := rnd (rx boxLength / rz boxLength) in
      let prod := rnd (rnd (1 * p1) * p2) in
      let first := IZR (Zfloor (cbrt (rnd (IZR maxNumSpacialLocks * prod)))) in
      mkI3 (Ztrunc first) (Ztrunc (rnd (first / p1))) (Ztrunc (rnd (first / p2))).

  (** Constructor, LogicHandler.h:87-90.  [il] is the interaction length. *)
  Definition locksInitial (il : R) (bMin bMax : R3) : I3 :=
    let inv := rnd (1 / il) in
    let len := zip3 (fun a b => rnd (rnd (b - a) + rnd (2 * il))) bMin bMax in
    locksPerDim len inv.

  (** resizeBox, LogicHandler.h:256-259. *)
  Definition locksAfterResize (il : R) (bMin bMax : R3) : I3 :=
    locksPerDim (zip3 (fun a b => rnd (b - a)) bMin bMax) (rnd (1 / il)).

  (** getSpacialLock in remainderHelperBufferContainer, LogicHandler.h:1204-1222,
      one dimension: the index for a position, where [n] locks exist. *)
  Definition lockCoord (il bMin bMax : R) (n : Z) (pos : R) : Z :=
    let haloMin := rnd (bMin - il) in
    let inv := rnd (1 / rnd (rnd (bMax + il) - haloMin)) in
    let relative := rnd (rnd (pos - haloMin) * inv) in
    Ztrunc (rnd (rnd (IZR n) * relative)).
  Definition lockOf (il : R) (bMin bMax : R3) (n : I3) (pos : R3) : I3 :=
    mkI3 (lockCoord il (rx bMin) (rx bMax) (ix n) (rx pos))
         (lockCoord il (ry bMin) (ry bMax) (iy n) (ry pos))
         (lockCoord il (rz bMin) (rz bMax) (iz n) (rz pos)).

  (** The index used in remainderHelper3bBufferBufferContainer,
      LogicHandler.h:1428-1429, 1446, one dimension. *)
  Definition lockCoord3B (il bMin pos : R) : Z :=
    Ztrunc (rnd (rnd (pos - rnd (bMin - il)) * rnd (1 / il))).
  Definition lockOf3B (il : R) (bMin pos : R3) : I3 :=
    mkI3 (lockCoord3B il (rx bMin) (rx pos)) (lockCoord3B il (ry bMin) (ry pos)) (lockCoord3B il (rz bMin) (rz pos)).
End Rounded.
