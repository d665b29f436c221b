(** Model of src/autopas/utils/ThreeDimensionalMapping.h *)
From Verif.Base Require Import ZRange.

(** std::array<T, 3> of integers. *)
Record I3 := mkI3 { ix : Z; iy : Z; iz : Z }.

Definition i3add (a b : I3) : I3 := mkI3 (ix a + ix b) (iy a + iy b) (iz a + iz b).
Definition i3eqb (a b : I3) : bool :=
  (ix a =? ix b) && (iy a =? iy b) && (iz a =? iz b).

(** threeToOneD, ThreeDimensionalMapping.h:28-45, on mathematical integers:
    [(z * dims[1] + y) * dims[0] + x]. *)
Definition threeToOneD (p dims : I3) : Z := (iz p * iy dims + iy p) * ix dims + ix p.

(** oneToThreeD, ThreeDimensionalMapping.h:54-62, on mathematical integers
    (the index is unsigned, so C++ division is [Z.div]). *)
Definition oneToThreeD (ind : Z) (dims : I3) : I3 :=
  let z := ind / (ix dims * iy dims) in
  let y := (ind - z * ix dims * iy dims) / ix dims in
  let x := ind - ix dims * (y + iy dims * z) in
  mkI3 x y z.

(** The same two functions with T = unsigned long, i.e. every arithmetic
    operation reduced modulo 2^64. *)
Definition W64 : Z := 2 ^ 64.
Definition w64 (x : Z) : Z := x mod W64.

Definition threeToOneD_u64 (p dims : I3) : Z :=
  w64 (w64 (w64 (w64 (iz p * iy dims) + iy p) * ix dims) + ix p).

Definition oneToThreeD_u64 (ind : Z) (dims : I3) : I3 :=
  let z := ind / w64 (ix dims * iy dims) in
  let y := w64 (ind - w64 (w64 (z * ix dims) * iy dims)) / ix dims in
  let x := w64 (ind - w64 (ix dims * w64 (y + w64 (iy dims * z)))) in
  mkI3 x y z.
