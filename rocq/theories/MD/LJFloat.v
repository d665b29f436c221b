(** The force kernel of the Lennard-Jones functor in double precision, x component. *)
From Coq Require Import ZArith Bool.
From Flocq Require Import Core BinarySingleNaN.
From Verif.Utils Require Import SafeMathModel.

Definition dadd : double -> double -> double := @Bplus 53 1024 dprec dmax mode_NE.
Definition dsub : double -> double -> double := @Bminus 53 1024 dprec dmax mode_NE.
Definition dmul : double -> double -> double := @Bmult 53 1024 dprec dmax mode_NE.
Definition ddiv : double -> double -> double := @Bdiv 53 1024 dprec dmax mode_NE.
Definition done_ : double := @Bone 53 1024 dprec dmax.
Definition dzero : double := B754_zero false.
Definition dle (x y : double) : bool := @Bleb 53 1024 x y.

Record D3 := mkD3 { dx : double; dy : double; dz : double }.
Definition dsquare (a b : D3) : double :=
  let x := dsub (dx a) (dx b) in let y := dsub (dy a) (dy b) in let z := dsub (dz a) (dz b) in
  dadd (dadd (dmul x x) (dmul y y)) (dmul z z).
Definition kernelX (mask : double) (e24 s2 : double) (a b : D3) : double :=
  let invdr2 := ddiv done_ (dsquare a b) in
  let lj2 := dmul s2 invdr2 in
  let lj6 := dmul (dmul lj2 lj2) lj2 in
  let lj12 := dmul lj6 lj6 in
  let lj12m6 := dsub lj12 lj6 in
  let fac := dmul (dmul (dmul mask e24) (dadd lj12 lj12m6)) invdr2 in
  dmul (dsub (dx a) (dx b)) fac.

(** fx in the vectorised loops, LJFunctor.h:270-300: mask is converted to 0 or 1. *)
Definition soaForceX (dummyJ : bool) (cutoff2 e24 s2 : double) (a b : D3) : double :=
  let mask := dle (dsquare a b) cutoff2 && negb dummyJ in
  kernelX (if mask then done_ else dzero) e24 s2 a b.
(** What AoSFunctor adds, LJFunctor.h:123-159: nothing for a dummy or beyond the cutoff. *)
Definition aosForceX (dummyJ : bool) (cutoff2 e24 s2 : double) (a b : D3) : option double :=
  if dummyJ then None
  else if negb (dle (dsquare a b) cutoff2) then None
  else Some (kernelX done_ e24 s2 a b).
