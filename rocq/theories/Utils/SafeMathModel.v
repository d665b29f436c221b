(** Model of the safe arithmetic of Math.h.  An integer type is its smallest and largest
    value. *)
From Coq Require Import ZArith Bool.
From Flocq Require Import Core BinarySingleNaN.
Local Open Scope Z_scope.

Record IntType := mkInt { tmin : Z; tmax : Z }.
Definition signedInt (bits : Z) : IntType := mkInt (- 2 ^ (bits - 1)) (2 ^ (bits - 1) - 1).
Definition unsignedInt (bits : Z) : IntType := mkInt 0 (2 ^ bits - 1).

(** __builtin_add_overflow and its siblings: whether the exact result does not fit; the
    wrapped result is not used in that case. *)
Definition fits (T : IntType) (z : Z) : bool := (tmin T <=? z) && (z <=? tmax T).

(** safeAdd, Math.h:31-45. *)
Definition safeAdd (T : IntType) (a b under over : Z) : Z :=
  if fits T (a + b) then a + b else if (a <? 0) && (b <? 0) then under else over.
(** safeSub, Math.h:83-97. *)
Definition safeSub (T : IntType) (a b under over : Z) : Z :=
  if fits T (a - b) then a - b else if 0 <? b then under else over.
(** safeMul, Math.h:135-149. *)
Definition safeMul (T : IntType) (a b under over : Z) : Z :=
  if fits T (a * b) then a * b else if xorb (a <? 0) (b <? 0) then under else over.

(** pow, Math.h:185-197, over the integers. *)
Fixpoint powLoop (n : nat) (base res : Z) : Z := match n with O => res | S n' => powLoop n' base (res * base) end.
Definition pow (exponent : nat) (base : Z) : Z := match exponent with O => 1 | S n => powLoop n base base end.

(** Doubles: the binary64 format of Flocq. *)
Definition double := binary_float 53 1024.
Definition dprec : Prec_gt_0 53 := eq_refl.
Definition dmax : Prec_lt_emax 53 1024 := eq_refl.
Definition isInf (x : double) : bool := match x with B754_infinity _ => true | _ => false end.
(** [result > 0] for an infinite result. *)
Definition positive (x : double) : bool := match x with B754_infinity s | B754_finite s _ _ _ => negb s | _ => false end.
(** std::numeric_limits<double>::max(). *)
Definition maxDouble : double := @Bmax_float 53 1024 dprec dmax.
(** safeAdd, safeSub and safeMul for floating point types, Math.h:59-72, 112-124, 163-176. *)
Definition clampInf (under over r : double) : double := if isInf r then (if positive r then over else under) else r.
Definition fAdd (a b under over : double) : double := clampInf under over (@Bplus 53 1024 dprec dmax mode_NE a b).
Definition fSub (a b under over : double) : double := clampInf under over (@Bminus 53 1024 dprec dmax mode_NE a b).
Definition fMul (a b under over : double) : double := clampInf under over (@Bmult 53 1024 dprec dmax mode_NE a b).
