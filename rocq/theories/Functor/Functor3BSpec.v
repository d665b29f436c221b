(** What a list of three-body functor calls means for the particles:
    AoSFunctor(i, j, k, newton3) adds the contribution of the pair {j, k} to i and,
    if newton3 is set, that of {i, k} to j and that of {i, j} to k. *)
From Verif.Base Require Import ZRange Occ.
From Verif.Functor Require Import CellFunctorModel CellFunctor3BModel.

Section Spec3.
  Context {P : Type}.
  Variable pid : P -> Z.

  (** The unordered pair of ids {x, y} is {b, d}. *)
  Definition samePairId (b d x y : Z) : bool := ((x =? b) && (y =? d)) || ((x =? d) && (y =? b)).

  (** The call adds the contribution of the pair {b, d} to particle a. *)
  Definition contributes3 (a b d : Z) (c : Call3 P) : bool :=
    let x := pid (p3a c) in let y := pid (p3b c) in let z := pid (p3c c) in
    ((x =? a) && samePairId b d y z) ||
    (p3n c && (((y =? a) && samePairId b d x z) || ((z =? a) && samePairId b d x y))).

  Definition received3 (calls : list (Call3 P)) (a b d : P) : nat :=
    occ (contributes3 (pid a) (pid b) (pid d)) calls.
End Spec3.
