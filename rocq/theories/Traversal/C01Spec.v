(** Predicates on the calls of the c01 traversal. *)
From Verif.Base Require Import ZRange.
From Verif.Traversal Require Import C01Model.

(** The call processes base cell [a] against cell [b] (updating only [a]). *)
Definition orderedPair (a b : Z) (c : Z * Z) : bool := (fst c =? a) && (snd c =? b).

(** Three-body calls: the base cell alone, base cell with one other cell, base
    cell with the unordered pair {b, d} of other cells. *)
Definition isCell (a : Z) (c : Call3B) : bool := match c with CCell b => b =? a | _ => false end.
Definition isPair (a b : Z) (c : Call3B) : bool :=
  match c with CPair x y => (x =? a) && (y =? b) | _ => false end.
Definition isTriple (a b d : Z) (c : Call3B) : bool :=
  match c with
  | CTriple x y z => (x =? a) && (((y =? b) && (z =? d)) || ((y =? d) && (z =? b)))
  | _ => false
  end.
