(** Specification vocabulary for the octree. *)
From Coq Require Import Reals.
From Verif.Base Require Import ZRange.
From Verif.Functor Require Import SortModel SortSpec.
From Verif.Grid Require Import CellBlockSpec.
From Verif.Octree Require Import DirectionModel OctreeModel.
Local Open Scope R_scope.

(** Two closed boxes have a point in common: the boxes touch (or overlap). *)
Definition touching (lo1 hi1 lo2 hi2 : R3) : Prop := exists x, inClosedBox lo1 hi1 x /\ inClosedBox lo2 hi2 x.

(** [path] leads to a leaf with this box and these particles. *)
Definition leafAt {P} (t : Tree P) (path : Path) (lo hi : R3) (ps : list P) : Prop := nodeAt t path = Some (Leaf lo hi ps).

(** Trees that the container builds: starting with an empty leaf, particles in the box
    are inserted. *)
Inductive builtBy {P} (pos : P -> R3) (rnd : R -> R) (threshold : nat) (il : R) (lo hi : R3) : list P -> Tree P -> Prop :=
| builtEmpty : builtBy pos rnd threshold il lo hi [] (Leaf lo hi [])
| builtInsert ps t p fuel t' : builtBy pos rnd threshold il lo hi ps t -> inBox lo hi (pos p) ->
    insert pos rnd threshold il fuel t p = Some t' -> builtBy pos rnd threshold il lo hi (ps ++ [p]) t'.

(** No leaf is flat. *)
Definition solidLeaves {P} (t : Tree P) : Prop := forall path lo hi ps, leafAt t path lo hi ps -> below lo hi.

(** Arithmetic on numbers up to [2 * M] has an absolute error of at most [eps].  Exact
    arithmetic has error 0; for doubles see [double_accurate]. *)
Definition accurate (rnd : R -> R) (M eps : R) : Prop := forall x, Rabs x <= 2 * M -> Rabs (rnd x - x) <= eps.

(** All coordinates of the box are at most [M] in absolute value. *)
Definition boxUpTo (M : R) (lo hi : R3) : Prop :=
  (- M <= rx lo /\ rx hi <= M) /\ (- M <= ry lo /\ ry hi <= M) /\ (- M <= rz lo /\ rz hi <= M).

(** The box is at least [w] wide in every dimension. *)
Definition wideBox (w : R) (lo hi : R3) : Prop := w <= rx hi - rx lo /\ w <= ry hi - ry lo /\ w <= rz hi - rz lo.

(** The precision is sufficient for the box and the interaction length. *)
Definition precise (rnd : R -> R) (M eps il : R) (lo hi : R3) : Prop :=
  accurate rnd M eps /\ 0 <= eps <= M /\ 8 * eps <= il /\ 0 < il /\ boxUpTo M lo hi /\ below lo hi.
