(** Specification of a division of the global box by planes. *)
From Coq Require Import Reals List ZArith Bool.
From Verif.Grid Require Import IndexModel.
From Verif.Functor Require Import SortModel.
From Verif.Flex Require Import DomainModel.
Import ListNotations.

(** A rank; the position of a subdomain in the grid of subdomains. *)
Definition isRank (d : I3) (r : Z) : Prop := (0 <= r < ix d * iy d * iz d)%Z.
Definition isId (d id : I3) : Prop := forall a, (0 <= iat a id < iat a d)%Z.

(** The grid of subdomains has [n] subdomains; only the chosen dimensions are divided. *)
Definition decomposes (n : Z) (sx sy sz : bool) (d : I3) : Prop :=
  (forall a, 1 <= iat a d)%Z /\ (ix d * iy d * iz d = n)%Z /\
  (sx = false -> ix d = 1%Z) /\ (sy = false -> iy d = 1%Z) /\ (sz = false -> iz d = 1%Z).

Local Open Scope R_scope.
(** The box of a rank contains the position: lower faces belong to it. *)
Definition inRankBox (bs : Boxes) (r : Z) (x : R3) : Prop :=
  forall a, at3 a (boxMin bs r) <= at3 a x < at3 a (boxMax bs r).

(** [B a 0 < B a 1 < ... ] are the planes orthogonal to [a] that bound the subdomains; every
    subdomain has at least the width [minWidth]. *)
Record gridOf (gMin gMax : R3) (d : I3) (minWidth : R) (bs : Boxes) (B : Axis -> Z -> R) : Prop := mkGrid {
  grid_count : forall a, (1 <= iat a d)%Z;
  grid_first : forall a, B a 0%Z = at3 a gMin;
  grid_last : forall a, B a (iat a d) = at3 a gMax;
  grid_width : forall a i, (0 <= i < iat a d)%Z -> minWidth <= B a (i + 1)%Z - B a i;
  grid_min : forall r a, isRank d r -> at3 a (boxMin bs r) = B a (iat a (indexToId r d));
  grid_max : forall r a, isRank d r -> at3 a (boxMax bs r) = B a (iat a (indexToId r d) + 1)%Z }.

(** The widths are larger than the relative tolerance of the comparisons of boundaries. *)
Definition distinguishable (gMin gMax : R3) (minWidth : R) : Prop :=
  forall a, / 1000000000 * Rmax (Rabs (at3 a gMin)) (Rabs (at3 a gMax)) < minWidth.

(** The boxes of the ranks: at the beginning, and after any number of load balancing steps
    with any positive work of the ranks. *)
Inductive reachableBoxes (gMin gMax : R3) (d : I3) (minWidth : R) : Boxes -> Prop :=
| boxes_initial : reachableBoxes gMin gMax d minWidth (mkBoxes (initialMin gMin gMax d) (initialMax gMin gMax d))
| boxes_balanced bs work bs' : reachableBoxes gMin gMax d minWidth bs -> (forall r, isRank d r -> 0 < work r) ->
    (forall r, isRank d r -> balancedBox gMin gMax d minWidth bs work r = Some (boxMin bs' r, boxMax bs' r)) ->
    reachableBoxes gMin gMax d minWidth bs'.

(** The grid of subdomains suits the global box: every subdomain can have the width
    [minWidth]. *)
Definition suitable (gMin gMax : R3) (d : I3) (minWidth : R) : Prop :=
  0 < minWidth /\ distinguishable gMin gMax minWidth /\
  forall a, (1 <= iat a d)%Z /\ minWidth * IZR (iat a d) <= at3 a gMax - at3 a gMin.
