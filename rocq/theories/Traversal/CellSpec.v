(** Specification vocabulary for traversals of a cell grid.

    A traversal emits cell functor calls [(c1, c2)] on flat cell indices;
    [c1 = c2] is the processing of one cell, [c1 <> c2] the processing of the
    pair of cells. *)
From Verif.Base Require Import ZRange Occ.
From Verif.Grid Require Import IndexModel IndexSpec.

(** The call processes the unordered pair {a, b} of cells. *)
Definition samePair (a b : Z) (call : Z * Z) : bool :=
  ((fst call =? a) && (snd call =? b)) || ((fst call =? b) && (snd call =? a)).

(** How often the calls process the unordered pair {a, b} of 3D cells (the cell
    itself if a = b). *)
Definition timesProcessed (dims : I3) (calls : list (Z * Z)) (a b : I3) : nat :=
  occ (samePair (threeToOneD a dims) (threeToOneD b dims)) calls.

(** [c] is one of the cells which are not in the [h] outermost layers: those are
    the cells that can hold owned particles if the halo is [h] layers thick. *)
Definition ownedCell (dims h c : I3) : Prop :=
  ix h <= ix c < ix dims - ix h /\ iy h <= iy c < iy dims - iy h /\ iz h <= iz c < iz dims - iz h.

(** Distance of two cells in number of cells per dimension is at most [ov] in
    every dimension and passes the distance test [near]. *)
Definition withinReach (near : Z -> Z -> Z -> bool) (ov a b : I3) : Prop :=
  Z.abs (ix a - ix b) <= ix ov /\ Z.abs (iy a - iy b) <= iy ov /\ Z.abs (iz a - iz b) <= iz ov /\
  near (Z.abs (ix a - ix b)) (Z.abs (iy a - iy b)) (Z.abs (iz a - iz b)) = true.

(** A task (unit of work of one thread) accesses cell [c]. *)
Definition accesses (task : list (Z * Z)) (c : Z) : Prop :=
  exists call, In call task /\ (c = fst call \/ c = snd call).

(** Tasks that may run concurrently never access a common cell. *)
Definition raceFree (concurrent : list (list (Z * Z))) : Prop :=
  forall i j t1 t2, i <> j -> nth_error concurrent i = Some t1 -> nth_error concurrent j = Some t2 ->
  forall c, accesses t1 c -> accesses t2 c -> False.

(** All accessed cells exist. *)
Definition inBounds (dims : I3) (calls : list (Z * Z)) : Prop :=
  forall c1 c2, In (c1, c2) calls -> 0 <= c1 < numCells dims /\ 0 <= c2 < numCells dims.

(** The overlap (number of neighbouring cells the interaction length spans) is at
    least one and not larger than the grid. *)
Definition gridFits (dims ov : I3) : Prop :=
  positive ov /\ ix ov <= ix dims /\ iy ov <= iy dims /\ iz ov <= iz dims.

(** The halo is at least as thick as the overlap. *)
Definition haloCovers (h ov : I3) : Prop := ix ov <= ix h /\ iy ov <= iy h /\ iz ov <= iz h.

(** The distance test of the code in exact arithmetic, with all lengths given as
    integer multiples of a common unit: squared distance of the closest points
    of two cells that are [dx dy dz] cells apart, against the squared
    interaction length. *)
Definition nearZ (cellLength : I3) (il : Z) (dx dy dz : Z) : bool :=
  let d k l := Z.max 0 (k - 1) * l in
  d dx (ix cellLength) * d dx (ix cellLength) + d dy (iy cellLength) * d dy (iy cellLength) +
  d dz (iz cellLength) * d dz (iz cellLength) <=? il * il.

(** There is at least one non-halo layer between two halos as thick as the
    overlap. *)
Definition gridFits2x (dims ov : I3) : Prop :=
  positive ov /\ 2 * ix ov < ix dims /\ 2 * iy ov < iy dims /\ 2 * iz ov < iz dims.

(** A cell further away in x direction is not nearer. *)
Definition monotoneX (near : Z -> Z -> Z -> bool) : Prop :=
  forall x x' y z, 0 <= x <= x' -> near x' y z = true -> near x y z = true.

(** Three-body traversals: cell functor calls on flat indices.  The first cell is
    the base cell, the only one whose particles are updated. *)
Definition reach3 (near : Z -> Z -> Z -> bool) (ov a b c : I3) : Prop :=
  withinReach near ov a b /\ withinReach near ov a c /\
  near (Z.abs (ix b - ix c)) (Z.abs (iy b - iy c)) (Z.abs (iz b - iz c)) = true.
