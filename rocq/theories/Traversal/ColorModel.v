(** Model of the coloured loop nest
    src/autopas/containers/cellTraversals/ColorBasedTraversal.h. *)
From Verif.Base Require Import ZRange.
From Verif.Grid Require Import IndexModel.

(** Base cells that the parallel-for of one colour visits,
    ColorBasedTraversal.h:144-171 (the z/y/x loops; the collapse depth only
    influences which iterations form one OpenMP chunk, so every (x,y,z) is
    modelled as its own concurrent task, which is the least restrictive
    schedule).  Simplification: the loop variables are unsigned long and the sum
    [x + stride_x] is assumed not to wrap. *)
Definition colorBases (start end_ stride : I3) : list I3 :=
  flat_map (fun z => flat_map (fun y => map (fun x => mkI3 x y z)
      (zsteps (ix start) (ix end_) (ix stride)))
      (zsteps (iy start) (iy end_) (iy stride)))
      (zsteps (iz start) (iz end_) (iz stride)).

(** colorTraversal, ColorBasedTraversal.h:132-174: the list of colours, each with
    the base cells handed to the loop body.  Between two colours there is the
    implicit barrier of the omp for. *)
Definition colorTraversal (end_ stride offset : I3) : list (list I3) :=
  map (fun col => colorBases (i3add (oneToThreeD col stride) offset) end_ stride)
      (zrange 0 (ix stride * iy stride * iz stride)).
