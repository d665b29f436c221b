(** Iteration with a lambda function: forEach and forEachInRegion of the containers.
    The model computes the particles the lambda is called with, in this order.
    reduce and reduceInRegion have the same loops.  [None]: an exception or undefined
    behaviour. *)
From Coq Require Import Reals.
From Verif.Base Require Import ZRange OptionM.
From Verif.Grid Require Import IndexModel IndexSpec CellBlockModel.
From Verif.Functor Require Import SortModel.
From Verif.Container Require Import IteratorModel IteratorContainers ParticleModel.

(** IteratorBehavior::contains, options/IteratorBehavior.h:123-140. *)
Definition behaviorContains (behavior : Z) (p : Particle) : option bool :=
  if behavior =? bhAll then Some true
  else if behavior =? bhOwnedOrHalo then Some (negb (isDummy p))
  else if behavior =? bhHalo then Some (isHaloP p)
  else if behavior =? bhOwned then Some (isOwned p)
  else if behavior =? bhDummy then Some (isDummy p)
  else None.

(** FullParticleCell::forEach with a behaviour and maybe a region,
    FullParticleCell.h:116-134, 284-295. *)
Fixpoint cellForEach (behavior : Z) (inRegion : R3 -> bool) (cell : list Particle) : option (list Particle) :=
  match cell with
  | [] => Some []
  | p :: r =>
      match behaviorContains behavior p, cellForEach behavior inRegion r with
      | Some c, Some l => Some (if c && inRegion (ppos p) then p :: l else l)
      | _, _ => None
      end
  end.

(** CellBorderAndFlagManager::ignoreCellForIteration, CellBorderAndFlagManager.h:49-60. *)
Definition ignoreCellForIteration (b : Block) (c behavior : Z) : bool :=
  if hasFlag behavior bhHalo && cellCanContainHaloParticles b c then false
  else if hasFlag behavior bhOwned && cellCanContainOwnedParticles b c then false
  else if hasFlag behavior bhDummy then false
  else true.

Definition visitCells (b : Block) (behavior : Z) (inRegion : R3 -> bool) (cells : list (list Particle)) (is : list Z)
  : option (list Particle) :=
  match mapM (fun i => if ignoreCellForIteration b i behavior then Some []
                       else match at_ cells i with
                            | None => None
                            | Some cell => cellForEach behavior inRegion cell
                            end) is with
  | Some ls => Some (concat ls)
  | None => None
  end.

(** LinkedCells::forEach, LinkedCells.h:326-338. *)
Definition lcForEach (b : Block) (behavior : Z) (cells : list (list Particle)) : option (list Particle) :=
  if behavior =? bhAll then Some (concat cells)
  else visitCells b behavior (fun _ => true) cells (zrange 0 (size cells)).

(** LinkedCells::forEachInRegion, LinkedCells.h:385-412. *)
Definition lcForEachInRegion (rnd : R -> R) (b : Block) (skin : R) (behavior : Z) (lo hi : R3) (cells : list (list Particle))
  : option (list Particle) :=
  let sub v := mkR3 (rnd (rx v - skin)%R) (rnd (ry v - skin)%R) (rnd (rz v - skin)%R) in
  let add v := mkR3 (rnd (rx v + skin)%R) (rnd (ry v + skin)%R) (rnd (rz v + skin)%R) in
  match get3DIndexOfPosition rnd b (sub lo), get3DIndexOfPosition rnd b (add hi) with
  | Some start, Some stop =>
      visitCells b behavior (inBoxb lo hi) cells
        (flat_map (fun z => flat_map (fun y => map (fun x => threeToOneD (mkI3 x y z) (blockDims b))
                                                   (zrange (ix start) (ix stop + 1)))
                                     (zrange (iy start) (iy stop + 1)))
                  (zrange (iz start) (iz stop + 1)))
  | _, _ => None
  end.

(** DirectSum::forEach, DirectSum.h:212-226. *)
Definition dsForEach (behavior : Z) (cells : list (list Particle)) : option (list Particle) :=
  match cells with
  | [] => None
  | owned :: halo =>
      if negb (hasFlag behavior bhOwnedOrHalo) then None
      else Some ((if hasFlag behavior bhOwned then owned else []) ++ (if hasFlag behavior bhHalo then concat halo else []))
  end.

(** DirectSum::forEachInRegion, DirectSum.h:265-278. *)
Definition dsForEachInRegion (behavior : Z) (lo hi : R3) (cells : list (list Particle)) : option (list Particle) :=
  match cells with
  | [] => None
  | owned :: halo =>
      if negb (hasFlag behavior bhOwnedOrHalo) then None
      else match mapM (cellForEach behavior (inBoxb lo hi))
                   ((if hasFlag behavior bhOwned then [owned] else []) ++ (if hasFlag behavior bhHalo then halo else [])) with
           | Some ls => Some (concat ls)
           | None => None
           end
  end.
