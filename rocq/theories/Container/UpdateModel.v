(** Model of updateContainer of the linked cells and the direct sum container when
    neighbour lists need not stay valid. *)
From Coq Require Import Reals.
From Verif.Base Require Import ZRange.
From Verif.Grid Require Import IndexModel IndexSpec CellBlockModel.
From Verif.Functor Require Import SortModel.
From Verif.Container Require Import IteratorModel IteratorContainers ParticleModel.

(** FullParticleCell::deleteDummyParticles, FullParticleCell.h:227-231. *)
Definition deleteDummies (l : list Particle) : list Particle := filter (fun p => negb (isDummy p)) l.

(** The loop that moves all particles which do not belong here out of a vector with
    swap-deletes, LinkedCells.h:161-171, DirectSum.h:170-179.  [None]: the loop did
    not end within [fuel] rounds, or an access is out of range. *)
Fixpoint sweep (fuel : nat) (belongs : Particle -> bool) (l : list Particle) (i : nat) (out : list Particle)
  : option (list Particle * list Particle) :=
  match fuel with
  | O => None
  | S f =>
      if (i <? length l)%nat then
        match nth_error l i with
        | None => None
        | Some p => if belongs p then sweep f belongs l (S i) out
                    else sweep f belongs (swapDelete l i) i (out ++ [p])
        end
      else Some (l, out)
  end.
Definition sweepCell (belongs : Particle -> bool) (l : list Particle) : option (list Particle * list Particle) :=
  sweep (S (length l)) belongs l 0 [].

(** addParticle<false> of the linked cells container: LinkedCells.h:78-81,
    CellBlock3D.h:479-488, FullParticleCell.h:51-65.  None: the lookup is undefined,
    the index is out of range, or the cell throws because of the ownership. *)
Fixpoint pushAt (cells : list (list Particle)) (i : nat) (p : Particle) : option (list (list Particle)) :=
  match cells, i with
  | [], _ => None
  | c :: r, O => Some ((c ++ [p]) :: r)
  | c :: r, S n => match pushAt r n p with Some r' => Some (c :: r') | None => None end
  end.
Definition lcInsert (rnd : R -> R) (b : Block) (cells : list (list Particle)) (p : Particle) : option (list (list Particle)) :=
  match get1DIndexOfPosition rnd b (ppos p) with
  | None => None
  | Some i =>
      if (i <? 0) || negb (if isHaloP p then cellCanContainHaloParticles b i else cellCanContainOwnedParticles b i) then None
      else pushAt cells (Z.to_nat i) p
  end.

(** LinkedCells::updateContainer(false), first phase, LinkedCells.h:141-172: halo cells
    are cleared, then every cell is swept.  Returns the cells and the particles that
    left their cell. *)
Fixpoint lcSweep (rnd : R -> R) (b : Block) (i : Z) (cells : list (list Particle)) : option (list (list Particle) * list Particle) :=
  match cells with
  | [] => Some ([], [])
  | c :: r =>
      let '(lo, hi) := getCellBoundingBox rnd b (oneToThreeD i (blockDims b)) in
      match sweepCell (fun p => inBoxb lo hi (ppos p)) (deleteDummies c), lcSweep rnd b (i + 1) r with
      | Some (c', out), Some (r', out') => Some (c' :: r', out ++ out')
      | _, _ => None
      end
  end.
Definition lcUpdateSweep (rnd : R -> R) (b : Block) (cells : list (list Particle)) : option (list (list Particle) * list Particle) :=
  match clearHaloCells b cells with
  | None => None
  | Some cs => lcSweep rnd b 0 cs
  end.

(** Second phase, LinkedCells.h:176-189: every thread adds its particles again or
    returns them.  The threads run concurrently: [invalid] is given in the order in
    which they happen to do so. *)
Fixpoint lcReinsert (rnd : R -> R) (b : Block) (bMin bMax : R3) (cells : list (list Particle)) (invalid : list Particle)
  : option (list (list Particle) * list Particle) :=
  match invalid with
  | [] => Some (cells, [])
  | p :: r =>
      if inBoxb bMin bMax (ppos p) then
        match lcInsert rnd b cells p with
        | None => None
        | Some cs => lcReinsert rnd b bMin bMax cs r
        end
      else match lcReinsert rnd b bMin bMax cells r with
           | None => None
           | Some (cs, out) => Some (cs, p :: out)
           end
  end.

(** DirectSum::updateContainer(false), DirectSum.h:164-180. *)
Definition dsUpdate (bMin bMax : R3) (cells : list (list Particle)) : option (list (list Particle) * list Particle) :=
  match cells with
  | [] => None
  | owned :: halo =>
      match sweepCell (fun p => inBoxb bMin bMax (ppos p)) (deleteDummies owned) with
      | None => None
      | Some (c, out) => Some (c :: map (fun _ => []) halo, out)
      end
  end.
