(** Model of the direct sum container with its traversal (containers/directSum) and
    of the three-body c01 traversal of the linked cells with sorting directions. *)
From Coq Require Import Reals.
From Verif.Base Require Import ZRange.
From Verif.Grid Require Import IndexModel IndexSpec CellBlockModel.
From Verif.Functor Require Import CellFunctorModel CellFunctor3BModel SortModel.
From Verif.Traversal Require Import C01Model.
From Verif.Container Require Import LinkedCellsModel IteratorContainers.
From Verif.Logic Require Import HandlerModel.

(** The calls a traversal makes to its cell functor: processCell(c),
    processCellPair(c1, c2, dir), processCellTriple(c1, c2, c3, dir).  None: the
    default argument {0, 0, 0}, CellFunctor3B.h:54, 65, which means no sorting. *)
Inductive CellCall :=
| OneCell (c : Z)
| TwoCells (c1 c2 : Z) (dir : option R3)
| ThreeCells (c1 c2 c3 : Z) (dir : option R3).

Section CellCalls.
  Variable P : Type.
  Variable isHalo : P -> bool.
  Variable view : R3 -> list P -> list P.
  Variable pos : P -> R3.
  Variables (cf : CFSettings) (sortingCutoff : R).
  (** The direction along which a single cell is sorted: the normalised cell length
      (CellFunctor.h:223), normalised {1, 1, 1} (CellFunctor3B.h:310). *)
  Variable cellDirection : R3.
  Variable cells : list (Cell P).

  Definition zero3 : R3 := mkR3 0 0 0.
  Definition orZero (dir : option R3) : R3 := match dir with Some d => d | None => zero3 end.
  Definition given (dir : option R3) : bool := match dir with Some _ => true | None => false end.
  Definition cellNo (c : Z) : option (Cell P) := nth_error cells (Z.to_nat c).

  (** The calls of a pairwise functor. *)
  Definition pairCalls (call : CellCall) : list (Call P) :=
    match call with
    | OneCell c =>
        match cellNo c with
        | Some x => processCell isHalo (view cellDirection) (farAlong pos sortingCutoff cellDirection) cf x
        | None => []
        end
    | TwoCells c1 c2 dir =>
        match cellNo c1, cellNo c2 with
        | Some x, Some y => processCellPair (view (orZero dir)) (farAlong pos sortingCutoff (orZero dir)) cf (given dir) x y
        | _, _ => []
        end
    | ThreeCells _ _ _ _ => []
    end.

  (** The calls of a three-body functor. *)
  Definition tripleCalls (call : CellCall) : list (Call3 P) :=
    match call with
    | OneCell c =>
        match cellNo c with
        | Some x => processCell3 isHalo (view cellDirection) (farAlong pos sortingCutoff cellDirection) cf x
        | None => []
        end
    | TwoCells c1 c2 dir =>
        match cellNo c1, cellNo c2 with
        | Some x, Some y => processCellPair3 (view (orZero dir)) (farAlong pos sortingCutoff (orZero dir)) cf (given dir) x y
        | _, _ => []
        end
    | ThreeCells c1 c2 c3 dir =>
        match cellNo c1, cellNo c2, cellNo c3 with
        | Some x, Some y, Some z => processCellTriple3 (view (orZero dir)) (farAlong pos sortingCutoff (orZero dir)) cf (given dir) x y z
        | _, _, _ => []
        end
    end.
End CellCalls.

Arguments cellNo {P}.
Arguments pairCalls {P}.
Arguments tripleCalls {P}.

(** * Direct sum *)
Section DirectSum.
  Variable P : Type.
  Variable isHalo : P -> bool.

  (** Constructor, DirectSum.h:66-78. *)
  Definition dsEmpty : list (Cell P) := mkCell [] true :: repeat (mkCell [] false) 6.

  (** addParticle and addHaloParticle, ParticleContainerInterface.h:96-140,
      addParticleImpl and addHaloParticleImpl, DirectSum.h:93-114.  None: exception. *)
  Definition dsAdd (lo hi : R3) (pos : P -> R3) (cells : list (Cell P)) (p : P) : option (list (Cell P)) :=
    if isHalo p then
      if inBoxb lo hi (pos p) then None
      else match dsHaloCell lo hi (pos p) with
           | Some i => updateAt (cellAdd isHalo p) cells i
           | None => Some cells
           end
    else if inBoxb lo hi (pos p) then updateAt (cellAdd isHalo p) cells 0 else None.
  Fixpoint dsAddAll (lo hi : R3) (pos : P -> R3) (cells : list (Cell P)) (ps : list P) : option (list (Cell P)) :=
    match ps with
    | [] => Some cells
    | p :: r => match dsAdd lo hi pos cells p with Some c => dsAddAll lo hi pos c r | None => None end
    end.

  (** haloDirections, DSSequentialTraversal.h:104-105. *)
  Definition dsDirections : list R3 :=
    [mkR3 0 0 0; mkR3 (-1) 0 0; mkR3 1 0 0; mkR3 0 (-1) 0; mkR3 0 1 0; mkR3 0 0 (-1); mkR3 0 0 1]%R.
  Definition dsDirection (i : Z) : R3 := nth (Z.to_nat i) dsDirections zero3.

  (** traverseParticles, DSSequentialTraversal.h:94-110; the container has seven
      cells. *)
  Definition dsCalls (numCells : Z) : list CellCall :=
    OneCell 0 :: map (fun i => TwoCells 0 i (Some (dsDirection i))) (zrange 1 numCells).
  (** lines 112-120. *)
  Definition dsTripleCalls (numCells : Z) : list CellCall :=
    flat_map (fun i => map (fun j => ThreeCells 0 i j (Some (dsDirection i))) (zrange (i + 1) numCells)) (zrange 1 numCells).

  (** computeInteractions, DirectSum.h:147-153, with the cell functor of
      DSSequentialTraversal.h:48-53, 78-86: not bidirectional, sorting with the
      cutoff. *)
  Definition dsInteract view pos (lay : Layout) (newton3 : bool) (threshold : nat) (cutoff : R) (lo hi : R3)
      (cells : list (Cell P)) : list (Call P) :=
    flat_map (pairCalls isHalo view pos (mkCF lay newton3 false threshold) cutoff (normalize (rsub hi lo)) cells)
      (dsCalls (Z.of_nat (length cells))).
  Definition dsInteract3 view pos (lay : Layout) (newton3 : bool) (threshold : nat) (cutoff : R)
      (cells : list (Cell P)) : list (Call3 P) :=
    flat_map (tripleCalls isHalo view pos (mkCF lay newton3 false threshold) cutoff (normalize (mkR3 1 1 1)) cells)
      (dsCalls (Z.of_nat (length cells)) ++ dsTripleCalls (Z.of_nat (length cells))).
End DirectSum.

Arguments dsEmpty {P}.
Arguments dsAdd {P}.
Arguments dsAddAll {P}.
Arguments dsInteract {P}.
Arguments dsInteract3 {P}.

(** * The three-body c01 traversal *)

(** computeTriwiseOffsets with directions, LCC01Traversal.h:301-367: the flat offsets
    and the cell to which the direction points. *)
Definition c01TriwiseDir near (ov dims : I3) : list (Z * Z * I3) :=
  (0, 0, mkI3 1 1 1)%Z ::
  flat_map (fun o1 =>
    if negb (near3 near (mkI3 0 0 0) o1) then [] else
    flat_map (fun o2 =>
      if negb (near3 near o1 o2) then [] else
      if negb (near3 near (mkI3 0 0 0) o2) then [] else
      let offset1 := threeToOneD o1 dims in
      let offset2 := threeToOneD o2 dims in
      if (offset2 <=? offset1)%Z then []
      else [(offset1, offset2, if (offset1 =? 0)%Z then o2 else o1)]) (cube ov)) (cube ov).

(** processBaseCellTriwise, LCC01Traversal.h:478-503. *)
Definition c01BaseDir3B near (ov dims : I3) (cellLength : R3) (b : I3) : list CellCall :=
  let baseIndex := threeToOneD b dims in
  map (fun '(offset1, offset2, dir) =>
    let o1 := (baseIndex + offset1)%Z in
    let o2 := (baseIndex + offset2)%Z in
    if ((baseIndex =? o1) && (baseIndex =? o2))%Z%bool then OneCell baseIndex
    else if ((baseIndex =? o1) && negb (baseIndex =? o2))%Z%bool then TwoCells baseIndex o2 None
    else if (negb (baseIndex =? o1) && (baseIndex =? o2))%Z%bool then TwoCells baseIndex o1 None
    else if (negb (baseIndex =? o1) && (o1 =? o2))%Z%bool then TwoCells baseIndex o1 None
    else ThreeCells baseIndex o1 o2 (Some (sortingDirection cellLength dir))) (c01TriwiseDir near ov dims).
Definition c01CallsDir3B near (ov dims : I3) (cellLength : R3) : list CellCall :=
  flat_map (c01BaseDir3B near ov dims cellLength) (concat (c01Colors ov dims)).

(** computeInteractions of the linked cells with this traversal; the cell functor is
    not bidirectional and sorts with the interaction length, LCC01Traversal.h:96-104,
    146-148; newton3 is off, lines 125-128. *)
Definition lcInteract3 {P} isHalo view (pos : P -> R3) (lay : Layout) (threshold : nat) (il : R) (cells : list (Cell P))
    (calls : list CellCall) : list (Call3 P) :=
  flat_map (tripleCalls isHalo view pos (mkCF lay false false threshold) il (normalize (mkR3 1 1 1)) cells) calls.
