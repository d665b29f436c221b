(** Model of containers/linkedCells/LinkedCells.h: sorting particles into cells
    and computing the interactions with a traversal. *)
From Coq Require Import Reals.
From Verif.Base Require Import ZRange.
From Verif.Grid Require Import IndexModel IndexSpec CellBlockModel.
From Verif.Functor Require Import CellFunctorModel SortModel.
From Verif.Traversal Require Import C08Model C18Model C01Model.

Section LinkedCells.
  Variable P : Type.
  Variable isHalo : P -> bool.

  (** FullParticleCell::addParticle, cells/FullParticleCell.h:51-65, for particles
      that are owned or halo.  Throws (None) if the particle's ownership is not
      the one of the cell.  A cell is an owned or a halo cell, never both
      (CellBlock3D.h:412-425, 83-85). *)
  Definition cellAdd (p : P) (c : Cell P) : option (Cell P) :=
    if Bool.eqb (mayOwn c) (negb (isHalo p)) then Some (mkCell (parts c ++ [p]) (mayOwn c)) else None.

  Fixpoint updateAt (f : Cell P -> option (Cell P)) (cells : list (Cell P)) (i : nat) : option (list (Cell P)) :=
    match cells, i with
    | [], _ => None
    | c :: r, O => match f c with Some c' => Some (c' :: r) | None => None end
    | c :: r, S n => match updateAt f r n with Some r' => Some (c :: r') | None => None end
    end.

  (** The empty container: CellBlock3D::rebuild, CellBlock3D.h:398-425. *)
  Definition lcEmpty (b : Block) : list (Cell P) :=
    map (fun i => mkCell [] (cellCanContainOwnedParticles b i)) (zrange 0 (numCells (blockDims b))).

  (** addParticleImpl, addHaloParticleImpl, LinkedCells.h:78-86, with
      getContainingCell, CellBlock3D.h:479-488. *)
  Definition lcAdd (rnd : R -> R) (b : Block) (pos : P -> R3) (cells : list (Cell P)) (p : P) : option (list (Cell P)) :=
    match get1DIndexOfPosition rnd b (pos p) with
    | Some i => if (i <? 0)%Z then None else updateAt (cellAdd p) cells (Z.to_nat i)
    | None => None
    end.

  Fixpoint lcAddAll (rnd : R -> R) (b : Block) (pos : P -> R3) (cells : list (Cell P)) (ps : list P) : option (list (Cell P)) :=
    match ps with
    | [] => Some cells
    | p :: r => match lcAdd rnd b pos cells p with Some c => lcAddAll rnd b pos c r | None => None end
    end.

  (** computeInteractions, LinkedCells.h:127-133, for a traversal that makes the
      given cell functor calls (cell 1, cell 2, direction from cell 1 to cell 2
      in cells): LCC08CellHandler.h:111-126, LCC18Traversal.h:190-206,
      LCC01Traversal.h:463-474.  [view dir] is SortedCellView along [dir]; a
      single cell is sorted along its normalised cell length, CellFunctor.h:222. *)
  Variable view : R3 -> list P -> list P.
  Variable pos : P -> R3.
  Definition cellCall (cf : CFSettings) (sortingCutoff : R) (cellLength : R3) (cells : list (Cell P))
      (call : Z * Z * I3) : list (Call P) :=
    let '(c1, c2, dir) := call in
    match nth_error cells (Z.to_nat c1), nth_error cells (Z.to_nat c2) with
    | Some x, Some y =>
        if (c1 =? c2)%Z then
          let d := normalize cellLength in processCell isHalo (view d) (farAlong pos sortingCutoff d) cf x
        else
          let d := sortingDirection cellLength dir in
          processCellPair (view d) (farAlong pos sortingCutoff d) cf true x y
    | _, _ => []
    end.
  Definition lcInteract cf sortingCutoff cellLength cells (calls : list (Z * Z * I3)) : list (Call P) :=
    flat_map (cellCall cf sortingCutoff cellLength cells) calls.
End LinkedCells.

Arguments cellAdd {P}.
Arguments updateAt {P}.
Arguments lcEmpty {P}.
Arguments lcAdd {P}.
Arguments lcAddAll {P}.
Arguments cellCall {P}.
Arguments lcInteract {P}.

(** The distance test of the traversals over the real numbers:
    LCC08CellHandlerUtility.cpp:107-115, LCC18Traversal.h:136-144,
    LCC01Traversal.h:262-268. *)
Definition nearR (cellLength : R3) (il : R) (dx dy dz : Z) : bool :=
  let d k l := (IZR (Z.max 0 (k - 1)) * l)%R in
  let v := mkR3 (d dx (rx cellLength)) (d dy (ry cellLength)) (d dz (rz cellLength)) in
  if Rle_dec (dot v v) (il * il) then true else false.

(** _cellLength and the overlap of the traversals for a block. *)
Definition blockLength (b : Block) : R3 := mkR3 (dLen (bX b)) (dLen (bY b)) (dLen (bZ b)).
Definition blockOverlap (rnd : R -> R) (il : R) (b : Block) : I3 :=
  mkI3 (overlapOf rnd il (dLen (bX b))) (overlapOf rnd il (dLen (bY b))) (overlapOf rnd il (dLen (bZ b))).

(** The traversals with the directions they pass to the cell functor.
    c08: LCC08CellHandler::processBaseCell, LCC08CellHandler.h:111-126. *)
Definition c08BaseDir near (ov dims : I3) (base : Z) : list (Z * Z * I3) :=
  map (fun '(o1, o2, dir) => (base + o1, base + o2, dir)%Z) (c08OffsetsDir near ov dims).
(** ... executed for a list of base cells (c08: LCC08Traversal.h:69-75; c04, c04HCP
    and the sliced traversals use the same base step). *)
Definition c08StepsDir near (dims ov : I3) (bases : list I3) : list (Z * Z * I3) :=
  flat_map (fun b => c08BaseDir near ov dims (threeToOneD b dims)) bases.
Definition c08CallsDir near (dims ov : I3) : list (Z * Z * I3) :=
  c08StepsDir near dims ov (concat (c08Colors dims ov)).
(** c18: LCC18Traversal.h:182-209. *)
Definition c18CallsDir near (dims ov : I3) : list (Z * Z * I3) :=
  flat_map (fun b => map (fun '(o, dir) => (threeToOneD b dims, threeToOneD b dims + o, dir)%Z)
      (c18OffsetsDir near ov dims (c18GetIndex (iy b) (iy dims) (iy ov)) (c18GetIndex (ix b) (ix dims) (ix ov))))
    (concat (c18Colors dims ov)).
(** c01: LCC01Traversal.h:463-474. *)
Definition c01CallsDir near (ov dims : I3) : list (Z * Z * I3) :=
  flat_map (fun b => map (fun '(o, dir) => (threeToOneD b dims, threeToOneD b dims + o, dir)%Z) (c01AllOffsetsDir near ov dims))
    (concat (c01Colors ov dims)).
