(** Model of the c08 variant of VerletListsCells: the lists of all particles that
    take part in a c08 base step are stored with the base cell.
    containers/verletListsCellBased/verletListsCells: VerletListsCells.h,
    VerletListsCellsHelpers.cpp, traversals/VLCC08Traversal.h *)
From Coq Require Import Reals.
From Verif.Base Require Import ZRange OptionM.
From Verif.Grid Require Import IndexModel CellBlockModel.
From Verif.Functor Require Import CellFunctorModel SortModel.
From Verif.Verlet Require Import VerletModel.

(** * The base step, buildC08BaseStep, VerletListsCellsHelpers.cpp:26-87 *)

(** BaseStepOffsets.  The factor only matters for equality: it is represented by the
    number of dimensions in which the cells differ, 0 and 1 having the same factor
    (lines 43 and 65). *)
Record StepOffsets := mkOff { off1 : Z; off2 : Z; factorOf : Z }.
(** BaseStepOffsets::operator==, lines 89-91. *)
Definition offEqb (a b : StepOffsets) : bool :=
  (off1 a =? off1 b) && (off2 a =? off2 b) && (factorOf a =? factorOf b).

(** The body of the loop, lines 49-66: the pair of cells is shifted into the block
    of 2x2x2 cells. *)
Definition stepOffset (dims d : I3) : StepOffsets :=
  let b0 := 0 in
  let p0 := threeToOneD d dims in
  let '(b1, p1) := if ix d <? 0 then (b0 - ix d, p0 - ix d) else (b0, p0) in
  let '(b2, p2) := if iy d <? 0 then (b1 - iy d * ix dims, p1 - iy d * ix dims) else (b1, p1) in
  let '(b3, p3) := if iz d <? 0 then (b2 - iz d * ix dims * iy dims, p2 - iz d * ix dims * iy dims) else (b2, p2) in
  mkOff (Z.min b3 p3) (Z.max b3 p3) (Z.max 1 (Z.abs (ix d) + Z.abs (iy d) + Z.abs (iz d))).

(** The loops, lines 46-48. *)
Definition stepLoop : list I3 :=
  flat_map (fun z => flat_map (fun y => map (fun x => mkI3 x y z) (zrange (-1) 2)) (zrange (-1) 2)) (zrange (-1) 2).

(** The tuple is added unless it is already there, lines 67-71. *)
Definition addOffset (l : list StepOffsets) (o : StepOffsets) : list StepOffsets :=
  if existsb (offEqb o) l then l else l ++ [o].

(** std::sort with the comparison of lines 76-85. *)
Definition offLess (a b : StepOffsets) : bool :=
  if off1 a =? off1 b then off2 a <? off2 b else off1 a <? off1 b.
Fixpoint insertOffset (o : StepOffsets) (l : list StepOffsets) : list StepOffsets :=
  match l with
  | [] => [o]
  | x :: r => if offLess x o then x :: insertOffset o r else o :: l
  end.
Definition sortOffsets (l : list StepOffsets) : list StepOffsets := fold_right insertOffset [] l.

Definition buildC08BaseStep (dims : I3) : list StepOffsets :=
  sortOffsets (fold_left addOffset (map (stepOffset dims) stepLoop) []).

(** * The lists, VerletListsCells::rebuildNeighborListsC08, VerletListsCells.h:122-279 *)
Section Rebuild.
  Variable P : Type.
  Variable pid : P -> Z.
  Variable pos : P -> R3.

  (** An entry of the lists of a cell; None is the null pointer. *)
  Notation Slot := (option P * list P)%type.

  (** Lines 142-150: the lists of the last build [prev] are marked as unused. *)
  Definition c08Reset (prev : list (list Slot)) (numCells : nat) : list (list Slot) :=
    resizeTo [] numCells (map (map (fun _ => (None, []))) prev).

  (** Lines 215-230.  [est]: the estimate for the number of lists, which is arbitrary
      here (estimateNumLists, VerletListsCellsHelpers.h:121-143; reading the sizes
      of the cells of the base step).  The capacities that are reserved are left
      out. *)
  Definition c08InitLists (est : nat) (l : list P) (lists : list Slot) : list Slot :=
    let lists := resizeTo (None, []) est lists in
    let m := Nat.min (length l) (length lists) in
    map (fun '(p, s) => (Some p, snd s)) (combine (firstn m l) (firstn m lists)) ++
    skipn m lists ++ map (fun p => (Some p, [])) (skipn m l).

  (** find_if: the first entry whose pointer satisfies the test. *)
  Fixpoint findSlot (f : option P -> bool) (l : list Slot) : option nat :=
    match l with
    | [] => None
    | s :: r => if f (fst s) then Some O else match findSlot f r with Some k => Some (S k) | None => None end
    end.
  Definition isPtr (p : P) (o : option P) : bool := match o with Some q => pid q =? pid p | None => false end.
  Definition isNull (o : option P) : bool := match o with Some _ => false | None => true end.

  (** The lambda insert, lines 164-197.  [inBase]: cellIndexBase == cellIndex1.
      None: index out of range. *)
  Definition c08Insert (inBase : bool) (p1 : P) (i1 : nat) (p2 : P) (lists : list Slot) : option (list Slot) :=
    let push s := Some (fst s, snd s ++ [p2]) in
    if inBase then modifyAt push lists i1
    else match findSlot (isPtr p1) lists with
         | Some k => modifyAt push lists k
         | None =>
             match findSlot isNull lists with
             | Some k => modifyAt (fun s => Some (Some p1, snd s ++ [p2])) lists k
             | None => Some (lists ++ [(Some p1, [p2])])
             end
         end.

  (** Lines 232-264: the insertions for one pair of cells of the base step, in order.
      The cells of a linked cells container hold either owned or halo particles,
      so [mayOwn] is the comparison of getPossibleParticleOwnerships() with owned.
      Dummies are not modelled: there are none when lists are built. *)
  Record Insertion := mkIns { insBase : bool; insFrom : P; insIndex : nat; insTo : P }.
  Definition c08Insertions (il : R) (newton3 : bool) (cells : list (Cell P)) (base : Z) (o : StepOffsets) : option (list Insertion) :=
    let c1 := base + off1 o in
    let c2 := base + off2 o in
    match nth_error cells (Z.to_nat c1), nth_error cells (Z.to_nat c2) with
    | Some x, Some y =>
        if negb (mayOwn x) && negb (mayOwn y) then Some []
        else Some (flat_map (fun '(i, p) =>
               flat_map (fun '(j, q) =>
                 if pid p =? pid q then []
                 else if listPair pos il q p
                 then mkIns (base =? c1) p i q :: (if newton3 then [] else [mkIns (base =? c2) q j p])
                 else [])
               (if c1 =? c2 then skipn (S i) (indexed (parts y)) else indexed (parts y)))
             (indexed (parts x)))
    | _, _ => None
    end.

  Fixpoint insertAll (l : list Insertion) (lists : list Slot) : option (list Slot) :=
    match l with
    | [] => Some lists
    | i :: r => match c08Insert (insBase i) (insFrom i) (insIndex i) (insTo i) lists with
                | Some lists' => insertAll r lists'
                | None => None
                end
    end.

  (** Lines 211-264 for one base cell. *)
  Definition c08BuildCell (il : R) (newton3 : bool) (dims : I3) (est : nat) (cells : list (Cell P)) (base : nat) (lists : list Slot) : option (list Slot) :=
    match nth_error cells base, mapM (c08Insertions il newton3 cells (Z.of_nat base)) (buildC08BaseStep dims) with
    | Some cell, Some ins => insertAll (concat ins) (c08InitLists est (parts cell) lists)
    | _, _ => None
    end.

  (** Lines 205-211: the base cells are all cells but those of the last layers.  Every
      base cell changes its own lists only, so the order of the parallel loop does
      not matter. *)
  Definition isBaseCell (dims : I3) (c : nat) : bool :=
    let k := oneToThreeD (Z.of_nat c) dims in
    (ix k <? ix dims - 1) && (iy k <? iy dims - 1) && (iz k <? iz dims - 1).

  (** Lines 271-278. *)
  Definition c08Cleanup (l : list Slot) : list (NList P) :=
    flat_map (fun '(o, ns) => match o with Some p => [(p, ns)] | None => [] end) l.

  (** [perLength]: getCellsPerInteractionLength(); None: exception (lines 125-128) or
      index out of range. *)
  Definition c08Rebuild (perLength : Z) (il : R) (newton3 : bool) (dims : I3) (est : nat -> nat) (prev : list (list Slot))
      (cells : list (Cell P)) : option (list (list (NList P))) :=
    if perLength >? 1 then None
    else match mapM (fun '(c, lists) => if isBaseCell dims c then c08BuildCell il newton3 dims (est c) cells c lists else Some lists)
                 (indexed (c08Reset prev (length cells))) with
         | Some l => Some (map c08Cleanup l)
         | None => None
         end.
End Rebuild.

(** VLCC08Traversal::traverseParticles, VLCC08Traversal.h:75-92, is [vlcTraverse] with
    the colours of c08; isApplicable, lines 56-62. *)
Definition vlcC08Applicable (il : R) (len : R3) : Prop := (il <= Rmin (Rmin (rx len) (ry len)) (rz len))%R.

Arguments c08Reset {P}.
Arguments c08InitLists {P}.
Arguments findSlot {P}.
Arguments isPtr {P}.
Arguments isNull {P}.
Arguments c08Insert {P}.
Arguments mkIns {P}.
Arguments insBase {P}.
Arguments insFrom {P}.
Arguments insIndex {P}.
Arguments insTo {P}.
Arguments c08Insertions {P}.
Arguments insertAll {P}.
Arguments c08BuildCell {P}.
Arguments c08Cleanup {P}.
Arguments c08Rebuild {P}.
