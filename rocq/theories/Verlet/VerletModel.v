(** Model of the Verlet list containers built on linked cells,
    containers/verletListsCellBased: VerletLists, VerletListsCells with lists per
    cell (verletListsCells) and per pair of cells (pairwiseVerletLists), and
    VarVerletLists (as built).

    The linked cells (cells, traversal that builds the lists) are the ones of
    Container/LinkedCellsModel.v.  [pid] stands for the address of a particle: the
    lists hold pointers. *)
From Coq Require Import Reals.
From Verif.Base Require Import ZRange OptionM.
From Verif.Grid Require Import IndexModel CellBlockModel.
From Verif.Functor Require Import CellFunctorModel SortModel.
From Verif.Traversal Require Import ColorModel SliceModel.
From Verif.Container Require Import LinkedCellsModel.

(** The linked cells inside: VerletListsLinkedBase.h:42-46 with cell size factor
    max(1, csf), and the constructor of LinkedCells (interaction length cutoff +
    skin). *)
Definition verletBlock (rnd : R -> R) (cut skin csf : R) (bMin bMax : R3) : Block :=
  rebuild rnd (cut + skin) (Rmax 1 csf) bMin bMax.

(** The functor calls that build the lists.  VerletLists.h:117-143 and
    VarVerletLists.h use the c08 traversal of the linked cells (base cells in any
    order), VLCAllCellsNeighborList.h:230-271 and VLCCellPairNeighborList.h:213-232
    the c18 traversal.  The sorting cutoff of the cell functor is the interaction
    length. *)
Definition c08ListCalls {P} (isHalo : P -> bool) (view : R3 -> list P -> list P) (pos : P -> R3) (cf : CFSettings)
    (rnd : R -> R) (il : R) (b : Block) (cells : list (Cell P)) (bases : list I3) : list (Call P) :=
  lcInteract isHalo view pos cf il (blockLength b) cells
    (c08StepsDir (nearR (blockLength b) il) (blockDims b) (blockOverlap rnd il b) bases).
Definition c18ListCalls {P} (isHalo : P -> bool) (view : R3 -> list P -> list P) (pos : P -> R3) (cf : CFSettings)
    (rnd : R -> R) (il : R) (b : Block) (cells : list (Cell P)) : list (Call P) :=
  lcInteract isHalo view pos cf il (blockLength b) cells
    (c18CallsDir (nearR (blockLength b) il) (blockDims b) (blockOverlap rnd il b)).

(** The base cells of the traversals of VerletListsCells.
    c18 over all cells: VLCC18Traversal.h:86 and C18BasedTraversal.h:57-71 with
    allCells. *)
Definition vlcC18Colors (dims ov : I3) : list (list I3) :=
  colorTraversal dims (mkI3 (2 * ix ov + 1) (2 * iy ov + 1) (iz ov + 1)) (mkI3 0 0 0).
(** The overlap of the sliced traversals, which are not spaciallyForward:
    SlicedBasedTraversal.h:182-200. *)
Definition vlcSliceOverlap (dims ov : I3) : Z := comp (dimLong dims) (mkI3 (2 * ix ov) (2 * iy ov) (2 * iz ov)).
(** The slice thicknesses of sliced (SlicedBasedTraversal.h:74-122: at least
    overlap + 1) and of balanced-sliced. *)
Definition vlcLockSlicing (dims ov : I3) (t : list Z) : Prop :=
  let len := comp (dimLong dims) dims in let o := vlcSliceOverlap dims ov in
  t = initSliceThickness len (o + 1) o false \/
  exists grow threads, (0 < threads)%nat /\ balancedSliceThickness grow (o + 1) len threads o false = Some t.
(** The cells of one layer: overLapps23 is 0, SlicedLockBasedTraversal.h:70-76,
    SlicedC02BasedTraversal.h:84-88. *)
Definition vlcLayer (dims : I3) (layer : Z) : list I3 := layerCells dims (mkI3 0 0 0) layer.
(** sliced_c02, SlicedC02BasedTraversal.h:67-72: slices of at least the overlap; for
    each colour the cells of its slices. *)
Definition vlcC02Slices (dims ov : I3) : list Z :=
  let o := vlcSliceOverlap dims ov in initSliceThickness (comp (dimLong dims) dims) o o false.
Definition vlcC02Colors (dims ov : I3) : list (list (list I3)) :=
  map (map (flat_map (vlcLayer dims))) (c02Tasks (vlcC02Slices dims ov)).

(** std::vector element access [v[i] = f(v[i])]; None: index out of range. *)
Fixpoint modifyAt {A} (f : A -> option A) (l : list A) (i : nat) : option (list A) :=
  match l, i with
  | [], _ => None
  | x :: r, O => match f x with Some y => Some (y :: r) | None => None end
  | x :: r, S n => match modifyAt f r n with Some r' => Some (x :: r') | None => None end
  end.

(** std::vector::resize with default constructed new elements. *)
Definition resizeTo {A} (d : A) (n : nat) (l : list A) : list A :=
  firstn n l ++ repeat d (n - length l).

(** The elements of a list with their index. *)
Definition indexed {A} (l : list A) : list (nat * A) := combine (seq 0 (length l)) l.

(** One list: a particle and its neighbours. *)
Notation NList P := (P * list P)%type (only parsing).

Section Verlet.
  Variable P : Type.
  Variable pid : P -> Z.

  (** * Generation of the lists *)
  Section Generate.
    (** Positions when the lists are built. *)
    Variable pos : P -> R3.

    (** [distsquare < _interactionLengthSquared], VerletListHelpers.h:62-65,
        VLCAllCellsGeneratorFunctor.h:75-77, VLCCellPairGeneratorFunctor.h:64-66,
        AsBuildPairGeneratorFunctor.h:78-80 (exact arithmetic). *)
    Definition listPair (il : R) (p q : P) : bool :=
      let d := rsub (pos p) (pos q) in
      if Rlt_dec (dot d d) (il * il) then true else false.

    (** What the generator functor does for one call of the cell functor: the
        pairs (owner of the list, new neighbour) in the order of the push_backs.
        AoSFunctor(i, j) pushes j to the list of i, whatever newton3 says
        (VerletListHelpers.h:55-76).  SoAFunctorPair(1, 2) does so for every pair
        (VerletListHelpers.h:123-158).  SoAFunctorSingle pushes both ways unless
        newton3 (VerletListHelpers.h:83-116); it is the only call that
        CellFunctorModel.v represents by a call with [n3] set although the
        traversal does not use Newton 3.  The generators of the other containers
        do the same (VLCAllCellsGeneratorFunctor.h, VLCCellPairGeneratorFunctor.h,
        AsBuildPairGeneratorFunctor.h).
        Dummies are not modelled: there are none when lists are built. *)
    Definition genPushes (il : R) (newton3 : bool) (c : Call P) : list (P * P) :=
      if listPair il (fstP c) (sndP c) then
        (fstP c, sndP c) :: (if n3 c && negb newton3 then [(sndP c, fstP c)] else [])
      else [].
  End Generate.

  (** A sequence of push_backs. *)
  Fixpoint pushAll {St} (push : St -> P -> P -> option St) (st : St) (l : list (P * P)) : option St :=
    match l with
    | [] => Some st
    | (i, j) :: r => match push st i j with Some st' => pushAll push st' r | None => None end
    end.

  (** Processing one list in AoS layout: AoSFunctor(particle, neighbor, newton3)
      for every neighbour. *)
  Definition listCalls (newton3 : bool) (l : (NList P)) : list (Call P) :=
    map (fun q => mkCall (fst l) q newton3) (snd l).

  (** SoAFunctorVerlet(soa, index, neighbours, newton3), by the functor's contract
      the AoS calls for the particles stored at these indices.  None: index out
      of range. *)
  Definition soaVerlet (newton3 : bool) (soa : list P) (index : nat) (neighbors : list nat) : option (list (Call P)) :=
    match nth_error soa index, mapM (nth_error soa) neighbors with
    | Some p, Some qs => Some (map (fun q => mkCall p q newton3) qs)
    | _, _ => None
    end.

  (** All particles in the order of the cells: the order of the iterator over
      ownedOrHaloOrDummy and of loadSoA (VLListIterationTraversal.h:50-65,
      VLCNeighborListInterface.h:71-91). *)
  Definition allParticles (cells : list (Cell P)) : list P := flat_map parts cells.

  (** Index of a pointer in the map that is filled by iterating over all
      particles. *)
  Fixpoint indexOf (l : list P) (p : P) : option nat :=
    match l with
    | [] => None
    | q :: r => if pid q =? pid p then Some O else option_map S (indexOf r p)
    end.

  (** * VerletLists *)

  (** generateAoSNeighborLists, VerletLists.h:150-162.  The unordered_map is a list
      of its entries. *)
  Definition vlInit (cells : list (Cell P)) : list (NList P) := map (fun p => (p, [])) (allParticles cells).

  (** _verletListsAoS.at(&i).push_back(&j), VerletListHelpers.h:73.  None: at()
      throws. *)
  Fixpoint vlPush (lists : list (NList P)) (i j : P) : option (list (NList P)) :=
    match lists with
    | [] => None
    | (p, ns) :: r =>
        if pid p =? pid i then Some ((p, ns ++ [j]) :: r)
        else match vlPush r i j with Some r' => Some ((p, ns) :: r') | None => None end
    end.

  (** updateVerletListsAoS, VerletLists.h:117-143, for the functor calls that the
      linked cells traversal makes. *)
  Definition vlBuild (pos : P -> R3) (il : R) (newton3 : bool) (cells : list (Cell P)) (calls : list (Call P)) : option (list (NList P)) :=
    pushAll vlPush (vlInit cells) (flat_map (genPushes pos il newton3) calls).

  (** VLListIterationTraversal::traverseParticles, AoS, VLListIterationTraversal.h:
      83-107: a task is one bucket of the map. *)
  Definition vlTraverseAoS (newton3 : bool) (buckets : list (list (NList P))) : list (list (Call P)) :=
    map (flat_map (listCalls newton3)) buckets.

  (** generateSoAListFromAoSVerletLists, VerletLists.h:167-203.  [table] is the old
      content of _soaNeighborLists.  An unknown pointer gets index 0
      (unordered_map::operator[]). *)
  Definition soaIndex (cells : list (Cell P)) (p : P) : nat :=
    match indexOf (allParticles cells) p with Some k => k | None => O end.
  Fixpoint vlFillSoA (cells : list (Cell P)) (lists : list (NList P)) (table : list (list nat)) : option (list (list nat)) :=
    match lists with
    | [] => Some table
    | (p, ns) :: r =>
        match modifyAt (fun _ => Some (map (soaIndex cells) ns)) table (soaIndex cells p) with
        | Some table' => vlFillSoA cells r table'
        | None => None
        end
    end.
  Definition vlSoALists (cells : list (Cell P)) (lists : list (NList P)) (table : list (list nat)) : option (list (list nat)) :=
    vlFillSoA cells lists (resizeTo [] (length lists) table).

  (** VLListIterationTraversal::traverseParticles, SoA, lines 109-125: a task is
      one particle index; the indices are processed in the given order. *)
  Definition vlTraverseSoA (newton3 : bool) (cells : list (Cell P)) (table : list (list nat)) (order : list nat) : option (list (list (Call P))) :=
    mapM (fun i => match nth_error table i with
                   | Some ns => soaVerlet newton3 (allParticles cells) i ns
                   | None => None
                   end) order.

  (** * VerletListsCells: lists per cell *)

  (** _particleToCellMap: address to (cell, index in the cell). *)
  Definition CellMap := Z -> option (nat * nat).
  Definition setMap (m : CellMap) (k : Z) (v : nat * nat) : CellMap := fun j => if j =? k then Some v else m j.

  (** VLCAllCellsNeighborList::buildAoSNeighborList, VLCAllCellsNeighborList.h:
      124-147.  The map is not cleared: [m] holds entries of earlier builds. *)
  Definition vlcMap (cells : list (Cell P)) (m : CellMap) : CellMap :=
    fold_left (fun m '(c, cell) => fold_left (fun m '(k, p) => setMap m (pid p) (c, k)) (indexed (parts cell)) m)
      (indexed cells) m.
  Definition vlcInit (cells : list (Cell P)) : list (list (NList P)) :=
    map (fun c => map (fun p => (p, [])) (parts c)) cells.

  (** operator[] of the map: (0, 0) for an unknown key. *)
  Definition mapGet (m : CellMap) (p : P) : nat * nat := match m (pid p) with Some v => v | None => (O, O) end.

  Definition pushTo (j : P) (l : (NList P)) : option (NList P) := Some (fst l, snd l ++ [j]).

  (** VLCAllCellsGeneratorFunctor.h:116-119 (AoS); the SoA functors find the same
      list by the cell of the first particle and the loop index, lines 142-160 and
      186-250. *)
  Definition vlcPush (m : CellMap) (lists : list (list (NList P))) (i j : P) : option (list (list (NList P))) :=
    let '(c, k) := mapGet m i in
    modifyAt (fun cellLists => modifyAt (pushTo j) cellLists k) lists c.

  Definition vlcBuild (pos : P -> R3) (il : R) (newton3 : bool) (m : CellMap) (cells : list (Cell P)) (calls : list (Call P)) : option (list (list (NList P))) :=
    pushAll (vlcPush (vlcMap cells m)) (vlcInit cells) (flat_map (genPushes pos il newton3) calls).

  (** generateSoAFromAoS, VLCAllCellsNeighborList.h:176-213 and
      VLCCellPairNeighborList.h:126-168, one list.  None: at() throws. *)
  Definition soaList (cells : list (Cell P)) (l : (NList P)) : option (nat * list nat) :=
    match indexOf (allParticles cells) (fst l), mapM (indexOf (allParticles cells)) (snd l) with
    | Some i, Some ns => Some (i, ns)
    | _, _ => None
    end.

  (** The lists of one cell in the layout of the traversal. *)
  Definition soaCellCalls (newton3 : bool) (cells : list (Cell P)) (lists : list (NList P)) : option (list (Call P)) :=
    match mapM (soaList cells) lists with
    | None => None
    | Some soaLists =>
        match mapM (fun '(i, ns) => match ns with
                                    | [] => Some []
                                    | _ :: _ => soaVerlet newton3 (allParticles cells) i ns
                                    end) soaLists with
        | Some calls => Some (concat calls)
        | None => None
        end
    end.
  Definition cellListCalls (l : Layout) (newton3 : bool) (cells : list (Cell P)) (lists : list (NList P)) : option (list (Call P)) :=
    match l with
    | AoS => Some (flat_map (listCalls newton3) lists)
    | SoA => soaCellCalls newton3 cells lists
    end.

  (** VLCTraversalInterface::processCellLists, VLCTraversalInterface.h:104-128, of
      the lists per cell.  The SoA lists of all cells are generated beforehand; a
      list depends on its own AoS list only, so they are converted here. *)
  Definition vlcProcess (lay : Layout) (newton3 : bool) (cells : list (Cell P)) (lists : list (list (NList P))) (dims b : I3) : option (list (Call P)) :=
    match nth_error lists (Z.to_nat (threeToOneD b dims)) with
    | Some ls => cellListCalls lay newton3 cells ls
    | None => None
    end.

  (** The loop bodies of the traversals: VLCC01Traversal.h:85-89, VLCC18Traversal.h:
      86-90, VLCSlicedTraversal.h, VLCSlicedC02Traversal.h,
      VLCSlicedBalancedTraversal.h, for groups (colours, layers) of base cells. *)
  Definition vlcTraverse lay newton3 cells lists dims (groups : list (list I3)) : option (list (list (list (Call P)))) :=
    mapM (mapM (vlcProcess lay newton3 cells lists dims)) groups.

  (** * VerletListsCells: lists per pair of cells *)

  (** VLCCellPairNeighborList::buildAoSNeighborList, VLCCellPairNeighborList.h:
      83-110: how many lists of lists a cell gets. *)
  Definition vlpNeighborCells (near : Z -> Z -> Z -> bool) (ov : I3) (newton3 : bool) : nat :=
    let n := length (filter (fun v => near (Z.abs (ix v)) (Z.abs (iy v)) (Z.abs (iz v)))
      (flat_map (fun x => flat_map (fun y => map (fun z => mkI3 x y z)
         (zrange (- iz ov) (iz ov + 1))) (zrange (- iy ov) (iy ov + 1))) (zrange (- ix ov) (ix ov + 1)))) in
    if newton3 then let h := Nat.div n 2 in if Nat.odd h then S h else h else n.

  (** _aosNeighborList and _globalToLocalIndex. *)
  Record VlpState := mkVlp { vlpLists : list (list (list (NList P))); vlpLocal : list (list (nat * nat)) }.

  (** lines 112-129. *)
  Definition vlpInit (neighborCells : nat) (cells : list (Cell P)) : VlpState :=
    mkVlp (map (fun c => repeat (map (fun p => (p, [])) (parts c)) neighborCells) cells) (map (fun _ => []) cells).

  Fixpoint assoc (l : list (nat * nat)) (k : nat) : option nat :=
    match l with
    | [] => None
    | (a, v) :: r => if Nat.eqb a k then Some v else assoc r k
    end.

  (** VLCCellPairGeneratorFunctor.h:72-85: the index of the second cell among the
      partners of the first, a new one if there is none; then push_back. *)
  Definition vlpPush (m : CellMap) (st : VlpState) (i j : P) : option VlpState :=
    let '(c, k) := mapGet m i in
    let '(c2, _) := mapGet m j in
    match nth_error (vlpLocal st) c with
    | None => None
    | Some loc =>
        let '(loc', n) := match assoc loc c2 with
                          | Some n => (loc, n)
                          | None => (loc ++ [(c2, length loc)], length loc)
                          end in
        match modifyAt (fun cellLists => modifyAt (fun ls => modifyAt (pushTo j) ls k) cellLists n) (vlpLists st) c,
              modifyAt (fun _ => Some loc') (vlpLocal st) c with
        | Some lists', Some local' => Some (mkVlp lists' local')
        | _, _ => None
        end
    end.

  (** buildAoSNeighborList clears the map first, line 78. *)
  Definition vlpBuild (pos : P -> R3) (il : R) (newton3 : bool) (neighborCells : nat) (cells : list (Cell P)) (calls : list (Call P)) : option VlpState :=
    pushAll (vlpPush (vlcMap cells (fun _ => None))) (vlpInit neighborCells cells) (flat_map (genPushes pos il newton3) calls).

  (** VLCTraversalInterface::processCellLists, VLCTraversalInterface.h:140-170, of
      the lists per pair of cells. *)
  Definition vlpProcess (lay : Layout) (newton3 : bool) (cells : list (Cell P)) (st : VlpState) (dims b : I3) : option (list (Call P)) :=
    match nth_error (vlpLists st) (Z.to_nat (threeToOneD b dims)) with
    | Some ls => cellListCalls lay newton3 cells (concat ls)
    | None => None
    end.
  Definition vlpTraverse lay newton3 cells st dims (groups : list (list I3)) : option (list (list (list (Call P)))) :=
    mapM (mapM (vlpProcess lay newton3 cells st dims)) groups.

  (** VLCCellPairC08CellHandler::processCellListsC08, VLCCellPairC08CellHandler.h:
      50-118, one direction of one pair of cells. *)
  Definition vlpPair (lay : Layout) (newton3 : bool) (cells : list (Cell P)) (st : VlpState) (c1 c2 : Z) : option (list (Call P)) :=
    match nth_error (vlpLocal st) (Z.to_nat c1), nth_error (vlpLists st) (Z.to_nat c1) with
    | Some loc, Some ls =>
        match assoc loc (Z.to_nat c2) with
        | None => Some []
        | Some n => match nth_error ls n with
                    | Some l => cellListCalls lay newton3 cells l
                    | None => None
                    end
        end
    | _, _ => None
    end.
  Definition vlpC08Pair lay newton3 cells st (call : Z * Z) : option (list (Call P)) :=
    let c1 := Z.min (fst call) (snd call) in
    let c2 := Z.max (fst call) (snd call) in
    match vlpPair lay newton3 cells st c1 c2 with
    | None => None
    | Some a =>
        if newton3 then Some a
        else if c1 =? c2 then Some a
        else match vlpPair lay newton3 cells st c2 c1 with Some b => Some (a ++ b) | None => None end
    end.
  (** The calls of one base step; [base] are the pairs of cells of the c08 base
      step (C08Model.v: c08ProcessBaseCell). *)
  Definition vlpC08Base lay newton3 cells st (base : list (Z * Z)) : option (list (Call P)) :=
    match mapM (vlpC08Pair lay newton3 cells st) base with Some l => Some (concat l) | None => None end.
  Definition vlpC08Traverse lay newton3 cells st (tasks : list (list (list (Z * Z)))) : option (list (list (list (Call P)))) :=
    mapM (mapM (vlpC08Base lay newton3 cells st)) tasks.

  (** * VarVerletLists: lists per colour and thread *)

  (** addPair, VerletNeighborListAsBuild.h:250-253: the map of the current colour
      and thread, operator[] creates a missing entry. *)
  Fixpoint vvlAdd (l : list (NList P)) (i j : P) : list (NList P) :=
    match l with
    | [] => [(i, [j])]
    | (p, ns) :: r => if pid p =? pid i then (p, ns ++ [j]) :: r else (p, ns) :: vvlAdd r i j
    end.

  (** _numColors. *)
  Definition vvlNumColors : nat := 8.

  (** buildAoSNeighborList, VerletNeighborListAsBuild.h:86-103: [steps] are the
      base steps of the c08 traversal in the order of execution: colour, thread
      and functor calls. *)
  Definition vvlInit (threads : nat) : list (list (list (NList P))) := repeat (repeat [] threads) vvlNumColors.
  Definition vvlStep (pos : P -> R3) (il : R) (newton3 : bool) (st : list (list (list (NList P))))
      (step : nat * nat * list (Call P)) : option (list (list (list (NList P)))) :=
    let '(color, thread, calls) := step in
    pushAll (fun st i j => modifyAt (fun byThread => modifyAt (fun l => Some (vvlAdd l i j)) byThread thread) st color)
      st (flat_map (genPushes pos il newton3) calls).
  Fixpoint vvlBuild pos il newton3 (st : list (list (list (NList P)))) (steps : list (nat * nat * list (Call P))) : option (list (list (list (NList P)))) :=
    match steps with
    | [] => Some st
    | s :: r => match vvlStep pos il newton3 st s with Some st' => vvlBuild pos il newton3 st' r | None => None end
    end.

  (** VVLAsBuildTraversal.h:96-130: for every colour one task per thread list,
      barrier between the colours. *)
  Definition vvlTraverse lay newton3 cells (st : list (list (list (NList P)))) : option (list (list (list (Call P)))) :=
    mapM (mapM (cellListCalls lay newton3 cells)) st.
End Verlet.

(** The base steps of the c08 traversal: for every colour the base cells in the
    order of execution, each with the thread that executes it.  The traversal
    announces the colour (C08TraversalColorChangeNotify.h:49-51,
    ColorBasedTraversal.h:138-143); the lists are chosen by colour and thread
    (VerletNeighborListAsBuild.h:39-52, 250-253). *)
Definition vvlSteps {P} (isHalo : P -> bool) (view : R3 -> list P -> list P) (pos : P -> R3) (cf : CFSettings)
    (rnd : R -> R) (il : R) (b : Block) (cells : list (Cell P)) (schedule : list (list (I3 * nat))) : list (nat * nat * list (Call P)) :=
  flat_map (fun '(color, bases) => map (fun '(base, thread) => (color, thread, c08ListCalls isHalo view pos cf rnd il b cells [base])) bases)
    (indexed schedule).

Arguments listPair {P}.
Arguments genPushes {P}.
Arguments pushAll {P St}.
Arguments listCalls {P}.
Arguments soaVerlet {P}.
Arguments allParticles {P}.
Arguments indexOf {P}.
Arguments vlInit {P}.
Arguments vlPush {P}.
Arguments vlBuild {P}.
Arguments vlTraverseAoS {P}.
Arguments soaIndex {P}.
Arguments vlFillSoA {P}.
Arguments vlSoALists {P}.
Arguments vlTraverseSoA {P}.
Arguments vlcMap {P}.
Arguments vlcInit {P}.
Arguments mapGet {P}.
Arguments pushTo {P}.
Arguments vlcPush {P}.
Arguments vlcBuild {P}.
Arguments soaList {P}.
Arguments soaCellCalls {P}.
Arguments cellListCalls {P}.
Arguments vlcProcess {P}.
Arguments vlcTraverse {P}.
Arguments mkVlp {P}.
Arguments vlpLists {P}.
Arguments vlpLocal {P}.
Arguments vlpInit {P}.
Arguments vlpPush {P}.
Arguments vlpBuild {P}.
Arguments vlpProcess {P}.
Arguments vlpTraverse {P}.
Arguments vlpPair {P}.
Arguments vlpC08Pair {P}.
Arguments vlpC08Base {P}.
Arguments vlpC08Traverse {P}.
Arguments vvlAdd {P}.
Arguments vvlInit {P}.
Arguments vvlStep {P}.
Arguments vvlBuild {P}.
Arguments vvlTraverse {P}.
