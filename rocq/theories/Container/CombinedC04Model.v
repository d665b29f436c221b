(** Model of lc_c04_combined_SoA:
    containers/linkedCells/traversals/LCC04CombinedSoATraversal.h,
    LCC04SoACellHandler.h and cellTraversals/C04BasedTraversal.h.  Every thread
    collects the cells of the front plane of its 2x2x2 block in one SoA buffer per x
    position, lets the functor work on parts of these buffers and writes them back. *)
From Verif.Base Require Import ZRange.
From Verif.Grid Require Import IndexModel.
From Verif.Traversal Require Import C08Model.
From Verif.Utils Require Import SoAModel.
From Verif.Functor Require Import CellFunctorModel.

(** One row of an SoA buffer: the particle and the contributions its accumulating
    attributes (the forces) hold, as the list of the particles they come from. *)
Record Row (P : Type) := mkRow { rowP : P; got : list P }.
Arguments mkRow {P}.
Arguments rowP {P}.
Arguments got {P}.

(** Where a buffer lives: _particleSoABuffer of cells[i] or of combinationSlice[s]. *)
Inductive Loc := InCell (i : Z) | InComb (s : Z).

(** SoAView, utils/SoAView.h: part [vFrom, vTo) of a buffer. *)
Record View := mkView { vLoc : Loc; vFrom : nat; vTo : nat }.

Section Handler.
  Context {P : Type}.
  (** A default row, with which resizeArrays fills up. *)
  Variable zeroRow : Row P.
  Variable useN3 : bool.
  Variable near : Z -> Z -> Z -> bool.
  Variables ov dims : I3.
  (** cells[i].size(), the number of particles of the cell. *)
  Variable size : Z -> nat.

  (** The SoA buffers of the cells and the buffers of the executing thread:
      combinationSlice, combinationSlicesOffsets and currentSlice,
      LCC04SoACellHandler.h:183-186.  Vectors are functions of the index. *)
  Record Mem := mkMem { cellRow : Z -> list (Row P); comb : Z -> list (Row P); combOff : Z -> list nat; curSl : Z }.

  Definition setAt {A} (f : Z -> A) (i : Z) (v : A) : Z -> A := fun j => if j =? i then v else f j.
  Definition readLoc (m : Mem) (l : Loc) : list (Row P) := match l with InCell i => cellRow m i | InComb s => comb m s end.
  Definition writeLoc (m : Mem) (l : Loc) (v : list (Row P)) : Mem :=
    match l with
    | InCell i => mkMem (setAt (cellRow m) i v) (comb m) (combOff m) (curSl m)
    | InComb s => mkMem (cellRow m) (setAt (comb m) s v) (combOff m) (curSl m)
    end.
  Definition viewRows (m : Mem) (v : View) : list (Row P) := firstn (vTo v - vFrom v) (skipn (vFrom v) (readLoc m (vLoc v))).
  Definition setView (m : Mem) (v : View) (l : list (Row P)) : Mem :=
    let old := readLoc m (vLoc v) in writeLoc m (vLoc v) (firstn (vFrom v) old ++ l ++ skipn (vTo v) old).

  (** The contributions of [qs] are added to a row. *)
  Definition gain (qs : list P) (r : Row P) : Row P := mkRow (rowP r) (got r ++ qs).

  (** SoAFunctorPair(view1, view2, newton3) by the functor's contract (Functor.h):
      every row of view1 gets the contribution of every row of view2, with Newton 3
      also the other way round. *)
  Definition functorPair (m : Mem) (v1 v2 : View) : Mem :=
    let p1 := map rowP (viewRows m v1) in
    let p2 := map rowP (viewRows m v2) in
    let m1 := setView m v1 (map (gain p2) (viewRows m v1)) in
    if useN3 then setView m1 v2 (map (gain p1) (viewRows m1 v2)) else m1.

  (** SoAFunctorSingle(view, newton3): every row gets the contributions of all
      other rows. *)
  Fixpoint gainOthers (before : list P) (l : list (Row P)) : list (Row P) :=
    match l with
    | [] => []
    | r :: rest => gain (before ++ map rowP rest) r :: gainOthers (before ++ [rowP r]) rest
    end.
  Definition functorSingle (m : Mem) (v : View) : Mem := setView m v (gainOthers [] (viewRows m v)).

  (** _baseOffsets, setupIntervals, LCC04SoACellHandler.h:332-337. *)
  Definition baseOffsets (x : Z) : list Z := map (fun y => threeToOneD (mkI3 x y 0) dims) (zrange 0 (iy ov + 1)).
  Definition numSlices : Z := ix ov + 1.

  (** computePairwiseCellOffsetsC08<c04CellPairs>, LCC08CellHandlerUtility.cpp:134-137:
      the pairs of stripe [x]. *)
  Definition c04CellPairs (x : Z) : list (Z * Z) :=
    map (fun t => (threeToOneD (c08Offset2 ov t) dims, threeToOneD (c08Offset1 t) dims))
      (filter (fun t => let '(x', _, _, _) := t in (x' =? x) && c08Include near ov t) (c08Loop ov)).

  (** std::stable_sort by the first component, lines 351-352. *)
  Fixpoint sortInsert (e : Z * Z) (l : list (Z * Z)) : list (Z * Z) :=
    match l with
    | [] => [e]
    | d :: r => if fst e <=? fst d then e :: l else d :: sortInsert e r
    end.
  Definition stableSort (l : list (Z * Z)) : list (Z * Z) := fold_right sortInsert [] l.

  (** std::distance(begin, std::find(...)), lines 356-358, 364-365. *)
  Fixpoint indexOf (e : Z) (l : list Z) : nat :=
    match l with
    | [] => O
    | d :: r => if d =? e then O else S (indexOf e r)
    end.

  (** The loop of lines 360-371 with the last interval of lines 373-374. *)
  Fixpoint intervals (bo : list Z) (current : Z) (startID endID : nat) (l : list (Z * Z)) : list (Z * (nat * nat)) :=
    match l with
    | [] => [(current, (startID, endID))]
    | (o1, o2) :: r =>
        if current =? o1 then intervals bo current startID (S endID) r
        else (current, (startID, endID)) :: intervals bo o1 (indexOf o2 bo) (S (indexOf o2 bo)) r
    end.

  (** _offsets[i], lines 346-375. *)
  Definition offsets (i : Z) : list (Z * (nat * nat)) :=
    match stableSort (c04CellPairs i) with
    | [] => []
    | (o1, o2) :: r => intervals (baseOffsets i) o1 (indexOf o2 (baseOffsets i)) (indexOf o2 (baseOffsets i)) ((o1, o2) :: r)
    end.

  (** writeCellIntoBuffer, lines 279-296. *)
  Definition writeCellIntoBuffer (base : Z) (m : Mem) (bufferSlice cellSlice : Z) : Mem :=
    let '(rows, sum, offs) :=
      fold_left (fun '(rows, sum, offs) o =>
        (rows ++ cellRow m (base + o), (sum + size (base + o))%nat, offs ++ [(sum + size (base + o))%nat]))
        (baseOffsets cellSlice) ([], O, [O]) in
    mkMem (cellRow m) (setAt (comb m) bufferSlice rows) (setAt (combOff m) bufferSlice offs) (curSl m).

  (** writeBufferIntoCell, lines 299-327.  The particle number test only writes a
      log message. *)
  Definition writeBack (base bufferSlice cellSlice : Z) (m : Mem) (i : nat) : Mem :=
    let start := nth i (combOff m bufferSlice) O in
    let end_ := nth (S i) (combOff m bufferSlice) O in
    if Nat.eqb start end_ then m
    else
      let buffer := resizeList (Row P) zeroRow end_ (comb m bufferSlice) in
      let m1 := writeLoc m (InComb bufferSlice) buffer in
      writeLoc m1 (InCell (base + nth i (baseOffsets cellSlice) 0)) (viewRows m1 (mkView (InComb bufferSlice) start (length buffer))).
  Definition writeBufferIntoCell (base : Z) (m : Mem) (bufferSlice cellSlice : Z) : Mem :=
    fold_left (writeBack base bufferSlice cellSlice) (rev (seq 0 (length (baseOffsets cellSlice)))) m.

  (** SoAFunctorPair, without Newton 3 also in the other direction: lines 225-228,
      259-262. *)
  Definition pairBoth (m : Mem) (v1 v2 : View) : Mem :=
    let m1 := functorPair m v1 v2 in if useN3 then m1 else functorPair m1 v2 v1.

  (** Lines 204-263: one entry of _offsets. *)
  Definition handleEntry (base slice : Z) (m : Mem) (e : Z * (nat * nat)) : Mem :=
    let '(offset1, (first, second)) := e in
    let cur := curSl m in
    let intervalView := mkView (InComb slice) (nth first (combOff m slice) O) (nth second (combOff m slice) O) in
    if offset1 =? 0 then
      let k := size base in
      if Nat.eqb k 0 then m
      else if slice =? cur then
        let stripeView := mkView (InComb cur) 0 k in
        let restView := mkView (InComb cur) k (length (comb m cur)) in
        pairBoth (functorSingle m stripeView) stripeView restView
      else pairBoth m (mkView (InComb cur) 0 k) intervalView
    else if offset1 =? last (baseOffsets 0) 0 then
      pairBoth m (mkView (InComb cur) (nth (length (combOff m cur) - 2) (combOff m cur) O) (length (comb m cur))) intervalView
    else if offset1 =? hd 0 (baseOffsets (numSlices - 1)) then
      let index := (cur + numSlices - 1) mod numSlices in
      if Nat.eqb (nth 1 (combOff m index) O) 0 then m
      else pairBoth m (mkView (InComb index) 0 (nth 1 (combOff m index) O)) intervalView
    else pairBoth m (mkView (InCell (base + offset1)) 0 (length (cellRow m (base + offset1)))) intervalView.

  (** Lines 202-264. *)
  Definition handleInteractions (base : Z) (m : Mem) : Mem :=
    fold_left (fun m slice => fold_left (handleEntry base slice) (offsets ((slice + curSl m) mod numSlices)) m)
      (zrange 0 numSlices) m.

  (** Lines 190-200. *)
  Definition loadBuffers (base x : Z) (m : Mem) : Mem :=
    if x =? 0 then
      fold_left (fun m slice => writeCellIntoBuffer base m slice slice) (zrange 0 numSlices)
        (mkMem (cellRow m) (comb m) (combOff m) 0)
    else
      let m1 := writeCellIntoBuffer base m (curSl m) (numSlices - 1) in
      mkMem (cellRow m1) (comb m1) (combOff m1) ((curSl m1 + 1) mod numSlices).

  (** Lines 266-275. *)
  Definition storeBuffers (base x : Z) (m : Mem) : Mem :=
    let m1 := writeBufferIntoCell base m (curSl m) 0 in
    if x =? ix dims - ix ov - 1 then
      fold_left (fun m slice => writeBufferIntoCell base m ((curSl m + slice) mod numSlices) slice) (zrange 1 numSlices) m1
    else m1.

  (** processBaseCell, lines 176-276. *)
  Definition c04cProcessBaseCell (m : Mem) (b : I3) : Mem :=
    let base := threeToOneD b dims in
    storeBuffers base (ix b) (handleInteractions base (loadBuffers base (ix b) m)).

  (** The base cells of a line in the order a thread processes them. *)
  Definition c04cLineBases (yz : Z * Z) : list I3 := map (fun x => mkI3 x (fst yz) (snd yz)) (zsteps 0 (ix dims - ix ov) 1).

  (** One iteration of the collapsed z/y loop: a thread walks along x
      (C04BasedTraversal.h:52-61, ColorBasedTraversal.h:151-160,
      LCC04CombinedSoATraversal.h:73-79).  The thread's buffers hold whatever
      earlier iterations left. *)
  Definition c04cLine (m : Mem) (yz : Z * Z) : Mem :=
    fold_left c04cProcessBaseCell (c04cLineBases yz) m.

  (** The lines of the colours. *)
  Definition c04cColor (col : Z) : list (Z * Z) :=
    let start := oneToThreeD col (mkI3 1 (iy ov + 1) (iz ov + 1)) in
    flat_map (fun z => map (fun y => (y, z)) (zsteps (iy start) (iy dims - iy ov) (iy ov + 1)))
      (zsteps (iz start) (iz dims - iz ov) (iz ov + 1)).
  Definition c04cColors : list (list (Z * Z)) := map c04cColor (zrange 0 (1 * (iy ov + 1) * (iz ov + 1))).

  (** Lines executed one after another, each by a thread with arbitrary contents of
      its own buffers. *)
  Definition c04cLines (cells : Z -> list (Row P)) (work : list (Mem * (Z * Z))) : Z -> list (Row P) :=
    fold_left (fun cells '(thread, yz) => cellRow (c04cLine (mkMem cells (comb thread) (combOff thread) (curSl thread)) yz)) work cells.

  (** Parallel execution of a colour.  The state are the cells, shared by all
      threads, and for every thread its own buffers (_combinationSlices,
      _combinationSlicesOffsets and _currentSlices are indexed by the thread number,
      LCC04SoACellHandler.h:183-186; the cells of [bufs t] are not used).  An event is
      the processing of one base cell by one thread. *)
  Definition c04cEvent (st : (Z -> list (Row P)) * (Z -> Mem)) (e : Z * I3) : (Z -> list (Row P)) * (Z -> Mem) :=
    let '(cells, bufs) := st in
    let '(t, b) := e in
    let m := c04cProcessBaseCell (mkMem cells (comb (bufs t)) (combOff (bufs t)) (curSl (bufs t))) b in
    (cellRow m, setAt bufs t m).
  Definition c04cEvents (st : (Z -> list (Row P)) * (Z -> Mem)) (evs : list (Z * I3)) : (Z -> list (Row P)) * (Z -> Mem) :=
    fold_left c04cEvent evs st.
End Handler.

(** ColorBasedTraversal::initTraversal, ColorBasedTraversal.h:61-70, with
    DataLayoutConverter::loadDataLayout: every cell's buffer gets one row per particle
    of the cell.  [got] lists the contributions since then. *)
Definition soaRows {P} (cells : list (Cell P)) (k : Z) : list (Row P) :=
  if k <? 0 then [] else
  match nth_error cells (Z.to_nat k) with Some c => map (fun p => mkRow p []) (parts c) | None => [] end.
