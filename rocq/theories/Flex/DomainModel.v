(** Model of the domain decomposition of md-flexible
    (examples/md-flexible/src/domainDecomposition: DomainTools.cpp,
    RegularGridDecomposition.cpp), exact arithmetic.  A rank is its index in the Cartesian
    communicator.  MPI numbers the ranks of a Cartesian communicator in row-major order, which
    is the order of convertIdToIndex: [rankId]. *)
From Coq Require Import Reals List ZArith Bool.
From Verif.Base Require Import OptionM ZRange.
From Verif.Grid Require Import IndexModel.
From Verif.Functor Require Import SortModel.
Import ListNotations.

(** Dimension indices 0, 1, 2 and access to the components of arrays. *)
Inductive Axis := AX | AY | AZ.
Definition axes : list Axis := [AX; AY; AZ].
Definition eqAxis (a b : Axis) : bool := match a, b with AX, AX | AY, AY | AZ, AZ => true | _, _ => false end.
Definition at3 (a : Axis) (v : R3) : R := match a with AX => rx v | AY => ry v | AZ => rz v end.
Definition set3 (a : Axis) (x : R) (v : R3) : R3 :=
  match a with AX => mkR3 x (ry v) (rz v) | AY => mkR3 (rx v) x (rz v) | AZ => mkR3 (rx v) (ry v) x end.
Definition iat (a : Axis) (v : I3) : Z := match a with AX => ix v | AY => iy v | AZ => iz v end.
Definition iset (a : Axis) (x : Z) (v : I3) : I3 :=
  match a with AX => mkI3 x (iy v) (iz v) | AY => mkI3 (ix v) x (iz v) | AZ => mkI3 (ix v) (iy v) x end.

Section Tools.
  Local Open Scope Z_scope.

  (** The inner while loop of DomainTools.cpp:41-44 (and 30-33 for i = 2): divides [n] by [i]
      as often as possible. *)
  Fixpoint divideOut (fuel : nat) (i n : Z) : list Z * Z :=
    match fuel with
    | O => ([], n)
    | S f => if n mod i =? 0 then let r := divideOut f i (n / i) in (i :: fst r, snd r) else ([], n)
    end.
  (** The loop over uneven numbers, DomainTools.cpp:40-45. *)
  Fixpoint unevenFactors (fuel : nat) (i n : Z) : list Z * Z :=
    match fuel with
    | O => ([], n)
    | S f =>
        if i <=? n then
          let d := divideOut (Z.to_nat n) i n in
          let r := unevenFactors f (i + 2) (snd d) in (fst d ++ fst r, snd r)
        else ([], n)
    end.
  (** DomainTools.cpp:28-45. *)
  Definition primeFactors (n : Z) : list Z :=
    let two := divideOut (Z.to_nat n) 2 n in
    fst two ++ fst (unevenFactors (Z.to_nat n) 3 (snd two)).

  (** std::list::sort. *)
  Fixpoint insertZ (x : Z) (l : list Z) : list Z :=
    match l with [] => [x] | y :: r => if x <=? y then x :: l else y :: insertZ x r end.
  Definition sortZ (l : list Z) : list Z := fold_right insertZ [] l.
  (** The loop of DomainTools.cpp:55-60.  front() of an empty list is undefined: [None]. *)
  Fixpoint mergeFactors (fuel : nat) (dims : nat) (l : list Z) : option (list Z) :=
    match fuel with
    | O => None
    | S f =>
        if Nat.leb (length l) dims then Some l
        else match sortZ l with
             | a :: b :: r => mergeFactors f dims (b * a :: r)
             | _ => None
             end
    end.
  (** DomainTools.cpp:64-71, one dimension. *)
  Definition takeFactor (subdivide : bool) (l : list Z) : Z * list Z :=
    match l with x :: r => if subdivide then (x, r) else (1, l) | [] => (1, []) end.
  (** generateDecomposition, DomainTools.cpp:26-71. *)
  Definition generateDecomposition (n : Z) (sx sy sz : bool) : option I3 :=
    let dims := (Nat.b2n sx + Nat.b2n sy + Nat.b2n sz)%nat in
    let p := primeFactors n in
    match mergeFactors (S (length p)) dims p with
    | None => None
    | Some l =>
        let x := takeFactor sx l in
        let y := takeFactor sy (snd x) in
        let z := takeFactor sz (snd y) in
        Some (mkI3 (fst x) (fst y) (fst z))
    end.

  (** getAccumulatedTail, DomainTools.cpp:121-127. *)
  Definition accumulatedTail (a : Axis) (d : I3) : Z :=
    match a with AX => 1 * iy d * iz d | AY => 1 * iz d | AZ => 1 end.
  (** convertIdToIndex, DomainTools.cpp:99-107. *)
  Definition idToIndex (id d : I3) : Z :=
    fold_left (fun s a => s + accumulatedTail a d * iat a id) axes 0.
  (** convertIndexToId, DomainTools.cpp:109-119. *)
  Definition indexToId (i : Z) (d : I3) : I3 :=
    let x := i / accumulatedTail AX d in
    let i1 := i - accumulatedTail AX d * x in
    let y := i1 / accumulatedTail AY d in
    let i2 := i1 - accumulatedTail AY d * y in
    mkI3 x y (i2 / accumulatedTail AZ d).

  (** initializeNeighborIndices, RegularGridDecomposition.cpp:137-149: the preceding and the
      succeeding neighbour of rank [r]. *)
  Definition leftNeighbor (d : I3) (a : Axis) (r : Z) : Z :=
    let id := indexToId r d in
    idToIndex (iset a ((iat a id - 1 + iat a d) mod iat a d) id) d.
  Definition rightNeighbor (d : I3) (a : Axis) (r : Z) : Z :=
    let id := indexToId r d in
    idToIndex (iset a ((iat a id + 1 + iat a d) mod iat a d) id) d.
  (** The ranks of the communicator. *)
  Definition rankCount (d : I3) : Z := ix d * iy d * iz d.
  Definition ranks (d : I3) : list Z := zrange 0 (rankCount d).
End Tools.

Section Boxes.
  Local Open Scope R_scope.

  (** initializeLocalBox, RegularGridDecomposition.cpp:128-135. *)
  Definition localWidth (gMin gMax : R3) (d : I3) (a : Axis) : R := (at3 a gMax - at3 a gMin) / IZR (iat a d).
  Definition initialMin (gMin gMax : R3) (d : I3) (r : Z) : R3 :=
    let f a := IZR (iat a (indexToId r d)) * localWidth gMin gMax d a + at3 a gMin in mkR3 (f AX) (f AY) (f AZ).
  Definition initialMax (gMin gMax : R3) (d : I3) (r : Z) : R3 :=
    let f a := IZR (iat a (indexToId r d) + 1) * localWidth gMin gMax d a + at3 a gMin in mkR3 (f AX) (f AY) (f AZ).

  (** utils/Math.cpp:32-37 with the default of Math.h:228. *)
  Definition isNearRel (a b : R) : bool :=
    if Rle_dec (Rabs (a - b)) (/ 1000000000 * Rmax (Rabs a) (Rabs b)) then true else false.

  (** balanceAdjacentDomains, DomainTools.cpp:73-97.  Without any work the quotient is not a
      number: [None]. *)
  Definition balanceAdjacentDomains (leftWork rightWork leftMin rightMax minWidth : R) : option R :=
    if Req_EM_T (leftWork + rightWork) 0 then None
    else
      let balanced := (leftWork * leftMin + rightWork * rightMax) / (leftWork + rightWork) in
      if Rlt_dec (balanced - leftMin) minWidth then Some (leftMin + minWidth)
      else if Rlt_dec (rightMax - balanced) minWidth then Some (rightMax - minWidth)
      else Some balanced.

  (** The local boxes of all ranks. *)
  Record Boxes := mkBoxes { boxMin : Z -> R3; boxMax : Z -> R3 }.

  Section Balance.
    Variables gMin gMax : R3.
    Variable d : I3.
    (** 2 * (_cutoffWidth + _skinWidthPerTimestep * _rebuildFrequency). *)
    Variable minWidth : R.
    Variable bs : Boxes.
    (** The work of every rank. *)
    Variable work : Z -> R.

    (** The ranks of the plane of [r] orthogonal to [a]: _planarCommunicators,
        RegularGridDecomposition.cpp:117-121. *)
    Definition plane (a : Axis) (r : Z) : list Z :=
      filter (fun q => (iat a (indexToId q d) =? iat a (indexToId r d))%Z) (ranks d).
    (** RegularGridDecomposition.cpp:608-618; the planes have as many ranks as the product of
        the other two numbers of subdomains. *)
    Definition averageWork (a : Axis) (r : Z) : R :=
      let count := (match a with AX => iy d * iz d | AY => iz d * ix d | AZ => ix d * iy d end)%Z in
      if (1 <? count)%Z then fold_left (fun s q => s + work q) (plane a r) 0 / IZR count else work r.

    (** The new lower boundary, RegularGridDecomposition.cpp:644-659; [None]: the neighbour does
        not send (lines 630-635), or the work is zero. *)
    Definition balancedMin (a : Axis) (r : Z) : option R :=
      let lo := at3 a (boxMin bs r) in
      if isNearRel lo (at3 a gMin) then Some lo
      else
        let l := leftNeighbor d a r in
        if isNearRel (at3 a (boxMax bs l)) (at3 a gMax) then None
        else match balanceAdjacentDomains (averageWork a l) (averageWork a r) (at3 a (boxMin bs l)) (at3 a (boxMax bs r)) minWidth with
             | None => None
             | Some b => Some (lo + (b - lo) / 2)
             end.
    (** The new upper boundary, RegularGridDecomposition.cpp:661-674. *)
    Definition balancedMax (a : Axis) (r : Z) : option R :=
      let hi := at3 a (boxMax bs r) in
      if isNearRel hi (at3 a gMax) then Some hi
      else
        let n := rightNeighbor d a r in
        if isNearRel (at3 a (boxMin bs n)) (at3 a gMin) then None
        else match balanceAdjacentDomains (averageWork a r) (averageWork a n) (at3 a (boxMin bs r)) (at3 a (boxMax bs n)) minWidth with
             | None => None
             | Some b => Some (hi + (b - hi) / 2)
             end.
    (** balanceWithInvertedPressureLoadBalancer, RegularGridDecomposition.cpp:598-677. *)
    Definition balancedBox (r : Z) : option (R3 * R3) :=
      match balancedMin AX r, balancedMin AY r, balancedMin AZ r, balancedMax AX r, balancedMax AY r, balancedMax AZ r with
      | Some a, Some b, Some c, Some e, Some f, Some g => Some (mkR3 a b c, mkR3 e f g)
      | _, _, _, _, _, _ => None
      end.
  End Balance.
End Boxes.
