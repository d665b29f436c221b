(** Model of baseFunctors/CellFunctor.h: which functor calls the processing of a
    cell or of a pair of cells makes. *)
From Verif.Base Require Import ZRange.

(** DataLayoutOption. *)
Inductive Layout := AoS | SoA.

(** Constructor arguments, template argument and setSortingThreshold of
    CellFunctor, CellFunctor.h:24-38, 122-137. *)
Record CFSettings := mkCF {
  layout : Layout; useNewton3 : bool; bidirectional : bool; sortingThreshold : nat }.

Section CellFunctor.
  (** Particle type with isHalo(). *)
  Variable P : Type.
  Variable isHalo : P -> bool.

  (** A particle cell: its particles in storage order and whether
      getPossibleParticleOwnerships() includes [owned]. *)
  Record Cell := mkCell { parts : list P; mayOwn : bool }.

  (** A call AoSFunctor(i, j, newton3).  SoA functor calls are represented by the
      AoS calls they are documented to be equivalent to (Functor.h):
      SoAFunctorSingle(soa, n3) handles every pair once for both particles,
      SoAFunctorPair(soa1, soa2, n3) every pair of the product. *)
  Record Call := mkCall { fstP : P; sndP : P; n3 : bool }.

  (** A sorted view (cells/SortedCellView.h:43-52): [view l] is the list of
      particles in the order std::sort gives; [far p q] is the test
      [abs(p1Projection - p2Projection) > _sortingCutoff]. *)
  Variable view : list P -> list P.
  Variable far : P -> P -> bool.

  (** Inner loop with [if (far) break;]. *)
  Fixpoint untilFar (p : P) (l : list P) : list P :=
    match l with
    | [] => []
    | q :: r => if far p q then [] else q :: untilFar p r
    end.

  (** Pairs (p1, p2) with p2 behind p1 in the list, inner loop restricted by
      [inner] (CellFunctor.h:225-235 and 237-243). *)
  Fixpoint laterPairs (inner : P -> list P -> list P) (l : list P) : list (P * P) :=
    match l with
    | [] => []
    | p :: r => map (fun q => (p, q)) (inner p r) ++ laterPairs inner r
    end.

  (** interactParticles in processCellAoS, CellFunctor.h:209-220. *)
  Definition interactSame (cf : CFSettings) (pq : P * P) : list Call :=
    let '(p, q) := pq in
    if useNewton3 cf then [mkCall p q true]
    else (if negb (isHalo p) then [mkCall p q false] else []) ++
         (if negb (isHalo q) then [mkCall q p false] else []).

  (** processCellAoS, CellFunctor.h:206-245. *)
  Definition processCellAoS (cf : CFSettings) (c : Cell) : list Call :=
    flat_map (interactSame cf)
      (if Nat.ltb (sortingThreshold cf) (length (parts c))
       then laterPairs untilFar (view (parts c))
       else laterPairs (fun _ l => l) (parts c)).

  (** SoAFunctorSingle(buffer, newton3), CellFunctor.h:318-326: by the functor's
      contract all pairs, for both partners. *)
  Definition soaSingle (l : list P) : list Call :=
    map (fun '(p, q) => mkCall p q true) (laterPairs (fun _ l => l) l).

  (** processCell, CellFunctor.h:140-166. *)
  Definition processCell (cf : CFSettings) (c : Cell) : list Call :=
    match parts c with
    | [] => []
    | _ :: _ =>
        if negb (mayOwn c) then []
        else match layout cf with
             | AoS => processCellAoS cf c
             | SoA => soaSingle (parts c)
             end
    end.

  (** interactParticlesNoN3 (CellFunctor.h:275-280) and the call of line 259/265. *)
  Definition interactPair (cf : CFSettings) (pq : P * P) : list Call :=
    let '(p, q) := pq in
    if useNewton3 cf then [mkCall p q true]
    else mkCall p q false :: (if bidirectional cf then [mkCall q p false] else []).

  (** The loop nest of processCellPairAoSN3 and processCellPairAoSNoN3,
      CellFunctor.h:247-301.  [hasDir]: sortingDirection != {0, 0, 0}. *)
  Definition processCellPairAoS (cf : CFSettings) (hasDir : bool) (c1 c2 : Cell) : list Call :=
    flat_map (interactPair cf)
      (if Nat.ltb (sortingThreshold cf) (length (parts c1) + length (parts c2)) && hasDir
       then flat_map (fun p => map (fun q => (p, q)) (untilFar p (view (parts c2)))) (view (parts c1))
       else flat_map (fun p => map (fun q => (p, q)) (parts c2)) (parts c1)).

  (** SoAFunctorPair(soa1, soa2, newton3) by the functor's contract. *)
  Definition soaPair (b : bool) (l1 l2 : list P) : list Call :=
    flat_map (fun p => map (fun q => mkCall p q b) l2) l1.

  (** processCellPairSoAN3 / processCellPairSoANoN3, CellFunctor.h:303-316. *)
  Definition processCellPairSoA (cf : CFSettings) (c1 c2 : Cell) : list Call :=
    if useNewton3 cf then soaPair true (parts c1) (parts c2)
    else soaPair false (parts c1) (parts c2) ++
         (if bidirectional cf then soaPair false (parts c2) (parts c1) else []).

  (** processCellPair, CellFunctor.h:168-204. *)
  Definition processCellPair (cf : CFSettings) (hasDir : bool) (c1 c2 : Cell) : list Call :=
    match parts c1, parts c2 with
    | [], _ | _, [] => []
    | _ :: _, _ :: _ =>
        if (negb (mayOwn c1) && negb (useNewton3 cf) && negb (bidirectional cf)) ||
           (negb (mayOwn c1) && negb (mayOwn c2)) then []
        else match layout cf with
             | AoS => processCellPairAoS cf hasDir c1 c2
             | SoA => processCellPairSoA cf c1 c2
             end
    end.
End CellFunctor.

Arguments mkCell {P}.
Arguments parts {P}.
Arguments mayOwn {P}.
Arguments mkCall {P}.
Arguments fstP {P}.
Arguments sndP {P}.
Arguments n3 {P}.
Arguments untilFar {P}.
Arguments laterPairs {P}.
Arguments interactSame {P}.
Arguments interactPair {P}.
Arguments processCellAoS {P}.
Arguments processCell {P}.
Arguments processCellPair {P}.
Arguments processCellPairAoS {P}.
Arguments processCellPairSoA {P}.
Arguments soaSingle {P}.
Arguments soaPair {P}.
