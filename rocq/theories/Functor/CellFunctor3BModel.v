(** Model of baseFunctors/CellFunctor3B.h: the three-body functor calls made when
    processing a cell, a pair of cells or three cells. *)
From Verif.Base Require Import ZRange.
From Verif.Functor Require Import CellFunctorModel.

Section CellFunctor3B.
  Variable P : Type.
  Variable isHalo : P -> bool.

  (** A call AoSFunctor(i, j, k, newton3). *)
  Record Call3 := mkCall3 { p3a : P; p3b : P; p3c : P; p3n : bool }.

  (** Sorted view and test [abs(proj1 - proj2) > _sortingCutoff], as in
      CellFunctorModel.v. *)
  Variable view : list P -> list P.
  Variable far : P -> P -> bool.

  (** The loop nests exist twice in the code, with sorting (views and breaks) and
      without (storage order, no breaks).  They are modelled once with the break
      test [brk] as parameter; [brk] is [far] or constantly false. *)
  Definition never (p q : P) : bool := false.

  Section Nests.
    Variable brk : P -> P -> bool.

    (** Innermost loop with [if (far(p1,p3) or far(p2,p3)) break;]
        (CellFunctor3B.h:321-328, 363-369, 378-385). *)
    Fixpoint untilFar2 (p1 p2 : P) (l : list P) : list P :=
      match l with
      | [] => []
      | p3 :: r => if brk p1 p3 || brk p2 p3 then [] else p3 :: untilFar2 p1 p2 r
      end.

    (** Loops over p2 and p3 behind p2 in the same list, p1 fixed
        (CellFunctor3B.h:315-329, 373-386). *)
    Fixpoint pairsBehind (p1 : P) (l : list P) : list (P * P) :=
      match l with
      | [] => []
      | p2 :: r => if brk p1 p2 then []
                   else map (fun p3 => (p2, p3)) (untilFar2 p1 p2 r) ++ pairsBehind p1 r
      end.

    (** processCellAoS, CellFunctor3B.h:312-330 and 332-342. *)
    Fixpoint triplesInCell (l : list P) : list (P * P * P) :=
      match l with
      | [] => []
      | p1 :: r => map (fun '(p2, p3) => (p1, p2, p3)) (pairsBehind p1 r) ++ triplesInCell r
      end.

    (** processCellPairAoSN3 / NoN3, CellFunctor3B.h:354-387, 390-408 and 435-468,
        471-489: for each p1 of cell 1 first p2 behind p1 in cell 1 and p3 in cell
        2, then p2 and p3 both in cell 2.  The flag is [p2FromCell1]. *)
    Fixpoint triplesInPair (l1 l2 : list P) : list (P * P * P * bool) :=
      match l1 with
      | [] => []
      | p1 :: r1 =>
          flat_map (fun p2 => map (fun p3 => (p1, p2, p3, true)) (untilFar2 p1 p2 l2)) (untilFar brk p1 r1) ++
          map (fun '(p2, p3) => (p1, p2, p3, false)) (pairsBehind p1 l2) ++
          triplesInPair r1 l2
      end.

    (** processCellTripleAoSN3 / NoN3, CellFunctor3B.h:501-510, 512-518. *)
    Definition triplesInTriple (l1 l2 l3 : list P) : list (P * P * P) :=
      flat_map (fun p1 => flat_map (fun p2 => map (fun p3 => (p1, p2, p3)) l3) (untilFar brk p1 l2)) l1.
  End Nests.

  (** interactParticles, CellFunctor3B.h:293-307. *)
  Definition interactSame3 (cf : CFSettings) (t : P * P * P) : list Call3 :=
    let '(p1, p2, p3) := t in
    if useNewton3 cf then [mkCall3 p1 p2 p3 true]
    else (if negb (isHalo p1) then [mkCall3 p1 p2 p3 false] else []) ++
         (if negb (isHalo p2) then [mkCall3 p2 p1 p3 false] else []) ++
         (if negb (isHalo p3) then [mkCall3 p3 p1 p2 false] else []).

  (** SoAFunctorSingle by the functor's contract: every triplet, for all three. *)
  Definition soaSingle3 (l : list P) : list Call3 :=
    map (fun '(p1, p2, p3) => mkCall3 p1 p2 p3 true) (triplesInCell never l).

  (** processCell, CellFunctor3B.h:185-210, 290-344. *)
  Definition processCell3 (cf : CFSettings) (c : Cell P) : list Call3 :=
    match parts c with
    | [] => []
    | _ :: _ =>
        if negb (mayOwn c) then []
        else match layout cf with
             | AoS => flat_map (interactSame3 cf)
                        (if Nat.ltb (sortingThreshold cf) (length (parts c))
                         then triplesInCell far (view (parts c))
                         else triplesInCell never (parts c))
             | SoA => soaSingle3 (parts c)
             end
    end.

  (** interactParticles of processCellPairAoSNoN3, CellFunctor3B.h:416-428, and the
      call of lines 368/384/396/405 with newton3. *)
  Definition interactPair3 (cf : CFSettings) (t : P * P * P * bool) : list Call3 :=
    let '(p1, p2, p3, p2FromCell1) := t in
    if useNewton3 cf then [mkCall3 p1 p2 p3 true]
    else [mkCall3 p1 p2 p3 false] ++
         (if p2FromCell1 then [mkCall3 p2 p1 p3 false]
          else if bidirectional cf then [mkCall3 p2 p1 p3 false] else []) ++
         (if bidirectional cf then [mkCall3 p3 p1 p2 false] else []).

  (** SoAFunctorPair(soa1, soa2, newton3) by the functor's contract: triplets with
      two particles of soa1 or two of soa2; without newton3 only particles of
      soa1 are updated. *)
  Definition soaPair3 (b : bool) (l1 l2 : list P) : list Call3 :=
    flat_map (fun '(p1, p2, p3, p2FromCell1) =>
      if b then [mkCall3 p1 p2 p3 true]
      else mkCall3 p1 p2 p3 false :: (if p2FromCell1 : bool then [mkCall3 p2 p1 p3 false] else []))
      (triplesInPair never l1 l2).

  (** processCellPair, CellFunctor3B.h:212-248, 346-491, 571-582. *)
  Definition processCellPair3 (cf : CFSettings) (hasDir : bool) (c1 c2 : Cell P) : list Call3 :=
    match parts c1, parts c2 with
    | [], _ | _, [] => []
    | _ :: _, _ :: _ =>
        if (negb (mayOwn c1) && negb (useNewton3 cf) && negb (bidirectional cf)) ||
           (negb (mayOwn c1) && negb (mayOwn c2)) then []
        else match layout cf with
             | AoS => flat_map (interactPair3 cf)
                        (if Nat.ltb (sortingThreshold cf) (length (parts c1) + length (parts c2)) && hasDir
                         then triplesInPair far (view (parts c1)) (view (parts c2))
                         else triplesInPair never (parts c1) (parts c2))
             | SoA => if useNewton3 cf then soaPair3 true (parts c1) (parts c2)
                      else soaPair3 false (parts c1) (parts c2) ++
                           (if bidirectional cf then soaPair3 false (parts c2) (parts c1) else [])
             end
    end.

  (** interactParticlesNoN3 of processCellTripleAoSNoN3, CellFunctor3B.h:526-532,
      and the call of lines 507/515 with newton3. *)
  Definition interactTriple3 (cf : CFSettings) (t : P * P * P) : list Call3 :=
    let '(p1, p2, p3) := t in
    if useNewton3 cf then [mkCall3 p1 p2 p3 true]
    else mkCall3 p1 p2 p3 false ::
         (if bidirectional cf then [mkCall3 p2 p1 p3 false; mkCall3 p3 p1 p2 false] else []).

  (** SoAFunctorTriple by the functor's contract. *)
  Definition soaTriple3 (b : bool) (l1 l2 l3 : list P) : list Call3 :=
    map (fun '(p1, p2, p3) => mkCall3 p1 p2 p3 b) (triplesInTriple never l1 l2 l3).

  (** processCellTriple, CellFunctor3B.h:250-288, 493-559, 584-600.  With sorting
      only cells 1 and 2 are sorted. *)
  Definition processCellTriple3 (cf : CFSettings) (hasDir : bool) (c1 c2 c3 : Cell P) : list Call3 :=
    match parts c1, parts c2, parts c3 with
    | [], _, _ | _, [], _ | _, _, [] => []
    | _ :: _, _ :: _, _ :: _ =>
        if (negb (mayOwn c1) && negb (useNewton3 cf) && negb (bidirectional cf)) ||
           (negb (mayOwn c1) && negb (mayOwn c2) && negb (mayOwn c3)) then []
        else match layout cf with
             | AoS => flat_map (interactTriple3 cf)
                        (if Nat.ltb (sortingThreshold cf) (length (parts c1) + length (parts c2) + length (parts c3)) && hasDir
                         then triplesInTriple far (view (parts c1)) (view (parts c2)) (parts c3)
                         else triplesInTriple never (parts c1) (parts c2) (parts c3))
             | SoA => if useNewton3 cf then soaTriple3 true (parts c1) (parts c2) (parts c3)
                      else soaTriple3 false (parts c1) (parts c2) (parts c3) ++
                           (if bidirectional cf
                            then soaTriple3 false (parts c2) (parts c1) (parts c3) ++
                                 soaTriple3 false (parts c3) (parts c1) (parts c2) else [])
             end
    end.
End CellFunctor3B.

Arguments mkCall3 {P}.
Arguments p3a {P}.
Arguments p3b {P}.
Arguments p3c {P}.
Arguments p3n {P}.
Arguments never {P}.
Arguments untilFar2 {P}.
Arguments pairsBehind {P}.
Arguments triplesInCell {P}.
Arguments triplesInPair {P}.
Arguments triplesInTriple {P}.
Arguments interactSame3 {P}.
Arguments interactPair3 {P}.
Arguments interactTriple3 {P}.
Arguments soaSingle3 {P}.
Arguments soaPair3 {P}.
Arguments soaTriple3 {P}.
Arguments processCell3 {P}.
Arguments processCellPair3 {P}.
Arguments processCellTriple3 {P}.
