(** Model of the AVX variant of the Lennard-Jones functor
    (applicationLibrary/molecularDynamics/molecularDynamicsLibrary/LJFunctorAVX.h), in
    exact arithmetic.  A register holds four lanes; the three registers of the components
    of a vector are one register of vectors.  Ownership states are compared as integers
    (the code compares the bit patterns as doubles, where 1 and 2 are denormal numbers:
    the same result unless the processor treats denormals as zero).  A lane that is
    divided by zero has no value; masking it away by a bitwise "and" yields zero whatever
    it holds, unlike a multiplication by a mask.  AoSFunctor (lines 127-180) is the one of
    [LJModel.aosFunctor] without counters. *)
From Coq Require Import Reals List ZArith Bool Arith.
From Verif.Base Require Import ZRange OptionM.
From Verif.Functor Require Import CellFunctorModel SortModel.
From Verif.Container Require Import IteratorModel ParticleModel.
From Verif.MD Require Import MixingModel LJModel.
Import ListNotations.
Local Open Scope R_scope.

(** A register. *)
Record V4 (T : Type) := mkV4 { l0 : T; l1 : T; l2 : T; l3 : T }.
Arguments mkV4 {T}. Arguments l0 {T}. Arguments l1 {T}. Arguments l2 {T}. Arguments l3 {T}.
Definition lane {T} (v : V4 T) (k : nat) : T := match k with O => l0 v | 1%nat => l1 v | 2%nat => l2 v | _ => l3 v end.
Definition setLane {T} (v : V4 T) (k : nat) (x : T) : V4 T :=
  match k with
  | O => mkV4 x (l1 v) (l2 v) (l3 v) | 1%nat => mkV4 (l0 v) x (l2 v) (l3 v)
  | 2%nat => mkV4 (l0 v) (l1 v) x (l3 v) | _ => mkV4 (l0 v) (l1 v) (l2 v) x
  end.
Definition set1 {T} (x : T) : V4 T := mkV4 x x x x.
Definition tabulate {T} (f : nat -> option T) : option (V4 T) :=
  match f 0%nat, f 1%nat, f 2%nat, f 3%nat with
  | Some a, Some b, Some c, Some d => Some (mkV4 a b c d)
  | _, _, _, _ => None
  end.

(** vecLength, LJFunctorAVX.h:1037. *)
Definition vecLength : nat := 4.
(** _masks, LJFunctorAVX.h:1005-1009, lowest lane first. *)
Definition masks : list (list bool) :=
  [[true; false; false; false]; [true; true; false; false]; [true; true; true; false]].
Definition maskLane (rest k : nat) : bool := nth k (nth (rest - 1) masks []) false.

(** What the SoA arrays hold for one row. *)
Record Row := mkRow { rowPos : R3; rowOwn : Z; rowType : nat; rowForce : R3 }.

(** Accumulators: fxacc ..., virialSumX ..., potentialEnergySum. *)
Record Acc := mkAcc { accF : V4 R3; accV : V4 R3; accP : V4 R }.

(** Horizontal sums with _mm256_hadd_pd, _mm256_extractf128_pd and _mm_add_pd, e.g.
    LJFunctorAVX.h:277-291 and 301-314. *)
Definition hsum (v : V4 R) : R := (l0 v + l1 v) + (l2 v + l3 v).
Definition hsum3 (v : V4 R3) : R3 := radd (radd (l0 v) (l1 v)) (radd (l2 v) (l3 v)).

Section Kernel.
  Variable cfg : LJConfig.

  (** One lane before the masks are evaluated. *)
  Record Lane := mkLane { laneProps : LJProps; laneDr : R3; laneDr2 : R; laneOwn : Z; laneHit : bool }.

  (** _mm256_maskload_pd and _mm256_loadu_pd: a lane that is masked away is zero and is
      not read; reading past the array has no value. *)
  Definition load {T} (masked : bool) (rest : nat) (zero : T) (get : Row -> T) (rows : nat -> option Row) (k : nat) : option T :=
    if masked
    then if maskLane rest k then option_map get (rows k) else Some zero
    else option_map get (rows k).

  (** epsilon24s, sigmaSquareds, shift6s, LJFunctorAVX.h:479-501: lane 0 is always read. *)
  Definition laneParameters (masked : bool) (rest : nat) (typeI : nat) (rows : nat -> option Row) (k : nat) : option LJProps :=
    if useMixing cfg
    then if Nat.eqb k 0 || negb masked || Nat.ltb k rest
         then match rows k with Some r => pairProps cfg typeI (rowType r) | None => None end
         else Some (mkLJ 0 0 (if applyShift cfg then 0 else shift6 (consts cfg)))
    else Some (consts cfg).

  (** LJFunctorAVX.h:503-530. *)
  Definition laneFirst (masked : bool) (rest : nat) (typeI : nat) (x1 : R3) (rows : nat -> option Row) (k : nat) : option Lane :=
    match laneParameters masked rest typeI rows k, load masked rest rzero rowPos rows k, load masked rest 0%Z rowOwn rows k with
    | Some p, Some x2, Some own =>
        let dr := rsub x1 x2 in
        let dr2 := dot dr dr in
        let cutoffMask := if Rle_dec dr2 (cutoffSquared cfg) then true else false in
        let dummyMask := negb (Z.eqb own 0) in
        Some (mkLane p dr dr2 own (cutoffMask && dummyMask))
    | _, _, _ => None
    end.

  (** LJFunctorAVX.h:537-553 and 587-592: the force and the masked potential. *)
  Definition laneSecond (masked : bool) (rest : nat) (k : nat) (a : Lane) : option (R3 * R) :=
    let keep := if masked then laneHit a && maskLane rest k else laneHit a in
    if keep
    then if Req_EM_T (laneDr2 a) 0 then None
         else
           let invdr2 := 1 / laneDr2 a in
           let lj2 := sigmaSquared (laneProps a) * invdr2 in
           let lj4 := lj2 * lj2 in
           let lj6 := lj2 * lj4 in
           let lj12 := lj6 * lj6 in
           let lj12m6 := lj12 - lj6 in
           let lj12m6alj12 := lj12m6 + lj12 in
           let lj12m6alj12e := lj12m6alj12 * epsilon24 (laneProps a) in
           let fac := lj12m6alj12e * invdr2 in
           Some (rscale (laneDr a) fac, epsilon24 (laneProps a) * lj12m6 + shift6 (laneProps a))
    else Some (rscale (laneDr a) 0, 0).

  (** energyFactor, LJFunctorAVX.h:594-601. *)
  Definition energyFactor (newton3 : bool) (ownI ownJ : Z) : R :=
    (if Z.eqb ownI stOwned then 1 else 0) + (if newton3 then if Z.eqb ownJ stOwned then 1 else 0 else 0).

  (** SoAKernel, LJFunctorAVX.h:471-608.  The second component holds the forces that are
      stored, lane by lane ([None]: the lane is not stored). *)
  Definition kernel (newton3 masked : bool) (rest : nat) (ownI : Z) (x1 : R3) (typeI : nat) (rows : nat -> option Row)
    (acc : Acc) : option (Acc * V4 (option R3)) :=
    match tabulate (laneFirst masked rest typeI x1 rows) with
    | None => None
    | Some v =>
        if negb (laneHit (l0 v) || laneHit (l1 v) || laneHit (l2 v) || laneHit (l3 v)) then Some (acc, set1 None)
        else
          match tabulate (fun k => laneSecond masked rest k (lane v k)) with
          | None => None
          | Some w =>
              match tabulate (fun k => Some (radd (lane (accF acc) k) (fst (lane w k)))),
                    (if newton3
                     then tabulate (fun k =>
                            match load masked rest rzero rowForce rows k with
                            | Some f2 =>
                                Some (if masked && negb (maskLane rest k) then None else Some (rsub f2 (fst (lane w k))))
                            | None => None
                            end)
                     else Some (set1 None)),
                    (if calcGlobals cfg
                     then tabulate (fun k =>
                            Some (radd (rscale (rmul (fst (lane w k)) (laneDr (lane v k)))
                                          (energyFactor newton3 ownI (laneOwn (lane v k)))) (lane (accV acc) k)))
                     else Some (accV acc)),
                    (if calcGlobals cfg
                     then tabulate (fun k =>
                            Some (energyFactor newton3 ownI (laneOwn (lane v k)) * snd (lane w k) + lane (accP acc) k))
                     else Some (accP acc)) with
              | Some f, Some st, Some vir, Some pot => Some (mkAcc f vir pot, st)
              | _, _, _, _ => None
              end
          end
    end.
End Kernel.

Section AVX.
  Context {A : Type}.
  Variable same : A -> A -> bool.
  Variable part : A -> Particle.
  Variable typeId : A -> nat.
  Variable cfg : LJConfig.

  Definition rowOf (m : A -> R3) (a : A) : Row := mkRow (ppos (part a)) (pown (part a)) (typeId a) (m a).
  Definition setForce (a : A) (f : R3) (m : A -> R3) : A -> R3 := fun x => if same x a then f else m x.

  (** Forces in memory and accumulators. *)
  Definition Regs : Type := (A -> R3) * Acc.

  (** _mm256_maskstore_pd and _mm256_storeu_pd at index j. *)
  Definition storeLane (view : list A) (j : nat) (st : V4 (option R3)) (k : nat) (m : A -> R3) : option (A -> R3) :=
    match lane st k with
    | None => Some m
    | Some f => match nth_error view (j + k) with Some a => Some (setForce a f m) | None => None end
    end.
  Definition storeLanes (view : list A) (j : nat) (st : V4 (option R3)) (m : A -> R3) : option (A -> R3) :=
    fold_left (fun r k => match r with Some m' => storeLane view j st k m' | None => None end) [0; 1; 2; 3]%nat (Some m).

  (** A call of SoAKernel for the rows of the view from index j. *)
  Definition kernelAt (newton3 masked : bool) (rest : nat) (i : A) (view : list A) (j : nat) (x : Regs) : option Regs :=
    match kernel cfg newton3 masked rest (pown (part i)) (ppos (part i)) (typeId i)
            (fun k => option_map (rowOf (fst x)) (nth_error view (j + k))) (snd x) with
    | None => None
    | Some (acc, st) => match storeLanes view j st (fst x) with Some m => Some (m, acc) | None => None end
    end.

  (** for (; j < limit; j += 4), LJFunctorAVX.h:262-266 and 379-383, and the index at
      which it ends.  [fuel] bounds the number of iterations. *)
  Fixpoint fullLoop (fuel : nat) (newton3 : bool) (i : A) (view : list A) (limit j : nat) (x : Regs) : option (Regs * nat) :=
    if Nat.ltb j limit
    then match fuel with
         | O => None
         | S fuel' =>
             match kernelAt newton3 false 0 i view j x with
             | Some x' => fullLoop fuel' newton3 i view limit (j + 4) x'
             | None => None
             end
         end
    else Some (x, j).

  (** The interaction of i with the first n rows, LJFunctorAVX.h:258-274 and 377-388. *)
  Definition innerRows (newton3 : bool) (i : A) (view : list A) (n : nat) (x : Regs) : option Regs :=
    match fullLoop n newton3 i view (n - n mod vecLength) 0 x with
    | None => None
    | Some (x', j) =>
        let rest := (n mod vecLength)%nat in
        if Nat.ltb 0 rest then kernelAt newton3 true rest i view j x' else Some x'
    end.

  (** The body of the outer loops, LJFunctorAVX.h:239-296 and 357-410: dummies are
      skipped, fxacc starts with zero and its horizontal sum is added to i. *)
  Definition rowStep (newton3 : bool) (i : A) (view : list A) (n : nat) (x : (A -> R3) * (V4 R3 * V4 R)) :
    option ((A -> R3) * (V4 R3 * V4 R)) :=
    if isDummy (part i) then Some x
    else match innerRows newton3 i view n (fst x, mkAcc (set1 rzero) (fst (snd x)) (snd (snd x))) with
         | None => None
         | Some (m, acc) => Some (addForce same i (hsum3 (accF acc)) m, (accV acc, accP acc))
         end.

  (** for (size_t i = soa.size() - 1; (long)i >= 0; --i), LJFunctorAVX.h:238. *)
  Fixpoint singleRows (view : list A) (n : nat) (x : (A -> R3) * (V4 R3 * V4 R)) : option ((A -> R3) * (V4 R3 * V4 R)) :=
    match n with
    | O => Some x
    | S n' =>
        match nth_error view n' with
        | Some i => match rowStep true i view n' x with Some x' => singleRows view n' x' | None => None end
        | None => None
        end
    end.

  (** The sums of the registers are added to those of the thread if calculateGlobals,
      LJFunctorAVX.h:298-323, 412-437 and 786-811. *)
  Definition addGlobals (vir : V4 R3) (pot : V4 R) (s : Sums) : Sums :=
    if calcGlobals cfg then addSums s (globalSums (hsum3 vir) (hsum pot)) else s.

  (** SoAFunctorSingleImpl, LJFunctorAVX.h:215-325. *)
  Definition avxFunctorSingle (view : list A) (s : State A) : option (State A) :=
    match view with
    | [] => Some s
    | _ =>
        match singleRows view (length view) (forceAt s, (set1 rzero, set1 0)) with
        | Some (m, (vir, pot)) => Some (mkState m (addGlobals vir pot (sums s)))
        | None => None
        end
    end.

  (** SoAFunctorPairImpl, LJFunctorAVX.h:327-439. *)
  Fixpoint pairRows (newton3 : bool) (view1 view2 : list A) (x : (A -> R3) * (V4 R3 * V4 R)) :
    option ((A -> R3) * (V4 R3 * V4 R)) :=
    match view1 with
    | [] => Some x
    | i :: rest =>
        match rowStep newton3 i view2 (length view2) x with Some x' => pairRows newton3 rest view2 x' | None => None end
    end.
  Definition avxFunctorPair (newton3 : bool) (view1 view2 : list A) (s : State A) : option (State A) :=
    match view1, view2 with
    | [], _ | _, [] => Some s
    | _, _ =>
        match pairRows newton3 view1 view2 (forceAt s, (set1 rzero, set1 0)) with
        | Some (m, (vir, pot)) => Some (mkState m (addGlobals vir pot (sums s)))
        | None => None
        end
    end.

  (** x2tmp ... ownedStates2tmp, LJFunctorAVX.h:666-673, with their initial values. *)
  Definition emptyRows : V4 Row := set1 (mkRow rzero 0%Z 0 rzero).

  (** for (vecIndex < count) x2tmp[vecIndex] = xptr[neighborList[j + vecIndex]] ...,
      LJFunctorAVX.h:694-705 and 737-749: the forces are only read with newton3. *)
  Definition gatherLane (newton3 : bool) (m : A -> R3) (view : list A) (neighbours : list nat) (j k : nat) (buf : V4 Row) :
    option (V4 Row) :=
    match nth_error neighbours (j + k) with
    | None => None
    | Some n =>
        match nth_error view n with
        | None => None
        | Some a =>
            Some (setLane buf k (mkRow (ppos (part a)) (pown (part a)) (typeId a)
                                   (if newton3 then m a else rowForce (lane buf k))))
        end
    end.
  Fixpoint gather (count : nat) (newton3 : bool) (m : A -> R3) (view : list A) (neighbours : list nat) (j k : nat) (buf : V4 Row) :
    option (V4 Row) :=
    match count with
    | O => Some buf
    | S count' =>
        match gatherLane newton3 m view neighbours j k buf with
        | Some buf' => gather count' newton3 m view neighbours j (S k) buf'
        | None => None
        end
    end.
  (** The kernel stores the forces in fx2tmp ... *)
  Definition storeBuffer (st : V4 (option R3)) (buf : V4 Row) : V4 Row :=
    let upd k := match lane st k with
                 | Some f => mkRow (rowPos (lane buf k)) (rowOwn (lane buf k)) (rowType (lane buf k)) f
                 | None => lane buf k
                 end in
    mkV4 (upd 0%nat) (upd 1%nat) (upd 2%nat) (upd 3%nat).
  (** ... from where they are written back, LJFunctorAVX.h:712-718 and 756-762. *)
  Fixpoint scatterRows (count : nat) (view : list A) (neighbours : list nat) (j k : nat) (buf : V4 Row) (m : A -> R3) :
    option (A -> R3) :=
    match count with
    | O => Some m
    | S count' =>
        match nth_error neighbours (j + k) with
        | None => None
        | Some n =>
            match nth_error view n with
            | None => None
            | Some a => scatterRows count' view neighbours j (S k) buf (setForce a (rowForce (lane buf k)) m)
            end
        end
    end.

  (** One block of SoAFunctorVerletImpl: [count] neighbours from index j. *)
  Definition verletBlock (newton3 masked : bool) (rest count : nat) (i : A) (view : list A) (neighbours : list nat) (j : nat)
    (x : Regs * V4 Row) : option (Regs * V4 Row) :=
    let '(m, acc, buf) := x in
    match gather count newton3 m view neighbours j 0 buf with
    | None => None
    | Some buf1 =>
        match kernel cfg newton3 masked rest (pown (part i)) (ppos (part i)) (typeId i)
                (fun k => if Nat.ltb k vecLength then Some (lane buf1 k) else None) acc with
        | None => None
        | Some (acc', st) =>
            let buf2 := storeBuffer st buf1 in
            match (if newton3 then scatterRows count view neighbours j 0 buf2 m else Some m) with
            | Some m' => Some (m', acc', buf2)
            | None => None
            end
        end
    end.

  (** for (; j < (neighborList.size() & ~(vecLength - 1)); j += vecLength),
      LJFunctorAVX.h:682. *)
  Fixpoint verletLoop (fuel : nat) (newton3 : bool) (i : A) (view : list A) (neighbours : list nat) (limit j : nat)
    (x : Regs * V4 Row) : option (Regs * V4 Row * nat) :=
    if Nat.ltb j limit
    then match fuel with
         | O => None
         | S fuel' =>
             match verletBlock newton3 false 0 vecLength i view neighbours j x with
             | Some x' => verletLoop fuel' newton3 i view neighbours limit (j + vecLength) x'
             | None => None
             end
         end
    else Some (x, j).

  (** SoAFunctorVerlet and SoAFunctorVerletImpl, LJFunctorAVX.h:618-814. *)
  Definition avxFunctorVerlet (newton3 : bool) (view : list A) (first : nat) (neighbours : list nat) (s : State A) :
    option (State A) :=
    match view, neighbours with
    | [], _ | _, [] => Some s
    | _, _ =>
        match nth_error view first with
        | None => None
        | Some i =>
            if isDummy (part i) then Some s
            else
              let n := length neighbours in
              match verletLoop n newton3 i view neighbours (n - n mod vecLength) 0
                      (forceAt s, mkAcc (set1 rzero) (set1 rzero) (set1 0), emptyRows) with
              | None => None
              | Some (x, j) =>
                  let rest := (n mod vecLength)%nat in
                  match (if Nat.ltb 0 rest then verletBlock newton3 true rest rest i view neighbours j x else Some x) with
                  | None => None
                  | Some (m, acc, _) =>
                      Some (mkState (addForce same i (hsum3 (accF acc)) m) (addGlobals (accV acc) (accP acc) (sums s)))
                  end
              end
        end
    end.
End AVX.
