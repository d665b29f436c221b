(** Model of the Lennard-Jones functor
    (applicationLibrary/molecularDynamics/molecularDynamicsLibrary/LJFunctor.h), in exact
    arithmetic.  A division by zero has no value: [None].  In floating point it gives an
    infinity or NaN which reaches the force, also when it is multiplied by a mask that is
    zero. *)
From Coq Require Import Reals List ZArith Bool Arith.
From Verif.Base Require Import ZRange OptionM.
From Verif.Functor Require Import CellFunctorModel SortModel.
From Verif.Container Require Import IteratorModel ParticleModel.
From Verif.MD Require Import MixingModel.
Import ListNotations.
Local Open Scope R_scope.

Definition rzero : R3 := mkR3 0 0 0.
Definition radd (a b : R3) : R3 := mkR3 (rx a + rx b) (ry a + ry b) (rz a + rz b).

(** Template parameters, _cutoffSquared, _epsilon24, _sigmaSquared, _shift6 and
    _PPLibrary. *)
Record LJConfig := mkLJC {
  useMixing : bool; applyShift : bool; calcGlobals : bool; countFLOPs : bool;
  cutoffSquared : R; consts : LJProps; library : Library }.

(** setParticleProperties, LJFunctor.h:587-596. *)
Definition setParticleProperties (e24 s2 : R) (c : LJConfig) : LJConfig :=
  mkLJC (useMixing c) (applyShift c) (calcGlobals c) (countFLOPs c) (cutoffSquared c)
    (mkLJ e24 s2 (if applyShift c then calcShift6 e24 s2 (cutoffSquared c) else 0)) (library c).

(** The parameters of a pair of types, e.g. LJFunctor.h:133-142. *)
Definition pairProps (c : LJConfig) (ti tj : nat) : option LJProps :=
  if useMixing c
  then match getMixing (library c) ti tj with
       | Some m => Some (mkLJ (epsilon24 m) (sigmaSquared m) (if applyShift c then shift6 m else shift6 (consts c)))
       | None => None
       end
  else Some (consts c).

(** AoSThreadDataGlobals and AoSThreadDataFLOPs of the executing thread,
    LJFunctor.h:1110-1180. *)
Record Sums := mkSums {
  virialSum : R3; potentialSum : R;
  distCalls : nat; kernelsN3 : nat; kernelsNoN3 : nat; globalsN3 : nat; globalsNoN3 : nat }.
Definition noSums : Sums := mkSums rzero 0 0 0 0 0 0.
Definition addSums (a b : Sums) : Sums :=
  mkSums (radd (virialSum a) (virialSum b)) (potentialSum a + potentialSum b)
    (distCalls a + distCalls b) (kernelsN3 a + kernelsN3 b) (kernelsNoN3 a + kernelsNoN3 b)
    (globalsN3 a + globalsN3 b) (globalsNoN3 a + globalsNoN3 b).

(** [if constexpr (countFLOPs)]. *)
Definition distCount (c : LJConfig) (counted : bool) : Sums :=
  mkSums rzero 0 (if countFLOPs c && counted then 1 else 0) 0 0 0 0.
Definition kernelCount (c : LJConfig) (newton3 : bool) (mask : bool) : Sums :=
  let n := (if countFLOPs c && mask then 1 else 0)%nat in
  let g := (if countFLOPs c && calcGlobals c && mask then 1 else 0)%nat in
  if newton3 then mkSums rzero 0 0 n 0 g 0 else mkSums rzero 0 0 0 n 0 g.
Definition globalSums (virial : R3) (pot6 : R) : Sums := mkSums virial pot6 0 0 0 0 0.
Definition whenSums (b : bool) (s : Sums) : Sums := if b then s else noSums.

(** What the kernel computes from the parameters, the displacement dr and its square:
    the force on the first particle and 6 times the potential energy
    (LJFunctor.h:150-158 and 172; 292-298 and 321, with the mask as a factor). *)
Definition ljKernel (mask : R) (p : LJProps) (dr : R3) (dr2 : R) : R3 * R :=
  let invdr2 := 1 / dr2 in
  let lj2 := sigmaSquared p * invdr2 in
  let lj6 := lj2 * lj2 * lj2 in
  let lj12 := lj6 * lj6 in
  let lj12m6 := lj12 - lj6 in
  let fac := mask * epsilon24 p * (lj12 + lj12m6) * invdr2 in
  (rscale dr fac, mask * (epsilon24 p * lj12m6 + shift6 p)).

Section LJ.
  (** Addresses of particles; what is stored there. *)
  Context {A : Type}.
  Variable same : A -> A -> bool.
  Variable part : A -> Particle.
  Variable typeId : A -> nat.
  Variable cfg : LJConfig.

  (** The forces in memory and the sums of the executing thread. *)
  Record State := mkState { forceAt : A -> R3; sums : Sums }.
  Definition addForce (a : A) (f : R3) (m : A -> R3) : A -> R3 := fun x => if same x a then radd (m x) f else m x.
  Definition subForce (a : A) (f : R3) (m : A -> R3) : A -> R3 := fun x => if same x a then rsub (m x) f else m x.
  Definition displacement (i j : A) : R3 := rsub (ppos (part i)) (ppos (part j)).

  (** AoSFunctor, LJFunctor.h:120-195. *)
  Definition aosFunctor (c : Call A) (s : State) : option State :=
    let i := fstP c in let j := sndP c in
    if isDummy (part i) || isDummy (part j) then Some s
    else
      let s1 := addSums (sums s) (distCount cfg true) in
      match pairProps cfg (typeId i) (typeId j) with
      | None => None
      | Some p =>
          let dr := displacement i j in
          let dr2 := dot dr dr in
          if Rlt_dec (cutoffSquared cfg) dr2 then Some (mkState (forceAt s) s1)
          else if Req_EM_T dr2 0 then None
          else
            let '(f, pot6) := ljKernel 1 p dr dr2 in
            let m1 := addForce i f (forceAt s) in
            let m2 := if n3 c then subForce j f m1 else m1 in
            let s2 := addSums s1 (kernelCount cfg (n3 c) true) in
            let g := globalSums (rmul dr f) pot6 in
            let s3 := addSums s2 (whenSums (calcGlobals cfg && isOwned (part i)) g) in
            let s4 := addSums s3 (whenSums (calcGlobals cfg && (n3 c && isOwned (part j))) g) in
            Some (mkState m2 s4)
      end.

  (** A sequence of AoS calls. *)
  Fixpoint aosCalls (cs : list (Call A)) (s : State) : option State :=
    match cs with
    | [] => Some s
    | c :: cs' => match aosFunctor c s with Some s' => aosCalls cs' s' | None => None end
    end.

  (** The body of the vectorised loops, LJFunctor.h:267-334, 447-513 and 870-926: the
      force of j on i and what is added to the sums.  [both]: the sums take the second
      particle into account. *)
  Definition maskedBody (both : bool) (i j : A) : option (R3 * Sums) :=
    match pairProps cfg (typeId i) (typeId j) with
    | None => None
    | Some p =>
        let dr := displacement i j in
        let dr2 := dot dr dr in
        let mask := (if Rle_dec dr2 (cutoffSquared cfg) then true else false) && negb (isDummy (part j)) in
        if Req_EM_T dr2 0 then None
        else
          let '(f, pot6) := ljKernel (if mask then 1 else 0) p dr dr2 in
          let factor := (if isOwned (part i) then 1 else 0) + (if both then if isOwned (part j) then 1 else 0 else 0) in
          Some (f, addSums (addSums (distCount cfg (negb (isDummy (part j)))) (kernelCount cfg both mask))
                     (whenSums (calcGlobals cfg) (globalSums (rscale (rmul dr f) factor) (pot6 * factor))))
    end.

  (** Forces in memory, accumulated force of i, local sums. *)
  Definition Loop : Type := (A -> R3) * R3 * Sums.

  (** for (j ...) { body; fxacc += fx; fxptr[j] -= fx; }: the force is subtracted from j
      if [newton3]. *)
  Fixpoint innerLoop (newton3 : bool) (i : A) (js : list A) (x : Loop) : option Loop :=
    match js with
    | [] => Some x
    | j :: js' =>
        match maskedBody newton3 i j with
        | None => None
        | Some (f, g) =>
            let '(m, acc, loc) := x in
            innerLoop newton3 i js' (if newton3 then subForce j f m else m, radd acc f, addSums loc g)
        end
    end.

  (** One iteration of the outer loop: dummies are skipped, the accumulated force is
      added at the end. *)
  Definition outerStep (newton3 : bool) (i : A) (js : list A) (x : (A -> R3) * Sums) : option ((A -> R3) * Sums) :=
    if isDummy (part i) then Some x
    else match innerLoop newton3 i js (fst x, rzero, snd x) with
         | None => None
         | Some (m, acc, loc) => Some (addForce i acc m, loc)
         end.

  (** The outer loop of SoAFunctorSingle: j runs from i + 1. *)
  Fixpoint singleLoop (view : list A) (x : (A -> R3) * Sums) : option ((A -> R3) * Sums) :=
    match view with
    | [] => Some x
    | i :: rest => match outerStep true i rest x with Some x' => singleLoop rest x' | None => None end
    end.

  (** SoAFunctorSingle, LJFunctor.h:202-362.  The view is the list of the addresses of
      its rows.  The loop counters are unbounded (unsigned int in the code). *)
  Definition soaFunctorSingle (view : list A) (s : State) : option State :=
    match singleLoop view (forceAt s, noSums) with
    | Some (m, loc) => Some (mkState m (addSums (sums s) loc))
    | None => None
    end.

  (** The outer loop of SoAFunctorPairImpl. *)
  Fixpoint pairLoop (newton3 : bool) (view1 view2 : list A) (x : (A -> R3) * Sums) : option ((A -> R3) * Sums) :=
    match view1 with
    | [] => Some x
    | i :: rest => match outerStep newton3 i view2 x with Some x' => pairLoop newton3 rest view2 x' | None => None end
    end.

  (** SoAFunctorPair and SoAFunctorPairImpl, LJFunctor.h:367-548. *)
  Definition soaFunctorPair (newton3 : bool) (view1 view2 : list A) (s : State) : option State :=
    match view1, view2 with
    | [], _ | _, [] => Some s
    | _, _ =>
        match pairLoop newton3 view1 view2 (forceAt s, noSums) with
        | Some (m, loc) => Some (mkState m (addSums (sums s) loc))
        | None => None
        end
    end.

  (** One block of SoAFunctorVerletImpl, LJFunctor.h:842-940: the forces of all
      neighbours of the block are computed and kept in fxArr, ... *)
  Fixpoint blockForces (newton3 : bool) (i : A) (js : list A) (acc : R3) (loc : Sums) : option (list R3 * R3 * Sums) :=
    match js with
    | [] => Some ([], acc, loc)
    | j :: js' =>
        match maskedBody newton3 i j with
        | None => None
        | Some (f, g) =>
            match blockForces newton3 i js' (radd acc f) (addSums loc g) with
            | None => None
            | Some (fs, acc', loc') => Some (f :: fs, acc', loc')
            end
        end
    end.
  (** ... and scattered afterwards (lines 930-938). *)
  Fixpoint scatter (js : list A) (fs : list R3) (m : A -> R3) : A -> R3 :=
    match js, fs with
    | j :: js', f :: fs' => scatter js' fs' (subForce j f m)
    | _, _ => m
    end.
  Definition block (newton3 : bool) (i : A) (js : list A) (x : Loop) : option Loop :=
    let '(m, acc, loc) := x in
    match blockForces newton3 i js acc loc with
    | None => None
    | Some (fs, acc', loc') => Some (if newton3 then scatter js fs m else m, acc', loc')
    end.

  (** The remainder loop, LJFunctor.h:942-1012. *)
  Fixpoint restLoop (newton3 : bool) (i : A) (js : list A) (x : Loop) : option Loop :=
    match js with
    | [] => Some x
    | j :: js' =>
        if same i j then restLoop newton3 i js' x
        else
          match pairProps cfg (typeId i) (typeId j) with
          | None => None
          | Some p =>
              if isDummy (part j) then restLoop newton3 i js' x
              else
                let '(m, acc, loc) := x in
                let dr := displacement i j in
                let dr2 := dot dr dr in
                let loc1 := addSums loc (distCount cfg true) in
                if Rlt_dec (cutoffSquared cfg) dr2 then restLoop newton3 i js' (m, acc, loc1)
                else if Req_EM_T dr2 0 then None
                else
                  let '(f, pot6) := ljKernel 1 p dr dr2 in
                  let factor :=
                    (if isOwned (part i) then 1 else 0) + (if newton3 then if isOwned (part j) then 1 else 0 else 0) in
                  restLoop newton3 i js'
                    (if newton3 then subForce j f m else m, radd acc f,
                     addSums (addSums loc1 (kernelCount cfg newton3 true))
                       (whenSums (calcGlobals cfg) (globalSums (rscale (rmul dr f) factor) (pot6 * factor))))
          end
    end.

  (** The loop over the blocks, LJFunctor.h:842: [for (; joff < neighborListSize -
      vecsize + 1; joff += vecsize)], then the remainder.  [fuel] bounds the number of
      blocks. *)
  Fixpoint blocksThenRest (fuel : nat) (vecsize : nat) (newton3 : bool) (i : A) (js : list A) (x : Loop) : option Loop :=
    match fuel with
    | O => restLoop newton3 i js x
    | S fuel' =>
        if Nat.leb vecsize (length js)
        then match block newton3 i (firstn vecsize js) x with
             | Some x' => blocksThenRest fuel' vecsize newton3 i (skipn vecsize js) x'
             | None => None
             end
        else restLoop newton3 i js x
    end.

  (** SoAFunctorVerlet and SoAFunctorVerletImpl, LJFunctor.h:567-575 and 806-1110; the
      neighbour list holds indices into the view.  vecsize is 12, or 16 with AVX512. *)
  Definition soaFunctorVerlet (vecsize : nat) (newton3 : bool) (view : list A) (first : nat) (neighbours : list nat)
    (s : State) : option State :=
    match view, neighbours with
    | [], _ | _, [] => Some s
    | _, _ =>
        match nth_error view first, mapM (nth_error view) neighbours with
        | Some i, Some js =>
            if isDummy (part i) then Some s
            else match blocksThenRest (length js) vecsize newton3 i js (forceAt s, rzero, noSums) with
                 | None => None
                 | Some (m, acc, loc) =>
                     let nonzero := negb ((if Req_EM_T (rx acc) 0 then true else false) &&
                                          (if Req_EM_T (ry acc) 0 then true else false) &&
                                          (if Req_EM_T (rz acc) 0 then true else false)) in
                     Some (mkState (if nonzero then addForce i acc m else m) (addSums (sums s) loc))
                 end
        | _, _ => None
        end
    end.
End LJ.
Arguments State : clear implicits.

(** endTraversal, LJFunctor.h:651-676, after initTraversal (lines 631-646) has set all
    sums to zero: potential energy and virial from the sums of the threads. *)
Definition endTraversal (threads : list Sums) : R * R3 :=
  let pot := fold_left (fun a t => a + potentialSum t) threads 0 in
  let vir := fold_left (fun a t => radd a (virialSum t)) threads rzero in
  (pot * (1 / 2) / 6, rscale vir (1 / 2)).
(** getVirial, LJFunctor.h:698-710. *)
Definition getVirial (v : R3) : R := rx v + ry v + rz v.

(** getHitRate, LJFunctor.h:783-803. *)
Definition hitRate (threads : list Sums) : R :=
  (INR (list_sum (map kernelsNoN3 threads)) + INR (list_sum (map kernelsN3 threads))) /
  INR (list_sum (map distCalls threads)).
