(** Model of the Lennard-Jones functor for molecules of several sites
    (applicationLibrary/molecularDynamics/molecularDynamicsLibrary/LJMultisiteFunctor.h), exact arithmetic.  A
    distance of zero between two sites (division by zero) is not distinguished.  The arrays of sites are
    vectors that are reserved and written beyond their size; they are modelled as arrays of that capacity. *)
From Coq Require Import Reals List ZArith Bool Arith.
From Verif.Functor Require Import SortModel.
From Verif.Container Require Import IteratorModel ParticleModel.
From Verif.MD Require Import MixingModel LJModel.
From Verif.Flex Require Import QuatModel.
Import ListNotations.
Local Open Scope R_scope.

Section Multisite.
  (** Addresses of molecules; what is stored there.  Type ids are looked up in the library: sites with
      positions in the molecule and site types, mixed parameters of site types (C60). *)
  Context {A : Type}.
  Variable same : A -> A -> bool.
  Variable part : A -> Particle.
  Variable quatOf : A -> quat.
  Variable typeOf : A -> nat.
  (** Template parameters useMixing, applyShift and calculateGlobals, _cutoffSquared, the library (null
      pointer if not mixing), _sitePositionsLJ and the constants of setParticleProperties. *)
  Variables (mixing shifted globals : bool) (cutoff2 : R).
  Variable librarySites : nat -> list (R3 * nat).
  Variable libraryProps : nat -> nat -> LJProps.
  Variables (constSites : list R3) (constProps : LJProps).

  (** Lines 193-208. *)
  Definition sitesOf (a : A) : list (R3 * nat) :=
    if mixing then librarySites (typeOf a) else map (fun p => (p, 0%nat)) constSites.
  (** Lines 210-214. *)
  Definition rotatedSites (a : A) : list (R3 * nat) :=
    map (fun s => (rotatePosition (quatOf a) (fst s), snd s)) (sitesOf a).
  (** Lines 222-226. *)
  Definition siteProps (i j : nat) : LJProps :=
    let p := if mixing then libraryProps i j else constProps in
    mkLJ (epsilon24 p) (sigmaSquared p) (if shifted then shift6 p else 0).

  (** Lines 233-239 and 253; 496-503 and 522: force and 6 times the potential energy. *)
  Definition siteKernel (mask : bool) (p : LJProps) (displacement : R3) : R3 * R :=
    let distanceSquared := dot displacement displacement in
    let invDistSquared := 1 / distanceSquared in
    let lj2 := sigmaSquared p * invDistSquared in
    let lj6 := lj2 * lj2 * lj2 in
    let lj12 := lj6 * lj6 in
    let lj12m6 := lj12 - lj6 in
    let scalarMultiple := if mask then epsilon24 p * (lj12 + lj12m6) * invDistSquared else 0 in
    (rscale displacement scalarMultiple, if mask then epsilon24 p * lj12m6 + shift6 p else 0).

  (** Forces and torques in memory, sums of the executing thread. *)
  Record MState := mkMS { mForce : A -> R3; mTorque : A -> R3; mVirial : R3; mPot : R }.

  Definition addAt (a : A) (v : R3) (m : A -> R3) : A -> R3 := fun x => if same x a then radd (m x) v else m x.
  Definition subAt (a : A) (v : R3) (m : A -> R3) : A -> R3 := fun x => if same x a then rsub (m x) v else m x.
  Definition addGlobals (count : bool) (virial : R3) (pot6 : R) (s : MState) : MState :=
    if count then mkMS (mForce s) (mTorque s) (radd (mVirial s) virial) (mPot s + pot6) else s.

  (** Lines 217-269: one pair of sites. *)
  Definition aosSites (newton3 : bool) (a b : A) (displacementCoM : R3) (sa sb : R3 * nat) (s : MState) : MState :=
    let displacement := radd (rsub displacementCoM (fst sb)) (fst sa) in
    let '(force, pot6) := siteKernel true (siteProps (snd sa) (snd sb)) displacement in
    let f1 := addAt a force (mForce s) in
    let f2 := if newton3 then subAt b force f1 else f1 in
    let t1 := addAt a (cross (fst sa) force) (mTorque s) in
    let t2 := if newton3 then subAt b (cross (fst sb) force) t1 else t1 in
    let virial := rmul displacement force in
    let s1 := mkMS f2 t2 (mVirial s) (mPot s) in
    let s2 := addGlobals (globals && isOwned (part a)) virial pot6 s1 in
    addGlobals (globals && (newton3 && isOwned (part b))) virial pot6 s2.

  (** AoSFunctor, lines 178-272. *)
  Definition aosFunctor (newton3 : bool) (a b : A) (s : MState) : MState :=
    if isDummy (part a) || isDummy (part b) then s
    else
      let displacementCoM := rsub (ppos (part a)) (ppos (part b)) in
      if Rlt_dec cutoff2 (dot displacementCoM displacementCoM) then s
      else fold_left (fun s sa => fold_left (fun s sb => aosSites newton3 a b displacementCoM sa sb s)
                                    (rotatedSites b) s) (rotatedSites a) s.

  (** The arrays exactSitePosition, siteTypes and isSiteOwned of a view, lines 360-401, 899-939 and 1251-1294. *)
  Definition fillSites (view : list A) : list (R3 * nat * bool) :=
    flat_map (fun a => map (fun s => (radd (fst s) (ppos (part a)), snd s, isOwned (part a))) (rotatedSites a)) view.
  Definition noSite : R3 * nat * bool := (rzero, 0%nat, false).

  (** Lines 423-438, 960-976 and 1304-1320. *)
  Definition molMask (a b : A) : bool :=
    let d := rsub (ppos (part a)) (ppos (part b)) in
    (if Rle_dec (dot d d) cutoff2 then true else false) && negb (isDummy (part b)).
  (** Lines 440-448, 978-986 and 1322-1331: the number of sites is taken from the library, a null pointer
      without mixing. *)
  Definition siteMask (a : A) (bs : list A) : option (list bool) :=
    if mixing then Some (flat_map (fun b => repeat (molMask a b) (length (librarySites (typeOf b)))) bs)
    else match bs with [] => Some [] | _ => None end.

  (** siteForce[k] -= f, += f. *)
  Definition subSite (k : nat) (f : R3) (m : nat -> R3) : nat -> R3 := fun i => if (i =? k)%nat then rsub (m i) f else m i.
  Definition addSite (k : nat) (f : R3) (m : nat -> R3) : nat -> R3 := fun i => if (i =? k)%nat then radd (m i) f else m i.

  (** Lines 518-533, 1062-1077 and 1404-1419. *)
  Definition ownershipFactor (both : bool) (ownedA ownedB : bool) : R :=
    (if ownedA then 1 else 0) + (if both then if ownedB then 1 else 0 else 0).
  Definition addSums (factor : R) (virial : R3) (pot6 : R) (g : R3 * R) : R3 * R :=
    if globals then (radd (fst g) (rscale virial factor), snd g + pot6 * factor) else g.

  (** Lines 478-535: the body of the innermost loop of SoAFunctorSingle. *)
  Definition singleB (fs : list (R3 * nat * bool)) (mask : list bool) (siteIndexMolB : nat) (pA : R3) (tA : nat) (ownedA : bool)
      (x : (nat -> R3) * R3 * (R3 * R)) (siteB : nat) : (nat -> R3) * R3 * (R3 * R) :=
    let '(F, forceSum, g) := x in
    let globalSiteBIndex := (siteB + siteIndexMolB)%nat in
    let '(pB, tB, ownedB) := nth globalSiteBIndex fs noSite in
    let displacement := rsub pA pB in
    let '(force, pot6) := siteKernel (nth siteB mask false) (siteProps tA tB) displacement in
    (subSite globalSiteBIndex force F, radd forceSum force,
     addSums (ownershipFactor true ownedA ownedB) (rmul displacement force) pot6 g).

  (** Lines 451-540: one site of the first molecule. *)
  Definition singleA (fs : list (R3 * nat * bool)) (mask : list bool) (siteIndexMolB noSitesB : nat) (ownedA : bool)
      (x : (nat -> R3) * (R3 * R)) (siteA : nat) : (nat -> R3) * (R3 * R) :=
    let '(pA, tA, _) := nth siteA fs noSite in
    let '(F, forceSum, g) := fold_left (singleB fs mask siteIndexMolB pA tA ownedA) (seq 0 noSitesB) (fst x, rzero, snd x) in
    (addSite siteA forceSum F, g).

  (** Lines 402-540: the loop over the first molecule; [view] is what is left of the SoA. *)
  Fixpoint singleMols (fs : list (R3 * nat * bool)) (siteIndexMolA : nat) (view : list A) (x : (nat -> R3) * (R3 * R))
      : option ((nat -> R3) * (R3 * R)) :=
    match view with
    | [] => Some x
    | a :: rest =>
        let noSitesInMolA := length (sitesOf a) in
        let siteIndexMolB := (siteIndexMolA + noSitesInMolA)%nat in
        if isDummy (part a) then singleMols fs siteIndexMolB rest x
        else match siteMask a rest with
             | None => None
             | Some mask =>
                 singleMols fs siteIndexMolB rest
                   (fold_left (singleA fs mask siteIndexMolB (length fs - siteIndexMolB) (isOwned (part a)))
                      (seq siteIndexMolA noSitesInMolA) x)
             end
    end.

  (** Lines 542-580, 1090-1127 and 1444-1486: site forces become forces and torques of molecules. *)
  Fixpoint reduceSites (F : nat -> R3) (siteIndex : nat) (a : A) (sites : list (R3 * nat)) (s : MState) : MState :=
    match sites with
    | [] => s
    | site :: rest =>
        reduceSites F (S siteIndex) a rest
          (mkMS (addAt a (F siteIndex) (mForce s)) (addAt a (cross (fst site) (F siteIndex)) (mTorque s)) (mVirial s) (mPot s))
    end.
  Fixpoint reduceMols (F : nat -> R3) (siteIndex : nat) (view : list A) (s : MState) : MState :=
    match view with
    | [] => s
    | a :: rest => reduceMols F (siteIndex + length (sitesOf a)) rest (reduceSites F siteIndex a (rotatedSites a) s)
    end.

  (** Lines 582-590, 1128-1136 and 1488-1495. *)
  Definition addThreadSums (g : R3 * R) (s : MState) : MState := addGlobals globals (fst g) (snd g) s.

  (** SoAFunctorSingle, lines 278-591. *)
  Definition soaFunctorSingle (view : list A) (s : MState) : option MState :=
    match view with
    | [] => Some s
    | _ => match singleMols (fillSites view) 0 view (fun _ => rzero, (rzero, 0)) with
           | None => None
           | Some (F, g) => Some (addThreadSums g (reduceMols F 0 view s))
           end
    end.

  (** Lines 1019-1079 and 1371-1421: the innermost loop of SoAFunctorPairImpl and SoAFunctorVerletImpl. *)
  Definition pairB (newton3 : bool) (fs : list (R3 * nat * bool)) (mask : list bool) (rA pA : R3) (tA : nat) (ownedA : bool)
      (x : (nat -> R3) * R3 * R3 * (R3 * R)) (siteB : nat) : (nat -> R3) * R3 * R3 * (R3 * R) :=
    let '(F, forceSum, torqueSum, g) := x in
    let '(pB, tB, ownedB) := nth siteB fs noSite in
    let displacement := rsub pA pB in
    let '(force, pot6) := siteKernel (nth siteB mask false) (siteProps tA tB) displacement in
    (if newton3 then subSite siteB force F else F, radd forceSum force, radd torqueSum (cross rA force),
     addSums (ownershipFactor newton3 ownedA ownedB) (rmul displacement force) pot6 g).

  (** Lines 942-1088: one molecule of the first view. *)
  Definition pairMol (newton3 : bool) (fs : list (R3 * nat * bool)) (viewB : list A) (a : A)
      (x : (nat -> R3) * (R3 * R) * MState) : option ((nat -> R3) * (R3 * R) * MState) :=
    if isDummy (part a) then Some x
    else
      match siteMask a viewB with
      | None => None
      | Some mask =>
          let '(F, g, s) := x in
          let '(F', forceSum, torqueSum, g') :=
            fold_left (fun y sa => fold_left (pairB newton3 fs mask (fst sa) (radd (fst sa) (ppos (part a))) (snd sa) (isOwned (part a)))
                                     (seq 0 (length fs)) y) (rotatedSites a) (F, rzero, rzero, g) in
          Some (F', g', mkMS (addAt a forceSum (mForce s)) (addAt a torqueSum (mTorque s)) (mVirial s) (mPot s))
      end.
  Fixpoint pairMols (newton3 : bool) (fs : list (R3 * nat * bool)) (viewB viewA : list A)
      (x : (nat -> R3) * (R3 * R) * MState) : option ((nat -> R3) * (R3 * R) * MState) :=
    match viewA with
    | [] => Some x
    | a :: rest => match pairMol newton3 fs viewB a x with None => None | Some x' => pairMols newton3 fs viewB rest x' end
    end.

  (** SoAFunctorPair and SoAFunctorPairImpl, lines 593-601 and 793-1137. *)
  Definition soaFunctorPair (newton3 : bool) (viewA viewB : list A) (s : MState) : option MState :=
    match viewA, viewB with
    | [], _ | _, [] => Some s
    | _, _ =>
        match pairMols newton3 (fillSites viewB) viewB viewA (fun _ => rzero, (rzero, 0), s) with
        | None => None
        | Some (F, g, s') => Some (addThreadSums g (reduceMols F 0 viewB s'))
        end
    end.

  (** SoAFunctorVerlet and SoAFunctorVerletImpl, lines 607-616 and 1140-1496: the molecule and its neighbours.
      Line 1248 reads the library, a null pointer without mixing. *)
  Definition soaFunctorVerlet (newton3 : bool) (prime : A) (neighbors : list A) (s : MState) : option MState :=
    match neighbors with
    | [] => Some s
    | _ =>
        if isDummy (part prime) then Some s
        else if negb mixing then None
        else match pairMol newton3 (fillSites neighbors) neighbors prime (fun _ => rzero, (rzero, 0), s) with
             | None => None
             | Some (F, g, s') => Some (addThreadSums g (if newton3 then reduceMols F 0 neighbors s' else s'))
             end
    end.

  (** endTraversal, lines 722-747: potential energy and virial. *)
  Definition potentialEnergy (s : MState) : R := mPot s * (1 / 2) / 6.
  Definition virial (s : MState) : R := let v := rscale (mVirial s) (1 / 2) in rx v + ry v + rz v.
End Multisite.
