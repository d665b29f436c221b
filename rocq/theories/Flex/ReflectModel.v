(** Model of reflective boundaries of md-flexible: RegularGridDecomposition::reflectParticlesAtBoundaries
    (examples/md-flexible/src/domainDecomposition/RegularGridDecomposition.cpp:304-457), for single-site and
    multi-site molecules, exact arithmetic.  Iterators: the region iterator visits the owned particles in the
    half-open region (C17, C18).  A distance of zero between a site and a mirror site (division by zero) is
    not distinguished. *)
From Coq Require Import Reals List Bool.
From Verif.Functor Require Import SortModel.
From Verif.MD Require Import LJModel.
From Verif.Flex Require Import QuatModel.
Import ListNotations.
Local Open Scope R_scope.

(** The dimension index, and access to the component of an array. *)
Inductive dim := DX | DY | DZ.
Definition co (d : dim) (v : R3) : R := match d with DX => rx v | DY => ry v | DZ => rz v end.
Definition setCo (d : dim) (v : R3) (x : R) : R3 :=
  match d with DX => mkR3 x (ry v) (rz v) | DY => mkR3 (rx v) x (rz v) | DZ => mkR3 (rx v) (ry v) x end.

(** BoundaryTypeOption.h. *)
Inductive boundaryType := periodic | reflective | noBoundary.

(** RegularGridDecomposition.h:23. *)
Definition sixthRootOfTwo : R := Rpower 2 (1 / 6).

(** Sigma and epsilon of the site types, sites of the molecule types (ParticlePropertiesLibrary).  In
    single-site mode the type of a molecule is a site type. *)
Record library := mkLib { sigmas : list R; epsilons : list R; molSites : list (list (R3 * nat)) }.
Definition getSigma (l : library) (i : nat) : R := nth i (sigmas l) 0.
(** ParticlePropertiesLibrary.h:459-465 (C62). *)
Definition getMixing24Epsilon (l : library) (i j : nat) : R := 24 * sqrt (nth i (epsilons l) 0 * nth j (epsilons l) 0).
Definition getMixingSigmaSquared (l : library) (i j : nat) : R :=
  let s := (getSigma l i + getSigma l j) / 2 in s * s.
Definition getSites (l : library) (t : nat) : list (R3 * nat) := nth t (molSites l) [].
(** ParticlePropertiesLibrary.h:435-439. *)
Definition getMoleculesLargestSigma (l : library) (t : nat) : R :=
  fold_left (fun m s => Rmax m (getSigma l (snd s))) (getSites l t) 0.

(** What the function reads and writes of a molecule. *)
Record mol := mkM { pPos : R3; pQuat : quat; pForce : R3; pTorque : R3; pType : nat; pOwned : bool }.
Definition setFT (m : mol) (f t : R3) : mol := mkM (pPos m) (pQuat m) f t (pType m) (pOwned m).

(** Lines 344-358, LJKernel. *)
Definition LJKernel (site mirrorSite : R3) (sigmaSquared epsilon24 : R) : R3 :=
  let displacement := rsub site mirrorSite in
  let distanceSquared := dot displacement displacement in
  let inverseDistanceSquared := 1 / distanceSquared in
  let lj2 := sigmaSquared * inverseDistanceSquared in
  let lj6 := lj2 * lj2 * lj2 in
  let lj12 := lj6 * lj6 in
  let lj12m6 := lj12 - lj6 in
  rscale displacement (epsilon24 * (lj12 + lj12m6) * inverseDistanceSquared).

(** Lines 393-395 and 415-417: the image of a position. *)
Definition mirrorPosition (d : dim) (boundaryPosition : R) (p : R3) : R3 :=
  setCo d p (co d p + 2 * (boundaryPosition - co d p)).

(** Lines 318-320, 360-368 and 413-423, single-site molecules. *)
Definition reflectSingle (l : library) (d : dim) (isUpper : bool) (boundaryPosition : R) (m : mol) : mol :=
  let distanceToBoundary := Rabs (co d (pPos m) - boundaryPosition) in
  if Rlt_dec distanceToBoundary (sixthRootOfTwo * / 2 * getSigma l (pType m)) then
    let force := LJKernel (pPos m) (mirrorPosition d boundaryPosition (pPos m))
                   (getMixingSigmaSquared l (pType m) (pType m)) (getMixing24Epsilon l (pType m) (pType m)) in
    setFT m (radd (pForce m) force) (pTorque m)
  else m.

(** Lines 318-320, 360-411 and 426-436, multi-site molecules.  Lines 404-405 ask for the parameters of the
    site with itself, whatever the mirror site. *)
Definition reflectMulti (l : library) (d : dim) (isUpper : bool) (boundaryPosition : R) (m : mol) : mol :=
  let distanceToBoundary := Rabs (co d (pPos m) - boundaryPosition) in
  if Rlt_dec distanceToBoundary (sixthRootOfTwo * / 2 * getMoleculesLargestSigma l (pType m)) then
    let sites := map (fun s => (rotatePosition (pQuat m) (fst s), snd s)) (getSites l (pType m)) in
    let m' :=
      fold_left (fun m site =>
        fold_left (fun m mirrorSite =>
          let force := LJKernel (radd (fst site) (pPos m))
                         (mirrorPosition d boundaryPosition (radd (fst mirrorSite) (pPos m)))
                         (getMixingSigmaSquared l (snd site) (snd site))
                         (getMixing24Epsilon l (snd site) (snd site)) in
          setFT m (radd (pForce m) force) (radd (pTorque m) (cross (fst site) force)))
        sites m) sites m in
    let change := co d (pForce m') - co d (pForce m) in
    let attractive := if isUpper then (if Rlt_dec 0 change then true else false)
                      else (if Rlt_dec change 0 then true else false) in
    if attractive then setFT m' (pForce m) (pTorque m) else m'
  else m.

(** utils/Math.cpp:32-37 isNearRel with the default 1e-9. *)
Definition isNearRel (a b : R) : bool :=
  if Rle_dec (Rabs (a - b)) (/ 1000000000 * Rmax (Rabs a) (Rabs b)) then true else false.

(** utils/inBox.h for the region of an iterator. *)
Definition inBox (p lo hi : R3) : bool :=
  let inside d := (if Rle_dec (co d lo) (co d p) then true else false) && (if Rlt_dec (co d p) (co d hi) then true else false) in
  inside DX && inside DY && inside DZ.

Section Reflect.
  Variable l : library.
  (** [reflectSingle] or [reflectMulti]. *)
  Variable kernel : library -> dim -> bool -> R -> mol -> mol.
  Variables (globalMin globalMax localMin localMax : R3) (boundary : dim -> boundaryType).

  (** RegularGridDecomposition.cpp:51-55. *)
  Definition maxReflectiveSkin : R := sixthRootOfTwo * fold_left Rmax (sigmas l) 0 / 2.

  (** Lines 313-438: the lambda reflect. *)
  Definition reflect (d : dim) (isUpper : bool) (lo hi : R3) (ms : list mol) : list mol :=
    let boundaryPosition := if isUpper then co d hi else co d lo in
    map (fun m => if pOwned m && inBox (pPos m) lo hi then kernel l d isUpper boundaryPosition m else m) ms.

  (** Lines 309-311 and 439-456: one pass of the loop over the dimensions. *)
  Definition reflectDim (ms : list mol) (d : dim) : list mol :=
    match boundary d with
    | reflective =>
        let ms1 := if isNearRel (co d localMin) (co d globalMin)
                   then reflect d false globalMin (setCo d globalMax (co d globalMin + maxReflectiveSkin)) ms
                   else ms in
        if isNearRel (co d localMax) (co d globalMax)
        then reflect d true (setCo d globalMin (co d globalMax - maxReflectiveSkin)) globalMax ms1
        else ms1
    | _ => ms
    end.

  Definition reflectParticlesAtBoundaries (ms : list mol) : list mol := fold_left reflectDim [DX; DY; DZ] ms.
End Reflect.
