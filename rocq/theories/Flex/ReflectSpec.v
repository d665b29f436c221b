(** What reflective boundaries should do. *)
From Coq Require Import Reals List Bool.
From Verif.Functor Require Import SortModel.
From Verif.MD Require Import LJModel.
From Verif.Flex Require Import QuatModel ReflectModel.
Import ListNotations.
Local Open Scope R_scope.

(** Beyond this distance from the wall a particle feels nothing: half the distance at which the
    Lennard-Jones potential is minimal. *)
Definition reach (sigma : R) : R := Rpower 2 (1 / 6) * sigma / 2.

(** The potential of a wall at distance [x]: half of the Lennard-Jones potential of a particle and its mirror
    image, cut off at its minimum and raised to zero there. *)
Definition wallPotential (sigma epsilon x : R) : R :=
  if Rlt_dec x (reach sigma)
  then / 2 * (4 * epsilon * ((sigma / (2 * x)) ^ 12 - (sigma / (2 * x)) ^ 6) + epsilon)
  else 0.

(** The force of a wall, away from it. *)
Definition wallForce (sigma epsilon x : R) : R :=
  if Rlt_dec x (reach sigma)
  then 24 * epsilon / (2 * x) * (2 * (sigma / (2 * x)) ^ 12 - (sigma / (2 * x)) ^ 6)
  else 0.

(** The force of all reflective walls of the box on a particle. *)
Definition wallsForce (globalMin globalMax : R3) (boundary : dim -> boundaryType) (sigma epsilon : R) (x : R3) : R3 :=
  let f d := match boundary d with
             | reflective => wallForce sigma epsilon (co d x - co d globalMin)
                             - wallForce sigma epsilon (co d globalMax - co d x)
             | _ => 0
             end in
  mkR3 (f DX) (f DY) (f DZ).

(** The part [lo, hi) of the interval [min, max) that belongs to a rank: the interval is cut into pieces, each
    of at least the given width. *)
Definition rankInterval (width min max lo hi : R) : Prop :=
  exists cuts i, nth_error cuts 0 = Some min /\ nth_error cuts (length cuts - 1) = Some max /\
    nth_error cuts i = Some lo /\ nth_error cuts (S i) = Some hi /\
    forall j a b, nth_error cuts j = Some a -> nth_error cuts (S j) = Some b -> a + width <= b.

(** The Lennard-Jones force of a site at [b] on a site at [a]. *)
Definition ljForce (sigma epsilon : R) (a b : R3) : R3 :=
  let r2 := dot (rsub a b) (rsub a b) in
  rscale (rsub a b) (24 * epsilon / r2 * (2 * (sigma * sigma / r2) ^ 6 - (sigma * sigma / r2) ^ 3)).

Definition image (d : dim) (wall : R) (p : R3) : R3 := setCo d p (2 * wall - co d p).

Definition sumR3 (l : list R3) : R3 := fold_right radd rzero l.

(** The force and torque on a molecule by its mirror image: all sites with all images of sites, with the
    mixed parameters of the two sites.  [sites]: relative positions (turned) and parameters. *)
Definition imageForces (d : dim) (wall : R) (pos : R3) (sites : list (R3 * (R * R))) : list (R3 * R3) :=
  flat_map (fun s => map (fun t =>
    (fst s, ljForce ((fst (snd s) + fst (snd t)) / 2) (sqrt (snd (snd s) * snd (snd t)))
              (radd (fst s) pos) (image d wall (radd (fst t) pos)))) sites) sites.
Definition imageForce d wall pos sites : R3 := sumR3 (map snd (imageForces d wall pos sites)).
Definition imageTorque d wall pos sites : R3 := sumR3 (map (fun x => cross (fst x) (snd x)) (imageForces d wall pos sites)).

(** The sites of a molecule, turned, with sigma and epsilon. *)
Definition turnedSites (l : library) (m : mol) : list (R3 * (R * R)) :=
  map (fun s => (rotatePosition (pQuat m) (fst s), (nth (snd s) (sigmas l) 0, nth (snd s) (epsilons l) 0)))
    (nth (pType m) (molSites l) []).

Definition largestSigma (sites : list (R3 * (R * R))) : R := fold_right Rmax 0 (map (fun s => fst (snd s)) sites).

(** What a wall does to a molecule of several sites: within reach of the wall the molecule feels its image,
    unless the image pulls it to the wall. *)
Definition bounce (l : library) (d : dim) (isUpper : bool) (wall : R) (m : mol) : mol :=
  let sites := turnedSites l m in
  let f := imageForce d wall (pPos m) sites in
  if Rlt_dec (Rabs (co d (pPos m) - wall)) (reach (largestSigma sites))
  then if Rlt_dec (if isUpper then - co d f else co d f) 0
       then m
       else setFT m (radd (pForce m) f) (radd (pTorque m) (imageTorque d wall (pPos m) sites))
  else m.

(** All reflective walls of the box: lower and upper one of each dimension. *)
Definition walls (boundary : dim -> boundaryType) : list (dim * bool) :=
  flat_map (fun d => match boundary d with reflective => [(d, false); (d, true)] | _ => [] end) [DX; DY; DZ].
Definition wallAt (globalMin globalMax : R3) (w : dim * bool) : R :=
  if snd w then co (fst w) globalMax else co (fst w) globalMin.
Definition bounceOff (l : library) (globalMin globalMax : R3) (boundary : dim -> boundaryType) (m : mol) : mol :=
  fold_left (fun m w => bounce l (fst w) (snd w) (wallAt globalMin globalMax w) m) (walls boundary) m.

(** All sites of a molecule type have the same sigma and epsilon. *)
Definition alike (l : library) (t : nat) : Prop :=
  forall s s', In s (nth t (molSites l) []) -> In s' (nth t (molSites l) []) ->
    nth (snd s) (sigmas l) 0 = nth (snd s') (sigmas l) 0 /\ nth (snd s) (epsilons l) 0 = nth (snd s') (epsilons l) 0.
