(** Model of the towers of the cluster lists:
    containers/verletClusterLists/ClusterTower.h and Cluster.h. *)
From Coq Require Import Reals.
From Verif.Base Require Import ZRange.
From Verif.Functor Require Import SortModel.
From Verif.Container Require Import ParticleModel IteratorModel IteratorContainers.
Local Open Scope nat_scope.

(** ClusterTower.h:384-420: _particles, _numDummyParticles, the size of _clusters, and
    the indices _firstOwnedCluster and _firstTailHaloCluster point to.  A cluster is a
    pointer to the particle with index clusterSize * (index of the cluster),
    ClusterTower.h:119, and is not stored separately here. *)
Record Tower := mkTower {
  tParts : list Particle;
  tDummies : nat;
  tClusters : nat;
  tFirstOwned : nat;
  tFirstTail : nat
}.

(** clear(), ClusterTower.h:66-72. *)
Definition emptyTower : Tower := mkTower [] 0 0 0 0.

(** getNumActualParticles, ClusterTower.h:260-262.  (The subtraction of the code wraps
    around if there are more dummies than particles; here it stops at 0.) *)
Definition numActual (t : Tower) : nat := length (tParts t) - tDummies t.

(** The particles operator[] of the cluster with index [k] reaches, Cluster.h:47. *)
Definition cluster (cs : nat) (ps : list Particle) (k : nat) : list Particle := firstn cs (skipn (cs * k) ps).
Definition clusterOf (cs : nat) (t : Tower) (k : nat) : list Particle := cluster cs (tParts t) k.

(** isAnyOfClusterOwned, ClusterTower.h:109-116. *)
Definition anyOwned (c : list Particle) : bool := existsb isOwned c.

(** The loop over the clusters, ClusterTower.h:118-133: [fo] and [ft] are the first
    owned and the first tail halo cluster if already found. *)
Fixpoint ownedRange (cls : list (list Particle)) (index : nat) (fo ft : option nat) : option nat * option nat :=
  match cls with
  | [] => (fo, ft)
  | c :: rest =>
    let containsOwned := match ft with None => anyOwned c | Some _ => false end in
    let fo' := match fo with
               | None => if containsOwned then Some index else None
               | Some _ => fo
               end in
    let ft' := match ft, fo' with
               | None, Some _ => if containsOwned then None else Some index
               | _, _ => ft
               end in
    ownedRange rest (S index) fo' ft'
  end.

Section Generate.
  (** FullParticleCell::sortByDim(2): std::sort by the z coordinate.  The order of equal
      z is unspecified. *)
  Variable sortZ : list Particle -> list Particle.
  (** _clusterSize *)
  Variable cs : nat.

  (** generateClusters, ClusterTower.h:83-143; [None]: division by a cluster size of 0. *)
  Definition generateClusters (t : Tower) : option Tower :=
    if numActual t =? 0 then Some (mkTower (tParts t) (tDummies t) 0 0 0)
    else if cs =? 0 then None
    else
      let ps := sortZ (tParts t) in
      match nth_error ps (length ps - 1) with
      | None => None
      | Some lastParticle =>
        let sizeLast := length ps mod cs in
        let numDummies := if sizeLast =? 0 then 0 else cs - sizeLast in
        let padded := ps ++ repeat (withOwn stDummy lastParticle) numDummies in
        let numClusters := length padded / cs in
        let '(fo, ft) := ownedRange (map (cluster cs padded) (seq 0 numClusters)) 0 None None in
        let orEnd o := match o with Some i => i | None => numClusters end in
        Some (mkTower padded numDummies numClusters (orEnd fo) (orEnd ft))
      end.
End Generate.

(** An assignment to a vector element; [None]: index out of range. *)
Fixpoint setNth (l : list Particle) (i : nat) (v : Particle) : option (list Particle) :=
  match l, i with
  | [], _ => None
  | _ :: r, 0 => Some (v :: r)
  | x :: r, S j => match setNth r j v with Some r' => Some (x :: r') | None => None end
  end.

Definition withParts (t : Tower) (ps : list Particle) : Tower :=
  mkTower ps (tDummies t) (tClusters t) (tFirstOwned t) (tFirstTail t).

(** A dummy: the given particle with dummy state, position and id overwritten,
    ClusterTower.h:156-159. *)
Definition dummyFrom (x dz : R) (index : nat) (p : Particle) : Particle :=
  mkParticle (2 ^ 64 - 1)%Z (mkR3 x 0 (dz * INR index)) stDummy (pdata p).

Section Fill.
  Variable cs : nat.

  (** One iteration of the loops over the dummies: lastCluster[clusterSize - index] is
      assigned a value computed from an element of the last cluster. *)
  Definition assignDummy (t : Tower) (from : nat) (f : nat -> Particle -> Particle) (ps : list Particle) (index : nat)
    : option (list Particle) :=
    let first := cs * (tClusters t - 1) in
    match nth_error ps (first + from) with
    | None => None
    | Some p => setNth ps (first + (cs - index)) (f index p)
    end.
  Fixpoint assignDummies t from f (ps : list Particle) (indices : list nat) : option (list Particle) :=
    match indices with
    | [] => Some ps
    | i :: r => match assignDummy t from f ps i with None => None | Some ps' => assignDummies t from f ps' r end
    end.

  (** setDummyValues, ClusterTower.h:152-161.  (For a tower without clusters line 153
      forms a reference to an element that does not exist and does not use it: see the
      findings in DESIGN.md.) *)
  Definition setDummyValues (x dz : R) (t : Tower) : option Tower :=
    option_map (withParts t) (assignDummies t 0 (dummyFrom x dz) (tParts t) (seq 1 (tDummies t))).

  (** setDummyParticlesToLastActualParticle, ClusterTower.h:167-175.  The last actual
      particle is copied before the loop; the loop does not assign to it. *)
  Definition setDummyParticlesToLastActualParticle (t : Tower) : option Tower :=
    if 0 <? tDummies t
    then option_map (withParts t) (assignDummies t (cs - tDummies t - 1) (fun _ p => p) (tParts t) (seq 1 (tDummies t)))
    else Some t.
End Fill.

(** collectAllActualParticles, ClusterTower.h:207-214. *)
Definition collectAllActualParticles (t : Tower) : list Particle := firstn (numActual t) (tParts t).

(** deleteDummyParticles, ClusterTower.h:324-328 with FullParticleCell.h:227-231. *)
Definition deleteDummyParticles (t : Tower) : Tower :=
  mkTower (filter (fun p => negb (isDummy p)) (tParts t)) 0 (tClusters t) (tFirstOwned t) (tFirstTail t).

(** collectOutOfBoundsParticles, ClusterTower.h:226-242: the tower that is left and the
    particles taken out.  (std::partition may reorder; the order is not used.  For a
    tower without particles line 239 dereferences begin(): see the findings.) *)
Definition collectOutOfBoundsParticles (lo hi : R3) (t : Tower) : Tower * list Particle :=
  let t' := deleteDummyParticles t in
  (withParts t' (filter (fun p => inBoxb lo hi (ppos p)) (tParts t')),
   filter (fun p => negb (inBoxb lo hi (ppos p))) (tParts t')).

(** std::swap of two elements of the vector. *)
Definition swapNth (l : list Particle) (i j : nat) : option (list Particle) :=
  match nth_error l i, nth_error l j with
  | Some a, Some b => match setNth l i b with None => None | Some l' => setNth l' j a end
  | _, _ => None
  end.

(** deleteByIndex, ClusterTower.h:330-347 (the deletion observer only sets a flag). *)
Definition deleteByIndex (i : nat) (t : Tower) : option Tower :=
  match swapNth (tParts t) i (numActual t - 1) with
  | None => None
  | Some l =>
    let l2 := if tDummies t =? 0 then Some l else swapNth l (numActual t - 1) (length l - 1) in
    option_map (fun l' => withParts t (removelast l')) l2
  end.

(** Cluster::empty, Cluster.h:58-62. *)
Definition clusterEmpty (c : list Particle) : bool := forallb isDummy c.

(** Cluster::getBoundingBox, Cluster.h:135-149: z from the first and the last particle.
    [None]: cluster of size 0. *)
Definition bbStep (box : R3 * R3) (p : Particle) : R3 * R3 :=
  let '(lo, hi) := box in
  (mkR3 (Rmin (rx lo) (rx (ppos p))) (Rmin (ry lo) (ry (ppos p))) (rz lo),
   mkR3 (Rmax (rx hi) (rx (ppos p))) (Rmax (ry hi) (ry (ppos p))) (rz hi)).
Definition boundingBox (c : list Particle) : option (R3 * R3) :=
  match nth_error c 0, nth_error c (length c - 1) with
  | Some first, Some lastP => Some (fold_left bbStep c (ppos first, ppos lastP))
  | _, _ => None
  end.
