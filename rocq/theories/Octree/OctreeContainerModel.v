(** Model of Octree::updateContainer(false), forEach and forEachInRegion. *)
From Coq Require Import Reals.
From Verif.Base Require Import ZRange OptionM.
From Verif.Functor Require Import SortModel.
From Verif.Container Require Import IteratorModel IteratorContainers ParticleModel ForEachModel.
From Verif.Octree Require Import DirectionModel OctreeModel.
Local Open Scope Z_scope.

(** clear, OctreeNodeWrapper.h:159-163, OctreeLeafNode.h:142, OctreeInnerNode.h:148-157:
    the root becomes an empty leaf with the same box. *)
Definition otClear (t : Tree Particle) : Tree Particle := Leaf (boxMin t) (boxMax t) [].

(** The loop of Octree::updateContainer that distributes the copies of the particles,
    Octree.h:116-125: the ones to insert again and the ones to return. *)
Fixpoint otDistribute (bMin bMax : R3) (ps : list Particle) : list Particle * list Particle :=
  match ps with
  | [] => ([], [])
  | p :: r =>
      let '(particles, invalid) := otDistribute bMin bMax r in
      if isDummy p then (particles, invalid)
      else if inBoxb bMin bMax (ppos p) then (p :: particles, invalid)
      else (particles, p :: invalid)
  end.

(** Octree::updateContainer(false), Octree.h:100-138: the tree of owned particles, the
    tree of halo particles and the returned particles.  deleteAllParticles clears both
    trees (CellBasedParticleContainer.h:99-108), addParticleImpl inserts into the tree
    of owned particles (Octree.h:172).  [None]: an insertion does not end within
    [fuel]. *)
Definition otUpdate (rnd : R -> R) (threshold : nat) (il : R) (fuel : nat) (bMin bMax : R3) (owned halo : Tree Particle)
  : option (Tree Particle * Tree Particle * list Particle) :=
  let '(particles, invalid) := otDistribute bMin bMax (collectAllParticles owned) in
  match foldInsert (insert ppos rnd threshold il fuel) (otClear owned) particles with
  | None => None
  | Some owned' => Some (owned', otClear halo, invalid)
  end.

(** forEach of a node, OctreeInnerNode.h:237-242, FullParticleCell.h:105-108. *)
Fixpoint nodeForEach (t : Tree Particle) : list Particle :=
  match t with Leaf _ _ ps => ps | Inner _ _ cs => flat_map nodeForEach cs end.

(** forEach of a node with a region, OctreeInnerNode.h:264-273; leaves are
    FullParticleCells. *)
Fixpoint nodeForEachInRegion (rnd : R -> R) (behavior : Z) (lo hi : R3) (t : Tree Particle) : option (list Particle) :=
  match t with
  | Leaf _ _ ps => cellForEach behavior (inBoxb lo hi) ps
  | Inner _ _ cs =>
      (fix go (cs : list (Tree Particle)) : option (list Particle) :=
         match cs with
         | [] => Some []
         | c :: r =>
             match (if enclosesVolume rnd (boxMin c) (boxMax c) lo hi then nodeForEachInRegion rnd behavior lo hi c else Some []), go r with
             | Some l, Some l' => Some (l ++ l')
             | _, _ => None
             end
         end) cs
  end.

(** Octree::forEach, Octree.h:427-433.  The exception comes last, it is not
    distinguished from one that comes first: with such a behaviour no particle is visited. *)
Definition otForEach (behavior : Z) (owned halo : Tree Particle) : option (list Particle) :=
  if negb (hasFlag behavior bhOwnedOrHalo) then None
  else Some ((if hasFlag behavior bhOwned then nodeForEach owned else []) ++ (if hasFlag behavior bhHalo then nodeForEach halo else [])).

(** Octree::forEachInRegion, Octree.h:454-462, OctreeNodeWrapper.h:308-315: within the
    trees the behaviour is always ownedOrHalo. *)
Definition otForEachInRegion (rnd : R -> R) (behavior : Z) (lo hi : R3) (owned halo : Tree Particle) : option (list Particle) :=
  if negb (hasFlag behavior bhOwnedOrHalo) then None
  else match (if hasFlag behavior bhOwned then nodeForEachInRegion rnd bhOwnedOrHalo lo hi owned else Some []),
             (if hasFlag behavior bhHalo then nodeForEachInRegion rnd bhOwnedOrHalo lo hi halo else Some []) with
       | Some l, Some l' => Some (l ++ l')
       | _, _ => None
       end.

(** The particles have changed in the meantime, the nodes have not. *)
Fixpoint treeMap (f : Particle -> Particle) (t : Tree Particle) : Tree Particle :=
  match t with Leaf lo hi ps => Leaf lo hi (map f ps) | Inner lo hi cs => Inner lo hi (map (treeMap f) cs) end.
