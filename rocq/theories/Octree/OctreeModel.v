(** Model of the octree container: containers/octree/OctreeLeafNode.h,
    OctreeInnerNode.h, OctreeNodeInterface.h, OctreeNodeWrapper.h, Octree.h and the
    traversals.  Arithmetic on coordinates goes through a rounding function [rnd]. *)
From Coq Require Import Reals.
From Verif.Base Require Import ZRange.
From Verif.Functor Require Import CellFunctorModel SortModel.
From Verif.Grid Require Import CellBlockModel.
From Verif.Container Require Import IteratorModel IteratorContainers.
From Verif.Octree Require Import DirectionModel.
Local Open Scope Z_scope.

Section Octree.
  Variable P : Type.
  Variable pos : P -> R3.
  Variable rnd : R -> R.
  (** _treeSplitThreshold and _interactionLength. *)
  Variable threshold : nat.
  Variable il : R.

  (** A leaf has a box and particles (OctreeLeafNode.h, FullParticleCell.h), an inner
      node a box and eight children (OctreeInnerNode.h:299-302).  A pointer to a node is
      the path from the node to the root: a list of octants, the octant of the node
      itself first; getParent() is the tail. *)
  Inductive Tree := Leaf (lo hi : R3) (ps : list P) | Inner (lo hi : R3) (children : list Tree).
  Definition Path := list Vertex.

  Definition boxMin (t : Tree) : R3 := match t with Leaf lo _ _ => lo | Inner lo _ _ => lo end.
  Definition boxMax (t : Tree) : R3 := match t with Leaf _ hi _ => hi | Inner _ hi _ => hi end.

  (** OctreeInnerNode.h:42: (boxMin + boxMax) * 0.5. *)
  Definition center (lo hi : R) : R := rnd (rnd (lo + hi) * / 2)%R.
  (** The box of child [i] of a node, OctreeInnerNode.h:43-71: bit 2 of [i] is the x
      axis, bit 1 the y axis, bit 0 the z axis. *)
  Definition childMin (lo hi : R3) (i : nat) : R3 :=
    mkR3 (if Nat.testbit i 2 then center (rx lo) (rx hi) else rx lo)
         (if Nat.testbit i 1 then center (ry lo) (ry hi) else ry lo)
         (if Nat.testbit i 0 then center (rz lo) (rz hi) else rz lo).
  Definition childMax (lo hi : R3) (i : nat) : R3 :=
    mkR3 (if Nat.testbit i 2 then rx hi else center (rx lo) (rx hi))
         (if Nat.testbit i 1 then ry hi else center (ry lo) (ry hi))
         (if Nat.testbit i 0 then rz hi else center (rz lo) (rz hi)).
  (** Constructor of an inner node with eight empty leaves, OctreeInnerNode.h:34-76. *)
  Definition newInner (lo hi : R3) : Tree :=
    Inner lo hi (map (fun i => Leaf (childMin lo hi i) (childMax lo hi i) []) (seq 0 8)).

  (** OctreeLeafNode.h:65-80: the children would be smaller than the interaction
      length in some dimension. *)
  Definition tooSmall1 (lo hi : R) : bool := if Rlt_dec (rnd (rnd (hi - lo) * / 2)) il then true else false.
  Definition tooSmall (lo hi : R3) : bool :=
    tooSmall1 (rx lo) (rx hi) || tooSmall1 (ry lo) (ry hi) || tooSmall1 (rz lo) (rz hi).

  (** The loop of OctreeInnerNode::insert, OctreeInnerNode.h:97-108: the first child
      whose box contains the position.  If there is none nothing happens. *)
  Fixpoint insertFirst (ins : Tree -> option Tree) (x : R3) (cs : list Tree) : option (list Tree) :=
    match cs with
    | [] => Some []
    | c :: r =>
        if inBoxb (boxMin c) (boxMax c) x then
          match ins c with Some c' => Some (c' :: r) | None => None end
        else match insertFirst ins x r with Some r' => Some (c :: r') | None => None end
    end.

  Fixpoint foldInsert (ins : Tree -> P -> option Tree) (t : Tree) (ps : list P) : option Tree :=
    match ps with
    | [] => Some t
    | p :: r => match ins t p with Some t' => foldInsert ins t' r | None => None end
    end.

  (** insert, OctreeLeafNode.h:62-108, OctreeInnerNode.h:97-108.  The result is the
      tree that replaces the node.  Leaves accept owned and halo particles and dummies
      (ParticleCell.h:189), so the exception in lines 85-91 is never thrown.  [None]:
      the recursion is deeper than [fuel]. *)
  Fixpoint insert (fuel : nat) (t : Tree) (p : P) : option Tree :=
    match fuel with
    | O => None
    | S f =>
        match t with
        | Leaf lo hi ps =>
            if (length ps <? threshold)%nat || tooSmall lo hi then Some (Leaf lo hi (ps ++ [p]))
            else match insert f (newInner lo hi) p with
                 | None => None
                 | Some t' => foldInsert (insert f) t' ps
                 end
        | Inner lo hi cs =>
            match insertFirst (fun c => insert f c p) (pos p) cs with
            | Some cs' => Some (Inner lo hi cs')
            | None => None
            end
        end
    end.

  (** collectAllParticles, OctreeLeafNode.h:122-129, OctreeInnerNode.h:129-134. *)
  Fixpoint collectAllParticles (t : Tree) : list P :=
    match t with Leaf _ _ ps => ps | Inner _ _ cs => flat_map collectAllParticles cs end.

  (** appendAllLeaves, OctreeLeafNode.h:178-180, OctreeInnerNode.h:214-218; the paths
      of the leaves below the node with the given path. *)
  Fixpoint appendAllLeaves (t : Tree) (path : Path) : list Path :=
    match t with
    | Leaf _ _ _ => [path]
    | Inner _ _ cs =>
        (fix go (vs : list Vertex) (cs : list Tree) : list Path :=
           match vs, cs with
           | v :: vr, c :: cr => appendAllLeaves c (v :: path) ++ go vr cr
           | _, _ => []
           end) vertices cs
    end.

  (** SON and getChild, OctreeInnerNode.h:208-212, 189; [None] for a leaf: throws. *)
  Definition SON (t : Tree) (v : Vertex) : option Tree :=
    match t with Leaf _ _ _ => None | Inner _ _ cs => nth_error cs (vertexToIndex v) end.

  (** The node a pointer points at. *)
  Fixpoint nodeAt (t : Tree) (path : Path) : option Tree :=
    match path with
    | [] => Some t
    | v :: r => match nodeAt t r with Some n => SON n v | None => None end
    end.

  (** GRAY, OctreeNodeInterface.h:422-426. *)
  Definition GRAY (t : Tree) (path : Path) : bool :=
    match nodeAt t path with Some (Inner _ _ _) => true | _ => false end.

  (** Last lines of the three functions below: Q->SON(REFLECT(I, SONTYPE(P))) if Q is
      an inner node, else Q. *)
  Definition reflected (t : Tree) (d : Dir) (o : Vertex) (Q : option Path) : option Path :=
    match Q with
    | Some q => if GRAY t q then Some (REFLECT d o :: q) else Some q
    | None => None
    end.

  (** GTEQ_FACE_NEIGHBOR, OctreeNodeInterface.h:465-488; FATHER is the tail of the path
      (null for the root), SONTYPE its head (lines 448-463).  [None] is nullptr. *)
  Fixpoint GTEQ_FACE_NEIGHBOR (t : Tree) (path : Path) (I : Face) : option Path :=
    match path with
    | [] => None
    | o :: father =>
        reflected t (Dface I) o
          (if ADJ (Dface I) o then GTEQ_FACE_NEIGHBOR t father I else Some father)
    end.

  (** GTEQ_EDGE_NEIGHBOR, OctreeNodeInterface.h:490-517. *)
  Fixpoint GTEQ_EDGE_NEIGHBOR (t : Tree) (path : Path) (I : Edge) : option Path :=
    match path with
    | [] => None
    | o :: father =>
        reflected t (Dedge I) o
          (if ADJ (Dedge I) o then GTEQ_EDGE_NEIGHBOR t father I
           else match COMMON_FACE (Dedge I) o with
                | Some common => GTEQ_FACE_NEIGHBOR t father common
                | None => Some father
                end)
    end.

  (** GTEQ_VERTEX_NEIGHBOR, OctreeNodeInterface.h:519-546. *)
  Fixpoint GTEQ_VERTEX_NEIGHBOR (t : Tree) (path : Path) (I : Vertex) : option Path :=
    match path with
    | [] => None
    | o :: father =>
        reflected t (Dvertex I) o
          (if ADJ (Dvertex I) o then GTEQ_VERTEX_NEIGHBOR t father I
           else match COMMON_EDGE I o with
                | Some commonEdge => GTEQ_EDGE_NEIGHBOR t father commonEdge
                | None =>
                    match COMMON_FACE (Dvertex I) o with
                    | Some commonFace => GTEQ_FACE_NEIGHBOR t father commonFace
                    | None => Some father
                    end
                end)
    end.

  (** getLeavesFromDirections, OctreeLeafNode.h:169-172, OctreeInnerNode.h:191-206, of
      the node [t] with the given path. *)
  Fixpoint getLeavesFromDirections (t : Tree) (path : Path) (directions : list Vertex) : list Path :=
    match t with
    | Leaf _ _ _ => [path]
    | Inner _ _ cs =>
        flat_map (fun d =>
          (fix go (vs : list Vertex) (cs : list Tree) : list Path :=
             match vs, cs with
             | v :: vr, c :: cr =>
                 if (vertexToIndex v =? vertexToIndex d)%nat then getLeavesFromDirections c (v :: path) directions else go vr cr
             | _, _ => []
             end) vertices cs) directions
    end.

  (** getNeighborLeaves(direction), OctreeNodeInterface.h:316-321, of the neighbour. *)
  Definition leavesTowards (t : Tree) (neighbor : option Path) (d : Dir) : list Path :=
    match neighbor with
    | None => []
    | Some q =>
        match nodeAt t q with
        | None => []
        | Some n => getLeavesFromDirections n q (getAllowedDirections (getOppositeDirection d))
        end
    end.

  Lemma vertex_dec (a b : Vertex) : {a = b} + {a <> b}.
  Proof. decide equality. Defined.
  Definition path_dec : forall a b : Path, {a = b} + {a <> b} := list_eq_dec vertex_dec.

  (** getNeighborLeaves(), OctreeNodeInterface.h:327-358.  The std::set is a list
      without duplicates; its order (by address) is not modelled. *)
  Definition getNeighborLeaves (t : Tree) (path : Path) : list Path :=
    nodup path_dec
      (flat_map (fun f => leavesTowards t (GTEQ_FACE_NEIGHBOR t path f) (Dface f)) faces ++
       flat_map (fun e => leavesTowards t (GTEQ_EDGE_NEIGHBOR t path e) (Dedge e)) edges ++
       flat_map (fun v => leavesTowards t (GTEQ_VERTEX_NEIGHBOR t path v) (Dvertex v)) vertices).

  (** getEnclosedVolumeWith(...) > 0, OctreeNodeInterface.h:196-223: the three lengths are
      positive (their product is then taken to be positive; underflow is not modelled). *)
  Definition overlaps1 (aMin aMax bMin bMax : R) : bool :=
    if Rlt_dec 0 (rnd (Rmin aMax bMax - Rmax aMin bMin)) then true else false.
  Definition enclosesVolume (aMin aMax bMin bMax : R3) : bool :=
    overlaps1 (rx aMin) (rx aMax) (rx bMin) (rx bMax) && overlaps1 (ry aMin) (ry aMax) (ry bMin) (ry bMax) &&
    overlaps1 (rz aMin) (rz aMax) (rz bMin) (rz bMax).

  (** getLeavesInRange, OctreeLeafNode.h:182-189, OctreeInnerNode.h:220-232. *)
  Fixpoint getLeavesInRange (t : Tree) (path : Path) (lo hi : R3) : list Path :=
    match t with
    | Leaf a b _ => if enclosesVolume a b lo hi then [path] else []
    | Inner _ _ cs =>
        (fix go (vs : list Vertex) (cs : list Tree) : list Path :=
           match vs, cs with
           | v :: vr, c :: cr =>
               (if enclosesVolume (boxMin c) (boxMax c) lo hi then getLeavesInRange c (v :: path) lo hi else []) ++ go vr cr
           | _, _ => []
           end) vertices cs
    end.
End Octree.

Arguments Leaf {P}. Arguments Inner {P}. Arguments boxMin {P}. Arguments boxMax {P}.
Arguments newInner {P}. Arguments insertFirst {P}. Arguments foldInsert {P}. Arguments insert {P}.
Arguments collectAllParticles {P}. Arguments appendAllLeaves {P}. Arguments SON {P}. Arguments nodeAt {P}.
Arguments GRAY {P}. Arguments reflected {P}. Arguments GTEQ_FACE_NEIGHBOR {P}. Arguments GTEQ_EDGE_NEIGHBOR {P}.
Arguments GTEQ_VERTEX_NEIGHBOR {P}. Arguments getLeavesFromDirections {P}. Arguments leavesTowards {P}.
Arguments getNeighborLeaves {P}. Arguments getLeavesInRange {P}.
