(** Model of the iteration of Octree.h: getParticle, deleteParticle(cellIndex, particleIndex)
    and the search for the next particle. *)
From Coq Require Import Reals.
From Verif.Base Require Import ZRange.
From Verif.Functor Require Import SortModel.
From Verif.Container Require Import IteratorModel IteratorContainers IteratorGenericModel.
From Verif.Octree Require Import DirectionModel OctreeModel.
Local Open Scope Z_scope.

(** std::vector<size_t> currentCellIndex with back() first: the last entry is the tree, 0
    (OWNED) or 1 (HALO), then follow the children. *)
Definition CellIdx := list nat.

(** size, OctreeLeafNode.h:147, OctreeInnerNode.h:162-168 (the sum is an unsigned int; overflow
    is not modelled). *)
Fixpoint nodeSize {P} (t : Tree P) : Z :=
  match t with
  | Leaf _ _ ps => size ps
  | Inner _ _ cs => fold_right (fun c n => nodeSize c + n) 0 cs
  end.

(** hasChildren and getChild, OctreeInnerNode.h:184-189, OctreeLeafNode.h:160-167; past the end of
    the array or for a leaf: None. *)
Definition getChild {P} (t : Tree P) (i : nat) : option (Tree P) :=
  match t with Leaf _ _ _ => None | Inner _ _ cs => nth_error cs i end.

Section Trees.
  Context {P : Type}.
  Notation Tree := (Tree P).

  (** _cells, Octree.h:60-63, 84-96: the tree of owned particles and the tree of halo particles. *)
  Definition Trees := (Tree * Tree)%type.
  Definition treeOf (ts : Trees) (i : nat) : option Tree :=
    match i with O => Some (fst ts) | S O => Some (snd ts) | _ => None end.

  (** The node with the given index.  currentCellInterfacePtr is this node whenever
      advanceIteratorIndices looks at it: the index and the pointer change together. *)
  Fixpoint nodeOf (ts : Trees) (idx : CellIdx) : option Tree :=
    match idx with
    | [] => None
    | [i] => treeOf ts i
    | i :: parent => match nodeOf ts parent with Some n => getChild n i | None => None end
    end.

  (** getLeafCellByIndex, Octree.h:298-318: [k] is the rest of the number, [idx] the index of the
      node.  None: access to a child that does not exist. *)
  Fixpoint leafBelow (t : Tree) (k : Z) (idx : CellIdx) : option (CellIdx * list P) :=
    match t with
    | Leaf _ _ ps => Some (idx, ps)
    | Inner _ _ cs =>
        let d := Z.to_nat (k mod 10) in
        (fix go (cs : list Tree) (i : nat) : option (CellIdx * list P) :=
           match cs, i with
           | c :: _, O => leafBelow c (k / 10) (d :: idx)
           | _ :: r, S j => go r j
           | [], _ => None
           end) cs d
    end.
  Definition getLeafCellByIndex (ts : Trees) (k : Z) : option (CellIdx * list P) :=
    let d := Z.to_nat (k mod 10) in
    match treeOf ts d with Some t => leafBelow t (k / 10) [d] | None => None end.

  (** The same walk with a change of the leaf at its end. *)
  Fixpoint changeBelow (t : Tree) (k : Z) (f : list P -> list P) : option Tree :=
    match t with
    | Leaf lo hi ps => Some (Leaf lo hi (f ps))
    | Inner lo hi cs =>
        match (fix go (cs : list Tree) (i : nat) : option (list Tree) :=
                 match cs, i with
                 | c :: r, O => match changeBelow c (k / 10) f with Some c' => Some (c' :: r) | None => None end
                 | c :: r, S j => match go r j with Some r' => Some (c :: r') | None => None end
                 | [], _ => None
                 end) cs (Z.to_nat (k mod 10)) with
        | Some cs' => Some (Inner lo hi cs')
        | None => None
        end
    end.
  Definition changeLeaf (ts : Trees) (k : Z) (f : list P -> list P) : option Trees :=
    match Z.to_nat (k mod 10) with
    | O => match changeBelow (fst ts) (k / 10) f with Some t => Some (t, snd ts) | None => None end
    | S O => match changeBelow (snd ts) (k / 10) f with Some t => Some (fst ts, t) | None => None end
    | _ => None
    end.

  (** deleteParticle(cellIndex, particleIndex), Octree.h:336-344. *)
  Definition otDelete (ts : Trees) (k p : Z) : option (Trees * option P * bool) :=
    match getLeafCellByIndex ts k with
    | None => None
    | Some (_, ps) =>
        let ps' := swapDelete ps (Z.to_nat p) in
        match changeLeaf ts k (fun _ => ps') with
        | None => None
        | Some ts' => Some (ts', nth_error ps' (Z.to_nat p), (Z.to_nat p <? length ps')%nat)
        end
    end.

  Section Search.
    Variable behavior : Z.
    (** cellIsRelevant, Octree.h:511-518, and particleFulfillsIteratorRequirements. *)
    Variable relevantNode : Tree -> bool.
    Variable fulfilling : P -> bool.

    (** while (back == 7) ..., Octree.h:533-541. *)
    Fixpoint popSevens (idx : CellIdx) : CellIdx :=
      match idx with
      | [] => []
      | d :: r => if (d =? 7)%nat then popSevens r else idx
      end.

    (** The rest up to the choice of the next node, Octree.h:543-563.  None: return nullptr. *)
    Definition nextNode (idx : CellIdx) : option CellIdx :=
      match popSevens idx with
      | [] => None
      | d :: r =>
          match r with
          | [] => if (1 <? S d)%nat then None else if hasFlag behavior bhHalo then Some (S d :: r) else None
          | _ => Some (S d :: r)
          end
      end.

    (** The descent to the first relevant leaf, Octree.h:570-592.  If no child is relevant the
        code accesses child 8: None. *)
    Fixpoint descend (t : Tree) (idx : CellIdx) : option CellIdx :=
      match t with
      | Leaf _ _ _ => Some idx
      | Inner _ _ cs =>
          (fix go (cs : list Tree) (i : nat) : option CellIdx :=
             match cs with
             | [] => None
             | c :: r => if relevantNode c then descend c (i :: idx) else go r (S i)
             end) cs O
      end.

    (** while (particleIndex >= size or forceJumpToNextCell), Octree.h:531-594.  [Some None]: return
        nullptr.  None: undefined behaviour, or the loop does not end within [fuel]. *)
    Fixpoint findLeaf (fuel : nat) (ts : Trees) (force : bool) (idx : CellIdx) (p : Z) : option (option (CellIdx * Z)) :=
      match fuel with
      | O => None
      | S f =>
          match nodeOf ts idx with
          | None => None
          | Some n =>
              if (nodeSize n <=? p) || force then
                match nextNode idx with
                | None => Some None
                | Some idx' =>
                    match nodeOf ts idx' with
                    | None => None
                    | Some n' =>
                        if relevantNode n' then
                          match descend n' idx' with
                          | None => None
                          | Some idx'' => findLeaf f ts false idx'' 0
                          end
                        else findLeaf f ts true idx' p
                    end
                end
              else Some (Some (idx, p))
          end
      end.

    Fixpoint countLeaves (t : Tree) : nat :=
      match t with Leaf _ _ _ => 1%nat | Inner _ _ cs => fold_right (fun c n => (countLeaves c + n)%nat) O cs end.
    Definition treesFuel (ts : Trees) : nat := S (countLeaves (fst ts) + countLeaves (snd ts)).

    (** advanceIteratorIndices, Octree.h:493-607.  None also stands for the exception for an
        inner node. *)
    Fixpoint otAdvance (fuel : nat) (ts : Trees) (idx : CellIdx) (p : Z) : option (option (CellIdx * Z * P)) :=
      match fuel with
      | O => None
      | S f =>
          match findLeaf (treesFuel ts) ts false idx (incr p) with
          | None => None
          | Some None => Some None
          | Some (Some (idx', p')) =>
              match nodeOf ts idx' with
              | Some (Leaf _ _ ps) =>
                  match at_ ps p' with
                  | None => None
                  | Some x => if fulfilling x then Some (Some (idx', p', x)) else otAdvance f ts idx' p'
                  end
              | _ => None
              end
          end
      end.

    (** Conversion of the index to a number, Octree.h:277-286 (size_t). *)
    Definition encode (idx : CellIdx) : Z :=
      match idx with
      | [] => 9
      | _ => fold_left (fun k d => (k * 10 + Z.of_nat d) mod sizeMod) idx 0
      end.

    (** getParticleImpl, Octree.h:225-289. *)
    Definition otGetParticle (t : Z) (ts : Trees) (k p : Z) : option (option P * Z * Z) :=
      if (0 <? t) && negb (hasFlag behavior bhForceSequential) then Some (None, 0, 0)
      else
        let k := if (k =? 0) && negb (hasFlag behavior bhOwned) then 1 else k in
        if (k <? 10) && (1 <? k) then Some (None, 0, 0)
        else match getLeafCellByIndex ts k with
        | None => None
        | Some (idx, ps) =>
            let ok := if size ps <=? p then Some None
                      else match at_ ps p with Some x => Some (if fulfilling x then Some x else None) | None => None end in
            match ok with
            | None => None
            | Some (Some x) => Some (Some x, encode idx, p)
            | Some None =>
                match otAdvance (S (Z.to_nat (nodeSize (fst ts) + nodeSize (snd ts)))) ts idx p with
                | None => None
                | Some None => Some (None, 0, 0)
                | Some (Some (idx', p', x)) => Some (Some x, encode idx', p')
                end
            end
        end.
  End Search.

  Variable ownership : P -> Z.
  Variable behavior numThreads : Z.

  (** cellIsRelevant without a region: size() > 0, Octree.h:512. *)
  Definition nonEmptyNode (t : Tree) : bool := 0 <? nodeSize t.
  Definition otAccess (t : Z) : Access P Trees :=
    mkAccess (otGetParticle behavior nonEmptyNode (fun x => fulfills behavior true (ownership x)) t) otDelete.
  (** What the iterator needs for the buffers. *)
  Definition otConf (t : Z) : Conf P :=
    mkConf (fun _ => true) 0 0 0 (itStride behavior numThreads) (itThread behavior t)
      (fun x => fulfills behavior true (ownership x)) None.

  (** The constructor of ContainerIterator clamps the region to the box with halo,
      ContainerIterator.h:243-249, which is the box of the halo tree, Octree.h:84-90. *)
  Definition regionLow (hMin lo : R3) : R3 := mkR3 (Rmax (rx lo) (rx hMin)) (Rmax (ry lo) (ry hMin)) (Rmax (rz lo) (rz hMin)).
  Definition regionHigh (hMax hi : R3) : R3 := mkR3 (Rmin (rx hi) (rx hMax)) (Rmin (ry hi) (ry hMax)) (Rmin (rz hi) (rz hMax)).
  (** gatherAdditionalVectors, see [gather]. *)
  Definition gatherBuffers (nOwned : nat) (bufs : list (list P)) : list nat := gather behavior nOwned (mkStore [] bufs).

  (** With a region: cellIsRelevant is boxesOverlap with the region extended by [margin], which
      is _skinPerTimestep * getStepsSinceLastRebuild(), Octree.h:248-254, 513-516. *)
  Definition overlappingNode (margin : R) (lo hi : R3) (t : Tree) : bool :=
    boxesOverlap (boxMin t) (boxMax t) (shift lo (- margin)) (shift hi margin).
  Definition otRegionAccess (pos : P -> R3) (margin : R) (lo hi : R3) (t : Z) : Access P Trees :=
    mkAccess (otGetParticle behavior (overlappingNode margin lo hi)
      (fun x => fulfills behavior (inBoxb lo hi (pos x)) (ownership x)) t) otDelete.
  Definition otRegionConf (pos : P -> R3) (lo hi : R3) (t : Z) : Conf P :=
    mkConf (fun _ => true) 0 0 0 (itStride behavior numThreads) (itThread behavior t)
      (fun x => fulfills behavior (inBoxb lo hi (pos x)) (ownership x)) None.
End Trees.
Arguments Trees : clear implicits.
