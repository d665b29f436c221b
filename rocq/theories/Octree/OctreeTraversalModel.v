(** Model of the octree traversals: containers/octree/traversals/OTC01Traversal.h and
    OTC18Traversal.h. *)
From Coq Require Import Reals.
From Verif.Base Require Import ZRange.
From Verif.Functor Require Import CellFunctorModel SortModel.
From Verif.Octree Require Import DirectionModel OctreeModel.
Local Open Scope Z_scope.

(** A pointer to a leaf of the tree of owned particles or of the tree of halo
    particles (Octree.h: CellTypes::OWNED, HALO). *)
Inductive LeafPtr := Owned (path : Path) | Halo (path : Path).
Lemma leafPtr_dec (a b : LeafPtr) : {a = b} + {a <> b}.
Proof. decide equality; apply path_dec. Defined.

Section Traversal.
  Context {P : Type}.
  Variable isHalo : P -> bool.
  Variable pos : P -> R3.
  Variable view : R3 -> list P -> list P.
  Variables owned halo : Tree P.

  Definition leafOf (l : LeafPtr) : option (Tree P) :=
    match l with Owned p => nodeAt owned p | Halo p => nodeAt halo p end.
  Definition leafParticles (l : LeafPtr) : list P :=
    match leafOf l with Some (Leaf _ _ ps) => ps | _ => [] end.
  Definition leafMin (l : LeafPtr) : R3 := match leafOf l with Some n => boxMin n | None => mkR3 0 0 0 end.
  Definition leafMax (l : LeafPtr) : R3 := match leafOf l with Some n => boxMax n | None => mkR3 0 0 0 end.

  (** processCell(leaf) for equal arguments, else processCellPair(leaf1, leaf2) without
      sorting direction.  Leaves may have owned particles (ParticleCell.h:189: the
      default is ownedOrHalo); getCellLength() is the size of the box,
      OctreeLeafNode.h:42. *)
  Definition leafCall (cf : CFSettings) (cutoff : R) (call : LeafPtr * LeafPtr) : list (Call P) :=
    let '(l1, l2) := call in
    let d := normalize (rsub (leafMax l1) (leafMin l1)) in
    if leafPtr_dec l1 l2 then processCell isHalo (view d) (farAlong pos cutoff d) cf (mkCell (leafParticles l1) true)
    else processCellPair (view d) (farAlong pos cutoff d) cf false (mkCell (leafParticles l1) true) (mkCell (leafParticles l2) true).
  Definition otInteract cf cutoff (calls : list (LeafPtr * LeafPtr)) : list (Call P) := flat_map (leafCall cf cutoff) calls.

  (** [order]: the iteration order of a std::set of pointers (by address). *)
  Variable order : list Path -> list Path.
  Variable rnd : R -> R.
  Variable il : R.

  (** min, max: OTC01Traversal.h:98-99, OTC18Traversal.h:115-116. *)
  Definition haloNeighbors (leaf : Path) : list Path :=
    let lo := leafMin (Owned leaf) in
    let hi := leafMax (Owned leaf) in
    order (getLeavesInRange rnd halo []
      (mkR3 (rnd (rx lo - il)) (rnd (ry lo - il)) (rnd (rz lo - il)))
      (mkR3 (rnd (rx hi + il)) (rnd (ry hi + il)) (rnd (rz hi + il)))).

  (** OTC01Traversal::traverseParticles, OTC01Traversal.h:74-107. *)
  Definition otC01 : list (LeafPtr * LeafPtr) :=
    flat_map (fun leaf =>
      (Owned leaf, Owned leaf) ::
      map (fun n => (Owned leaf, Owned n)) (order (getNeighborLeaves owned leaf)) ++
      map (fun n => (Owned leaf, Halo n)) (haloNeighbors leaf))
      (appendAllLeaves owned []).

  (** assignIDs, OTC18Traversal.h:63-67, 70-78: the index in the list of all leaves,
      those of the halo tree after those of the owned tree. *)
  Fixpoint indexIn (p : Path) (l : list Path) : Z :=
    match l with
    | [] => 0
    | q :: r => if path_dec p q then 0 else 1 + indexIn p r
    end.
  Definition leafID (l : LeafPtr) : Z :=
    match l with
    | Owned p => indexIn p (appendAllLeaves owned [])
    | Halo p => Z.of_nat (length (appendAllLeaves owned [])) + indexIn p (appendAllLeaves halo [])
    end.

  (** OTC18Traversal::traverseParticles, OTC18Traversal.h:95-126. *)
  Definition otC18 : list (LeafPtr * LeafPtr) :=
    let inOrder := filter (fun c : LeafPtr * LeafPtr => leafID (fst c) <? leafID (snd c)) in
    flat_map (fun leaf =>
      (Owned leaf, Owned leaf) ::
      inOrder (map (fun n => (Owned leaf, Owned n)) (order (getNeighborLeaves owned leaf))) ++
      inOrder (map (fun n => (Owned leaf, Halo n)) (haloNeighbors leaf)))
      (appendAllLeaves owned []).
End Traversal.
