(** Model of src/autopas/containers/NeighborListsBuffer.h and of how VerletClusterLists hands out its lists
    (VerletClusterListsRebuilder.h, VerletClusterLists.h). *)
From Coq Require Import List Arith Bool.
Import ListNotations.

Section Buffer.
  Context {K V : Type}.
  Variable keyEqual : K -> K -> bool.
  (** The value of the elements a new list is created with (default constructed). *)
  Variable dflt : V.

  (** Members, NeighborListsBuffer.h:128-152.  _lastValidListIndex: [None] is the largest size_t, larger than any
      size; one more is zero.  [bGrow n] is the truncated product of n and _growthFactor.  [bGen] counts the
      resizes to more lists: they may move the lists, references from before are then invalid. *)
  Record buffer := mkBuf { bKeys : list (K * nat); bLists : list (list V); bLast : option nat;
                           bDefault : nat; bGrow : nat -> nat; bGen : nat }.

  (** The default member initializers. *)
  Definition newBuffer : buffer := mkBuf [] [] None 10 (fun n => n * 2) 0.

  (** std::vector::resize. *)
  Definition resize (n : nat) (b : buffer) : buffer :=
    mkBuf (bKeys b) (firstn n (bLists b) ++ repeat (repeat dflt (bDefault b)) (n - length (bLists b))) (bLast b) (bDefault b) (bGrow b)
      (if n <=? length (bLists b) then bGen b else S (bGen b)).

  Fixpoint clearAt (i : nat) (ls : list (list V)) : list (list V) :=
    match ls, i with
    | [], _ => []
    | _ :: r, 0 => [] :: r
    | l :: r, S j => l :: clearAt j r
    end.

  (** getNewNeighborList, lines 71-81; [None]: access beyond the end. *)
  Definition getNewNeighborList (b : buffer) : option (nat * buffer) :=
    let saturated := match bLast b with None => true | Some i => length (bLists b) <=? i end in
    let b1 := if saturated then resize (Nat.max 10 (bGrow b (length (bLists b)))) b else b in
    let last := match bLast b1 with None => 0 | Some i => S i end in
    if last <? length (bLists b1)
    then Some (last, mkBuf (bKeys b1) (clearAt last (bLists b1)) (Some last) (bDefault b1) (bGrow b1) (bGen b1))
    else None.

  (** unordered_map::find and emplace (which keeps the entry of a known key). *)
  Definition findKey (key : K) (b : buffer) : option nat :=
    match find (fun e => keyEqual (fst e) key) (bKeys b) with Some e => Some (snd e) | None => None end.
  Definition emplace (key : K) (i : nat) (b : buffer) : buffer :=
    match findKey key b with
    | Some _ => b
    | None => mkBuf ((key, i) :: bKeys b) (bLists b) (bLast b) (bDefault b) (bGrow b) (bGen b)
    end.
  (** getNewNeighborList(key), lines 91-95. *)
  Definition getNewNeighborListFor (key : K) (b : buffer) : option (nat * buffer) :=
    match getNewNeighborList b with None => None | Some (i, b') => Some (i, emplace key i b') end.

  (** getNeighborListRef by index, lines 38-47 without the check, and by key, lines 55-63: operator[] of the map adds
      an unknown key with index zero. *)
  Definition getNeighborListRef (i : nat) (b : buffer) : option (list V) := nth_error (bLists b) i.
  Definition getNeighborListRefFor (key : K) (b : buffer) : option (list V) * buffer :=
    let b' := emplace key 0 b in
    (match findKey key b' with Some i => nth_error (bLists b') i | None => None end, b').

  (** clear, lines 101-104. *)
  Definition clear (b : buffer) : buffer := mkBuf [] (bLists b) None (bDefault b) (bGrow b) (bGen b).
  (** reserveNeighborLists, line 112. *)
  Definition reserveNeighborLists (n : nat) (b : buffer) : buffer := resize n b.

  (** References to lists: the address of the list at the time it was taken. *)
  Definition pointer := (nat * nat)%type.
  Definition deref (p : pointer) (b : buffer) : option (list V) :=
    if fst p =? bGen b then nth_error (bLists b) (snd p) else None.

  (** VerletClusterListsRebuilder.h:134-138: the clusters of a tower that need a list. *)
  Fixpoint clusterLists (n : nat) (b : buffer) : option (list pointer * buffer) :=
    match n with
    | 0 => Some ([], b)
    | S m => match getNewNeighborList b with
             | None => None
             | Some (i, b1) =>
                 match clusterLists m b1 with
                 | None => None
                 | Some (ps, b2) => Some ((bGen b1, i) :: ps, b2)
                 end
             end
    end.
  (** Lines 130-139: all towers; [needs] has for each tower the number of clusters with a list. *)
  Fixpoint towerLists (needs : list nat) (b : buffer) : option (list pointer * buffer) :=
    match needs with
    | [] => Some ([], b)
    | n :: r => match clusterLists n b with
                | None => None
                | Some (ps, b1) => match towerLists r b1 with None => None | Some (qs, b2) => Some (ps ++ qs, b2) end
                end
    end.
  (** VerletClusterLists.h:770-771 and VerletClusterListsRebuilder.h:126-139. *)
  Definition rebuildLists (numParticles clusterSize numTowersNew : nat) (needs : list nat) (b : buffer) : option (list pointer * buffer) :=
    towerLists needs (reserveNeighborLists (numParticles / clusterSize + numTowersNew) (clear b)).
End Buffer.

(** ClusterTower.h:83-105: the number of clusters of a tower with [n] particles. *)
Definition numClusters (clusterSize n : nat) : nat :=
  let sizeLastCluster := n mod clusterSize in
  let numDummyParticles := if sizeLastCluster =? 0 then 0 else clusterSize - sizeLastCluster in
  if n =? 0 then 0 else (n + numDummyParticles) / clusterSize.
