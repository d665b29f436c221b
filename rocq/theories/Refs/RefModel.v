(** Model of the container LinkedCellsReferences: all particles are in one vector, and
    the cells hold pointers into it. *)
From Coq Require Import Reals Permutation.
From Verif.Base Require Import ZRange OptionM.
From Verif.Grid Require Import IndexModel IndexSpec CellBlockModel.
From Verif.Functor Require Import SortModel.
From Verif.Container Require Import IteratorModel IteratorContainers ParticleModel.
From Verif.Logic Require Import HandlerModel.
Import ListNotations.
Local Open Scope Z_scope.

(** A pointer into the storage of a std::vector: the buffer it was allocated in (a
    reallocation makes a new one) and the index. *)
Definition Ref : Set := (nat * nat)%type.

(** ParticleVector.h:128-138: _particleListImp with its buffer and capacity, _dirty,
    _dirtyIndex.  The lock is not modelled: LinkedCellsReferences holds its own lock
    around every use. *)
Record PVec := mkVec { vBuf : nat; vCap : nat; vParts : list Particle; vDirty : bool; vIndex : nat }.

(** LinkedCellsReferences.h:600-609: _particleList and the cells of _cellBlock. *)
Record Refs := mkRefs { rVec : PVec; rCells : list (list Ref) }.

(** Dereferencing a pointer.  [None]: it points into a buffer that was freed or behind
    the last particle (undefined behaviour). *)
Definition deref (v : PVec) (r : Ref) : option Particle :=
  if (fst r =? vBuf v)%nat then nth_error (vParts v) (snd r) else None.
(** Assigning to what a pointer points to. *)
Definition assign (v : PVec) (r : Ref) (p : Particle) : option PVec :=
  match deref v r with
  | None => None
  | Some _ => Some (mkVec (vBuf v) (vCap v) (setAt (vParts v) (snd r) p) (vDirty v) (vIndex v))
  end.

(** What the cells show: every pointer dereferenced, as operator[], begin, forEach and
    size of ReferenceParticleCell see it, ReferenceParticleCell.h:69-90,151,172,186. *)
Definition view (st : Refs) : option (list (list Particle)) := mapM (mapM (deref (rVec st))) (rCells st).

(** ParticleVector::markAsClean, ParticleVector.h:35-38. *)
Definition markAsClean (v : PVec) : PVec := mkVec (vBuf v) (vCap v) (vParts v) false (length (vParts v)).
(** ParticleVector::clearHaloParticles and deleteDummyParticles, ParticleVector.h:43-60:
    erase(remove_if(...)) moves the remaining particles to the front of the buffer. *)
Definition clearHaloParticles (v : PVec) : PVec :=
  mkVec (vBuf v) (vCap v) (filter (fun p => negb (isHaloP p)) (vParts v)) true 0.
Definition deleteDummyParticles (v : PVec) : PVec :=
  mkVec (vBuf v) (vCap v) (filter (fun p => negb (isDummy p)) (vParts v)) true 0.

Section Model.
  Variable rnd : R -> R.
  (** The capacity std::vector chooses when it has to grow beyond the given size. *)
  Variable grow : nat -> nat.
  Variable b : Block.
  Variables bMin bMax : R3.
  (** ParticleContainerInterface::getVerletSkin. *)
  Variable skin : R.

  (** ParticleVector::push_back, ParticleVector.h:66-74. *)
  Definition push_back (v : PVec) (p : Particle) : PVec :=
    if (vCap v =? length (vParts v))%nat
    then mkVec (S (vBuf v)) (grow (length (vParts v))) (vParts v ++ [p]) true 0
    else mkVec (vBuf v) (vCap v) (vParts v ++ [p]) true (vIndex v).

  (** ReferenceParticleCell::addParticleReference, ReferenceParticleCell.h:53-66, on the
      cell with index [i].  None: the cell throws because of the ownership, or the index
      is out of range. *)
  Fixpoint pushRef (cells : list (list Ref)) (i : nat) (r : Ref) : option (list (list Ref)) :=
    match cells, i with
    | [], _ => None
    | c :: t, O => Some ((c ++ [r]) :: t)
    | c :: t, S n => match pushRef t n r with Some t' => Some (c :: t') | None => None end
    end.
  Definition addParticleReference (cells : list (list Ref)) (i : Z) (r : Ref) (p : Particle) : option (list (list Ref)) :=
    if (i <? 0) || negb (if isHaloP p then cellCanContainHaloParticles b i else cellCanContainOwnedParticles b i) then None
    else pushRef cells (Z.to_nat i) r.

  (** LinkedCellsReferences::updateDirtyParticleReferences, LinkedCellsReferences.h:153-171:
      the loop over the dirty particles. *)
  Fixpoint addDirty (buf : nat) (cells : list (list Ref)) (i : nat) (ps : list Particle) : option (list (list Ref)) :=
    match ps with
    | [] => Some cells
    | p :: r =>
        if isDummy p then addDirty buf cells (S i) r
        else match get1DIndexOfPosition rnd b (ppos p) with
             | None => None
             | Some c => match addParticleReference cells c (buf, i) p with
                         | None => None
                         | Some cells' => addDirty buf cells' (S i) r
                         end
             end
    end.
  Definition updateDirtyParticleReferences (st : Refs) : option Refs :=
    let v := rVec st in
    if vDirty v then
      let cells := if (vIndex v =? 0)%nat then map (fun _ => []) (rCells st) else rCells st in
      match addDirty (vBuf v) cells (vIndex v) (skipn (vIndex v) (vParts v)) with
      | None => None
      | Some cells' => Some (mkRefs (markAsClean v) cells')
      end
    else Some st.

  (** LinkedCellsReferences::addParticleImpl and addHaloParticleImpl,
      LinkedCellsReferences.h:82-97. *)
  Definition addParticle (st : Refs) (p : Particle) : option Refs :=
    updateDirtyParticleReferences (mkRefs (push_back (rVec st) p) (rCells st)).

  (** internal::checkParticleInCellAndUpdateByID, ParticleCellHelpers.h:20-29, on a cell of
      pointers.  Also returns the particle that was overwritten (the code returns true). *)
  Fixpoint updateInCell (v : PVec) (cell : list Ref) (p : Particle) : option (PVec * option Particle) :=
    match cell with
    | [] => Some (v, None)
    | r :: t => match deref v r with
                | None => None
                | Some q => if pid q =? pid p
                            then match assign v r p with Some v' => Some (v', Some q) | None => None end
                            else updateInCell v t p
                end
    end.
  (** LinkedCellsReferences::updateHaloParticle, LinkedCellsReferences.h:102-112. *)
  Fixpoint updateInCells (v : PVec) (cells : list (list Ref)) (is : list Z) (p : Particle) : option (PVec * option Particle) :=
    match is with
    | [] => Some (v, None)
    | i :: t => match at_ cells i with
                | None => None
                | Some cell => match updateInCell v cell p with
                               | None => None
                               | Some (v', Some q) => Some (v', Some q)
                               | Some (_, None) => updateInCells v cells t p
                               end
                end
    end.
  Definition updateHaloParticle (st : Refs) (p : Particle) : option (Refs * option Particle) :=
    match nearbyHaloCells b (ppos p) skin with
    | None => None
    | Some is => match updateInCells (rVec st) (rCells st) is p with
                 | None => None
                 | Some (v, o) => Some (mkRefs v (rCells st), o)
                 end
    end.

  (** The particle a pair of indices refers to, as iterators and getParticle use it,
      LinkedCellsReferences.h:258. *)
  Definition refAt (st : Refs) (c k : nat) : option Ref :=
    match nth_error (rCells st) c with None => None | Some cell => nth_error cell k end.
  (** deleteParticle, LinkedCellsReferences.h:263-273: the particle is marked. *)
  Definition deleteParticle (st : Refs) (c k : nat) : option Refs :=
    match refAt st c k with
    | None => None
    | Some r => match deref (rVec st) r with
                | None => None
                | Some p => match assign (rVec st) r (withOwn stDummy p) with
                            | None => None
                            | Some v => Some (mkRefs v (rCells st))
                            end
                end
    end.
  (** Writing through an iterator. *)
  Definition modifyParticle (st : Refs) (c k : nat) (p : Particle) : option Refs :=
    match refAt st c k with
    | None => None
    | Some r => match assign (rVec st) r p with Some v => Some (mkRefs v (rCells st)) | None => None end
    end.

  (** deleteHaloParticles, LinkedCellsReferences.h:117-120. *)
  Definition deleteHaloParticles (st : Refs) : option Refs :=
    match clearHaloCells b (rCells st) with
    | None => None
    | Some cells => Some (mkRefs (clearHaloParticles (rVec st)) cells)
    end.
  (** deleteAllParticles, inherited from CellBasedParticleContainer.h:93-102. *)
  Definition deleteAllParticles (st : Refs) : Refs := mkRefs (rVec st) (map (fun _ => []) (rCells st)).

  (** rebuildNeighborLists, LinkedCellsReferences.h:147. *)
  Definition rebuildNeighborLists (st : Refs) : option Refs := updateDirtyParticleReferences st.

  (** ReferenceParticleCell::deleteDummyParticles, ReferenceParticleCell.h:205-209. *)
  Fixpoint dropDummies (v : PVec) (cell : list Ref) : option (list Ref) :=
    match cell with
    | [] => Some []
    | r :: t => match deref v r, dropDummies v t with
                | Some p, Some t' => Some (if isDummy p then t' else r :: t')
                | _, _ => None
                end
    end.

  (** updateContainer, LinkedCellsReferences.h:302-317: the loop over the pointers of one
      cell.  [fuel] bounds the rounds. *)
  Fixpoint sweepRefs (fuel : nat) (lo hi : R3) (v : PVec) (cell : list Ref) (i : nat) (out : list Particle)
    : option (PVec * list Ref * list Particle) :=
    match fuel with
    | O => None
    | S f =>
        match nth_error cell i with
        | None => Some (v, cell, out)
        | Some r =>
            match deref v r with
            | None => None
            | Some p =>
                if isOwned p && negb (inBoxb lo hi (ppos p)) then
                  let back := last cell r in
                  match deref v back with
                  | None => None
                  | Some q =>
                      match assign v r q with
                      | None => None
                      | Some v1 =>
                          match deref v1 back with
                          | None => None
                          | Some q1 =>
                              match assign v1 back (withOwn stDummy q1) with
                              | None => None
                              | Some v2 => sweepRefs f lo hi v2 (removelast cell) i (out ++ [p])
                              end
                          end
                      end
                  end
                else sweepRefs f lo hi v cell (S i) out
            end
        end
    end.

  (** updateContainer, LinkedCellsReferences.h:290-320: the loop over the cells.  It is
      parallel; C68 shows that no two cells refer to the same particle, so the order of the
      cells does not matter. *)
  Fixpoint sweepCells (v : PVec) (i : Z) (cells : list (list Ref)) : option (PVec * list (list Ref) * list Particle) :=
    match cells with
    | [] => Some (v, [], [])
    | c :: t =>
        match dropDummies v c with
        | None => None
        | Some c0 =>
            let '(lo, hi) := getCellBoundingBox rnd b (oneToThreeD i (blockDims b)) in
            match sweepRefs (S (length c0)) lo hi v c0 0 [] with
            | None => None
            | Some (v1, c1, out) =>
                match sweepCells v1 (i + 1) t with
                | None => None
                | Some (v2, t', out') => Some (v2, c1 :: t', out ++ out')
                end
            end
        end
    end.
  Definition updateSweep (st : Refs) : option (Refs * list Particle) :=
    match sweepCells (rVec st) 0 (rCells st) with
    | None => None
    | Some (v, cells, out) => Some (mkRefs v cells, out)
    end.

  (** LinkedCellsReferences.h:326-345: the threads add the particles that left their cell
      again or collect them.  addParticle holds a lock, so this happens in some [order]. *)
  Fixpoint updateReinsert (st : Refs) (order : list Particle) : option (Refs * list Particle) :=
    match order with
    | [] => Some (st, [])
    | p :: t =>
        if inBoxb bMin bMax (ppos p) then
          match addParticle st p with
          | None => None
          | Some st' => updateReinsert st' t
          end
        else match updateReinsert st t with
             | None => None
             | Some (st', out) => Some (st', p :: out)
             end
    end.
  (** LinkedCellsReferences.h:371-375. *)
  Definition updateFinish (st : Refs) : option Refs :=
    match deleteHaloParticles st with
    | None => None
    | Some st1 => updateDirtyParticleReferences (mkRefs (deleteDummyParticles (rVec st1)) (rCells st1))
    end.

  (** A new container, LinkedCellsReferences.h:59-66: no particles, empty cells. *)
  Definition emptyRefs : Refs :=
    mkRefs (mkVec 0 0 [] false 0) (repeat [] (Z.to_nat (numCells (blockDims b)))).

  (** What can be done with the container, with the results: of updateHaloParticle the
      particle that was overwritten, of updateContainer(false) the leaving particles.
      (updateContainer(true) marks particles through iterators, C32: a series of
      deletions.) *)
  Inductive Event :=
  | EAdd (p : Particle) | EAddHalo (p : Particle) | EUpdateHalo (p : Particle) (found : option Particle)
  | EDelete (p : Particle) | EModify (p p' : Particle) | EUpdate (out : list Particle) | ERebuild.

  (** One event; the outcome [None] is an exception or undefined behaviour. *)
  Inductive step : Refs -> Event -> option Refs -> Prop :=
  | SAdd st p : step st (EAdd p) (addParticle st p)
  | SAddHalo st p : step st (EAddHalo p) (addParticle st p)
  | SUpdateHalo st p st' found : updateHaloParticle st p = Some (st', found) -> step st (EUpdateHalo p found) (Some st')
  | SUpdateHaloFails st p found : updateHaloParticle st p = None -> step st (EUpdateHalo p found) None
  | SDelete st p c k r : refAt st c k = Some r -> deref (rVec st) r = Some p -> step st (EDelete p) (deleteParticle st c k)
  | SModify st p p' c k r : refAt st c k = Some r -> deref (rVec st) r = Some p -> step st (EModify p p') (modifyParticle st c k p')
  | SUpdate st st1 moved order st2 out : updateSweep st = Some (st1, moved) -> Permutation order moved ->
      updateReinsert st1 order = Some (st2, out) -> step st (EUpdate out) (updateFinish st2)
  | SUpdateFails1 st out : updateSweep st = None -> step st (EUpdate out) None
  | SUpdateFails2 st st1 moved order out : updateSweep st = Some (st1, moved) -> Permutation order moved ->
      updateReinsert st1 order = None -> step st (EUpdate out) None
  | SRebuild st : step st ERebuild (rebuildNeighborLists st).
End Model.
