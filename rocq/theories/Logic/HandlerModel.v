(** Model of the LogicHandler: one step per API call.  Containers are linked cells and
    direct sum; arithmetic is exact.  What a call does can depend on the order in which
    threads run, so a step is a relation between the state before, the call and the
    outcome; the outcome [None] is an exception or undefined behaviour. *)
From Coq Require Import Reals.
From Verif.Base Require Import ZRange OptionM.
From Verif.Grid Require Import IndexModel IndexSpec CellBlockModel CellBlockSpec.
From Verif.Functor Require Import SortModel.
From Verif.Container Require Import IteratorModel IteratorContainers ParticleModel CollectModel UpdateModel.
From Verif.Logic Require Import BalanceModel.
Import ListNotations.
Local Open Scope Z_scope.

(** The current container (ContainerSelector::_currentContainer); for linked cells with
    the cell size factor. *)
Inductive Kind := KDirectSum | KLinkedCells (csf : R).
Record Cont := mkCont { kind : Kind; ccells : list (list Particle) }.

Section Handler.
  (** Options: cutoff, Verlet skin per time step, rebuild frequency. *)
  Variables (cutoff spt : R) (freq : Z).
  (** ParticleContainerInterface::getVerletSkin, getInteractionLength. *)
  Definition skin : R := (spt * IZR freq)%R.
  Definition il : R := (cutoff + skin)%R.
  Definition grid (csf : R) (lo hi : R3) : Block := rebuild rndExact il csf lo hi.

  (** An empty container: DirectSum.h:66-78, LinkedCells.h:40-58. *)
  Definition emptyCells (k : Kind) (lo hi : R3) : list (list Particle) :=
    match k with
    | KDirectSum => repeat [] 7
    | KLinkedCells csf => repeat [] (Z.to_nat (numCells (blockDims (grid csf lo hi))))
    end.

  (** addParticleImpl: DirectSum.h:93, LinkedCells.h:78-81. *)
  Definition addOwned (lo hi : R3) (c : Cont) (p : Particle) : option Cont :=
    match kind c with
    | KDirectSum => option_map (mkCont (kind c)) (pushAt (ccells c) 0 p)
    | KLinkedCells csf => option_map (mkCont (kind c)) (lcInsert rndExact (grid csf lo hi) (ccells c) p)
    end.

  (** addHaloParticleImpl: DirectSum.h:98-114 (a particle in the box is not added at
      all), LinkedCells.h:83-86. *)
  Definition dsHaloCell (lo hi x : R3) : option nat :=
    if Rlt_dec (rx x) (rx lo) then Some 1%nat else if Rle_dec (rx hi) (rx x) then Some 2%nat
    else if Rlt_dec (ry x) (ry lo) then Some 3%nat else if Rle_dec (ry hi) (ry x) then Some 4%nat
    else if Rlt_dec (rz x) (rz lo) then Some 5%nat else if Rle_dec (rz hi) (rz x) then Some 6%nat
    else None.
  Definition addHaloC (lo hi : R3) (c : Cont) (p : Particle) : option Cont :=
    match kind c with
    | KDirectSum => match dsHaloCell lo hi (ppos p) with
                    | None => Some c
                    | Some i => option_map (mkCont (kind c)) (pushAt (ccells c) i p)
                    end
    | KLinkedCells csf => option_map (mkCont (kind c)) (lcInsert rndExact (grid csf lo hi) (ccells c) p)
    end.

  (** checkParticleInCellAndUpdateByID and ...AndPosition, ParticleCellHelpers.h:20-56:
      the first particle with the ID that [same] accepts is overwritten. *)
  Fixpoint updateCell (same : Particle -> bool) (p : Particle) (cell : list Particle) : option (list Particle) :=
    match cell with
    | [] => None
    | q :: r => if (pid q =? pid p) && same q then Some (p :: r)
                else match updateCell same p r with Some r' => Some (q :: r') | None => None end
    end.
  (** The cells are tried in this order.  Outer [None]: out of range. *)
  Fixpoint updateCells (same : Particle -> bool) (p : Particle) (is : list Z) (cells : list (list Particle))
    : option (list (list Particle) * bool) :=
    match is with
    | [] => Some (cells, false)
    | i :: r => match at_ cells i with
                | None => None
                | Some cell => match updateCell same p cell with
                               | Some cell' => Some (setAt cells (Z.to_nat i) cell', true)
                               | None => updateCells same p r cells
                               end
                end
    end.
  (** DirectSum::updateHaloParticle, DirectSum.h:119-138. *)
  Definition dsUpdateCells (lo hi x : R3) : list Z :=
    let half := (skin / 2)%R in
    let dim (l h v : R) (c : Z) := if Rlt_dec v (l + half)%R then [2 * c + 1] else if Rle_dec (h - half)%R v then [2 * c + 2] else [] in
    dim (rx lo) (rx hi) (rx x) 0 ++ dim (ry lo) (ry hi) (ry x) 1 ++ dim (rz lo) (rz hi) (rz x) 2.
  Definition closeBy (d : R) (x : R3) (q : Particle) : bool :=
    if Rlt_dec ((rx (ppos q) - rx x) * (rx (ppos q) - rx x) + (ry (ppos q) - ry x) * (ry (ppos q) - ry x)
                + (rz (ppos q) - rz x) * (rz (ppos q) - rz x))%R (d * d)%R then true else false.
  (** CellBlock3D::getNearbyHaloCells, CellBlock3D.h:185-228, as cell indices. *)
  Definition onlyHalo (b : Block) (i : Z) : bool := cellCanContainHaloParticles b i && negb (cellCanContainOwnedParticles b i).
  Definition nearbyHaloCells (b : Block) (x : R3) (d : R) : option (list Z) :=
    let shift e := mkR3 (rx x + e)%R (ry x + e)%R (rz x + e)%R in
    match get3DIndexOfPosition rndExact b x, get3DIndexOfPosition rndExact b (shift (- d)%R), get3DIndexOfPosition rndExact b (shift d) with
    | Some own, Some low, Some high =>
        let i0 := threeToOneD own (blockDims b) in
        Some ((if onlyHalo b i0 then [i0] else []) ++
              filter (fun i => negb (i =? i0) && onlyHalo b i)
                (flat_map (fun x => flat_map (fun y => map (fun z => threeToOneD (mkI3 x y z) (blockDims b))
                                                           (zrange (iz low) (iz high + 1)))
                                             (zrange (iy low) (iy high + 1)))
                          (zrange (ix low) (ix high + 1))))
    | _, _, _ => None
    end.
  (** LinkedCells::updateHaloParticle, LinkedCells.h:88-98, for linked cells. *)
  Definition updateHaloC (lo hi : R3) (c : Cont) (p : Particle) : option (Cont * bool) :=
    let lift o := match o with Some (cs, u) => Some (mkCont (kind c) cs, u) | None => None end in
    match kind c with
    | KDirectSum => lift (updateCells (closeBy (skin / 2)%R (ppos p)) p (dsUpdateCells lo hi (ppos p)) (ccells c))
    | KLinkedCells csf =>
        match nearbyHaloCells (grid csf lo hi) (ppos p) skin with
        | None => None
        | Some is => lift (updateCells (fun _ => true) p is (ccells c))
        end
    end.

  (** updateContainer of the container.  With [keep] it is
      LeavingParticleCollector::collectParticlesAndMarkNonOwnedAsDummy; [margin] is how
      much the region iterators of linked cells widen the region, LinkedCells.h:236-240. *)
  Definition volumes (lo hi : R3) : list (R3 * R3) := map (clampVolume il lo hi) (haloVolumes rndExact il skin lo hi).
  Definition regionDefined (b : Block) (margin : R) (v : R3 * R3) : Prop :=
    lcRegionConf pown bhOwnedOrHalo 1 ppos rndExact b margin (fst v) (snd v) None 0 <> None.
  Definition contUpdate (keep : bool) (margin : R) (lo hi : R3) (c : Cont) (o : option (Cont * list Particle)) : Prop :=
    let lift r := match r with Some (cs, out) => Some (mkCont (kind c) cs, out) | None => None end in
    match kind c with
    | KDirectSum =>
        if keep then
          exists visits, Permutation visits (regionVisits (volumes lo hi) dsRegionCells (ccells c)) /\
            o = lift (Some (collectRun lo hi visits (ccells c)))
        else o = lift (dsUpdate lo hi (ccells c))
    | KLinkedCells csf =>
        let b := grid csf lo hi in
        if keep then
          (Forall (regionDefined b margin) (volumes lo hi) /\
           exists visits, Permutation visits (regionVisits (volumes lo hi) (lcRegionCells rndExact b margin) (ccells c)) /\
             o = lift (Some (collectRun lo hi visits (ccells c)))) \/
          (~ Forall (regionDefined b margin) (volumes lo hi) /\ o = None)
        else match lcUpdateSweep rndExact b (ccells c) with
             | None => o = None
             | Some (cells1, moved) => exists order, Permutation order moved /\ o = lift (lcReinsert rndExact b lo hi cells1 order)
             end
    end.

  (** The members of the LogicHandler. *)
  Record State := mkState {
    boxLo : R3; boxHi : R3;
    cont : Cont;
    contSteps : Z;             (* _stepsSinceLastRebuild of the container *)
    bufs : list (list Particle); halos : list (list Particle);  (* one per thread *)
    valid : bool;              (* _neighborListsAreValid *)
    steps : Z;                 (* _stepsSinceLastListRebuild *)
    calls : Z;                 (* _functorCalls, an unsigned int *)
    nOwned : Z; nHalo : Z      (* _numParticlesOwned, _numParticlesHalo; here unbounded *)
  }.
  Definition withCont (s : State) (c : Cont) : State :=
    mkState (boxLo s) (boxHi s) c (contSteps s) (bufs s) (halos s) (valid s) (steps s) (calls s) (nOwned s) (nHalo s).
  Definition withBufs (s : State) (b h : list (list Particle)) : State :=
    mkState (boxLo s) (boxHi s) (cont s) (contSteps s) b h (valid s) (steps s) (calls s) (nOwned s) (nHalo s).
  Definition withCounts (s : State) (o h : Z) : State :=
    mkState (boxLo s) (boxHi s) (cont s) (contSteps s) (bufs s) (halos s) (valid s) (steps s) (calls s) o h.
  Definition withValid (s : State) (v : bool) : State :=
    mkState (boxLo s) (boxHi s) (cont s) (contSteps s) (bufs s) (halos s) v (steps s) (calls s) (nOwned s) (nHalo s).

  (** LogicHandler constructor, LogicHandler.h:55-95, with [threads] threads. *)
  Definition initial (k : Kind) (lo hi : R3) (threads : nat) : State :=
    mkState lo hi (mkCont k (emptyCells k lo hi)) 0 (repeat [] threads) (repeat [] threads) false 0 0 0 0.

  (** Where a particle is stored: cell and index, or buffer and index. *)
  Inductive Loc := InCell (c j : nat) | InBuffer (b j : nat) | InHaloBuffer (b j : nat).
  Definition vectorsOf (s : State) (l : Loc) : list (list Particle) :=
    match l with InCell _ _ => ccells (cont s) | InBuffer _ _ => bufs s | InHaloBuffer _ _ => halos s end.
  Definition locIdx (l : Loc) : nat * nat := match l with InCell c j | InBuffer c j | InHaloBuffer c j => (c, j) end.
  Definition particleAt (s : State) (l : Loc) : option Particle :=
    nth_error (nth (fst (locIdx l)) (vectorsOf s l) []) (snd (locIdx l)).

  (** The calls of the API. *)
  Inductive Event :=
  | AddParticle (p : Particle) (thread : nat)
  | AddHalo (p : Particle) (thread : nat)
  | Delete (p : Particle) (at_ : Loc)          (* deleteParticle(iterator) *)
  | DeleteAll
  | Move (f : Particle -> R3)                  (* a loop over all particles with setR *)
  | Update (tunerRebuilds : bool)              (* updateContainer; tuner.willRebuildNeighborLists() *)
  | Compute (pairwise : bool) (selected : list Kind)  (* computeInteractions; containers selected one after another *)
  | Resize (lo hi : R3).

  (** LogicHandler::addParticle, LogicHandler.h:303-325. *)
  Definition doAdd (s : State) (p : Particle) (t : nat) : option State :=
    if negb (inBoxb (boxLo s) (boxHi s) (ppos p)) then None
    else
      let p' := withOwn stOwned p in
      match (if valid s then option_map (fun b => withBufs s b (halos s)) (pushAt (bufs s) t p')
             else option_map (withCont s) (addOwned (boxLo s) (boxHi s) (cont s) p')) with
      | None => None
      | Some s' => Some (withCounts s' (nOwned s + 1) (nHalo s))
      end.

  (** LogicHandler::addHaloParticle, LogicHandler.h:330-356. *)
  Definition doAddHalo (s : State) (p : Particle) (t : nat) : option State :=
    if inBoxb (boxLo s) (boxHi s) (ppos p) then None
    else
      let p' := withOwn stHalo p in
      match (if valid s then
               match updateHaloC (boxLo s) (boxHi s) (cont s) p' with
               | None => None
               | Some (c, true) => Some (withCont s c)
               | Some (_, false) => option_map (fun h => withBufs s (bufs s) h) (pushAt (halos s) t p')
               end
             else option_map (withCont s) (addHaloC (boxLo s) (boxHi s) (cont s) p')) with
      | None => None
      | Some s' => Some (withCounts s' (nOwned s) (nHalo s + 1))
      end.

  (** AutoPas::deleteParticle(iter), AutoPasImpl.h:288-298, LogicHandler.h:399-405,
      ContainerIterator.h:315-355: swap-delete in the vector. *)
  Definition doDelete (s : State) (p : Particle) (l : Loc) : State :=
    let s := if isOwned p then withCounts s (nOwned s - 1) (nHalo s) else withCounts s (nOwned s) (nHalo s - 1) in
    let del vs i j := setAt vs i (swapDelete (nth i vs []) j) in
    match l with
    | InCell c j => withCont s (mkCont (kind (cont s)) (del (ccells (cont s)) c j))
    | InBuffer b j => withBufs s (del (bufs s) b j) (halos s)
    | InHaloBuffer b j => withBufs s (bufs s) (del (halos s) b j)
    end.

  (** LogicHandler::deleteAllParticles, LogicHandler.h:361-369. *)
  Definition doDeleteAll (s : State) : State :=
    let clear := map (fun _ : list Particle => []) in
    withCounts (withValid (withBufs (withCont s (mkCont (kind (cont s)) (clear (ccells (cont s))))) (clear (bufs s)) (clear (halos s))) false) 0 0.

  (** The user sets the positions of all particles the iterators show. *)
  Definition moved (f : Particle -> R3) (p : Particle) : Particle :=
    if isDummy p then p else mkParticle (pid p) (f p) (pown p) (pdata p).
  Definition doMove (s : State) (f : Particle -> R3) : State :=
    withBufs (withCont s (mkCont (kind (cont s)) (map (map (moved f)) (ccells (cont s)))))
             (map (map (moved f)) (bufs s)) (map (map (moved f)) (halos s)).

  (** collectLeavingParticlesFromBuffer, LogicHandler.h:107-155.  With
      insertOwnedParticlesToContainer: *)
  Fixpoint bufferInsert (lo hi : R3) (c : Cont) (l : list Particle) : option (Cont * list Particle) :=
    match l with
    | [] => Some (c, [])
    | p :: r =>
        if isDummy p then bufferInsert lo hi c r
        else if inBoxb lo hi (ppos p) then
          match addOwned lo hi c (withOwn stOwned p) with None => None | Some c' => bufferInsert lo hi c' r end
        else match bufferInsert lo hi c r with None => None | Some (c', out) => Some (c', p :: out) end
    end.
  (** ... and without, one buffer; [None]: the loop did not end within [fuel]. *)
  Fixpoint bufferSweep (fuel : nat) (lo hi : R3) (l : list Particle) (i : nat) (out : list Particle)
    : option (list Particle * list Particle) :=
    match fuel with
    | O => None
    | S f =>
        if (i <? length l)%nat then
          match nth_error l i with
          | None => None
          | Some p => if isDummy p then bufferSweep f lo hi (swapDelete l i) i out
                      else if negb (inBoxb lo hi (ppos p)) then bufferSweep f lo hi (swapDelete l i) i (out ++ [p])
                      else bufferSweep f lo hi l (S i) out
          end
        else Some (l, out)
    end.
  Fixpoint buffersSweep (lo hi : R3) (bs : list (list Particle)) : option (list (list Particle) * list Particle) :=
    match bs with
    | [] => Some ([], [])
    | l :: r => match bufferSweep (S (length l)) lo hi l 0 [], buffersSweep lo hi r with
                | Some (l', out), Some (r', out') => Some (l' :: r', out ++ out')
                | _, _ => None
                end
    end.
  Definition collectBuffers (insert : bool) (lo hi : R3) (c : Cont) (bs : list (list Particle))
    : option (Cont * list (list Particle) * list Particle) :=
    if insert then match bufferInsert lo hi c (concat bs) with
                   | Some (c', out) => Some (c', map (fun _ => []) bs, out)
                   | None => None
                   end
    else match buffersSweep lo hi bs with Some (bs', out) => Some (c, bs', out) | None => None end.

  (** LogicHandler::updateContainer and neighborListsAreValid, LogicHandler.h:160-192,
      984-997. *)
  Definition listsValid (s : State) (tunerRebuilds : bool) : bool :=
    if (freq <=? steps s) || tunerRebuilds then false else valid s.
  Definition newSteps (s : State) (v : bool) : Z :=
    if 0 <? calls s then (if v then steps s else 0) + 1 else steps s.
  Definition doUpdate (s : State) (tunerRebuilds : bool) (o : option (State * list Particle)) : Prop :=
    let v := listsValid s tunerRebuilds in
    let st := newSteps s v in
    let cst := if 0 <? calls s then st else contSteps s in
    match collectBuffers (negb v) (boxLo s) (boxHi s) (cont s) (bufs s) with
    | None => o = None
    | Some (c1, bs, out1) =>
        exists r, contUpdate v (spt * IZR cst)%R (boxLo s) (boxHi s) c1 r /\
          o = match r with
              | None => None
              | Some (c2, out2) =>
                  let leaving := out2 ++ out1 in
                  Some (mkState (boxLo s) (boxHi s) c2 cst bs (map (fun _ => []) (halos s)) v st (calls s)
                                (nOwned s - Z.of_nat (length leaving)) 0, leaving)
              end
    end.

  (** ContainerSelector::generateContainer and selectContainer,
      ContainerSelector.h:95-185, 202-211.  The copy loop runs over all owned and halo
      particles, see C23.  The load estimator and the cluster size play no role here. *)
  Fixpoint copyInto (lo hi : R3) (c : Cont) (l : list Particle) : option Cont :=
    match l with
    | [] => Some c
    | p :: r =>
        let next := if isOwned p then (if inBoxb lo hi (ppos p) then addOwned lo hi c p else None)
                    else (if inBoxb lo hi (ppos p) then None else addHaloC lo hi c p) in
        match next with None => None | Some c' => copyInto lo hi c' r end
    end.
  Definition generate (k : Kind) (lo hi : R3) (old : list (list Particle)) : option Cont :=
    copyInto lo hi (mkCont k (emptyCells k lo hi)) (filter (fun p => negb (isDummy p)) (concat old)).
  Definition sameKind (a b : Kind) : bool :=
    match a, b with
    | KDirectSum, KDirectSum => true
    | KLinkedCells x, KLinkedCells y => if Req_EM_T x y then true else false
    | _, _ => false
    end.
  Fixpoint select (s : State) (ks : list Kind) : option State :=
    match ks with
    | [] => Some s
    | k :: r =>
        if sameKind (kind (cont s)) k then select s r
        else match generate k (boxLo s) (boxHi s) (ccells (cont s)) with
             | None => None
             | Some c => select (mkState (boxLo s) (boxHi s) c 0 (bufs s) (halos s) (valid s) (steps s) (calls s) (nOwned s) (nHalo s)) r
             end
    end.

  (** Whether computeInteractions rebuilds the neighbour lists, LogicHandler.h:1057. *)
  Definition rebuildsLists (s : State) : bool := negb (valid s).

  (** computeInteractionsPipeline and computeInteractions, LogicHandler.h:1041-1101,
      1598-1672: neighbour lists are rebuilt unless they are valid.  Balancing, and the
      pairwise remainder traversal in general, is C30 and C31. *)
  Definition doCompute (s : State) (pairwise : bool) (ks : list Kind) : option State :=
    match select s ks with
    | None => None
    | Some s1 =>
        match (if pairwise then match balanceVectors 1 (bufs s1), balanceVectors 1 (halos s1) with
                                | Some b, Some h => Some (b, h)
                                | _, _ => None
                                end
               else Some (bufs s1, halos s1)) with
        | None => None
        | Some (b, h) => Some (mkState (boxLo s1) (boxHi s1) (cont s1) (contSteps s1) b h true (steps s1)
                                       ((calls s1 + 1) mod 2 ^ 32) (nOwned s1) (nHalo s1))
        end
    end.

  (** LogicHandler::resizeBox, LogicHandler.h:200-266. *)
  Definition sameR3 (a b : R3) : bool :=
    if Req_EM_T (rx a) (rx b) then if Req_EM_T (ry a) (ry b) then if Req_EM_T (rz a) (rz b) then true else false else false else false.
  Definition doResize (s : State) (lo hi : R3) : option (State * list Particle) :=
    if sameR3 (boxLo s) lo && sameR3 (boxHi s) hi then Some (s, [])
    else if negb (if Rlt_dec (rx lo) (rx hi) then if Rlt_dec (ry lo) (ry hi) then if Rlt_dec (rz lo) (rz hi) then true else false else false else false)
    then None
    else
      let shown := filter (fun p => negb (isDummy p)) (concat (ccells (cont s))) in
      if existsb (fun p => negb (isOwned p)) shown then None
      else
        let outside p := isOwned p && negb (inBoxb lo hi (ppos p)) in
        let out := filter outside shown in
        match generate (kind (cont s)) lo hi (map (map (fun p => if outside p then withOwn stDummy p else p)) (ccells (cont s))) with
        | None => None
        | Some c => Some (mkState lo hi c 0 (bufs s) (halos s) false (steps s) (calls s) (nOwned s - Z.of_nat (length out)) (nHalo s), out)
        end.

  Definition quiet (o : option State) : option (State * list Particle) :=
    match o with Some s => Some (s, []) | None => None end.
  (** One call: the new state and the particles returned to the user. *)
  Definition step (s : State) (e : Event) (o : option (State * list Particle)) : Prop :=
    match e with
    | AddParticle p t => o = quiet (doAdd s p t)
    | AddHalo p t => o = quiet (doAddHalo s p t)
    | Delete p l => particleAt s l = Some p /\ isDummy p = false /\ o = quiet (Some (doDelete s p l))
    | DeleteAll => o = quiet (Some (doDeleteAll s))
    | Move f => o = quiet (Some (doMove s f))
    | Update tr => doUpdate s tr o
    | Compute pw ks => o = quiet (doCompute s pw ks)
    | Resize lo hi => o = doResize s lo hi
    end.
End Handler.
