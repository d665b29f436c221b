(** Model of containers/LeavingParticleCollector.h. *)
From Coq Require Import Reals.
From Verif.Base Require Import ZRange.
From Verif.Grid Require Import IndexModel IndexSpec CellBlockModel.
From Verif.Functor Require Import SortModel.
From Verif.Container Require Import IteratorModel IteratorContainers ParticleModel.

(** calculateHaloVolumes, LeavingParticleCollector.h:32-75.  [rnd] is the rounding of
    every operation. *)
Section Volumes.
  Variable rnd : R -> R.
  Variables (il skin : R) (bMin bMax : R3).
  Local Open Scope R_scope.
  Definition maxMisplacement : R := rnd (skin / 2).
  Definition lowerHaloCorner : R3 :=
    let f b := rnd (rnd (b - il) - maxMisplacement) in mkR3 (f (rx bMin)) (f (ry bMin)) (f (rz bMin)).
  Definition upperHaloCorner : R3 :=
    let f b := rnd (rnd (b + il) + maxMisplacement) in mkR3 (f (rx bMax)) (f (ry bMax)) (f (rz bMax)).
  Definition lowerInnerCorner : R3 :=
    let f b := rnd (b + maxMisplacement) in mkR3 (f (rx bMin)) (f (ry bMin)) (f (rz bMin)).
  Definition upperInnerCorner : R3 :=
    let f b := rnd (b - maxMisplacement) in mkR3 (f (rx bMax)) (f (ry bMax)) (f (rz bMax)).
  Definition haloVolumes : list (R3 * R3) :=
    let lh := lowerHaloCorner in let uh := upperHaloCorner in
    let li := lowerInnerCorner in let ui := upperInnerCorner in
    [ (mkR3 (rx lh) (ry li) (rz lh), mkR3 (rx li) (ry ui) (rz ui));
      (mkR3 (rx ui) (ry li) (rz li), mkR3 (rx uh) (ry ui) (rz uh));
      (mkR3 (rx lh) (ry li) (rz ui), mkR3 (rx ui) (ry ui) (rz uh));
      (mkR3 (rx li) (ry li) (rz lh), mkR3 (rx uh) (ry ui) (rz li));
      (lh, mkR3 (rx uh) (ry li) (rz uh));
      (mkR3 (rx lh) (ry ui) (rz lh), uh) ].
End Volumes.

(** The loop body, LeavingParticleCollector.h:108-114: the particle afterwards and
    what is appended to leavingParticles. *)
Definition collectBody (bMin bMax : R3) (p : Particle) : Particle * list Particle :=
  if isHaloP p then (withOwn stDummy p, [])
  else if negb (inBoxb bMin bMax (ppos p)) then (withOwn stDummy p, [p])
  else (p, []).

(** A region iterator over [v] with behaviour ownedOrHalo comes to a particle. *)
Definition collectVisit (bMin bMax : R3) (v : R3 * R3) (p : Particle) : Particle * list Particle :=
  if fulfills bhOwnedOrHalo (inBoxb (fst v) (snd v) (ppos p)) (pown p) then collectBody bMin bMax p else (p, []).

(** The threads run through the volumes without a barrier between them and share the
    particles of each volume, LeavingParticleCollector.h:99-116.  One step is one
    particle [j] in cell [c] that some region iterator over volume [v] comes to.  The
    list of steps is the interleaving of all threads. *)
Definition Visit : Type := ((R3 * R3) * (nat * nat))%type.
Definition collectStep (bMin bMax : R3) (st : list (list Particle) * list Particle) (v : Visit)
  : list (list Particle) * list Particle :=
  let '(vol, (c, j)) := v in
  let cell := nth c (fst st) [] in
  match nth_error cell j with
  | None => st
  | Some p => let '(p', out) := collectVisit bMin bMax vol p in
              (setAt (fst st) c (setAt cell j p'), snd st ++ out)
  end.
Definition collectRun (bMin bMax : R3) (visits : list Visit) (cells : list (list Particle))
  : list (list Particle) * list Particle :=
  fold_left (collectStep bMin bMax) visits (cells, []).

(** All particles the region iterators of one run come to, each volume with the cells
    its region iterators look at. *)
Definition regionVisits (vols : list (R3 * R3)) (cellsOf : R3 * R3 -> list nat) (cells : list (list Particle)) : list Visit :=
  flat_map (fun v => flat_map (fun c => map (fun j => (v, (c, j))) (seq 0 (length (nth c cells [])))) (cellsOf v)) vols.

(** The constructor of the region iterator clamps the volume to the box with halo,
    ContainerIterator.h:243-249. *)
Definition clampVolume (il : R) (bMin bMax : R3) (v : R3 * R3) : R3 * R3 :=
  (clampLow il bMin (fst v), clampHigh il bMax (snd v)).

(** The cells that a region iterator of the linked cells container looks at:
    LinkedCells.h:228-285, 487-535, as in [lcRegionConf]. *)
Definition lcRegionCells (rnd : R -> R) (b : Block) (margin : R) (v : R3 * R3) : list nat :=
  match lcRegionConf pown bhOwnedOrHalo 1 ppos rnd b margin (fst v) (snd v) None 0 with
  | None => []
  | Some cf => map Z.to_nat (filter (relevant cf) (zrange (startCell cf) (endCell cf + 1)))
  end.

(** DirectSum: all seven cells. *)
Definition dsRegionCells (v : R3 * R3) : list nat := seq 0 7.
