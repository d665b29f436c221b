(** Model of the particle exchange between the ranks of md-flexible
    (examples/md-flexible/src/domainDecomposition/RegularGridDecomposition.cpp:159-302 and
    459-596), exact arithmetic. *)
From Coq Require Import Reals List ZArith Bool.
From Verif.Base Require Import OptionM ZRange.
From Verif.Grid Require Import IndexModel.
From Verif.Functor Require Import SortModel.
From Verif.Container Require Import IteratorModel ParticleModel.
From Verif.Flex Require Import DomainModel.
Import ListNotations.
Local Open Scope R_scope.

(** options/BoundaryTypeOption.h. *)
Inductive Boundary := Periodic | Reflective | NoBoundary.
Definition isPeriodic (b : Boundary) : bool := match b with Periodic => true | _ => false end.

(** Members of RegularGridDecomposition.  [skin] is _skinWidthPerTimestep *
    _rebuildFrequency.  [justInside a] is std::nextafter(_globalBoxMax[a], _globalBoxMin[a]),
    RegularGridDecomposition.cpp:577.  [sendSteps a] is maximumSendSteps, line 254: one, or
    _decomposition[a] with the ALL load balancer. *)
Record Config := mkConfig {
  cutoffWidth : R; skin : R; globalMin : R3; globalMax : R3; boundary : Axis -> Boundary;
  decomposition : I3; boxes : Boxes; justInside : Axis -> R; sendSteps : Axis -> nat }.

(** Particle::setR. *)
Definition withPos (x : R3) (p : Particle) : Particle := mkParticle (pid p) x (pown p) (pdata p).
Definition pcoord (a : Axis) (p : Particle) : R := at3 a (ppos p).
Definition withCoord (a : Axis) (x : R) (p : Particle) : Particle := withPos (set3 a x (ppos p)) p.

(** DomainTools::isInsideDomain (DomainTools.cpp:14-24); also the test of a region
    iterator. *)
Definition insideDomain (lo hi x : R3) : bool :=
  forallb (fun a => (if Rle_dec (at3 a lo) (at3 a x) then true else false) && (if Rlt_dec (at3 a x) (at3 a hi) then true else false)) axes.

Section Exchange.
  Variable cfg : Config.
  Let d := decomposition cfg.
  Definition lo (a : Axis) (r : Z) : R := at3 a (boxMin (boxes cfg) r).
  Definition hi (a : Axis) (r : Z) : R := at3 a (boxMax (boxes cfg) r).
  Definition gLo (a : Axis) : R := at3 a (globalMin cfg).
  Definition gHi (a : Axis) : R := at3 a (globalMax cfg).
  Definition atMin (a : Axis) (r : Z) : bool := isNearRel (lo a r) (gLo a).
  Definition atMax (a : Axis) (r : Z) : bool := isNearRel (hi a r) (gHi a).

  (** The rank does not take part in the exchange along this dimension,
      RegularGridDecomposition.cpp:183-185 and 246-249. *)
  Definition skips (a : Axis) (r : Z) : bool := negb (isPeriodic (boundary cfg a)) && atMin a r && atMax a r.

  (** One round of sendAndReceiveParticlesLeftAndRight, RegularGridDecomposition.cpp:459-478.
      [send s] are the particles that rank [s] sends to the left and to the right; [None]: the
      rank does not send.  MPI delivers messages between two ranks in the order of sending.
      The result is what rank [r] receives, [None] if it waits forever.  Two different ranks
      are neighbours along one dimension only, and every rank receives in every round what
      it is sent in this round, so that a round does not see messages of another one. *)
  Definition messages (send : Z -> option (list Particle * list Particle)) (a : Axis) (src dst : Z) : list (list Particle) :=
    match send src with
    | None => []
    | Some (toLeft, toRight) =>
        (if Z.eqb (leftNeighbor d a src) dst then [toLeft] else []) ++ (if Z.eqb (rightNeighbor d a src) dst then [toRight] else [])
    end.
  Definition sendAndReceive (send : Z -> option (list Particle * list Particle)) (a : Axis) (r : Z) : option (list Particle) :=
    let l := leftNeighbor d a r in
    let n := rightNeighbor d a r in
    if Z.eqb l r then match send r with Some (toLeft, toRight) => Some (toLeft ++ toRight) | None => None end
    else
      match messages send a l r with
      | [] => None
      | m :: rest =>
          match (if Z.eqb l n then rest else messages send a n r) with
          | [] => None
          | m' :: _ => Some (m ++ m')
          end
      end.

  (** collectHaloParticlesForLeftNeighbor and collectHaloParticlesForRightNeighbor with
      collectHaloParticlesAux, RegularGridDecomposition.cpp:480-546.  [owned] are the particles
      an iterator over all owned particles visits; the region iterator visits those of them
      in the region (C23). *)
  Definition shifted (wrap : bool) (a : Axis) (distance : R) (p : Particle) : Particle :=
    if wrap then withCoord a (pcoord a p + distance) p else p.
  Definition collectForLeft (a : Axis) (r : Z) (owned : list Particle) : list Particle :=
    let bMin := boxMin (boxes cfg) r in
    let bMax := set3 a (lo a r + cutoffWidth cfg + skin cfg) (boxMax (boxes cfg) r) in
    map (shifted (atMin a r) a (gHi a - gLo a)) (filter (fun p => insideDomain bMin bMax (ppos p)) owned).
  Definition collectForRight (a : Axis) (r : Z) (owned : list Particle) : list Particle :=
    let bMin := set3 a (hi a r - cutoffWidth cfg - skin cfg) (boxMin (boxes cfg) r) in
    let bMax := boxMax (boxes cfg) r in
    map (shifted (atMax a r) a (- (gHi a - gLo a))) (filter (fun p => insideDomain bMin bMax (ppos p)) owned).

  (** The loop over the halo particles received so far,
      RegularGridDecomposition.cpp:201-226. *)
  Definition inInterval (l h x : R) : bool := (if Rle_dec l x then true else false) && (if Rlt_dec x h then true else false).
  Definition nearLeft (a : Axis) (r : Z) (p : Particle) : bool :=
    inInterval (lo a r - skin cfg) (lo a r + cutoffWidth cfg + skin cfg) (pcoord a p).
  Definition nearRight (a : Axis) (r : Z) (p : Particle) : bool :=
    inInterval (hi a r - cutoffWidth cfg - skin cfg) (hi a r + skin cfg) (pcoord a p).
  Definition forwardLeft (a : Axis) (r : Z) (halo : list Particle) : list Particle :=
    map (fun p => if atMin a r then withCoord a (pcoord a p + (gHi a - gLo a)) p else p) (filter (nearLeft a r) halo).
  Definition forwardRight (a : Axis) (r : Z) (halo : list Particle) : list Particle :=
    map (fun p => if atMax a r then withCoord a (pcoord a p - (gHi a - gLo a)) p else p)
      (filter (fun p => negb (nearLeft a r p) && nearRight a r p) halo).

  (** The body of the loop of exchangeHaloParticles, RegularGridDecomposition.cpp:177-234, for
      all ranks.  [halo r = None]: rank [r] does not get this far. *)
  Definition haloSends (owned : Z -> list Particle) (halo : Z -> option (list Particle)) (a : Axis) (r : Z)
    : option (list Particle * list Particle) :=
    match halo r with
    | None => None
    | Some h =>
        if skips a r then None
        else
          let p := isPeriodic (boundary cfg a) in
          Some ((if p || negb (atMin a r) then collectForLeft a r (owned r) else []) ++ forwardLeft a r h,
                (if p || negb (atMax a r) then collectForRight a r (owned r) else []) ++ forwardRight a r h)
    end.
  Definition haloStep (owned : Z -> list Particle) (halo : Z -> option (list Particle)) (a : Axis) (r : Z) : option (list Particle) :=
    match halo r with
    | None => None
    | Some h =>
        if skips a r then Some h
        else match sendAndReceive (haloSends owned halo a) a r with
             | None => None
             | Some received => Some (h ++ received)
             end
    end.
  (** exchangeHaloParticles, RegularGridDecomposition.cpp:159-237: the particles that rank
      [r] passes to addHaloParticles. *)
  Definition exchangeHaloParticles (owned : Z -> list Particle) (r : Z) : option (list Particle) :=
    fold_left (fun halo a => haloStep owned halo a) axes (fun _ => Some []) r.

  (** categorizeParticlesIntoLeftAndRightNeighbor, RegularGridDecomposition.cpp:548-596. *)
  Definition leaveLeft (a : Axis) (r : Z) (p : Particle) : bool := if Rlt_dec (pcoord a p) (lo a r) then true else false.
  Definition leaveRight (a : Axis) (r : Z) (p : Particle) : bool :=
    negb (leaveLeft a r p) && (if Rle_dec (hi a r) (pcoord a p) then true else false).
  Definition sentLeft (a : Axis) (r : Z) (p : Particle) : Particle :=
    if atMin a r then withCoord a (Rmin (justInside cfg a) (pcoord a p + (gHi a - gLo a))) p else p.
  Definition sentRight (a : Axis) (r : Z) (p : Particle) : Particle :=
    if atMax a r then withCoord a (Rmax (gLo a) (pcoord a p - (gHi a - gLo a))) p else p.
  Definition categorize (a : Axis) (r : Z) (l : list Particle) : list Particle * list Particle * list Particle :=
    (map (sentLeft a r) (filter (leaveLeft a r) l), map (sentRight a r) (filter (leaveRight a r) l),
     filter (fun p => negb (leaveLeft a r p) && negb (leaveRight a r p)) l).

  (** The state of a rank: its emigrants and the particles inserted so far.  The body of
      the inner loop of exchangeMigratingParticles, RegularGridDecomposition.cpp:256-287; the
      reduction over threads only changes the order. *)
  Record Migration := mkMig { emigrants : list Particle; inserted : list Particle }.
  Definition migrationSends (m : Z -> option Migration) (a : Axis) (r : Z) : option (list Particle * list Particle) :=
    match m r with
    | None => None
    | Some s => if skips a r then None else Some (fst (categorize a r (emigrants s)))
    end.
  Definition insideLocal (r : Z) (p : Particle) : bool := insideDomain (boxMin (boxes cfg) r) (boxMax (boxes cfg) r) (ppos p).
  Definition migrationStep (m : Z -> option Migration) (a : Axis) (r : Z) : option Migration :=
    match m r with
    | None => None
    | Some s =>
        if skips a r then Some s
        else match sendAndReceive (migrationSends m a) a r with
             | None => None
             | Some received =>
                 Some (mkMig (snd (categorize a r (emigrants s)) ++ filter (fun p => negb (insideLocal r p)) received)
                             (inserted s ++ filter (insideLocal r) received))
             end
    end.
  Definition migrationAxis (m : Z -> option Migration) (a : Axis) : Z -> option Migration :=
    Nat.iter (sendSteps cfg a) (fun m' => migrationStep m' a) m.
  (** exchangeMigratingParticles, RegularGridDecomposition.cpp:239-302: the particles that
      rank [r] passes to addParticle; [None]: it waits forever or throws. *)
  Definition closed : bool := forallb (fun a => match boundary cfg a with NoBoundary => false | _ => true end) axes.
  Definition exchangeMigratingParticles (leaving : Z -> list Particle) (r : Z) : option (list Particle) :=
    match fold_left migrationAxis axes (fun r' => Some (mkMig (leaving r') [])) r with
    | None => None
    | Some s => match emigrants s with [] => Some (inserted s) | _ => if closed then None else Some (inserted s) end
    end.
End Exchange.
