(** Specification vocabulary for histories of API calls. *)
From Coq Require Import Reals.
From Verif.Base Require Import ZRange.
From Verif.Grid Require Import CellBlockSpec.
From Verif.Functor Require Import SortModel SortSpec.
From Verif.Container Require Import LinkedCellsSpec ParticleModel CollectSpec.
From Verif.Logic Require Import HandlerModel.
Import ListNotations.
Local Open Scope Z_scope.

(** All particles that are stored anywhere, and those among them that are owned or halo. *)
Definition stored (s : State) : list Particle :=
  concat (ccells (cont s)) ++ concat (bufs s) ++ concat (halos s).
Definition ownedParticles (s : State) : list Particle := filter (fun p => pown p =? 1) (stored s).
Definition haloParticles (s : State) : list Particle := filter (fun p => pown p =? 2) (stored s).

Section Spec.
  Variables (cutoff spt : R) (freq : Z).

  (** Sensible options.  The cutoff is checked in AutoPasDecl.h:598-603, the initial box
      in LogicHandler.h:970-981, the skin and the rebuild frequency are not checked. *)
  Definition validOptions : Prop := (0 < cutoff)%R /\ (0 <= spt)%R /\ 1 <= freq.
  Definition validBox (lo hi : R3) : Prop := atLeast (cutoff + spt * IZR freq) lo hi.
  Definition validKind (lo hi : R3) (k : Kind) : Prop :=
    match k with KDirectSum => True | KLinkedCells csf => validGrid (cutoff + spt * IZR freq) csf lo hi end.

  (** Calls are made for boxes and configurations that are possible at all. *)
  Definition validCall (s : State) (e : Event) : Prop :=
    match e with
    | Compute _ ks => Forall (validKind (boxLo s) (boxHi s)) ks
    | Resize lo hi => validBox lo hi /\ validKind lo hi (kind (cont s))
    | _ => True
    end.

  (** [history s0 h s]: the calls in [h], with what each of them returned, lead from
      [s0] to [s]. *)
  Inductive history : State -> list (Event * list Particle) -> State -> Prop :=
  | history_nil s : history s [] s
  | history_cons s e out s1 h s2 : validCall s e -> step cutoff spt freq s e (Some (s1, out)) ->
      history s1 h s2 -> history s ((e, out) :: h) s2.

  (** An instance as it was just initialised. *)
  Definition validStart (s : State) : Prop :=
    exists k lo hi threads, validBox lo hi /\ validKind lo hi k /\ s = initial cutoff spt freq k lo hi threads.

  (** What the user may expect: a box and a multiset of owned particles. *)
  Record Ledger := mkLedger { ledgerLo : R3; ledgerHi : R3; expected : list Particle }.
  Definition moveTo (x : R3) (p : Particle) : Particle := mkParticle (pid p) x (pown p) (pdata p).
  Definition setOwned (p : Particle) : Particle := mkParticle (pid p) (ppos p) 1 (pdata p).
  Inductive ledgerStep (l : Ledger) : Event -> list Particle -> Ledger -> Prop :=
  | LAdd p t L' : Permutation L' (setOwned p :: expected l) -> inBox (ledgerLo l) (ledgerHi l) (ppos p) ->
      ledgerStep l (AddParticle p t) [] (mkLedger (ledgerLo l) (ledgerHi l) L')
  | LAddHalo p t L' : Permutation L' (expected l) -> ~ inBox (ledgerLo l) (ledgerHi l) (ppos p) ->
      ledgerStep l (AddHalo p t) [] (mkLedger (ledgerLo l) (ledgerHi l) L')
  | LDelete p at_ L' : pown p = 1 -> Permutation (expected l) (p :: L') ->
      ledgerStep l (Delete p at_) [] (mkLedger (ledgerLo l) (ledgerHi l) L')
  | LDeleteHalo p at_ L' : pown p = 2 -> Permutation (expected l) L' ->
      ledgerStep l (Delete p at_) [] (mkLedger (ledgerLo l) (ledgerHi l) L')
  | LDeleteAll : ledgerStep l DeleteAll [] (mkLedger (ledgerLo l) (ledgerHi l) [])
  | LMove f L' : Permutation L' (map (fun p => moveTo (f p) p) (expected l)) ->
      ledgerStep l (Move f) [] (mkLedger (ledgerLo l) (ledgerHi l) L')
  | LUpdate b out L' : Permutation (expected l) (out ++ L') ->
      Forall (fun p => ~ inBox (ledgerLo l) (ledgerHi l) (ppos p)) out ->
      ledgerStep l (Update b) out (mkLedger (ledgerLo l) (ledgerHi l) L')
  | LCompute pw ks L' : Permutation (expected l) L' ->
      ledgerStep l (Compute pw ks) [] (mkLedger (ledgerLo l) (ledgerHi l) L')
  | LResize lo hi out L' : Permutation (expected l) (out ++ L') ->
      Forall (fun p => ~ inBox lo hi (ppos p)) out ->
      ledgerStep l (Resize lo hi) out (mkLedger lo hi L').
  Inductive ledger : Ledger -> list (Event * list Particle) -> Ledger -> Prop :=
  | ledger_nil l : ledger l [] l
  | ledger_cons l e out l1 h l2 : ledgerStep l e out l1 -> ledger l1 h l2 -> ledger l ((e, out) :: h) l2.

  (** What the user may expect of the halo particles: those added since the last update,
      without those deleted. *)
  Definition setHalo (p : Particle) : Particle := mkParticle (pid p) (ppos p) 2 (pdata p).
  Inductive imageStep (l : list Particle) : Event -> list Particle -> Prop :=
  | IAdd p t l' : Permutation l l' -> imageStep l (AddParticle p t) l'
  | IAddHalo p t l' : Permutation l' (setHalo p :: l) -> imageStep l (AddHalo p t) l'
  | IDelete p at_ l' : pown p = 1 -> Permutation l l' -> imageStep l (Delete p at_) l'
  | IDeleteHalo p at_ l' : pown p = 2 -> Permutation l (p :: l') -> imageStep l (Delete p at_) l'
  | IDeleteAll : imageStep l DeleteAll []
  | IMove f l' : Permutation l l' -> imageStep l (Move f) l'
  | IUpdate b : imageStep l (Update b) []
  | ICompute pw ks l' : Permutation l l' -> imageStep l (Compute pw ks) l'
  | IResize lo hi l' : Permutation l l' -> imageStep l (Resize lo hi) l'.
  Inductive images : list Particle -> list Event -> list Particle -> Prop :=
  | images_nil l : images l [] l
  | images_cons l e l1 es l2 : imageStep l e l1 -> images l1 es l2 -> images l (e :: es) l2.

  (** Each coordinate changes by at most [d]. *)
  Definition within (d : R) (x y : R3) : Prop :=
    (Rabs (rx y - rx x) <= d /\ Rabs (ry y - ry x) <= d /\ Rabs (rz y - rz x) <= d)%R.

  (** The protocol of a simulation: particles move by at most the skin per time step,
      and between two moves, and between a move and an interaction computation, the
      container is updated.  [moved]: particles moved since the last update. *)
  Fixpoint disciplined (moved : bool) (es : list Event) : Prop :=
    match es with
    | [] => True
    | Move f :: r => moved = false /\ (forall p, within spt (ppos p) (f p)) /\ disciplined true r
    | Update _ :: r => disciplined false r
    | Compute _ _ :: r => moved = false /\ disciplined moved r
    | _ :: r => disciplined moved r
    end.
  Fixpoint movedSince (moved : bool) (es : list Event) : bool :=
    match es with
    | [] => moved
    | Move _ :: r => movedSince true r
    | Update _ :: r => movedSince false r
    | _ :: r => movedSince moved r
    end.
  (** Number of interaction computations. *)
  Definition computations (es : list Event) : Z :=
    Z.of_nat (length (filter (fun e => match e with Compute _ _ => true | _ => false end) es)).

  (** Number of updates. *)
  Definition updates (es : list Event) : Z :=
    Z.of_nat (length (filter (fun e => match e with Update _ => true | _ => false end) es)).
  (** More than [d] apart in one of the coordinates. *)
  Definition apart (d : R) (x y : R3) : Prop :=
    (d < Rabs (rx y - rx x) \/ d < Rabs (ry y - ry x) \/ d < Rabs (rz y - rz x))%R.
  (** Halo particles behave like the images of moving particles: two with the same ID are
      different images, more than [d] apart, or the same image at different times: not
      between the same two updates, and from one update to the next each coordinate
      changes by at most the skin per time step. *)
  Definition movingImages (d : R) (es : list Event) : Prop :=
    forall a p t b q u c, es = a ++ AddHalo p t :: b ++ AddHalo q u :: c -> pid p = pid q ->
      (1 <= updates b /\ within (spt * IZR (updates b)) (ppos p) (ppos q)) \/ apart d (ppos p) (ppos q).
  (** The same with half of the skin per time step. *)
  Definition calmImages (d : R) (es : list Event) : Prop :=
    forall a p t b q u c, es = a ++ AddHalo p t :: b ++ AddHalo q u :: c -> pid p = pid q ->
      (1 <= updates b /\ (dist3 (ppos p) (ppos q) <= spt / 2 * IZR (updates b))%R) \/ apart d (ppos p) (ppos q).
  (** All cell size factors are at most [f]. *)
  Definition factorAtMost (f : R) (k : Kind) : Prop :=
    match k with KDirectSum => True | KLinkedCells csf => (csf <= f)%R end.
  Definition factorsAtMost (f : R) (es : list Event) : Prop :=
    forall pw ks, In (Compute pw ks) es -> Forall (factorAtMost f) ks.
  (** How far different images have to be apart: cells are shorter than
      2 * f * (cutoff + skin). *)
  Definition imageDistance (f : R) : R :=
    (2 * f * (cutoff + spt * IZR freq) + 2 * (spt * IZR freq))%R.

  (** A history in which no interaction computation rebuilds the neighbour lists. *)
  Inductive reusing : State -> list (Event * list Particle) -> State -> Prop :=
  | reusing_nil s : reusing s [] s
  | reusing_cons s e out s1 h s2 : validCall s e -> (forall pw ks, e = Compute pw ks -> rebuildsLists s = false) ->
      step cutoff spt freq s e (Some (s1, out)) -> reusing s1 h s2 -> reusing s ((e, out) :: h) s2.
  (** Where the particle [p] is after the calls. *)
  Fixpoint carried (es : list Event) (p : Particle) : Particle :=
    match es with
    | [] => p
    | Move f :: r => carried r (moveTo (f p) p)
    | _ :: r => carried r p
    end.
  (** Moves are at most half of the skin per time step. *)
  Definition calm (es : list Event) : Prop :=
    forall f, In (Move f) es -> forall p, (dist3 (ppos p) (f p) <= spt / 2)%R.

  (** Where particles can be after [es], if they move at most half of the skin per step. *)
  Definition travelled (es : list Event) (x y : R3) : Prop := (dist3 x y <= spt / 2 * IZR (updates es))%R.

  (** What a call requires beyond that: addParticle is for particles in the box,
      addHaloParticle for particles outside but in the halo region, iterators point
      to a particle when it is deleted, halo particles keep their positions, and the
      box is not resized while there are halo particles. *)
  Definition properCall (s : State) (e : Event) : Prop :=
    match e with
    | AddParticle p t => inBox (boxLo s) (boxHi s) (ppos p) /\ (t < length (bufs s))%nat
    | AddHalo p t => ~ inBox (boxLo s) (boxHi s) (ppos p) /\ inGrownBox (cutoff + spt * IZR freq) (boxLo s) (boxHi s) (ppos p) /\
                     (t < length (halos s))%nat
    | Delete p l => particleAt s l = Some p /\ pown p <> 0
    | Move f => forall p, pown p = 2 -> f p = ppos p
    | Resize lo hi => haloParticles s = []
    | _ => True
    end.
  (** A history with only such calls. *)
  Inductive properHistory : State -> list (Event * list Particle) -> State -> Prop :=
  | proper_nil s : properHistory s [] s
  | proper_cons s e out s1 h s2 : validCall s e -> properCall s e -> step cutoff spt freq s e (Some (s1, out)) ->
      properHistory s1 h s2 -> properHistory s ((e, out) :: h) s2.
End Spec.
