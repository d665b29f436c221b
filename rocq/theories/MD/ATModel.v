(** Model of the Axilrod-Teller functor
    (applicationLibrary/molecularDynamics/molecularDynamicsLibrary/AxilrodTellerFunctor.h), in
    exact arithmetic.  A division by zero has no value: [None].  The functor has no SoA
    functions (those of the base class throw): cells in the SoA layout are not supported. *)
From Coq Require Import Reals List ZArith Bool Arith.
From Verif.Base Require Import OptionM.
From Verif.Functor Require Import CellFunctor3BModel SortModel.
From Verif.Container Require Import IteratorModel ParticleModel.
From Verif.MD Require Import MixingModel LJModel.
Import ListNotations.
Local Open Scope R_scope.

(** Template parameters, _cutoffSquared, _nu (setParticleProperties,
    AxilrodTellerFunctor.h:290) and _PPLibrary. *)
Record ATConfig := mkATC {
  atMixing : bool; atGlobals : bool; atFLOPs : bool; atCutoffSquared : R; atNu : R; atLibrary : Library }.

(** The parameter of a triple of types, AxilrodTellerFunctor.h:192-195. *)
Definition tripleNu (c : ATConfig) (ti tj tk : nat) : option R :=
  if atMixing c then getMixingNu (atLibrary c) ti tj tk else Some (atNu c).

(** Displacements and their squares; the forces on the three particles and three times the
    potential energy, AxilrodTellerFunctor.h:197-245 and 260. *)
Record ATKernel := mkATK { forceI : R3; forceJ : R3; forceK : R3; potential3 : R }.
Definition atKernel (nu : R) (dIJ dJK dKI : R3) : ATKernel :=
  let sIJ := dot dIJ dIJ in
  let sJK := dot dJK dJK in
  let sKI := dot dKI dKI in
  let allDistsSquared := sIJ * sJK * sKI in
  let allDistsTo5 := allDistsSquared * allDistsSquared * sqrt allDistsSquared in
  let factor := 3 * nu / allDistsTo5 in
  let IJDotKI := dot dIJ dKI in
  let IJDotJK := dot dIJ dJK in
  let JKDotKI := dot dJK dKI in
  let allDotProducts := IJDotKI * IJDotJK * JKDotKI in
  let iJK := rscale (rscale dJK IJDotKI) (IJDotJK - JKDotKI) in
  let iIJ := rscale dIJ (IJDotJK * JKDotKI - sJK * sKI + 5 * allDotProducts / sIJ) in
  let iKI := rscale dKI (- IJDotJK * JKDotKI + sIJ * sJK - 5 * allDotProducts / sKI) in
  let fI := rscale (radd (radd iJK iIJ) iKI) factor in
  let jKI := rscale (rscale dKI IJDotJK) (JKDotKI - IJDotKI) in
  let jIJ := rscale dIJ (- IJDotKI * JKDotKI + sJK * sKI - 5 * allDotProducts / sIJ) in
  let jJK := rscale dJK (IJDotKI * JKDotKI - sIJ * sKI + 5 * allDotProducts / sJK) in
  let fJ := rscale (radd (radd jKI jIJ) jJK) factor in
  mkATK fI fJ (rscale (radd fI fJ) (- 1)) (factor * (allDistsSquared - 3 * allDotProducts)).

Section AT.
  (** Addresses of particles; what is stored there. *)
  Context {A : Type}.
  Variable same : A -> A -> bool.
  Variable part : A -> Particle.
  Variable typeId : A -> nat.
  Variable cfg : ATConfig.

  (** AoSFunctor, AxilrodTellerFunctor.h:178-285.  The sums of the thread are those of
      LJModel, with three times the energy instead of six times. *)
  Definition atFunctor (c : Call3 A) (s : State A) : option (State A) :=
    let i := p3a c in let j := p3b c in let k := p3c c in
    if isDummy (part i) || isDummy (part j) || isDummy (part k) then Some s
    else
      let n := (if atFLOPs cfg then 1 else 0)%nat in
      let g := (if atFLOPs cfg && atGlobals cfg then 1 else 0)%nat in
      let s1 := addSums (sums s) (mkSums rzero 0 n 0 0 0 0) in
      match tripleNu cfg (typeId i) (typeId j) (typeId k) with
      | None => None
      | Some nu =>
          let dIJ := rsub (ppos (part j)) (ppos (part i)) in
          let dJK := rsub (ppos (part k)) (ppos (part j)) in
          let dKI := rsub (ppos (part i)) (ppos (part k)) in
          if Rlt_dec (atCutoffSquared cfg) (dot dIJ dIJ) then Some (mkState (forceAt s) s1)
          else if Rlt_dec (atCutoffSquared cfg) (dot dJK dJK) then Some (mkState (forceAt s) s1)
          else if Rlt_dec (atCutoffSquared cfg) (dot dKI dKI) then Some (mkState (forceAt s) s1)
          else if Req_EM_T (dot dIJ dIJ * dot dJK dJK * dot dKI dKI) 0 then None
          else
            let r := atKernel nu dIJ dJK dKI in
            let m1 := addForce same i (forceI r) (forceAt s) in
            let m2 := if p3n c then addForce same k (forceK r) (addForce same j (forceJ r) m1) else m1 in
            let s2 := addSums s1 (if p3n c then mkSums rzero 0 0 n 0 g 0 else mkSums rzero 0 0 0 n 0 g) in
            let s3 := addSums s2 (whenSums (atGlobals cfg && isOwned (part i)) (globalSums (rmul (forceI r) (ppos (part i))) (potential3 r))) in
            let s4 := addSums s3 (whenSums (atGlobals cfg && (p3n c && isOwned (part j))) (globalSums (rmul (forceJ r) (ppos (part j))) (potential3 r))) in
            let s5 := addSums s4 (whenSums (atGlobals cfg && (p3n c && isOwned (part k))) (globalSums (rmul (forceK r) (ppos (part k))) (potential3 r))) in
            Some (mkState m2 s5)
      end.

  (** A sequence of calls. *)
  Fixpoint atCalls (cs : list (Call3 A)) (s : State A) : option (State A) :=
    match cs with
    | [] => Some s
    | c :: cs' => match atFunctor c s with Some s' => atCalls cs' s' | None => None end
    end.
End AT.

(** endTraversal, AxilrodTellerFunctor.h:349-374, after initTraversal (lines 336-343) has
    set all sums to zero: potential energy and virial from the sums of the threads. *)
Definition atEndTraversal (threads : list Sums) : R * R3 :=
  let pot := fold_left (fun a t => a + potentialSum t) threads 0 in
  let vir := fold_left (fun a t => radd a (virialSum t)) threads rzero in
  (pot / 3 / 3, vir).
