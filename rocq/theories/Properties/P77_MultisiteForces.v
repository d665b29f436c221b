(** * C77 - molecules with several sites act on each other with the forces of their sites

    Model: MD/MultisiteModel.v (LJMultisiteFunctor.h).  Specification: MD/MultisiteSpec.v, MD/LJSpec.v. *)

From Coq Require Import Reals List Bool Arith.
From Verif.Functor Require Import SortModel.
From Verif.Container Require Import IteratorModel ParticleModel.
From Verif.MD Require Import MixingModel LJModel LJSpec MultisiteModel MultisiteSpec MultisiteSums MultisitePhysics MultisiteExample.
From Verif.Flex Require Import IntegrateProofs QuatModel QuatSpec.
Import ListNotations.
Open Scope R_scope.

(** A call for two molecules adds the force and the torque of the second on the first, with Newton's third law
    also those of the first on the second, nothing for any other molecule, and the shares of the owned molecules in
    energy and virial. *)
Theorem C77_pair : forall A (same : A -> A -> bool) part quatOf sitesIn fld
    typeOf mixing shifted cutoff2 librarySites libraryProps constSites constProps,
  setUpSites sitesIn fld typeOf mixing shifted cutoff2 librarySites libraryProps constSites constProps ->
  forall globals newton3 a b s, sitesApart part quatOf sitesIn fld a b ->
  let s' := aosFunctor same part quatOf typeOf mixing shifted globals cutoff2 librarySites libraryProps constSites constProps newton3 a b s in
  (forall x, mForce s' x = radd (mForce s x)
     (radd (if same x a then molForce part quatOf sitesIn fld a b else rzero)
           (if newton3 && same x b then molForce part quatOf sitesIn fld b a else rzero))) /\
  (forall x, mTorque s' x = radd (mTorque s x)
     (radd (if same x a then molTorque part quatOf sitesIn fld a b else rzero)
           (if newton3 && same x b then molTorque part quatOf sitesIn fld b a else rzero))) /\
  potentialEnergy s' = potentialEnergy s + (if globals then share newton3 (part a) (part b) * molEnergy part quatOf sitesIn fld a b else 0) /\
  virial s' = virial s + (if globals then share newton3 (part a) (part b) * trace (molVirial part quatOf sitesIn fld a b) else 0).
Proof.
  intros A same part quatOf sitesIn fld typeOf mixing shifted cutoff2 ls lp cs cp Hset globals newton3 a b s Hd. cbv zeta.
  destruct (aos_physics same part quatOf typeOf mixing shifted globals cutoff2 ls lp cs cp sitesIn fld Hset newton3 a b s Hd) as [F [T [V P]]].
  split; [exact F|]. split; [exact T|]. unfold potentialEnergy, virial, share, trace, weight in *. rewrite P, V. split.
  - destruct globals, (isOwned (part a)), (newton3 && isOwned (part b)); field.
  - cbn. destruct globals, (isOwned (part a)), (newton3 && isOwned (part b)); field.
Qed.
Print Assumptions C77_pair.

(** Two calls without Newton's third law do what one call with it does. *)
Theorem C77_newton3 : forall A (same : A -> A -> bool) part quatOf sitesIn fld
    typeOf mixing shifted cutoff2 librarySites libraryProps constSites constProps,
  setUpSites sitesIn fld typeOf mixing shifted cutoff2 librarySites libraryProps constSites constProps ->
  forall globals a b s, sitesApart part quatOf sitesIn fld a b ->
  let call n3 := aosFunctor same part quatOf typeOf mixing shifted globals cutoff2 librarySites libraryProps constSites constProps n3 in
  call false b a (call false a b s) = call true a b s.
Proof. intros. eapply newton3_twice; eassumption. Qed.
Print Assumptions C77_newton3.

(** Whatever the parameters are, a call with Newton's third law changes neither the momentum nor the angular momentum
    of the two molecules together. *)
Theorem C77_conserved : forall A (same : A -> A -> bool), (forall x y, same x y = true <-> x = y) ->
  forall part quatOf typeOf mixing shifted globals cutoff2 librarySites libraryProps constSites constProps a b s, a <> b ->
  let s' := aosFunctor same part quatOf typeOf mixing shifted globals cutoff2 librarySites libraryProps constSites constProps true a b s in
  radd (mForce s' a) (mForce s' b) = radd (mForce s a) (mForce s b) /\
  radd (angularRate (ppos (part a)) (mForce s' a) (mTorque s' a)) (angularRate (ppos (part b)) (mForce s' b) (mTorque s' b)) =
  radd (angularRate (ppos (part a)) (mForce s a) (mTorque s a)) (angularRate (ppos (part b)) (mForce s b) (mTorque s b)).
Proof.
  intros A same sameEq part quatOf typeOf mixing shifted globals cutoff2 ls lp cs cp a b s N.
  exact (aos_conserves same sameEq part quatOf typeOf mixing shifted globals cutoff2 ls lp cs cp a b N s).
Qed.
Print Assumptions C77_conserved.

(** A molecule of two sites of different types and a turned molecule of one site: all hypotheses hold, and the first
    one is turned. *)
Example C77_example :
  setUpSites (fun a => uSites (uType a)) uField uType true true 9 uSites uProps [] (mkLJ 0 0 0) /\
  interacting uPart uField 0%nat 1%nat = true /\
  sitesApart uPart uQuat (fun a => uSites (uType a)) uField 0%nat 1%nat /\
  rz (molTorque uPart uQuat (fun a => uSites (uType a)) uField 0%nat 1%nat) = - (9 / 4) /\
  rz (mTorque (aosFunctor Nat.eqb uPart uQuat uType true true true 9 uSites uProps [] (mkLJ 0 0 0) true 0%nat 1%nat
        (mkMS (fun _ => rzero) (fun _ => rzero) rzero 0)) 0%nat) = - (9 / 4).
Proof.
  split; [exact u_setup|]. split; [exact u_interacting|]. split; [exact u_apart|]. split; [exact u_torque|].
  destruct (C77_pair nat Nat.eqb uPart uQuat _ uField uType true true 9 uSites uProps [] (mkLJ 0 0 0) u_setup true true 0%nat 1%nat
    (mkMS (fun _ => rzero) (fun _ => rzero) rzero 0) u_apart) as [_ [T _]].
  rewrite T. rewrite <- u_torque. cbn [Nat.eqb andb mTorque].
  generalize (molTorque uPart uQuat (fun a => uSites (uType a)) uField 0%nat 1%nat). intros v. cbn. ring.
Qed.
