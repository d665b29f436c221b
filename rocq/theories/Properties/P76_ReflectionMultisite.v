(** * C76 - reflective boundaries and molecules of several sites

    Model: Flex/ReflectModel.v (RegularGridDecomposition::reflectParticlesAtBoundaries).
    Specification: Flex/ReflectSpec.v. *)

From Coq Require Import Reals List Bool Lra Lia.
From Verif.Functor Require Import SortModel.
From Verif.MD Require Import LJModel.
From Verif.Flex Require Import QuatModel ReflectModel ReflectSpec ReflectProofs ReflectMulti ReflectExample.
Import ListNotations.
Open Scope R_scope.

(** Full claim: for all molecule types.  Missing: molecule types whose sites differ (refuted below).
    Every owned molecule feels, at each reflective wall within reach, its mirror image, unless the image pulls;
    nothing else changes. *)
Theorem C76_image_partial : forall l globalMin globalMax localMin localMax boundary ms,
  (forall m, In m ms -> alike l (pType m)) ->
  (forall d, rankInterval (maxReflectiveSkin l) (co d globalMin) (co d globalMax) (co d localMin) (co d localMax)) ->
  (forall m, In m ms -> pOwned m = true -> forall d, co d localMin <= co d (pPos m) < co d localMax) ->
  reflectParticlesAtBoundaries l reflectMulti globalMin globalMax localMin localMax boundary ms =
  map (fun m => if pOwned m then bounceOff l globalMin globalMax boundary m else m) ms.
Proof. exact reflect_multi. Qed.
Print Assumptions C76_image_partial.

Example C76_image_example :
  alike exLib (pType (rod 0)) /\
  (forall d, rankInterval (maxReflectiveSkin exLib) (co d box0) (co d box10) (co d local0) (co d local5)) /\
  (forall d, co d local0 <= co d (pPos (rod 0)) < co d local5) /\
  0 < co DX (pForce (bounce exLib DX false 0 (rod 0))).
Proof.
  split; [exact ex_alike|]. split; [exact ex_rank|]. split; [intros d; destruct d; cbn; lra|].
  rewrite rod_bounce by lia. cbn [nth epsilons exLib]. rewrite (sqrt_square 1) by lra. lra.
Qed.

(** No wall ever pulls a molecule, whatever its sites. *)
Theorem C76_inward : forall l d isUpper wall m,
  pPos (reflectMulti l d isUpper wall m) = pPos m /\
  if isUpper then co d (pForce (reflectMulti l d isUpper wall m)) <= co d (pForce m)
  else co d (pForce m) <= co d (pForce (reflectMulti l d isUpper wall m)).
Proof. exact multi_inward. Qed.
Print Assumptions C76_inward.

Example C76_inward_example : co DX (pForce (rod 1)) < co DX (pForce (reflectMulti exLib DX false 0 (rod 1))).
Proof. rewrite rod_mixed. cbn. lra. Qed.

(** Sites that differ: the force on a site by the image of another one is computed with the parameters of the
    first site, not with the mixed ones. *)
Theorem C76_mixed_refuted : exists l d wall m,
  pOwned m = true /\ Rabs (co d (pPos m) - wall) < reach (largestSigma (turnedSites l m)) /\
  reflectMulti l d false wall m <> bounce l d false wall m.
Proof.
  exists exLib, DX, 0, (rod 1). split; [reflexivity|]. split; [apply rod_near; lia|].
  intros H. apply (f_equal (fun m => co DX (pForce m))) in H.
  rewrite rod_mixed, rod_bounce in H by lia. cbn [nth epsilons exLib] in H. rewrite sqrt_14 in H. lra.
Qed.
Print Assumptions C76_mixed_refuted.
