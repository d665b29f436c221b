(** * C81 - the hydrodynamic force of smoothed particle hydrodynamics

    Model: SPH/SPHModel.v (SPHCalcHydroForceFunctor.h).  Specification: SPH/SPHSpec.v. *)

From Coq Require Import Reals List Bool Lra.
From Verif.Functor Require Import SortModel.
From Verif.Container Require Import IteratorModel ParticleModel.
From Verif.MD Require Import LJModel LJSpec.
From Verif.SPH Require Import SPHModel SPHSpec SPHLayout SPHKernel SPHPhysics.
Import ListNotations.
Open Scope R_scope.

(** A call with Newton's third law changes neither the rate of the momentum nor the rate of the energy (internal and
    kinetic) of the two particles together, and nothing of other particles. *)
Theorem C81_conserved : forall A (same : A -> A -> bool), (forall x y, same x y = true <-> x = y) ->
  forall part vel mass smth dens pres snds a b s, a <> b ->
  let s' := hydroAoS same part vel mass smth dens pres snds true a b s in
  radd (rscale (hAcc s' a) (mass a)) (rscale (hAcc s' b) (mass b)) = radd (rscale (hAcc s a) (mass a)) (rscale (hAcc s b) (mass b)) /\
  mass a * (hEng s' a + dot (vel a) (hAcc s' a)) + mass b * (hEng s' b + dot (vel b) (hAcc s' b)) =
  mass a * (hEng s a + dot (vel a) (hAcc s a)) + mass b * (hEng s b + dot (vel b) (hAcc s b)) /\
  forall x, x <> a -> x <> b -> hAcc s' x = hAcc s x /\ hEng s' x = hEng s x /\ hVsig s' x = hVsig s x.
Proof.
  intros A same sameEq part vel mass smth dens pres snds a b s N. cbv zeta.
  destruct (hydro_conserves same part vel mass smth dens pres snds sameEq a b s N) as [M E]. split; [exact M|]. split; [exact E|].
  intros x Ha Hb. apply hydro_others; [|intros _];
    (match goal with |- ?e = false => destruct e eqn:X end; [apply sameEq in X; contradiction|reflexivity]).
Qed.
Print Assumptions C81_conserved.

(** Two calls without Newton's third law do what one call with it does, if both particles are in the support of each other
    or both are not.  Missing: other pairs, where it is false. *)
Theorem C81_newton3_partial : forall A (same : A -> A -> bool) part vel mass smth dens pres snds a b s,
  0 < smth a -> 0 < smth b ->
  (distance (ppos (part a)) (ppos (part b)) < support (smth a) <-> distance (ppos (part a)) (ppos (part b)) < support (smth b)) ->
  let call n3 := hydroAoS same part vel mass smth dens pres snds n3 in
  call false b a (call false a b s) = call true a b s.
Proof.
  intros A same part vel mass smth dens pres snds a b s Ha Hb W. apply hydro_newton3; [exact Ha|exact Hb|].
  unfold within. rewrite <- (norm_distance (ppos (part b))), norm_opp, norm_distance. exact W.
Qed.
Print Assumptions C81_newton3_partial.

(** With different smoothing lengths what is computed depends on Newton's third law, and on which particle is the first;
    without the third law momentum is not conserved. *)
Theorem C81_newton3_refuted : exists (part : bool -> Particle) vel mass smth dens pres snds s,
  (forall x, 0 < smth x /\ 0 < mass x /\ 0 < dens x /\ isOwned (part x) = true) /\
  let call n3 := hydroAoS Bool.eqb part vel mass smth dens pres snds n3 in
  call false true false (call false false true s) <> call true false true s /\
  call true true false s <> call true false true s /\
  let s' := call false true false (call false false true s) in
  radd (rscale (hAcc s' false) (mass false)) (rscale (hAcc s' true) (mass true)) <>
  radd (rscale (hAcc s false) (mass false)) (rscale (hAcc s true) (mass true)).
Proof.
  exists xPart, (fun _ => rzero), (fun _ => 1), xSmth, (fun _ => 1), (fun _ => 1), (fun _ => 1), xNull.
  split; [intros x; split; [destruct x; cbn; lra|split; [lra|split; [lra|reflexivity]]]|]. cbv zeta. fold xCall.
  rewrite !xBack. destruct xForth as [F [G K]]. split; [|split].
  - intros C. apply (f_equal (fun s => rx (hAcc s true))) in C. rewrite G, K in C. pose proof xG_pos. lra.
  - intros C. apply (f_equal (fun s => rx (hAcc s true))) in C. cbn [xNull hAcc rx rzero] in C. rewrite K in C. pose proof xG_pos. lra.
  - intros C. apply (f_equal rx) in C. cbn [radd rscale rx xNull hAcc rzero] in C. rewrite F, G in C. pose proof xG_pos. lra.
Qed.
Print Assumptions C81_newton3_refuted.

(** The loops over arrays do what the calls for their pairs do, if no signal velocity was negative before. *)
Theorem C81_layout : forall A (same : A -> A -> bool) part vel mass smth dens pres snds,
  let call := hydroAoS same part vel mass smth dens pres snds in
  forall s, (forall x, 0 <= hVsig s x) ->
  (forall soa, hydroSingle same part vel mass smth dens pres snds soa s = forEach (call true) (pairsOf soa) s) /\
  (forall newton3 soa1 soa2, hydroPair same part vel mass smth dens pres snds newton3 soa1 soa2 s = forEach (call newton3) (list_prod soa1 soa2) s) /\
  (forall newton3 a neighbours, hydroVerlet same part vel mass smth dens pres snds newton3 a neighbours s = forEach (call newton3) (map (pair a) neighbours) s).
Proof.
  intros A same part vel mass smth dens pres snds call s G. unfold call. split; [|split].
  - intros soa. apply (single_loop (hydroAoS same part vel mass smth dens pres snds true) (hydroRow same part vel mass smth dens pres snds true) goodH);
      auto using hydroRow_ok, hydroAoS_good.
  - intros newton3 l1 l2. apply (pair_loop (hydroAoS same part vel mass smth dens pres snds newton3) (hydroRow same part vel mass smth dens pres snds newton3) goodH);
      auto using hydroRow_ok, hydroAoS_good.
  - intros newton3 a l. rewrite forEach_row. apply hydroRow_ok. exact G.
Qed.
Print Assumptions C81_layout.

(** One array ignores newton3: for particles of different smoothing lengths it does not do what the calls without Newton's
    third law do. *)
Theorem C81_single_refuted : exists (part : bool -> Particle) vel mass smth dens pres snds s soa,
  (forall x, 0 <= hVsig s x) /\ (forall x, 0 < smth x /\ 0 < mass x /\ 0 < dens x /\ isOwned (part x) = true) /\
  hydroSingle Bool.eqb part vel mass smth dens pres snds soa s <>
  forEach (hydroAoS Bool.eqb part vel mass smth dens pres snds false) (bothWays (pairsOf soa)) s.
Proof.
  exists xPart, (fun _ => rzero), (fun _ => 1), xSmth, (fun _ => 1), (fun _ => 1), (fun _ => 1), xNull, [false; true].
  assert (V : forall x, 0 <= hVsig xNull x) by (intros x; cbn; lra). split; [exact V|].
  split; [intros x; split; [destruct x; cbn; lra|split; [lra|split; [lra|reflexivity]]]|].
  rewrite (proj1 (C81_layout bool Bool.eqb xPart _ _ _ _ _ _ _ V)). cbn [pairsOf map app bothWays flat_map forEach fold_left fst snd].
  unfold forEach. cbn [fold_left fst snd]. fold xCall. rewrite xBack. destruct xForth as [F [G K]].
  intros C. apply (f_equal (fun s => rx (hAcc s true))) in C. rewrite K in C. unfold xCall in G. rewrite G in C. pose proof xG_pos. lra.
Qed.
Print Assumptions C81_single_refuted.

(** Two particles of equal smoothing lengths at distance one: the hypotheses of C81_newton3_partial, and a call that
    does something. *)
Example C81_example : distance (ppos (xPart false)) (ppos (xPart true)) < support 1 /\
  (forall x, 0 <= hVsig xNull x) /\ xCall true false true xNull <> xNull.
Proof.
  assert (D : distance (ppos (xPart false)) (ppos (xPart true)) = 1) by exact xDistance.
  split; [rewrite D; unfold support; lra|]. split; [intros x; cbn; lra|].
  intros C. destruct xForth as [_ [_ K]]. rewrite C in K. cbn [xNull hAcc rx rzero] in K. pose proof xG_pos. lra.
Qed.
