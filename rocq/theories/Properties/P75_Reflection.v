(** * C75 - reflective boundaries push particles back into the box

    Model: Flex/ReflectModel.v (RegularGridDecomposition::reflectParticlesAtBoundaries).
    Specification: Flex/ReflectSpec.v. *)

From Coq Require Import Reals List Bool Lra.
From Verif.Functor Require Import SortModel.
From Verif.MD Require Import LJModel.
From Verif.Flex Require Import QuatModel ReflectModel ReflectSpec ReflectProofs ReflectMulti ReflectExample.
Import ListNotations.
Open Scope R_scope.

(** Whatever the decomposition into ranks wide enough, every owned particle gets exactly the force of the
    reflective walls of the whole box; nothing else changes, and no halo particle. *)
Theorem C75_reflection : forall l globalMin globalMax localMin localMax boundary ms,
  (forall i, 0 <= nth i (epsilons l) 0) ->
  (forall d, rankInterval (maxReflectiveSkin l) (co d globalMin) (co d globalMax) (co d localMin) (co d localMax)) ->
  (forall m, In m ms -> pOwned m = true ->
     forall d, co d localMin <= co d (pPos m) < co d localMax /\ co d globalMin < co d (pPos m)) ->
  reflectParticlesAtBoundaries l reflectSingle globalMin globalMax localMin localMax boundary ms =
  map (fun m => if pOwned m
                then mkM (pPos m) (pQuat m)
                       (radd (pForce m) (wallsForce globalMin globalMax boundary
                          (nth (pType m) (sigmas l) 0) (nth (pType m) (epsilons l) 0) (pPos m)))
                       (pTorque m) (pType m) (pOwned m)
                else m) ms.
Proof. exact reflect_single. Qed.
Print Assumptions C75_reflection.

Example C75_reflection_example :
  (forall i, 0 <= nth i (epsilons exLib) 0) /\
  (forall d, rankInterval (maxReflectiveSkin exLib) (co d box0) (co d box10) (co d local0) (co d local5)) /\
  (forall m, In m [near; far; halo] -> pOwned m = true ->
     forall d, co d local0 <= co d (pPos m) < co d local5 /\ co d box0 < co d (pPos m)) /\
  map pForce (reflectParticlesAtBoundaries exLib reflectSingle box0 box10 local0 local5 exBnd [near; far; halo])
  = [mkR3 13 2 3; mkR3 1 2 3; mkR3 1 2 3].
Proof. exact (conj ex_eps (conj ex_rank (conj ex_inside ex_run))). Qed.

(** The range that is searched for particles covers the reach of the walls for every type. *)
Theorem C75_range : forall l t, reach (nth t (sigmas l) 0) <= maxReflectiveSkin l.
Proof.
  intros l t. pose proof (scaled_le _ _ (sigma_le l t)) as H. unfold reach, maxReflectiveSkin.
  unfold sixthRootOfTwo, getSigma in *. lra.
Qed.
Print Assumptions C75_range.

Example C75_range_example : reach (nth 1 (sigmas exLib) 0) = maxReflectiveSkin exLib / 2.
Proof. rewrite ex_skin. unfold reach. cbn. field. Qed.

(** A wall repels within its reach and does nothing beyond. *)
Theorem C75_repels : forall sigma epsilon x, 0 < sigma -> 0 < epsilon -> 0 < x ->
  (x < reach sigma -> 0 < wallForce sigma epsilon x) /\ (reach sigma <= x -> wallForce sigma epsilon x = 0).
Proof.
  intros s e x Hs He Hx. split; [exact (wallForce_near s e x Hs He Hx)|apply wallForce_far].
Qed.
Print Assumptions C75_repels.

Example C75_repels_example : 1 < reach 2 /\ wallForce 2 1 1 = 12.
Proof. split; [unfold reach; pose proof root_bounds; lra|exact wall_2_1]. Qed.

(** The force of a wall is conservative: the derivative of its potential, without a jump at the reach. *)
Theorem C75_conservative : forall sigma epsilon x, 0 < sigma -> 0 < x ->
  derivable_pt_lim (wallPotential sigma epsilon) x (- wallForce sigma epsilon x).
Proof. exact wall_derive. Qed.
Print Assumptions C75_conservative.

Example C75_conservative_example : derivable_pt_lim (wallPotential 2 1) 1 (- 12).
Proof. replace (- 12) with (- wallForce 2 1 1) by (rewrite wall_2_1; ring). apply wall_derive; lra. Qed.

(** A rank narrower than the reach: the particle in the next rank is within reach of the wall, and it is not
    reflected. *)
Theorem C75_narrow_rank_refuted : exists l globalMin globalMax localMin localMax boundary m,
  (forall i, 0 <= nth i (epsilons l) 0) /\
  (forall d, rankInterval (/ 2) (co d globalMin) (co d globalMax) (co d localMin) (co d localMax)) /\
  pOwned m = true /\
  (forall d, co d localMin <= co d (pPos m) < co d localMax /\ co d globalMin < co d (pPos m)) /\
  reflectParticlesAtBoundaries l reflectSingle globalMin globalMax localMin localMax boundary [m] = [m] /\
  wallsForce globalMin globalMax boundary (nth (pType m) (sigmas l) 0) (nth (pType m) (epsilons l) 0) (pPos m) <> rzero.
Proof.
  exists exLib, box0, box10, thinCut, box10, exBnd, near.
  split; [exact ex_eps|]. split.
  { intros d. destruct d.
    - exists [0; / 2; 10], 1%nat. do 4 (split; [reflexivity|]).
      intros j a b. destruct j as [|[|[|j]]]; cbn; intros E G; try discriminate G; injection E as <-; injection G as <-; lra.
    - exists [0; 10], 0%nat. do 4 (split; [reflexivity|]).
      intros j a b. destruct j as [|[|j]]; cbn; intros E G; try discriminate G; injection E as <-; injection G as <-; lra.
    - exists [0; 10], 0%nat. do 4 (split; [reflexivity|]).
      intros j a b. destruct j as [|[|j]]; cbn; intros E G; try discriminate G; injection E as <-; injection G as <-; lra. }
  split; [reflexivity|]. split; [intros d; destruct d; cbn; lra|].
  split; [exact thin_run|]. intros H. pose proof ex_near as E. unfold getSigma in E. cbn [pType near] in H. fold near in H.
  rewrite E in H. injection H as H1. lra.
Qed.
Print Assumptions C75_narrow_rank_refuted.
