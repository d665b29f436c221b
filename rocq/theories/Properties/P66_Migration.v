(** C66: the migration of particles between the ranks of md-flexible. *)
From Coq Require Import Reals Lra List ZArith Lia Bool Permutation.
From Verif.Grid Require Import IndexModel.
From Verif.Functor Require Import SortModel.
From Verif.Container Require Import ParticleModel.
From Verif.Flex Require Import DomainModel DomainSpec ExchangeModel ExchangeSpec BalanceProofs MigrationResult FlexExample FlexRefuted.
Import ListNotations.
Local Open Scope R_scope.

(** The boxes divide the global box.  Whatever particles leave the ranks, as long as they
    do not cross walls and are not too far away: the exchange ends on every rank without an
    exception; every particle, moved into the global box through periodic boundaries, is
    inserted on exactly one rank; and it lies in the box of this rank. *)
Theorem C66_migration : forall cfg w B, gridOf (globalMin cfg) (globalMax cfg) (decomposition cfg) w (boxes cfg) B ->
  distinguishable (globalMin cfg) (globalMax cfg) w -> 0 < w -> justInsideBox cfg ->
  forall leaving, (forall r p, isRank (decomposition cfg) r -> In p (leaving r) -> leavingParticle cfg w r p) ->
  exists arrived, (forall r, isRank (decomposition cfg) r -> exchangeMigratingParticles cfg leaving r = Some (arrived r)) /\
    (forall r q, isRank (decomposition cfg) r -> In q (arrived r) -> inRankBox (boxes cfg) r (ppos q)) /\
    Permutation (flat_map arrived (ranks (decomposition cfg))) (map (wrapParticle cfg) (flat_map leaving (ranks (decomposition cfg)))).
Proof. exact migrate. Qed.
Print Assumptions C66_migration.
(** A particle that leaves rank 0 through the boundary of the global box and moves to another
    rank along a second dimension. *)
Example C66_migration_example : (exists B, gridOf exMin exMax exGrid 3 (boxes exConfig) B) /\ distinguishable exMin exMax 3 /\ justInsideBox exConfig /\
  (forall r p, isRank exGrid r -> In p (exLeaving r) -> leavingParticle exConfig 3 r p) /\ exLeaving 0 = [exGone] /\
  ppos (wrapParticle exConfig exGone) = mkR3 7 1 5.
Proof.
  split; [exact ex_grid|]. split; [exact (proj1 (proj2 ex_suitable))|]. split; [|split; [exact ex_leaving|split; [reflexivity|]]].
  - intros a. split; [destruct a; cbn; lra|]. intros r H. apply ex_boxMin. exact H.
  - unfold wrapParticle, wrapCoord. cbn [ppos exGone exConfig globalMin globalMax justInside exMin exMax at3 rx ry rz].
    destruct (Rlt_dec (- (1/4)) 0); [|lra]. destruct (Rlt_dec 1 0); [lra|]. destruct (Rle_dec 8 1); [lra|]. destruct (Rlt_dec 5 0); [lra|]. destruct (Rle_dec 8 5); [lra|].
    rewrite Rmin_left by lra. reflexivity.
Qed.

(** After any number of load balancing steps: if every rank sends away the particles that
    are not in its new box, then afterwards every rank holds the particles in its box, and
    together they hold the particles they held before. *)
Theorem C66_load_balancing : forall cfg w bs work, suitable (globalMin cfg) (globalMax cfg) (decomposition cfg) w ->
  reachableBoxes (globalMin cfg) (globalMax cfg) (decomposition cfg) w bs -> (forall r, isRank (decomposition cfg) r -> 0 < work r) ->
  (forall r, isRank (decomposition cfg) r ->
     balancedBox (globalMin cfg) (globalMax cfg) (decomposition cfg) w bs work r = Some (boxMin (boxes cfg) r, boxMax (boxes cfg) r)) ->
  justInsideBox cfg -> (forall a, (1 <= sendSteps cfg a)%nat) ->
  forall owned kept leaving,
    (forall r, isRank (decomposition cfg) r -> Permutation (kept r ++ leaving r) (owned r) /\
       (forall p, In p (owned r) -> inRankBox bs r (ppos p)) /\ (forall p, In p (kept r) -> inRankBox (boxes cfg) r (ppos p)) /\
       (forall p, In p (leaving r) -> ~ inRankBox (boxes cfg) r (ppos p))) ->
  exists arrived, (forall r, isRank (decomposition cfg) r -> exchangeMigratingParticles cfg leaving r = Some (arrived r)) /\
    (forall r q, isRank (decomposition cfg) r -> In q (kept r ++ arrived r) -> inRankBox (boxes cfg) r (ppos q)) /\
    Permutation (flat_map (fun r => kept r ++ arrived r) (ranks (decomposition cfg))) (flat_map owned (ranks (decomposition cfg))).
Proof. exact migrate_balanced. Qed.
Print Assumptions C66_load_balancing.
(** Rank 0 is smaller after load balancing: see C64_boxes_example; a particle between the old
    and the new boundary leaves it. *)
Example C66_load_balancing_example : exists cfg x, suitable exMin exMax exGrid 3 /\ (forall r, isRank exGrid r -> 0 < exWork r) /\
  (forall r, isRank exGrid r -> balancedBox exMin exMax exGrid 3 exBoxes exWork r = Some (boxMin (boxes cfg) r, boxMax (boxes cfg) r)) /\
  globalMin cfg = exMin /\ globalMax cfg = exMax /\ decomposition cfg = exGrid /\ justInsideBox cfg /\ (forall a, (1 <= sendSteps cfg a)%nat) /\
  inRankBox exBoxes 0 x /\ ~ inRankBox (boxes cfg) 0 x.
Proof. exact ex_migrate_balanced. Qed.

(** Without boundary treatment a particle that leaves the global box comes back at the
    opposite side if there are two ranks in this dimension. *)
Theorem C66_open_boundary_refuted : exists cfg leaving p q, (forall a, boundary cfg a = NoBoundary) /\ leaving 0%Z = [p] /\
  at3 AX (ppos p) < at3 AX (globalMin cfg) /\ exchangeMigratingParticles cfg leaving 1 = Some [q] /\ pid q = pid p /\ at3 AX (globalMin cfg) < at3 AX (ppos q).
Proof. eexists openConfig, openLeaving, _, _. split; [reflexivity|]. split; [reflexivity|]. split; [cbn; lra|]. split; [exact open_run|]. split; [reflexivity|]. cbn. lra. Qed.
Print Assumptions C66_open_boundary_refuted.
