(** C68: the container LinkedCellsReferences. *)
From Coq Require Import Reals Lra List ZArith Lia Bool Permutation.
From Verif.Grid Require Import IndexModel CellBlockModel CellBlockSpec CellBlockExact.
From Verif.Functor Require Import SortModel.
From Verif.Container Require Import LinkedCellsModel LinkedCellsSpec LinkedCellsGeo IteratorContainers IteratorRegion ParticleModel CollectSpec UpdateExample.
From Verif.Refs Require Import RefModel RefSpec RefExact RefExample.
Import ListNotations.
Local Open Scope R_scope.

(** After any history of calls, however the vector grows: the pointers in the cells are all
    valid, no particle is reached through two of them, and the container shows exactly the
    particles it should hold, owned ones in cells of the box and halo particles in halo
    cells.  Every further call that is allowed succeeds and has the right effect, and after
    an update every particle is in the cell of its position. *)
Theorem C68_history : forall il csf bMin bMax skin, validGrid il csf bMin bMax -> 0 <= skin <= il ->
  let b := rebuild rndExact il csf bMin bMax in
  forall grow st l, (forall n, (n < grow n)%nat) -> Reached rndExact grow b il bMin bMax skin st l ->
  holds st l /\ sorted b st /\
  (forall e o, allowed il bMin bMax l e -> step rndExact grow b bMin bMax skin st e o ->
     exists st' l', o = Some st' /\ after bMin bMax l e l' /\ holds st' l' /\ (forall out, e = EUpdate out -> placed b rndExact st')) /\
  exists out o, step rndExact grow b bMin bMax skin st (EUpdate out) o.
Proof.
  intros il csf bMin bMax skin Hg Hs b grow st l Hgrow H. destruct (exact_references il csf bMin bMax skin Hg Hs grow st l Hgrow H) as (A & B & C).
  split; [exact A|]. split; [exact B|]. split; [exact C|apply update_happens].
Qed.
Print Assumptions C68_history.
(** A halo particle and an owned particle that has moved to a neighbour cell, in a box of 27
    cells, and how the vector was reallocated meanwhile. *)
Example C68_history_example : validGrid 1 1 exLo exHi /\ 0 <= 1 / 5 <= 1 /\ (forall n, (n < exGrow n)%nat) /\
  Reached rndExact exGrow exB 1 exLo exHi (1 / 5) exSt3 [exQ; exH] /\ vBuf (rVec exSt3) = 2%nat /\
  allowed 1 exLo exHi [exQ; exH] (EUpdate []).
Proof.
  split; [exact ex_grid|]. split; [lra|]. split; [intros n; unfold exGrow; lia|]. split; [exact exReached3|]. split; [reflexivity|].
  intros p [<-|[<-|[]]] O; [discriminate O|exact exHalo].
Qed.

(** deleteAllParticles only forgets the pointers.  The container then shows no particles,
    but the next update brings the deleted owned particles back. *)
Theorem C68_delete_all_refuted : exists il csf bMin bMax skin grow p h,
  let b := rebuild rndExact il csf bMin bMax in
  validGrid il csf bMin bMax /\ 0 <= skin <= il /\ (forall n, (n < grow n)%nat) /\
  exists st, Reached rndExact grow b il bMin bMax skin st [p; h] /\ pown p = 1%Z /\ pown h = 2%Z /\
    (exists cells, view (deleteAllParticles st) = Some cells /\ concat cells = []) /\
    exists st', step rndExact grow b bMin bMax skin (deleteAllParticles st) (EUpdate []) (Some st') /\
      exists cells, view st' = Some cells /\ concat cells = [p].
Proof.
  exists 1, 1, exLo, exHi, (1 / 5), exGrow, exP, exH. cbv zeta. split; [exact ex_grid|]. split; [lra|]. split; [intros n; unfold exGrow; lia|].
  exists exSt2. split; [exact exReached2|]. split; [reflexivity|]. split; [reflexivity|]. split; [eexists; split; reflexivity|].
  exists exBack. split; [exact exUpdated|]. eexists; split; reflexivity.
Qed.
Print Assumptions C68_delete_all_refuted.

(** deleteHaloParticles moves particles in the vector, but the cells keep the old pointers.
    Afterwards one of them points behind the last particle. *)
Theorem C68_delete_halo_refuted : exists il csf bMin bMax skin grow p h,
  let b := rebuild rndExact il csf bMin bMax in
  validGrid il csf bMin bMax /\ 0 <= skin <= il /\ (forall n, (n < grow n)%nat) /\
  exists st st', Reached rndExact grow b il bMin bMax skin st [p; h] /\ pown p = 1%Z /\ pown h = 2%Z /\
    deleteHaloParticles b st = Some st' /\ view st' = None.
Proof.
  exists 1, 1, exLo, exHi, (1 / 5), exGrow, exP, exH. cbv zeta. split; [exact ex_grid|]. split; [lra|]. split; [intros n; unfold exGrow; lia|].
  exists exSt2, exHaloDeleted. split; [exact exReached2|]. split; [reflexivity|]. split; [reflexivity|]. split; [exact exHaloGone|reflexivity].
Qed.
Print Assumptions C68_delete_halo_refuted.
