(** C61: the forces after computeInteractions with the Lennard-Jones functor. *)
From Coq Require Import Reals Lra List ZArith Permutation.
From Verif.Base Require Import ZRange.
From Verif.Grid Require Import CellBlockModel CellBlockSpec.
From Verif.Traversal Require Import C08Model.
From Verif.Functor Require Import CellFunctorModel SortModel SortSpec.
From Verif.Container Require Import LinkedCellsModel LinkedCellsSpec LinkedCellsExample ParticleModel.
From Verif.Logic Require Import HandlerModel HandlerSpec HandlerProofs HandlerExample RemainderModel RemainderSpec ComputeModel ComputeSpec ComputeTheorem ComputeExample.
From Verif.MD Require Import MixingModel LJModel LJSpec LJComputeModel LJComputeSpec LJComputeTheorem LJComputeExample.
Import ListNotations.
Local Open Scope Z_scope.

(** The history [h] is as in C58.  The functor is set up for the interaction [fld] with
    the cutoff of the simulation, for the types of the particles; no two particles are at
    the same place or exactly at the cutoff distance.  Then computeInteractions does not
    fail, for any traversal, data layout, Newton 3 mode and sorting threshold; and
    however its functor calls are ordered and distributed to [n] threads, afterwards
    every owned particle has got the sum of the Lennard-Jones forces of all other owned
    and halo particles, and endTraversal yields the potential energy and the virial. *)
Theorem C61_forces : forall cutoff spt freq, validOptions cutoff spt freq -> forall f, (0 <= f)%R ->
  forall same, (forall x y : Particle, same x y = true <-> x = y) ->
  forall typeId cfg fld known, setUp cfg fld known -> cutoffOf fld = cutoff ->
  forall s0 h s ks, validStart cutoff spt freq s0 -> properHistory cutoff spt freq s0 h s ->
  let calls := map fst h ++ [Compute true ks] in
  disciplined spt false calls -> computations calls < 2 ^ 32 ->
  calm spt (map fst h) -> calmImages spt (imageDistance cutoff spt freq f) (map fst h) ->
  factorAtMost f (kind (cont s0)) -> factorsAtMost f calls ->
  resizedSince false (map fst h) = false ->
  validCall cutoff spt freq s (Compute true ks) ->
  let visible := ownedParticles s ++ haloParticles s in
  NoDup visible -> generalPosition cutoff visible -> (forall p, In p visible -> known (typeId p)) ->
  forall view t layout newton3 threshold, (forall pos dir l, isSortedView pos dir l (view pos dir l)) ->
  suits cutoff spt freq (boxLo s) (boxHi s) (last ks (kind (cont s))) t newton3 ->
  exists functorCalls, computeCalls cutoff spt freq view s ks t layout newton3 threshold = Some functorCalls /\
    forall schedule n before, Permutation (map snd schedule) functorCalls -> (forall k, In k (map fst schedule) -> (k < n)%nat) ->
    exists after threads, runSchedule same typeId cfg schedule before (fun _ => noSums) = Some (after, threads) /\
      (forall p, In p (ownedParticles s) -> after p = radd (before p) (totalForce same typeId fld visible p)) /\
      (calcGlobals cfg = true ->
        endTraversal (map threads (seq 0 n)) =
          (totalEnergy same typeId fld (ownedParticles s) visible, totalVirial same typeId fld (ownedParticles s) visible)).
Proof.
  exact (fun cutoff spt freq O f F same Eq typeId cfg fld known St Cu s0 h s ks V H D B Ca Mv F0 Fa Re Vc Nd Gp Kn view t lay n3 th Hv Su =>
    compute_lj cutoff spt freq O f F same Eq typeId cfg fld known St Cu s0 h s ks V H D B Ca Re F0 Fa Mv Vc Nd Gp Kn view t lay n3 th Hv Su).
Qed.
Print Assumptions C61_forces.

(** That no pair is exactly at the cutoff distance is needed: the functor computes such a
    pair, the remainder traversal hands it over only if the particle in the container is
    on the lower side of the one in the buffer (forEachInRegion is half-open). *)
Theorem C61_at_cutoff_refuted : exists p q, distance (ppos p) (ppos q) = cutoffOf zField /\
  forceOf (fun x => x) (fun _ => O) zField p q <> rzero /\
  (exists calls, twoCalls p q = Some calls /\ ~ In (p, q) (flat_map forces calls)) /\
  (exists p' q' calls, ppos p' = ppos q /\ ppos q' = ppos p /\ twoCalls p' q' = Some calls /\ In (p', q') (flat_map forces calls)).
Proof.
  exists (zAt 1 0 1), (zAt 2 (1 / 2) 1). split; [rewrite z_distance; cbn [cutoffOf zField]; rewrite <- Rabs_Ropp, Rabs_pos_eq; lra|]. split; [exact at_cutoff|]. split.
  - eexists. split; [exact two_right|]. intros [].
  - exists (zAt 1 (1 / 2) 1), (zAt 2 0 1). eexists. split; [reflexivity|]. split; [reflexivity|]. split; [exact two_left|]. left. reflexivity.
Qed.
Print Assumptions C61_at_cutoff_refuted.

(** The history of C58_example; the functor computes the globals; two of the owned
    particles repel each other. *)
Example C61_example : forall lib, exists s0 h s (view : (Slot -> R3) -> R3 -> list Slot -> list Slot) ks bases, map fst h = zEvents /\
  validOptions (1 / 2) (1 / 4) 2 /\ (forall x y, sameParticle x y = true <-> x = y) /\
  setUp (setParticleProperties (24 * 1) (1 / 4 * (1 / 4)) (mkLJC false false true false (1 / 2 * (1 / 2)) (mkLJ 0 0 0) lib)) zField (fun _ => True) /\
  cutoffOf zField = (1 / 2)%R /\ validStart (1 / 2) (1 / 4) 2 s0 /\ properHistory (1 / 2) (1 / 4) 2 s0 h s /\
  disciplined (1 / 4) false (map fst h ++ [Compute true ks]) /\ computations (map fst h ++ [Compute true ks]) < 2 ^ 32 /\
  calm (1 / 4) (map fst h) /\ calmImages (1 / 4) (imageDistance (1 / 2) (1 / 4) 2 1) (map fst h) /\
  factorAtMost 1 (kind (cont s0)) /\ factorsAtMost 1 (map fst h ++ [Compute true ks]) /\ resizedSince false (map fst h) = false /\
  validCall (1 / 2) (1 / 4) 2 s (Compute true ks) /\ NoDup (ownedParticles s ++ haloParticles s) /\
  generalPosition (1 / 2) (ownedParticles s ++ haloParticles s) /\
  (forall pos dir l, isSortedView pos dir l (view pos dir l)) /\
  suits (1 / 2) (1 / 4) 2 (boxLo s) (boxHi s) (last ks (kind (cont s))) (LCC08 bases) true /\
  exists a b, In a (ownedParticles s) /\ In b (ownedParticles s) /\ forceOf (fun p => p) (fun _ => O) zField a b <> rzero.
Proof.
  intros lib. destruct z_history as (h & s & E & V & P & B1 & B2 & Po & Ph).
  exists zStart, h, s, (fun pos => sortBy pos), [KDirectSum; KLinkedCells 1].
  eexists. rewrite E. split; [reflexivity|]. split; [exact x_opt|]. split; [exact sameParticle_eq|]. split; [exact (z_setup lib)|]. split; [reflexivity|].
  split; [exact V|]. split; [exact P|]. split; [exact z_disc|]. split; [reflexivity|].
  split; [exact z_calm|]. split; [exact z_images|]. split; [exact (Rle_refl 1)|]. split; [exact z_factors|]. split; [reflexivity|].
  split; [cbn [validCall]; rewrite B1, B2; constructor; [exact Logic.I|constructor; [exact x_kind|constructor]]|].
  assert (Pv : Permutation (ownedParticles s ++ haloParticles s) (zOwned ++ zHalo)) by (apply Permutation_app; assumption).
  split; [apply (Permutation_NoDup (l := zOwned ++ zHalo)); [symmetry; exact Pv|exact z_nodup]|].
  split; [intros p q Hp Hq; apply z_position; apply (Permutation_in _ Pv); assumption|].
  split; [intros pos dir l; apply sortBy_sorted|]. split; [cbn [last suits]; reflexivity|].
  exists (zAt 1 (1 / 4 + 1 / 8) 1), (zAt 2 (1 / 2 + 1 / 8) 1).
  symmetry in Po. repeat (split; [apply (Permutation_in _ Po); cbn; tauto|]). exact z_force.
Qed.
