(** C58: what one interaction computation adds, after any history of API calls. *)
From Coq Require Import Reals Lra List Permutation.
From Verif.Base Require Import ZRange.
From Verif.Grid Require Import CellBlockModel CellBlockSpec.
From Verif.Traversal Require Import C08Model.
From Verif.Functor Require Import CellFunctorModel SortModel SortSpec.
From Verif.Container Require Import LinkedCellsModel LinkedCellsSpec LinkedCellsExample ParticleModel.
From Verif.Logic Require Import HandlerModel HandlerSpec HandlerProofs HandlerExample RemainderSpec ComputeModel ComputeSpec ComputeTheorem ComputeExample.
Import ListNotations.
Local Open Scope Z_scope.

(** The history [h] consists of permitted calls; particles, and the images of particles
    in the halo, move by at most half of the skin per time step, with an update in
    between ([f] bounds the cell size factors); the box was not resized since the last
    update.  Then computeInteractions with the containers [ks] and any traversal [t],
    data layout, Newton 3 mode and sorting threshold does not fail, and every owned
    particle receives the force of every other owned or halo particle closer than the
    cutoff exactly once, and never its own. *)
Theorem C58_exactly_once : forall cutoff spt freq, validOptions cutoff spt freq -> forall f, (0 <= f)%R ->
  forall s0 h s ks, validStart cutoff spt freq s0 -> properHistory cutoff spt freq s0 h s ->
  let calls := map fst h ++ [Compute true ks] in
  disciplined spt false calls -> computations calls < 2 ^ 32 ->
  calm spt (map fst h) -> calmImages spt (imageDistance cutoff spt freq f) (map fst h) ->
  factorAtMost f (kind (cont s0)) -> factorsAtMost f calls ->
  resizedSince false (map fst h) = false ->
  validCall cutoff spt freq s (Compute true ks) -> NoDup (ownedParticles s ++ haloParticles s) ->
  forall view t layout newton3 threshold, (forall pos dir l, isSortedView pos dir l (view pos dir l)) ->
  suits cutoff spt freq (boxLo s) (boxHi s) (last ks (kind (cont s))) t newton3 ->
  exists pairs, computePairs cutoff spt freq view s ks t layout newton3 threshold = Some pairs /\
    (forall p q, In p (ownedParticles s) -> In q (ownedParticles s ++ haloParticles s) -> p <> q ->
       closer cutoff (ppos p) (ppos q) -> exactlyOnce (p, q) pairs) /\
    (forall p, In p (ownedParticles s) -> ~ In (p, p) pairs).
Proof.
  exact (fun cutoff spt freq O f F s0 h s ks V H D B Ca Mv F0 Fa Re Vc Nd view t lay n3 th Hv Su =>
    compute_exact cutoff spt freq O f F s0 h s ks V H D B Ca Re F0 Fa Mv Vc Nd view t lay n3 th Hv Su).
Qed.
Print Assumptions C58_exactly_once.

(** Two owned particles in the container, one in a buffer, one halo particle; they have
    moved since the cells were filled, and the computation copies the particles to
    direct sum and back.  Pairs in the container, of the container and the halo, and of
    the container and a buffer are closer than the cutoff. *)
Example C58_example : exists s0 h s (view : (Slot -> R3) -> R3 -> list Slot -> list Slot) ks bases, map fst h = zEvents /\
  validOptions (1 / 2) (1 / 4) 2 /\ validStart (1 / 2) (1 / 4) 2 s0 /\ properHistory (1 / 2) (1 / 4) 2 s0 h s /\
  disciplined (1 / 4) false (map fst h ++ [Compute true ks]) /\ computations (map fst h ++ [Compute true ks]) < 2 ^ 32 /\
  calm (1 / 4) (map fst h) /\ calmImages (1 / 4) (imageDistance (1 / 2) (1 / 4) 2 1) (map fst h) /\
  factorAtMost 1 (kind (cont s0)) /\ factorsAtMost 1 (map fst h ++ [Compute true ks]) /\ resizedSince false (map fst h) = false /\
  validCall (1 / 2) (1 / 4) 2 s (Compute true ks) /\ NoDup (ownedParticles s ++ haloParticles s) /\
  (forall pos dir l, isSortedView pos dir l (view pos dir l)) /\
  suits (1 / 2) (1 / 4) 2 (boxLo s) (boxHi s) (last ks (kind (cont s))) (LCC08 bases) true /\
  exists a b c d, In a (ownedParticles s) /\ In b (ownedParticles s) /\ In c (ownedParticles s) /\ In d (haloParticles s) /\
    closer (1 / 2) (ppos a) (ppos d) /\ closer (1 / 2) (ppos a) (ppos b) /\ closer (1 / 2) (ppos b) (ppos c).
Proof.
  destruct z_history as (h & s & E & V & P & B1 & B2 & Po & Ph).
  exists zStart, h, s, (fun pos => sortBy pos), [KDirectSum; KLinkedCells 1].
  eexists. rewrite E. split; [reflexivity|]. split; [exact x_opt|]. split; [exact V|]. split; [exact P|]. split; [exact z_disc|]. split; [reflexivity|].
  split; [exact z_calm|]. split; [exact z_images|]. split; [exact (Rle_refl 1)|]. split; [exact z_factors|]. split; [reflexivity|].
  split; [cbn [validCall]; rewrite B1, B2; constructor; [exact Logic.I|constructor; [exact x_kind|constructor]]|].
  split; [apply (Permutation_NoDup (l := zOwned ++ zHalo)); [symmetry; apply Permutation_app; assumption|exact z_nodup]|].
  split; [intros pos dir l; apply sortBy_sorted|]. split; [cbn [last suits]; reflexivity|].
  exists (zAt 1 (1 / 4 + 1 / 8) 1), (zAt 2 (1 / 2 + 1 / 8) 1), (zAt 3 (11 / 16 + 1 / 8) 1), (zAt 9 (-1 / 16) 2).
  symmetry in Po, Ph. repeat (split; [first [apply (Permutation_in _ Po); cbn; tauto|apply (Permutation_in _ Ph); left; reflexivity]|]). exact z_close.
Qed.
