(** C59: what one interaction computation with a three-body functor adds, after any
    history of API calls. *)
From Coq Require Import Reals Lra List Permutation.
From Verif.Base Require Import ZRange.
From Verif.Grid Require Import IndexModel IndexSpec CellBlockModel CellBlockSpec.
From Verif.Functor Require Import CellFunctorModel SortModel SortSpec.
From Verif.Container Require Import LinkedCellsModel LinkedCellsSpec LinkedCellsExample ParticleModel CombinedExample.
From Verif.Logic Require Import HandlerModel HandlerSpec HandlerProofs HandlerExample RemainderSpec ComputeModel ComputeSpec ComputeExample
  Remainder3Model Compute3Spec Compute3Theorem Compute3Example.
Import ListNotations.
Local Open Scope Z_scope.

(** The history is as in C58 and adds fewer than 2^64 - 1 particles.  Then
    computeInteractions with a three-body functor, the containers [ks], a traversal [t]
    that goes with the last of them, any data layout, Newton 3 mode and sorting threshold
    does not fail, and every owned particle receives the force of any two other owned or
    halo particles exactly once, if the three are closer than the cutoff to each other.
    No triple of owned and halo particles contains a particle twice. *)
Theorem C59_exactly_once : forall cutoff spt freq, validOptions cutoff spt freq -> forall f, (0 <= f)%R ->
  forall s0 h s ks, validStart cutoff spt freq s0 -> properHistory cutoff spt freq s0 h s ->
  let calls := map fst h ++ [Compute false ks] in
  disciplined spt false calls -> computations calls < 2 ^ 32 -> additions (map fst h) < 2 ^ 64 - 1 ->
  calm spt (map fst h) -> calmImages spt (imageDistance cutoff spt freq f) (map fst h) ->
  factorAtMost f (kind (cont s0)) -> factorsAtMost f calls ->
  resizedSince false (map fst h) = false ->
  let visible := ownedParticles s ++ haloParticles s in
  validCall cutoff spt freq s (Compute false ks) -> NoDup visible ->
  forall view t layout newton3 threshold, (forall pos dir l, isSortedView pos dir l (view pos dir l)) ->
  suits3 cutoff spt freq (boxLo s) (boxHi s) (last ks (kind (cont s))) t newton3 ->
  exists triples, computeTriplets cutoff spt freq view s ks t layout newton3 threshold = Some triples /\
    (forall p q r, In p (ownedParticles s) -> In q visible -> In r visible -> p <> q -> p <> r -> q <> r ->
       closer cutoff (ppos p) (ppos q) -> closer cutoff (ppos p) (ppos r) -> closer cutoff (ppos q) (ppos r) ->
       tripleOnce p q r triples) /\
    (forall p q r, In p (ownedParticles s) -> In q visible -> In r visible -> In (p, (q, r)) triples ->
       p <> q /\ p <> r /\ q <> r).
Proof.
  exact (fun cutoff spt freq O f F s0 h s ks V H D B Ad Ca Mv F0 Fa Re Vc Nd view t lay n3 th Hv Su =>
    compute3_exact cutoff spt freq O f F s0 h s ks V H D B Ad Ca Re F0 Fa Mv Vc Nd view t lay n3 th Hv Su).
Qed.
Print Assumptions C59_exactly_once.

(** Two owned particles in the container, one in a buffer, one halo particle; they have
    moved since the cells were filled, and the computation copies the particles to
    direct sum and back.  One triple is in the container, with the halo particle, and one
    has a particle in a buffer. *)
Example C59_example : exists s0 h s (view : (Slot -> R3) -> R3 -> list Slot -> list Slot) ks, map fst h = wEvents /\
  validOptions (1 / 2) (1 / 4) 2 /\ validStart (1 / 2) (1 / 4) 2 s0 /\ properHistory (1 / 2) (1 / 4) 2 s0 h s /\
  disciplined (1 / 4) false (map fst h ++ [Compute false ks]) /\ computations (map fst h ++ [Compute false ks]) < 2 ^ 32 /\ additions (map fst h) < 2 ^ 64 - 1 /\
  calm (1 / 4) (map fst h) /\ calmImages (1 / 4) (imageDistance (1 / 2) (1 / 4) 2 1) (map fst h) /\
  factorAtMost 1 (kind (cont s0)) /\ factorsAtMost 1 (map fst h ++ [Compute false ks]) /\ resizedSince false (map fst h) = false /\
  validCall (1 / 2) (1 / 4) 2 s (Compute false ks) /\ NoDup (ownedParticles s ++ haloParticles s) /\
  (forall pos dir l, isSortedView pos dir l (view pos dir l)) /\
  suits3 (1 / 2) (1 / 4) 2 (boxLo s) (boxHi s) (last ks (kind (cont s))) LCC01 false /\
  exists a b c d, In a (ownedParticles s) /\ In b (ownedParticles s) /\ In c (ownedParticles s) /\ In d (haloParticles s) /\
    near3 a b c /\ near3 a b d.
Proof.
  destruct w_history as (h & s & E & V & P & B1 & B2 & Po & Ph).
  exists zStart, h, s, (fun pos => sortBy pos), [KDirectSum; KLinkedCells 1].
  rewrite E. split; [reflexivity|]. split; [exact x_opt|]. split; [exact V|]. split; [exact P|]. split; [exact w_disc|]. split; [reflexivity|]. split; [reflexivity|].
  split; [exact w_calm|]. split; [exact w_images|]. split; [exact (Rle_refl 1)|]. split; [exact w_factors|]. split; [reflexivity|].
  split; [cbn [validCall]; rewrite B1, B2; constructor; [exact Logic.I|constructor; [exact x_kind|constructor]]|].
  split; [apply (Permutation_NoDup (l := wOwned ++ wHalo)); [symmetry; apply Permutation_app; assumption|exact w_nodup]|].
  split; [intros pos dir l; apply sortBy_sorted|]. split.
  { cbn [last suits3]. split; [reflexivity|]. rewrite B1, B2, x_il. unfold xLo, xHi. rewrite (proj1 ex_block). reflexivity. }
  exists (zAt 1 (1 / 8 + 1 / 8) 1), (zAt 2 (1 / 4 + 1 / 8) 1), (zAt 3 (3 / 8 + 1 / 8) 1), (zAt 9 (-1 / 16) 2).
  symmetry in Po, Ph. repeat (split; [first [apply (Permutation_in _ Po); cbn; tauto|apply (Permutation_in _ Ph); left; reflexivity]|]). exact w_close.
Qed.
