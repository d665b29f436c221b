(** C26, C27: conservation of particles and counters over histories of API calls. *)
From Coq Require Import Reals List Permutation.
From Verif.Base Require Import ZRange.
From Verif.Grid Require Import CellBlockSpec.
From Verif.Functor Require Import SortModel.
From Verif.Container Require Import ParticleModel.
From Verif.Logic Require Import HandlerModel HandlerSpec HandlerProofs HandlerExact HandlerTotal HandlerHalo HandlerImages HandlerExample.
Import ListNotations.
Local Open Scope Z_scope.

(** Whatever is called in whatever order: the owned particles that are stored are those
    that were added, at the positions they were moved to, without those deleted or
    returned; all returned particles are outside of the box. *)
Theorem C26_conserved : forall cutoff spt freq s h s', validStart cutoff spt freq s -> history cutoff spt freq s h s' ->
  ledger (mkLedger (boxLo s) (boxHi s) []) h (mkLedger (boxLo s') (boxHi s') (ownedParticles s')).
Proof. exact history_conserved. Qed.
Print Assumptions C26_conserved.

(** If particles move by at most the skin per step, and the container is updated in
    between: updateContainer returns exactly the owned particles outside of the box. *)
Theorem C26_exact : forall cutoff spt freq, validOptions cutoff spt freq ->
  forall s h s1 b s2 out, validStart cutoff spt freq s -> history cutoff spt freq s h s1 ->
  disciplined spt false (map fst h) -> computations (map fst h) < 2 ^ 32 ->
  step cutoff spt freq s1 (Update b) (Some (s2, out)) ->
  Permutation (ownedParticles s1) (out ++ ownedParticles s2) /\
  Forall (fun p => ~ inBox (boxLo s1) (boxHi s1) (ppos p)) out /\
  Forall (fun p => inBox (boxLo s1) (boxHi s1) (ppos p)) (ownedParticles s2).
Proof. exact exact_update. Qed.
Print Assumptions C26_exact.

(** A call that is permitted neither throws nor has undefined behaviour. *)
Theorem C26_no_failure : forall cutoff spt freq, validOptions cutoff spt freq ->
  forall s h s1 e, validStart cutoff spt freq s -> properHistory cutoff spt freq s h s1 ->
  disciplined spt false (map fst h ++ [e]) -> computations (map fst h ++ [e]) < 2 ^ 32 ->
  validCall cutoff spt freq s1 e -> properCall cutoff spt freq s1 e ->
  (exists r, step cutoff spt freq s1 e (Some r)) /\ ~ step cutoff spt freq s1 e None.
Proof. exact no_failure. Qed.
Print Assumptions C26_no_failure.

(** resizeBox, unlike updateContainer, can leave an owned particle outside of the box. *)
Theorem C26_resize_refuted : exists cutoff spt freq s h s1 lo hi s2 p,
  validOptions cutoff spt freq /\ validStart cutoff spt freq s /\ properHistory cutoff spt freq s h s1 /\ disciplined spt false (map fst h) /\
  validCall cutoff spt freq s1 (Resize lo hi) /\ properCall cutoff spt freq s1 (Resize lo hi) /\
  step cutoff spt freq s1 (Resize lo hi) (Some (s2, [])) /\ In p (ownedParticles s2) /\ ~ inBox (boxLo s2) (boxHi s2) (ppos p).
Proof.
  exists (1 / 2)%R, (1 / 4)%R, 2, (initial (1 / 2) (1 / 4) 2 KDirectSum xLo xHi 1).
  destruct resize_refuted as (h & s1 & s2 & R). exists h, s1, xLo, (mkR3 2 3 3), s2, xB. exact (conj x_opt R).
Qed.
Print Assumptions C26_resize_refuted.

(** The number of owned particles is always exact. *)
Theorem C27_owned : forall cutoff spt freq s h s', validStart cutoff spt freq s -> history cutoff spt freq s h s' ->
  nOwned s' = Z.of_nat (length (ownedParticles s')).
Proof. exact history_count. Qed.
Print Assumptions C27_owned.

(** The number of halo particles, if they are images of particles that move by at most
    the skin per step and different images of a particle are not close to each other
    ([f] bounds the cell size factors); an update removes all of them. *)
Theorem C27_halo : forall cutoff spt freq, validOptions cutoff spt freq ->
  forall s h s1, validStart cutoff spt freq s -> properHistory cutoff spt freq s h s1 ->
  disciplined spt false (map fst h) -> computations (map fst h) < 2 ^ 32 ->
  forall f, (0 <= f)%R -> factorAtMost f (kind (cont s)) -> factorsAtMost f (map fst h) -> movingImages spt (imageDistance cutoff spt freq f) (map fst h) ->
  nHalo s1 = Z.of_nat (length (haloParticles s1)) /\
  forall b s2 out, step cutoff spt freq s1 (Update b) (Some (s2, out)) -> haloParticles s2 = [].
Proof. intros cutoff spt freq O s h s1 V H D B f F. exact (halo_count cutoff spt freq O f F s h s1 V H D B). Qed.
Print Assumptions C27_halo.

(** Under the same conditions the halo particles that are stored are exactly those
    passed to addHaloParticle since the last update, without those deleted. *)
Theorem C27_halo_content : forall cutoff spt freq, validOptions cutoff spt freq ->
  forall s h s1, validStart cutoff spt freq s -> properHistory cutoff spt freq s h s1 ->
  disciplined spt false (map fst h) -> computations (map fst h) < 2 ^ 32 ->
  forall f, (0 <= f)%R -> factorAtMost f (kind (cont s)) -> factorsAtMost f (map fst h) -> movingImages spt (imageDistance cutoff spt freq f) (map fst h) ->
  images [] (map fst h) (haloParticles s1).
Proof. intros cutoff spt freq O s h s1 V H D B f F. exact (images_stored cutoff spt freq O f F s h s1 V H D B). Qed.
Print Assumptions C27_halo_content.

(** It is not exact if a halo particle is passed twice. *)
Theorem C27_twice_refuted : exists cutoff spt freq s h s1,
  validOptions cutoff spt freq /\ validStart cutoff spt freq s /\ properHistory cutoff spt freq s h s1 /\ disciplined spt false (map fst h) /\
  nHalo s1 = 2 /\ length (haloParticles s1) = 1%nat.
Proof.
  exists (1 / 2)%R, (1 / 4)%R, 2, (initial (1 / 2) (1 / 4) 2 KDirectSum xLo xHi 1).
  destruct twice_refuted as (h & s1 & R). exists h, s1. exact (conj x_opt R).
Qed.
Print Assumptions C27_twice_refuted.

(** Linked cells, then direct sum, then linked cells; one particle leaves, one is added
    to a buffer, a halo particle moves. *)
Example C26_example : exists s0 h s, map fst h = xEvents /\ validOptions (1 / 2) (1 / 4) 2 /\ validStart (1 / 2) (1 / 4) 2 s0 /\
  properHistory (1 / 2) (1 / 4) 2 s0 h s /\ history (1 / 2) (1 / 4) 2 s0 h s /\
  disciplined (1 / 4) false (map fst h) /\ computations (map fst h) < 2 ^ 32 /\ 
  factorAtMost 1 (kind (cont s0)) /\ factorsAtMost 1 (map fst h) /\ movingImages (1 / 4) (imageDistance (1 / 2) (1 / 4) 2 1) (map fst h).
Proof.
  destruct x_history as (h & s & E & V & P & H & D & C & M & _).
  exists (initial (1 / 2) (1 / 4) 2 (KLinkedCells 1) xLo xHi 1), h, s. exact (conj E (conj x_opt (conj V (conj P (conj H (conj D (conj C (conj (Rle_refl 1) (conj (eq_ind_r (factorsAtMost 1) x_factors E) M))))))))).
Qed.
