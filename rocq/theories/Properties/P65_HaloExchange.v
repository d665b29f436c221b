(** C65: the exchange of halo particles between the ranks of md-flexible. *)
From Coq Require Import Reals Lra List ZArith Lia Bool.
From Verif.Grid Require Import IndexModel.
From Verif.Functor Require Import SortModel.
From Verif.Container Require Import ParticleModel.
From Verif.Flex Require Import DomainModel DomainSpec ExchangeModel ExchangeSpec HaloTheorem BalanceProofs FlexExample FlexRefuted.
Import ListNotations.
Local Open Scope R_scope.

(** Every rank has its particles in its box, the boxes divide the global box and are at least
    twice as wide as cutoff and skin, and a dimension with walls is divided only if no
    dimension before takes part in the exchange.  Then the exchange ends on every rank, and
    the rank gets as halo particles, each once, exactly the images of the particles of all
    ranks less than cutoff and skin outside of its box, through periodic boundaries. *)
Theorem C65_halo : forall cfg w B, gridOf (globalMin cfg) (globalMax cfg) (decomposition cfg) w (boxes cfg) B ->
  distinguishable (globalMin cfg) (globalMax cfg) w -> 0 < cutoffWidth cfg -> 0 <= skin cfg -> 2 * (cutoffWidth cfg + skin cfg) <= w ->
  (forall a, exchangeable cfg a) ->
  forall owned, (forall r p, isRank (decomposition cfg) r -> In p (owned r) -> inRankBox (boxes cfg) r (ppos p)) ->
  (forall r, isRank (decomposition cfg) r -> NoDup (owned r)) ->
  forall r, isRank (decomposition cfg) r ->
  exists halo, exchangeHaloParticles cfg owned r = Some halo /\ NoDup halo /\ forall q, In q halo <-> haloImage cfg owned r q.
Proof. exact halo_exchange. Qed.
Print Assumptions C65_halo.

(** The same for the boxes of the ranks after any number of load balancing steps. *)
Theorem C65_history : forall cfg, 0 < cutoffWidth cfg -> 0 <= skin cfg -> (forall a, exchangeable cfg a) ->
  suitable (globalMin cfg) (globalMax cfg) (decomposition cfg) (2 * (cutoffWidth cfg + skin cfg)) ->
  reachableBoxes (globalMin cfg) (globalMax cfg) (decomposition cfg) (2 * (cutoffWidth cfg + skin cfg)) (boxes cfg) ->
  forall owned, (forall r p, isRank (decomposition cfg) r -> In p (owned r) -> inRankBox (boxes cfg) r (ppos p)) ->
  (forall r, isRank (decomposition cfg) r -> NoDup (owned r)) ->
  forall r, isRank (decomposition cfg) r ->
  exists halo, exchangeHaloParticles cfg owned r = Some halo /\ NoDup halo /\ forall q, In q halo <-> haloImage cfg owned r q.
Proof.
  intros cfg Hc Hs Ex Su Re owned Ow Nd r Hr. destruct (reachable_grid _ _ _ _ _ Su Re) as [B G]. destruct Su as (_ & Ds & _).
  exact (halo_exchange cfg _ B G Ds Hc Hs (Rle_refl _) Ex owned Ow Nd r Hr).
Qed.
Print Assumptions C65_history.
(** Four ranks; rank 2 gets the image of a particle of rank 0 across an edge. *)
Example C65_example : suitable exMin exMax exGrid (2 * (1 + 1 / 2)) /\ reachableBoxes exMin exMax exGrid (2 * (1 + 1 / 2)) (boxes exConfig) /\
  (forall a, exchangeable exConfig a) /\ (forall r p, isRank exGrid r -> In p (exOwned r) -> inRankBox (boxes exConfig) r (ppos p)) /\
  (forall r, isRank exGrid r -> NoDup (exOwned r)) /\ haloImage exConfig exOwned 2 exImage.
Proof.
  split; [replace (2 * (1 + 1 / 2)) with 3 by lra; exact ex_suitable|]. split; [constructor|]. split; [now left|]. split; [exact ex_owned|]. split; [|exact ex_image].
  intros r _. unfold exOwned. destruct (r =? 0)%Z; [constructor; [intros []|constructor]|constructor].
Qed.

(** If a dimension with walls is divided and an earlier dimension is exchanged, a rank at
    the wall gets particles from the opposite wall. *)
Theorem C65_walls_refuted : exists cfg w B owned q, gridOf (globalMin cfg) (globalMax cfg) (decomposition cfg) w (boxes cfg) B /\
  distinguishable (globalMin cfg) (globalMax cfg) w /\ 0 < cutoffWidth cfg /\ 0 <= skin cfg /\ 2 * (cutoffWidth cfg + skin cfg) <= w /\
  (forall r p, In p (owned r) -> inRankBox (boxes cfg) r (ppos p)) /\ isRank (decomposition cfg) 1 /\
  (exists halo, exchangeHaloParticles cfg owned 1 = Some halo /\ In q halo) /\ ~ haloImage cfg owned 1 q.
Proof. exact halo_wall_refuted. Qed.
Print Assumptions C65_walls_refuted.
(** If a box is wider than cutoff and skin but not twice as wide, an image is missing. *)
Theorem C65_narrow_refuted : exists cfg owned q, 0 < cutoffWidth cfg /\ 0 <= skin cfg /\ (forall a, exchangeable cfg a) /\ isRank (decomposition cfg) 0 /\
  (forall a, cutoffWidth cfg + skin cfg <= at3 a (boxMax (boxes cfg) 0) - at3 a (boxMin (boxes cfg) 0)) /\
  (forall r p, In p (owned r) -> inRankBox (boxes cfg) r (ppos p)) /\
  haloImage cfg owned 0 q /\ exists halo, exchangeHaloParticles cfg owned 0 = Some halo /\ ~ In q halo.
Proof. exact halo_narrow_refuted. Qed.
Print Assumptions C65_narrow_refuted.
