(** C28, C29: for how long neighbour lists are used, and that they are complete. *)
From Coq Require Import Reals List.
From Verif.Base Require Import ZRange.
From Verif.Functor Require Import SortModel SortSpec.
From Verif.Container Require Import ParticleModel.
From Verif.Logic Require Import HandlerModel HandlerSpec HandlerAge HandlerTotal HandlerExample.
Import ListNotations.
Local Open Scope Z_scope.

(** Lists that are used were built by an earlier computation, and there have been at most
    [freq] updates since. *)
Theorem C28_schedule : forall cutoff spt freq, validOptions cutoff spt freq ->
  forall s0 h s, validStart cutoff spt freq s0 -> history cutoff spt freq s0 h s -> computations (map fst h) < 2 ^ 32 ->
  rebuildsLists s = false ->
  exists h1 pw ks h2 sa sb, h = h1 ++ (Compute pw ks, []) :: h2 /\
    history cutoff spt freq s0 h1 sa /\ rebuildsLists sa = true /\ step cutoff spt freq sa (Compute pw ks) (Some (sb, [])) /\
    reusing cutoff spt freq sb h2 s /\ updates (map fst h2) <= freq.
Proof. exact rebuild_schedule. Qed.
Print Assumptions C28_schedule.

(** After 2^32 computations lists are used without any bound. *)
Theorem C28_wraparound_refuted : exists cutoff spt freq, validOptions cutoff spt freq /\ forall n, exists s0 s1 h2 pw ks s,
  validStart cutoff spt freq s0 /\ rebuildsLists s0 = true /\ step cutoff spt freq s0 (Compute pw ks) (Some (s1, [])) /\
  reusing cutoff spt freq s1 h2 s /\ rebuildsLists s = false /\ updates (map fst h2) = Z.of_nat n.
Proof.
  exists (1 / 2)%R, (1 / 4)%R, 2. split; [exact x_opt|]. intros n. destruct (wraparound_refuted n) as (h2 & s1 & s & W).
  exists (initial (1 / 2) (1 / 4) 2 KDirectSum xLo xHi 0), s1, h2, false, [], s. exact W.
Qed.
Print Assumptions C28_wraparound_refuted.

(** A computation can change the container while the lists are considered valid; then no
    lists are built for the new one. *)
Theorem C28_switch_refuted : exists cutoff spt freq s h s1 k s2,
  validOptions cutoff spt freq /\ validStart cutoff spt freq s /\ properHistory cutoff spt freq s h s1 /\ disciplined spt false (map fst h) /\
  rebuildsLists s1 = false /\ step cutoff spt freq s1 (Compute false [k]) (Some (s2, [])) /\
  kind (cont s1) <> kind (cont s2) /\ kind (cont s2) = k /\ rebuildsLists s2 = false.
Proof.
  exists (1 / 2)%R, (1 / 4)%R, 2, (initial (1 / 2) (1 / 4) 2 KDirectSum xLo xHi 1).
  destruct switch_refuted as (h & s1 & s2 & V & P & D & R & S & K1 & K2 & R2). exists h, s1, (KLinkedCells 1), s2.
  refine (conj x_opt (conj V (conj P (conj D (conj R (conj S (conj _ (conj K2 R2)))))))). rewrite K1, K2. discriminate.
Qed.
Print Assumptions C28_switch_refuted.

(** While lists are used and particles move by at most half of the skin per step, any two
    particles closer than the cutoff were closer than cutoff plus skin when the lists
    were built. *)
Theorem C29_complete : forall cutoff spt freq, validOptions cutoff spt freq ->
  forall s0 h s pw ks, validStart cutoff spt freq s0 -> history cutoff spt freq s0 h s -> computations (map fst h) < 2 ^ 32 ->
  disciplined spt false (map fst h ++ [Compute pw ks]) -> calm spt (map fst h) -> rebuildsLists s = false ->
  exists h1 pw' ks' h2 sa sb, h = h1 ++ (Compute pw' ks', []) :: h2 /\
    history cutoff spt freq s0 h1 sa /\ rebuildsLists sa = true /\ step cutoff spt freq sa (Compute pw' ks') (Some (sb, [])) /\
    reusing cutoff spt freq sb h2 s /\
    (forall p, travelled spt (map fst h2) (ppos p) (ppos (carried (map fst h2) p))) /\
    forall x x' y y', travelled spt (map fst h2) x x' -> travelled spt (map fst h2) y y' ->
      (dist3 x' y' < cutoff -> dist3 x y < cutoff + spt * IZR freq)%R /\
      (dist3 x' y' <= cutoff -> dist3 x y <= cutoff + spt * IZR freq)%R.
Proof. exact complete_lists. Qed.
Print Assumptions C29_complete.

(** A pair at the cutoff exactly may be missing: list generation requires a distance
    below cutoff plus skin (VerletListHelpers.h:73, 113, 160). *)
Theorem C29_boundary_refuted : exists cutoff spt freq es p q, validOptions cutoff spt freq /\
  disciplined spt false es /\ calm spt es /\ updates es <= freq /\
  (dist3 (ppos (carried es p)) (ppos (carried es q)) <= cutoff)%R /\ ~ (dist3 (ppos p) (ppos q) < cutoff + spt * IZR freq)%R.
Proof.
  exists (1 / 2)%R, (1 / 4)%R, 2, [Move yMove; Update false; Move yMove; Update false], yA, yB. destruct boundary_refuted as (D & C & U & N & F).
  rewrite U. exact (conj x_opt (conj D (conj C (conj (Z.le_refl 2) (conj N F))))).
Qed.
Print Assumptions C29_boundary_refuted.

Example C28_example : exists s0 h s, map fst h = xEvents /\ validOptions (1 / 2) (1 / 4) 2 /\ validStart (1 / 2) (1 / 4) 2 s0 /\ history (1 / 2) (1 / 4) 2 s0 h s /\
  computations (map fst h) < 2 ^ 32 /\ disciplined (1 / 4) false (map fst h ++ [Compute true []]) /\ calm (1 / 4) (map fst h) /\ rebuildsLists s = false.
Proof.
  destruct x_history as (h & s & E & V & P & H & D & C & M & Q & R).
  exists (initial (1 / 2) (1 / 4) 2 (KLinkedCells 1) xLo xHi 1), h, s. refine (conj E (conj x_opt (conj V (conj H (conj C (conj _ (conj Q R))))))).
  rewrite E. cbn [app xEvents disciplined]. repeat split; apply x_within.
Qed.
