(** C63: the forces after computeInteractions with the Axilrod-Teller functor. *)
From Coq Require Import Reals Lra List ZArith Permutation.
From Verif.Base Require Import ZRange.
From Verif.Grid Require Import CellBlockModel CellBlockSpec.
From Verif.Functor Require Import CellFunctorModel CellFunctor3BModel SortModel SortSpec.
From Verif.Container Require Import LinkedCellsModel LinkedCellsSpec LinkedCellsExample ParticleModel CombinedExample.
From Verif.Logic Require Import HandlerModel HandlerSpec HandlerProofs HandlerExample RemainderSpec ComputeModel ComputeSpec ComputeExample
  Remainder3Model Compute3Spec Compute3Example.
From Verif.MD Require Import MixingModel LJModel LJSpec LJComputeSpec LJComputeExample ATModel ATSpec ATComputeModel ATComputeSpec ATComputeTheorem ATComputeExample.
Import ListNotations.
Local Open Scope Z_scope.

(** The history [h] is as in C59.  The functor is set up for the interaction [fld] with the
    cutoff of the simulation, for the types of the particles; no two particles are at the
    same place or exactly at the cutoff distance.  Then computeInteractions in the AoS
    layout does not fail, for any traversal, Newton 3 mode and sorting threshold; and
    however its functor calls are ordered and distributed to [n] threads, afterwards every
    owned particle has got the sum of the forces of any two other owned and halo
    particles, and endTraversal yields the potential energy and the virial. *)
Theorem C63_forces : forall cutoff spt freq, validOptions cutoff spt freq -> forall f, (0 <= f)%R ->
  forall same, (forall x y : Particle, same x y = true <-> x = y) ->
  forall typeId cfg fld known, setUp3 cfg fld known -> atCutoff fld = cutoff ->
  forall s0 h s ks, validStart cutoff spt freq s0 -> properHistory cutoff spt freq s0 h s ->
  let calls := map fst h ++ [Compute false ks] in
  disciplined spt false calls -> computations calls < 2 ^ 32 -> additions (map fst h) < 2 ^ 64 - 1 ->
  calm spt (map fst h) -> calmImages spt (imageDistance cutoff spt freq f) (map fst h) ->
  factorAtMost f (kind (cont s0)) -> factorsAtMost f calls ->
  resizedSince false (map fst h) = false ->
  validCall cutoff spt freq s (Compute false ks) ->
  let visible := ownedParticles s ++ haloParticles s in
  NoDup visible -> generalPosition cutoff visible -> (forall p, In p visible -> known (typeId p)) ->
  forall view t newton3 threshold, (forall pos dir l, isSortedView pos dir l (view pos dir l)) ->
  suits3 cutoff spt freq (boxLo s) (boxHi s) (last ks (kind (cont s))) t newton3 ->
  exists functorCalls, computeCalls3 cutoff spt freq view s ks t newton3 threshold = Some functorCalls /\
    forall schedule n before, Permutation (map snd schedule) functorCalls -> (forall k, In k (map fst schedule) -> (k < n)%nat) ->
    exists after threads, runSchedule3 same typeId cfg schedule before (fun _ => noSums) = Some (after, threads) /\
      (forall p, In p (ownedParticles s) -> after p = radd (before p) (totalForce3 same typeId fld visible p)) /\
      (atGlobals cfg = true ->
        atEndTraversal (map threads (seq 0 n)) =
          (totalEnergy3 same typeId fld (ownedParticles s) visible, totalVirial3 same typeId fld (ownedParticles s) visible)).
Proof.
  exact (fun cutoff spt freq O f F same Eq typeId cfg fld known St Cu s0 h s ks V H D B Ad Ca Mv F0 Fa Re Vc Nd Gp Kn view t n3 th Hv Su =>
    compute_at cutoff spt freq O f F same Eq typeId cfg fld known St Cu s0 h s ks V H D B Ad Ca Re F0 Fa Mv Vc Nd Gp Kn view t n3 th Hv Su).
Qed.
Print Assumptions C63_forces.

(** The history of C59_example; the functor computes the globals; two of the owned
    particles exert a force on the third one. *)
Example C63_example : forall lib, exists s0 h s (view : (Slot -> R3) -> R3 -> list Slot -> list Slot) ks, map fst h = wEvents /\
  validOptions (1 / 2) (1 / 4) 2 /\ (forall x y, sameParticle x y = true <-> x = y) /\
  setUp3 (mkATC false true false (1 / 2 * (1 / 2)) 1 lib) wField (fun _ => True) /\ atCutoff wField = (1 / 2)%R /\
  validStart (1 / 2) (1 / 4) 2 s0 /\ properHistory (1 / 2) (1 / 4) 2 s0 h s /\
  disciplined (1 / 4) false (map fst h ++ [Compute false ks]) /\ computations (map fst h ++ [Compute false ks]) < 2 ^ 32 /\ additions (map fst h) < 2 ^ 64 - 1 /\
  calm (1 / 4) (map fst h) /\ calmImages (1 / 4) (imageDistance (1 / 2) (1 / 4) 2 1) (map fst h) /\
  factorAtMost 1 (kind (cont s0)) /\ factorsAtMost 1 (map fst h ++ [Compute false ks]) /\ resizedSince false (map fst h) = false /\
  validCall (1 / 2) (1 / 4) 2 s (Compute false ks) /\ NoDup (ownedParticles s ++ haloParticles s) /\
  generalPosition (1 / 2) (ownedParticles s ++ haloParticles s) /\
  (forall pos dir l, isSortedView pos dir l (view pos dir l)) /\
  suits3 (1 / 2) (1 / 4) 2 (boxLo s) (boxHi s) (last ks (kind (cont s))) LCC01 false /\
  exists a b c, In a (ownedParticles s) /\ In b (ownedParticles s) /\ In c (ownedParticles s) /\ forceOf3 (fun p => p) (fun _ => O) wField a b c <> rzero.
Proof.
  intros lib. destruct w_history as (h & s & E & V & P & B1 & B2 & Po & Ph).
  exists zStart, h, s, (fun pos => sortBy pos), [KDirectSum; KLinkedCells 1].
  rewrite E. split; [reflexivity|]. split; [exact x_opt|]. split; [exact sameParticle_eq|]. split; [exact (w_setup lib)|]. split; [reflexivity|].
  split; [exact V|]. split; [exact P|]. split; [exact w_disc|]. split; [reflexivity|]. split; [reflexivity|].
  split; [exact w_calm|]. split; [exact w_images|]. split; [exact (Rle_refl 1)|]. split; [exact w_factors|]. split; [reflexivity|].
  split; [cbn [validCall]; rewrite B1, B2; constructor; [exact Logic.I|constructor; [exact x_kind|constructor]]|].
  assert (Pv : Permutation (ownedParticles s ++ haloParticles s) (wOwned ++ wHalo)) by (apply Permutation_app; assumption).
  split; [apply (Permutation_NoDup (l := wOwned ++ wHalo)); [symmetry; exact Pv|exact w_nodup]|].
  split; [intros p q Hp Hq; apply w_position; apply (Permutation_in _ Pv); assumption|].
  split; [intros pos dir l; apply sortBy_sorted|]. split.
  { cbn [last suits3]. split; [reflexivity|]. rewrite B1, B2, x_il. unfold xLo, xHi. rewrite (proj1 ex_block). reflexivity. }
  exists (zAt 1 (1 / 8 + 1 / 8) 1), (zAt 2 (1 / 4 + 1 / 8) 1), (zAt 3 (3 / 8 + 1 / 8) 1).
  symmetry in Po. repeat (split; [apply (Permutation_in _ Po); cbn; tauto|]). exact w_force.
Qed.
