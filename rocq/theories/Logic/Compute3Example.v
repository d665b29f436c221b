(** A history after which three-body interactions are computed. *)
From Coq Require Import Reals Lra List Permutation.
From Verif.Base Require Import ZRange.
From Verif.Grid Require Import IndexModel IndexSpec CellBlockModel CellBlockSpec.
From Verif.Traversal Require Import C08Model.
From Verif.Functor Require Import CellFunctorModel SortModel SortSpec.
From Verif.Container Require Import LinkedCellsModel IteratorModel LinkedCellsSpec LinkedCellsGeo LinkedCellsExample CollectSpec ParticleModel.
From Verif.Logic Require Import HandlerModel HandlerSpec HandlerProofs HandlerTotal HandlerDrift HandlerImages HandlerExample RemainderSpec ComputeModel ComputeSpec ComputeTheorem ComputeExample Compute3Spec.
Import ListNotations.
Local Open Scope Z_scope.

(** Three owned particles, the third one in a buffer, and a halo particle. *)
Definition wEvents : list Event :=
  [AddParticle (zAt 1 (1 / 8) 1) 0; AddParticle (zAt 2 (1 / 4) 1) 0; AddHalo zH 0; Compute false [KLinkedCells 1]; AddParticle (zAt 3 (3 / 8) 1) 0; Move xMove; Update false; AddHalo zH' 0].
Definition wOwned : list Particle := [zAt 3 (3 / 8 + 1 / 8) 1; zAt 2 (1 / 4 + 1 / 8) 1; zAt 1 (1 / 8 + 1 / 8) 1].
Definition wHalo : list Particle := [zAt 9 (-1 / 16) 2].
Definition wNext : Event := Compute false [KDirectSum; KLinkedCells 1].

Lemma w_disc : disciplined (1 / 4) false (wEvents ++ [wNext]).
Proof. cbn [disciplined wEvents wNext app]. repeat split; try apply x_within. Qed.
Lemma w_disc' : disciplined (1 / 4) false wEvents.
Proof. cbn [disciplined wEvents]. repeat split; try apply x_within. Qed.
Lemma w_simple : Forall (simpleCall (1 / 2) (1 / 4) 2 xLo xHi 1) wEvents.
Proof.
  pose proof x_kind as K.
  apply Forall_forall. intros e He. cbn [In wEvents] in He.
  destruct He as [<-|[<-|[<-|[<-|[<-|[<-|[<-|[<-|[]]]]]]]]]; cbn [simpleCall]; rewrite ?x_il.
  1,2,5: split; [unfold inBox, xLo, xHi; cbn [zAt ppos rx ry rz]; lra|lia].
  1,5: split; [unfold inBox, xLo, xHi; cbn [zH zH' zAt ppos rx ry rz]; lra|split; [unfold inGrownBox, growLow, growHigh, inBox, xLo, xHi; cbn [zH zH' zAt ppos rx ry rz]; lra|lia]].
  - constructor; [exact K|constructor].
  - intros p O. unfold xMove. rewrite O. reflexivity.
  - exact Logic.I.
Qed.
Lemma w_images : calmImages (1 / 4) (imageDistance (1 / 2) (1 / 4) 2 1) wEvents.
Proof.
  rewrite x_far. intros a p t b q u c E _. unfold wEvents in E.
  splits E; splits E; injection X as <- <-; injection X0 as <- <-. left. split; [cbn; lia|].
  apply dist3_sq; [cbn; lra|]. unfold dot, rsub, updates. cbn. lra.
Qed.
Lemma w_factors : factorsAtMost 1 (wEvents ++ [wNext]).
Proof.
  intros pw ks H. cbn [wEvents wNext app In] in H. repeat (destruct H as [H|H]; [first [discriminate H|injection H as <- <-; repeat constructor; cbn; lra]|]). destruct H.
Qed.
Lemma w_factors' : factorsAtMost 1 wEvents.
Proof. intros pw ks H. apply (w_factors pw ks). apply in_or_app. left. exact H. Qed.
Lemma w_calm : calm (1 / 4) wEvents.
Proof. intros f H p. cbn [wEvents In] in H. repeat (destruct H as [H|H]; [first [discriminate H|injection H as <-; apply x_calm]|]). destruct H. Qed.

Lemma w_history : exists h s, map fst h = wEvents /\ validStart (1 / 2) (1 / 4) 2 zStart /\ properHistory (1 / 2) (1 / 4) 2 zStart h s /\
  boxLo s = xLo /\ boxHi s = xHi /\ Permutation (ownedParticles s) wOwned /\ Permutation (haloParticles s) wHalo.
Proof.
  destruct (run_exists (1 / 2) (1 / 4) 2 x_opt (KLinkedCells 1) xLo xHi 1 wEvents x_box x_kind w_simple w_disc' eq_refl) as (h & s & E & P). fold zStart in P.
  assert (V : validStart (1 / 2) (1 / 4) 2 zStart) by (exists (KLinkedCells 1), xLo, xHi, 1%nat; split; [exact x_box|split; [exact x_kind|reflexivity]]).
  exists h, s. refine (conj E (conj V (conj P _))).
  assert (Hh := proper_history _ _ _ _ _ _ P).
  assert (Im := images_stored (1 / 2) (1 / 4) 2 x_opt 1 ltac:(lra) zStart h s V P). rewrite E in Im.
  specialize (Im w_disc' eq_refl (Rle_refl 1) w_factors' (calm_moving _ _ _ x_opt 1 _ w_images)).
  assert (Le : after xLo xHi [] h (mkLedger (boxLo s) (boxHi s) (ownedParticles s))) by (exists []; split; [reflexivity|exact (history_conserved (1 / 2) (1 / 4) 2 zStart h s V Hh)]).
  assert (Ai : afterI [] wEvents (haloParticles s)) by (exists []; split; [reflexivity|exact Im]). clear Im P Hh.
  do 2 (apply afterI_same in Ai; [|exact Logic.I]). apply afterI_halo in Ai. do 3 (apply afterI_same in Ai; [|exact Logic.I]). apply afterI_update in Ai. apply afterI_halo in Ai.
  destruct Ai as (l & Pl & Hl). inversion Hl; subst l. clear Hl.
  unfold wEvents in E.
  do 8 (destruct h as [|(?e, ?out) h]; [discriminate|]; cbn [map fst] in E; injection E as -> E). destruct h; [|discriminate]. clear E.
  do 2 apply after_add in Le. apply after_halo in Le. apply after_compute in Le. apply after_add in Le. apply after_move in Le. apply after_update in Le.
  2: { repeat constructor; cbn; lra. }
  apply after_halo in Le. apply after_nil in Le. destruct Le as (L1 & L2 & L3). split; [exact L1|]. split; [exact L2|]. split; [exact L3|rewrite <- H1; exact Pl].
Qed.


Lemma w_nodup : NoDup (wOwned ++ wHalo).
Proof. unfold wOwned, wHalo. repeat constructor; cbn [app In]; intros H; repeat (destruct H as [H|H]; [discriminate H|]); destruct H. Qed.
Definition near3 (p q r : Particle) : Prop := closer (1 / 2) (ppos p) (ppos q) /\ closer (1 / 2) (ppos p) (ppos r) /\ closer (1 / 2) (ppos q) (ppos r).
Lemma w_close : near3 (zAt 1 (1 / 8 + 1 / 8) 1) (zAt 2 (1 / 4 + 1 / 8) 1) (zAt 3 (3 / 8 + 1 / 8) 1) /\ near3 (zAt 1 (1 / 8 + 1 / 8) 1) (zAt 2 (1 / 4 + 1 / 8) 1) (zAt 9 (-1 / 16) 2).
Proof. unfold near3, closer. cbn [zAt ppos rx ry rz]. lra. Qed.
