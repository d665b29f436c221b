(** Seven particles, one of them a dummy at the place of another particle. *)
From Coq Require Import Reals List ZArith Bool Arith Lra Lia.
From Verif.Base Require Import ZRange OptionM.
From Verif.Functor Require Import CellFunctorModel SortModel.
From Verif.Container Require Import IteratorModel ParticleModel.
From Verif.MD Require Import MixingModel MixingSpec LJModel LJSpec LJProofs LJPhysics LJExample AVXModel AVXSpec.
Import ListNotations.
Local Open Scope R_scope.

Definition vPart (a : nat) : Particle :=
  match a with
  | 0%nat => mkParticle 0 (mkR3 0 0 0) stOwned 0
  | 1%nat => mkParticle 1 (mkR3 1 0 0) stOwned 0
  | 2%nat => mkParticle 2 (mkR3 0 0 0) stDummy 0
  | 3%nat => mkParticle 3 (mkR3 0 1 0) stHalo 0
  | 4%nat => mkParticle 4 (mkR3 0 0 1) stOwned 0
  | 5%nat => mkParticle 5 (mkR3 1 1 0) stHalo 0
  | _ => mkParticle 6 (mkR3 1 1 1) stOwned 0
  end.
Definition vView : list nat := [0; 1; 2; 3; 4; 5; 6]%nat.

Lemma v_apart i j : In i vView -> In j vView -> i <> j -> apart vPart mField i j.
Proof.
  intros Hi Hj N I E. cbn in Hi, Hj.
  decompose [or] Hi; try contradiction; subst i; decompose [or] Hj; try contradiction; subst j;
    first [congruence | cbn in E; injection E; intros; lra | unfold interacting in I; cbn in I; discriminate].
Qed.
Lemma v_nodup : NoDup vView.
Proof. unfold vView. repeat constructor; cbn; lia. Qed.
Lemma v_types a : (mType a < 2)%nat.
Proof. destruct a as [|[|a]]; cbn; auto. Qed.

Lemma later_distinct {B} (l : list B) i j b : NoDup l -> In (mkCall i j b) (soaSingle l) -> In i l /\ In j l /\ i <> j.
Proof.
  unfold soaSingle. induction l as [|a l IH]; intros N I; [destruct I|]. inversion N as [|? ? Na Nl]; subst. cbn [laterPairs] in I.
  rewrite map_app in I. apply in_app_or in I. destruct I as [I|I].
  - rewrite map_map in I. apply in_map_iff in I. destruct I as (q & [= <- <- <-] & I). repeat split; [now left|now right|]. intros ->. contradiction.
  - destruct (IH Nl I) as (H1 & H2 & H3). repeat split; [now right|now right|assumption].
Qed.

Lemma v_soa : admissible vPart mType mField (fun i => (i < 2)%nat) (OnSoA vView).
Proof.
  split; [exact v_nodup|]. intros [i j b] I. cbn [pairsOf fstP sndP] in *. apply later_distinct in I; [|exact v_nodup].
  destruct I as (H1 & H2 & H3). split; [apply v_types|]. split; [apply v_types|]. now apply v_apart.
Qed.
Lemma v_soas : admissible vPart mType mField (fun i => (i < 2)%nat) (OnSoAs true [0; 1]%nat [2; 3; 4; 5; 6]%nat).
Proof.
  split; [repeat constructor; cbn; lia|]. intros [i j b] I. cbn [pairsOf fstP sndP] in *. unfold soaPair in I. apply in_flat_map in I.
  destruct I as (i' & Hi & I). apply in_map_iff in I. destruct I as (j' & [= <- <- <-] & Hj).
  split; [apply v_types|]. split; [apply v_types|]. apply v_apart; cbn in *; lia.
Qed.
Lemma v_list : admissible vPart mType mField (fun i => (i < 2)%nat) (OnList true vView 0 [1; 2; 3; 4; 5; 6]%nat).
Proof.
  split; [split; [discriminate|]; exists [1; 2; 3; 4; 5; 6]%nat; split; [reflexivity|repeat constructor; cbn; lia]|].
  intros [i j b] I. cbn [pairsOf] in I. change (nth_error vView 0) with (Some 0%nat) in I.
  change (mapM (nth_error vView) [1; 2; 3; 4; 5; 6]%nat) with (Some [1; 2; 3; 4; 5; 6]%nat) in I.
  cbv beta iota in I. apply in_map_iff in I. destruct I as (j' & [= <- <- <-] & Hj). cbn [fstP sndP].
  split; [apply v_types|]. split; [apply v_types|]. apply v_apart; cbn in *; lia.
Qed.
Lemma v_force : forceOf vPart mType mField 0%nat 1%nat <> rzero.
Proof. exact m_force. Qed.
