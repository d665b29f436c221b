(** A history after which Axilrod-Teller forces are computed. *)
From Coq Require Import Reals Lra List ZArith Bool Permutation.
From Verif.Functor Require Import CellFunctor3BModel SortModel.
From Verif.Container Require Import IteratorModel ParticleModel LinkedCellsExample.
From Verif.Logic Require Import HandlerModel HandlerExample ComputeExample Compute3Example.
From Verif.MD Require Import MixingModel LJModel LJSpec LJProofs LJPhysics LJComputeSpec LJComputeExample ATModel ATSpec ATPhysics ATTheorem ATComputeSpec.
Import ListNotations.
Local Open Scope R_scope.

Definition wField : ATField := mkATField (1 / 2) (fun _ _ _ => 1).
Lemma w_setup lib : setUp3 (mkATC false true false (1 / 2 * (1 / 2)) 1 lib) wField (fun _ => True).
Proof. apply setUp3_constant. lra. Qed.

Lemma w_position : generalPosition (1 / 2) (wOwned ++ wHalo).
Proof.
  intros p q Hp Hq N. cbn [wOwned wHalo app In] in Hp, Hq.
  repeat (destruct Hp as [<-|Hp]; [repeat (destruct Hq as [<-|Hq]; [first [exfalso; apply N; reflexivity|rewrite z_distance; split;
    [intros E; apply (f_equal rx) in E; cbn [zAt ppos rx] in E; lra|unfold Rabs; destruct (Rcase_abs _); lra]]|]); destruct Hq|]). destruct Hp.
Qed.

Lemma w_interacting : interacting3 (fun p => p) wField (zAt 1 (1 / 8 + 1 / 8) 1) (zAt 2 (1 / 4 + 1 / 8) 1) (zAt 3 (3 / 8 + 1 / 8) 1) = true.
Proof.
  unfold interacting3, inReach. rewrite !z_distance. cbn [atCutoff wField].
  do 3 (destruct (Rle_dec _ _) as [_|N]; [|exfalso; apply N; unfold Rabs; destruct (Rcase_abs _); lra]). reflexivity.
Qed.
(** The force of the second and the third particle on the first one. *)
Lemma w_force : forceOf3 (fun p => p) (fun _ => O) wField (zAt 1 (1 / 8 + 1 / 8) 1) (zAt 2 (1 / 4 + 1 / 8) 1) (zAt 3 (3 / 8 + 1 / 8) 1) <> rzero.
Proof.
  unfold forceOf3. rewrite w_interacting. cbn [nuOf wField zAt ppos].
  rewrite force_first by (intros [=]; lra). intros Z. apply (f_equal rx) in Z. revert Z. unfold first, atKernel, dot, rscale, radd, rsub, rzero. cbn [rx ry rz forceI].
  match goal with |- context [sqrt ?x] => assert (P : 0 < sqrt x) by (apply sqrt_lt_R0; lra); generalize dependent (sqrt x) end.
  intros q Q Z. assert (Z' : / q = 0); [|apply Rinv_0_lt_compat in Q; lra].
  match type of Z with ?u * (3 * 1 / (?v * q)) = 0 => assert (U : u <> 0) by lra; assert (W : 0 < v) by lra; revert Z U W; generalize u v end.
  intros u v Z U W. replace (/ q) with (u * (3 * 1 / (v * q)) * (v / (3 * u))) by (field; lra). rewrite Z. ring.
Qed.
