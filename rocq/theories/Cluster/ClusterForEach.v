(** forEach and forEachInRegion of the cluster lists. *)
From Coq Require Import Reals Lra Psatz Permutation.
From Verif.Base Require Import ZRange OptionM Lists.
From Verif.Functor Require Import SortModel.
From Verif.Grid Require Import CellBlockSpec.
From Verif.Container Require Import IteratorModel IteratorContainers IteratorSpec IteratorLemmas IteratorParallel IteratorRegion ParticleModel ForEachModel ForEachProofs.
From Verif.Cluster Require Import TowerModel TowerSpec BlockModel ClusterContainerModel ClusterContainerSpec ClusterGeo ClusterIterate ClusterUpdate.
Local Open Scope Z_scope.

Definition liveBehavior (behavior : Z) : Prop := behavior = 1 \/ behavior = 2 \/ behavior = 3.
Lemma live_lambda behavior : liveBehavior behavior -> lambdaBehavior behavior.
Proof. unfold lambdaBehavior. intros [->|[->| ->]]; auto. Qed.
Lemma live_dummy behavior p : liveBehavior behavior -> isDummy p = true -> wantedb behavior (pown p) = false.
Proof. unfold isDummy, stDummy. intros B D. apply Z.eqb_eq in D. rewrite D. destruct B as [->|[->| ->]]; reflexivity. Qed.

Lemma dummy_state p : isDummy p = true -> validState (pown p).
Proof. unfold isDummy, stDummy. intros D. apply Z.eqb_eq in D. left. exact D. Qed.

(** The padding of a tower is not handed out. *)
Lemma tower_for_each behavior region t : liveBehavior behavior -> padded t -> (forall p, In p (actual t) -> validState (pown p)) ->
  cellForEach behavior region (tParts t) = Some (filter (visitedb behavior region) (actual t)).
Proof.
  intros B [D Pd] V. destruct (parts_split t D) as [S _]. rewrite cellForEach_spec; [|now apply live_lambda|].
  - rewrite S at 1. rewrite filter_app. rewrite (filter_nil _ (padding t)), app_nil_r; [reflexivity|].
    intros p H. rewrite Forall_forall in Pd. unfold visitedb. rewrite (live_dummy behavior p B (Pd p H)). reflexivity.
  - intros p H. rewrite S in H. apply in_app_or in H. destruct H as [H|H]; [auto|]. rewrite Forall_forall in Pd. apply dummy_state. auto.
Qed.

Lemma buffers_for_each behavior region toAdd : liveBehavior behavior -> (forall l p, In l toAdd -> In p l -> validState (pown p)) ->
  mapM (cellForEach behavior region) toAdd = Some (map (filter (visitedb behavior region)) toAdd).
Proof.
  intros B V. rewrite (mapM_some _ (filter (visitedb behavior region))); [reflexivity|].
  intros l H. apply cellForEach_spec; [now apply live_lambda|]. intros p. now apply V.
Qed.

Lemma visited_wanted behavior l : filter (visitedb behavior (fun _ => true)) l = filter (fun p => wantedb behavior (pown p)) l.
Proof. apply filter_ext. intros p. unfold visitedb. now rewrite ?andb_true_r. Qed.

Theorem vcl_for_each towers toAdd behavior : Forall padded towers ->
  (forall p, In p (concat (map collectAllActualParticles towers) ++ concat toAdd) -> validState (pown p)) ->
  liveBehavior behavior ->
  vclForEach behavior towers toAdd =
    Some (filter (fun p => wantedb behavior (pown p)) (concat (map collectAllActualParticles towers) ++ concat toAdd)).
Proof.
  intros Pd V B. unfold vclForEach.
  rewrite (mapM_some _ (fun t => filter (visitedb behavior (fun _ => true)) (actual t))).
  - rewrite buffers_for_each; auto.
    + rewrite filter_app, !filter_concat, !flat_map_concat_map, map_map. f_equal. f_equal; f_equal; apply map_ext; intros l; apply visited_wanted.
    + intros l p L H. apply V. apply in_or_app. right. apply in_concat. exists l. auto.
  - intros t H. rewrite Forall_forall in Pd. apply tower_for_each; auto. intros p Hp. apply V. apply in_or_app. left.
    apply in_concat. exists (actual t). split; [apply in_map_iff; now exists t|exact Hp].
Qed.

Lemma moved_overlap old s p lo hi rlo rhi : (Rabs (rx (ppos p) - rx (old p)) <= s * / 2)%R /\ (Rabs (ry (ppos p) - ry (old p)) <= s * / 2)%R /\
    (Rabs (rz (ppos p) - rz (old p)) <= s * / 2)%R -> inBox lo hi (old p) -> inBox rlo rhi (ppos p) ->
  boxesOverlap (shift lo (- (s * / 2))) (shift hi (s * / 2)) rlo rhi = true.
Proof.
  intros (X & Y & Z) (A & B & C) (U & V & W).
  assert (K : forall a m, (Rabs a <= m -> - m <= a <= m)%R) by (intros a m H; unfold Rabs in H; destruct (Rcase_abs a); lra).
  apply K in X. apply K in Y. apply K in Z. apply (overlap_at _ _ _ _ (ppos p)).
  - unfold inBox, shift. cbn [rx ry rz]. lra.
  - unfold leq3. lra.
  - lra.
Qed.

Lemma combine_nth (ts : list Tower) i t : In (i, t) (combine (seq 0 (length ts)) ts) -> nth_error ts i = Some t.
Proof.
  assert (G : forall n, In (i, t) (combine (seq n (length ts)) ts) -> (n <= i)%nat /\ nth_error ts (i - n) = Some t).
  { induction ts as [|a ts IH]; intros n H; [destruct H|]. cbn [length seq combine] in H. destruct H as [H|H].
    - injection H as <- <-. rewrite Nat.sub_diag. auto.
    - apply IH in H. destruct H as [L H]. split; [lia|]. replace (i - n)%nat with (S (i - S n)) by lia. exact H. }
  intros H. destruct (G 0%nat H) as [_ E]. now rewrite Nat.sub_0_r in E.
Qed.

Theorem vcl_for_each_in_region old g skin towers toAdd behavior lo hi : Forall padded towers ->
  inTowers pown old g (map collectAllActualParticles towers) ->
  (forall l p, In l toAdd -> In p l -> validState (pown p)) ->
  (forall t p, In t towers -> In p (collectAllActualParticles t) -> pown p <> 0 -> movedWithin old ppos (skin * / 2) p) ->
  liveBehavior behavior ->
  vclForEachInRegion g skin behavior lo hi towers toAdd =
    Some (filter (fun p => wantedb behavior (pown p) && inBoxb lo hi (ppos p)) (concat (map collectAllActualParticles towers) ++ concat toAdd)).
Proof.
  intros Pd Pl V M B. unfold vclForEachInRegion.
  assert (E : concat (map collectAllActualParticles towers) = concat (map (fun it => actual (snd it)) (combine (seq 0 (length towers)) towers))).
  { rewrite <- (combine_snd (seq 0 (length towers)) towers) at 1 by apply seq_length. now rewrite map_map. }
  rewrite (mapM_some _ (fun it => filter (visitedb behavior (inBoxb lo hi)) (actual (snd it)))).
  - rewrite buffers_for_each; auto. rewrite E, filter_app, !filter_concat, !flat_map_concat_map, map_map. reflexivity.
  - intros [i t] H. cbn [fst snd]. apply combine_nth in H. assert (It := nth_error_In _ _ H).
    rewrite Forall_forall in Pd.
    assert (Va : forall p, In p (actual t) -> validState (pown p)).
    { intros p. apply (towers_valid pown old g _ (actual t) p Pl). apply in_map_iff. now exists t. }
    assert (Z : (forall p, In p (actual t) -> visitedb behavior (inBoxb lo hi) p = false) -> Some [] = Some (filter (visitedb behavior (inBoxb lo hi)) (actual t))).
    { intros N. now rewrite filter_nil. }
    assert (At : at_ (map collectAllActualParticles towers) (Z.of_nat i) = Some (actual t)).
    { unfold at_. destruct (Z.ltb_spec (Z.of_nat i) 0); [lia|]. rewrite Nat2Z.id. rewrite nth_error_map, H. reflexivity. }
    destruct Pl as [(R & Sz & _ & P)|(E0 & _)].
    + destruct (P _ _ At) as [_ Pp]. assert (D := regular_dims g R).
      assert (C : 0 <= Z.of_nat i < gNX g * gNY g) by (apply at_some in At; rewrite <- Sz; tauto).
      destruct (ignoreTower g (Z.of_nat i) behavior) eqn:Ig.
      * apply Z. intros p Hp. destruct (Pp p Hp) as (Vp & Bx & Ow). unfold visitedb. unfold ignoreTower in Ig.
        destruct (hasFlag behavior bhHalo) eqn:FH; [discriminate|]. destruct B as [->|[->| ->]]; try discriminate FH.
        destruct (Z.eq_dec (pown p) 1) as [O|O]; [|unfold wantedb; cbn; destruct (Z.eqb_spec (pown p) 1); [lia|reflexivity]].
        destruct (owned_index g (Z.of_nat i) (old p) D C Bx (Ow O)) as [_ K]. rewrite K in Ig. discriminate Ig.
      * destruct (boxesOverlap _ _ lo hi) eqn:Ov.
        -- apply tower_for_each; auto.
        -- apply Z. intros p Hp. destruct (Pp p Hp) as (Vp & Bx & Ow). unfold visitedb.
           destruct (wantedb behavior (pown p)) eqn:W; [|reflexivity]. cbn [andb]. destruct (inBoxb lo hi (ppos p)) eqn:Ib; [|reflexivity].
           exfalso. apply inBoxb_iff in Ib.
           assert (N0 : pown p <> 0) by (intros O; rewrite O in W; destruct B as [->|[->| ->]]; discriminate W).
           destruct (M t p It Hp N0) as (X & Y & Zm).
           rewrite (moved_overlap old skin p _ _ lo hi (conj X (conj Y Zm)) Bx Ib) in Ov. discriminate Ov.
    + assert (Em : actual t = []).
      { assert (In (actual t) (map collectAllActualParticles towers)) by (apply in_map_iff; now exists t). rewrite E0 in H0.
        destruct H0 as [<-|[]]. reflexivity. }
      destruct (ignoreTower _ _ _); [rewrite Em; reflexivity|]. destruct (boxesOverlap _ _ lo hi); [|rewrite Em; reflexivity].
      apply tower_for_each; auto.
Qed.
