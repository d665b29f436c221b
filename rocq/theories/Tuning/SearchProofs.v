(** * Proofs about the search space *)

From Coq Require Import Reals List Bool String Arith ZArith Lra Lia.
From Flocq Require Import Core.Raux.
From Verif.Tuning Require Import SearchModel SearchSpec.
Import ListNotations.
Open Scope R_scope.

(** ** Which traversals are applicable on some domain *)

Definition g0 : geometry := Geometry (10, 10, 10)%nat (1, 1, 1) 1.

Lemma g0_valid : validGeometry g0.
Proof. unfold validGeometry, g0; cbn. repeat split; try lia; lra. Qed.

Lemma overlap_g0 : overlap g0 1 = 1%nat.
Proof.
  unfold overlap, g0; cbn [gInteraction].
  replace (1 / 1) with (IZR 1) by (cbn; lra). rewrite Zceil_IZR. reflexivity.
Qed.

Lemma longest_g0 : longest g0 = (10%nat, 1).
Proof. reflexivity. Qed.

Lemma sliced_g0 : forall b, slicedApplicable b g0 = true.
Proof.
  intros b. unfold slicedApplicable, overlapLongest. rewrite longest_g0; cbn [fst snd].
  rewrite overlap_g0. destruct b; reflexivity.
Qed.

Lemma slicedC02_g0 : forall b, slicedC02Applicable b g0 = true.
Proof.
  intros b. unfold slicedC02Applicable, overlapLongest. rewrite longest_g0; cbn [fst snd].
  rewrite overlap_g0. destruct b; reflexivity.
Qed.

Lemma minLength_g0 : minLengthFits g0 = true.
Proof.
  unfold minLengthFits, g0, min3, Rle_bool'; cbn [gLength gInteraction].
  repeat (destruct (Rle_dec _ _); try reflexivity; try lra).
Qed.

Definition staticOk (i : interaction) (t : traversal) (d : dataLayout) (n : newton3) : bool :=
  match t with
  | lc_c01 | ot_c01 | vcl_c01_balanced | vcl_cluster_iteration | vl_list_iteration | vlc_c01 | vlp_c01 =>
      negb (usesN3 n)
  | lc_c01_combined_SoA => negb (usesN3 n) && isSoa d && match i with pairwise => true | _ => false end
  | lc_c04_combined_SoA => isSoa d
  | ot_c18 => usesN3 n
  | _ => true
  end.

Lemma applicable_static : forall i t d n g, isApplicable i t d n g = true -> staticOk i t d n = true.
Proof.
  intros i t d n g H; destruct t; cbn [staticOk] in *; auto; cbn [isApplicable] in H; auto.
  destruct (gLength g) as [[lx ly] lz]. apply andb_true_iff in H. apply H.
Qed.

Lemma static_applicable : forall i t d n, staticOk i t d n = true -> isApplicable i t d n g0 = true.
Proof.
  intros i t d n H; destruct t; cbn [staticOk] in H; cbn [isApplicable]; auto using sliced_g0, slicedC02_g0, minLength_g0.
  - rewrite minLength_g0. reflexivity.
  - rewrite H. unfold g0 at 1; cbn [gLength]. rewrite overlap_g0. reflexivity.
Qed.

Lemma applicable_iff : forall i t d n,
  (exists g, validGeometry g /\ isApplicable i t d n g = true) <-> staticOk i t d n = true.
Proof.
  intros i t d n; split.
  - intros (g & _ & H). eapply applicable_static; eauto.
  - intros H. exists g0. split; [apply g0_valid | apply static_applicable, H].
Qed.

(** ** The tables agree with the classes *)

Definition allC : list container :=
  [directSum; linkedCells; linkedCellsReferences; varVerletListsAsBuild; verletClusterLists; verletLists;
   verletListsCells; pairwiseVerletLists; octree].
Definition allT : list traversal :=
  [ds_sequential; lc_c01; lc_c01_combined_SoA; lc_c04; lc_c04_HCP; lc_c04_combined_SoA; lc_c08; lc_c18;
   lc_sliced; lc_sliced_balanced; lc_sliced_c02; ot_c01; ot_c18; vcl_c01_balanced; vcl_c06;
   vcl_cluster_iteration; vcl_sliced; vcl_sliced_balanced; vcl_sliced_c02; vl_list_iteration; vlc_c01; vlc_c18;
   vlc_c08; vlc_sliced; vlc_sliced_balanced; vlc_sliced_c02; vlp_c01; vlp_c18; vlp_sliced; vlp_sliced_balanced;
   vlp_sliced_c02; vlp_c08; vvl_as_built].

Lemma allC_ok : forall c, In c allC.
Proof. intros []; cbn; auto 20. Qed.
Lemma allT_ok : forall t, In t allT.
Proof. intros []; cbn; auto 40. Qed.

Definition tableOk (f : R) (c : container) (t : traversal) (le : loadEstimator) (d : dataLayout) (n : newton3)
  (i : interaction) : bool :=
  match hasCompatibleValues (Config c f t le d n i) with
  | Some b => Bool.eqb b
      (selectorCreates i t && acceptsInterface c (interfaceOf t) && staticOk i t d n
       && (match i, c with triwise, linkedCellsReferences => false | _, _ => true end)
       && contains loadEstimator_eq le
            (applicableLoadEstimators c t [leNone; squaredParticlesPerCell; neighborListLength]))
  | None => match i with allInteractions => true | _ => false end
  end.

Lemma tables_checked : forall f,
  forallb (fun c => forallb (fun t => forallb (fun le => forallb (fun d => forallb (fun n => forallb (fun i =>
    tableOk f c t le d n i)
    [pairwise; triwise; allInteractions]) [n3Disabled; n3Enabled]) [aos; soa])
    [leNone; squaredParticlesPerCell; neighborListLength]) allT) allC = true.
Proof. intros f. vm_compute. reflexivity. Qed.

Lemma tableOk_all : forall f c t le d n i, tableOk f c t le d n i = true.
Proof.
  intros f c t le d n i. pose proof (tables_checked f) as H.
  rewrite forallb_forall in H. specialize (H c (allC_ok c)).
  rewrite forallb_forall in H. specialize (H t (allT_ok t)).
  rewrite forallb_forall in H.
  assert (Hle : In le [leNone; squaredParticlesPerCell; neighborListLength]) by (destruct le; cbn; auto).
  specialize (H le Hle). rewrite forallb_forall in H.
  assert (Hd : In d [aos; soa]) by (destruct d; cbn; auto).
  specialize (H d Hd). rewrite forallb_forall in H.
  assert (Hn : In n [n3Disabled; n3Enabled]) by (destruct n; cbn; auto).
  specialize (H n Hn). rewrite forallb_forall in H.
  apply H. destruct i; cbn; auto.
Qed.

Lemma contains_iff : forall A (eq : forall a b : A, {a = b} + {a <> b}) x l, contains eq x l = true <-> In x l.
Proof. intros A eq x l. unfold contains. destruct (in_dec eq x l); split; auto; discriminate. Qed.

Lemma intersection_iff : forall A (eq : forall a b : A, {a = b} + {a <> b}) x a b,
  In x (intersection eq a b) <-> In x a /\ In x b.
Proof. intros. unfold intersection. rewrite filter_In, contains_iff. reflexivity. Qed.

Lemma intersection_nil : forall A (eq : forall a b : A, {a = b} + {a <> b}) a, intersection eq a [] = [].
Proof. intros A eq a. unfold intersection. induction a as [|x a IH]; cbn; auto. Qed.

Lemma compatible_iff : forall c,
  hasCompatibleValues c = Some true <->
  usable c /\ (cInteraction c = triwise -> offersTriwise (cContainer c)) /\
  In (cLoadEstimator c)
     (applicableLoadEstimators (cContainer c) (cTraversal c) [leNone; squaredParticlesPerCell; neighborListLength]).
Proof.
  intros [c f t le d n i]; cbn. pose proof (tableOk_all f c t le d n i) as H. unfold tableOk in H.
  unfold usable, offersTriwise; cbn. rewrite applicable_iff, <- (contains_iff _ loadEstimator_eq).
  destruct (hasCompatibleValues (Config c f t le d n i)) as [b|].
  - apply Bool.eqb_prop in H. subst b.
    split.
    + intros E. injection E as E. repeat (apply andb_true_iff in E as [E ?]).
      repeat split; auto. intros -> ->. discriminate.
    + intros ((H1 & H2 & H3) & H4 & H5). rewrite H1, H2, H3, H5.
      destruct i, c; auto. exfalso; apply H4; reflexivity.
  - destruct i; try discriminate. split; [discriminate|]. intros ((H1 & _) & _). discriminate H1.
Qed.

Lemma compatibleTraversals_some : forall c i, i <> allInteractions -> exists ts, allCompatibleTraversals c i = Some ts.
Proof. intros c [] H; cbn; eauto; contradiction. Qed.

(** ** Load estimators *)

Lemma estimators_iff : forall c t allowed le,
  acceptsInterface c (interfaceOf t) = true ->
  In le (applicableLoadEstimators c t allowed) <->
  (if isBalanced t then
     (offersEstimators c /\ In le allowed /\ implementsEstimator c le = true) \/
     (le = leNone /\ (~ offersEstimators c \/ forall le', In le' allowed -> implementsEstimator c le' = false))
   else le = leNone).
Proof.
  intros c t allowed le A.
  assert (plain : forall l, In l [leNone] <-> l = leNone) by (intros l; cbn; split; [intros [?|[]]; auto | auto]).
  assert (G : forall comp, (forall x, In x comp <-> implementsEstimator c x = true) -> offersEstimators c ->
    In le (match intersection loadEstimator_eq allowed comp with [] => [leNone] | l => l end) <->
    ((offersEstimators c /\ In le allowed /\ implementsEstimator c le = true) \/
     (le = leNone /\ (~ offersEstimators c \/ forall le', In le' allowed -> implementsEstimator c le' = false)))).
  { intros comp Hc Ho.
    destruct (intersection loadEstimator_eq allowed comp) as [|x l] eqn:E.
    - rewrite plain. split.
      + intros ->. right. split; auto. right. intros le' Hl.
        destruct (implementsEstimator c le') eqn:I; auto. exfalso.
        assert (In le' []) by (rewrite <- E; apply intersection_iff; rewrite Hc; auto). contradiction.
      + intros [(_ & Hl & I)|[-> _]]; auto. exfalso.
        assert (In le []) by (rewrite <- E; apply intersection_iff; rewrite Hc; auto). contradiction.
    - rewrite <- E, intersection_iff, Hc. split.
      + intros [? ?]; left; auto.
      + intros [(_ & ? & ?)|[-> [N|N]]]; auto; [contradiction|].
        exfalso. assert (X : In x (intersection loadEstimator_eq allowed comp)) by (rewrite E; left; auto).
        apply intersection_iff in X as [Xa Xc]. rewrite Hc in Xc. rewrite (N x Xa) in Xc. discriminate. }
  unfold applicableLoadEstimators.
  destruct t, c; cbn in A; try discriminate; cbn [usesLoadEstimator isBalanced]; try apply plain.
  - apply G; [intros []; cbn; split; auto; try discriminate; try (intros [|[|[]]]; discriminate) | split; discriminate].
  - cbn [compatibleLoadEstimators]. rewrite intersection_nil.
    rewrite plain. split.
    + intros ->. right; split; auto. left. intros [N _]. apply N; reflexivity.
    + intros [([N _] & _)|[-> _]]; auto. exfalso; apply N; reflexivity.
  - apply G; [intros []; cbn; split; auto; try discriminate; try (intros [|[|[]]]; discriminate) | split; discriminate].
  - apply G; [intros []; cbn; split; auto; try discriminate; try (intros [|[|[]]]; discriminate) | split; discriminate].
  - rewrite plain. split.
    + intros ->. right; split; auto. left. intros [_ N]. apply N; reflexivity.
    + intros [([_ N] & _)|[-> _]]; auto. exfalso; apply N; reflexivity.
Qed.

Lemma estimators_all : forall c t allowed le,
  acceptsInterface c (interfaceOf t) = true -> In le (applicableLoadEstimators c t allowed) ->
  In le (applicableLoadEstimators c t [leNone; squaredParticlesPerCell; neighborListLength]).
Proof.
  intros c t allowed le A. rewrite !estimators_iff by assumption.
  destruct (isBalanced t); auto.
  assert (D : offersEstimators c \/ ~ offersEstimators c)
    by (unfold offersEstimators; destruct c; try (left; split; discriminate); right; intros [? ?]; congruence).
  intros [(O & H & I)|[-> H]].
  - left. split; auto. split; auto. destruct le; cbn; auto.
  - destruct D as [O|O]; [|right; auto]. left. split; auto. split; [left; auto|]. destruct c; reflexivity.
Qed.

(** ** The loops *)

Lemma setInsert_iff : forall x c s, In x (setInsert c s) <-> In x s \/ x = c.
Proof.
  intros x c s. unfold setInsert. destruct (in_dec config_eq c s); cbn.
  - split; auto. intros [?| ->]; auto.
  - split; intros [?|?]; auto.
Qed.

Lemma setInsert_NoDup : forall c s, NoDup s -> NoDup (setInsert c s).
Proof. intros c s H. unfold setInsert. destruct (in_dec config_eq c s); auto. constructor; auto. Qed.

Lemma fold_iff : forall A (step : list config -> A -> list config) (P : A -> config -> Prop) l acc x,
  (forall acc a y, In y (step acc a) <-> In y acc \/ P a y) ->
  In x (fold_left step l acc) <-> In x acc \/ exists a, In a l /\ P a x.
Proof.
  intros A step P l acc x H. revert acc. induction l as [|a l IH]; intros acc; cbn.
  - split; auto. intros [?|(? & [] & _)]; auto.
  - rewrite IH, H. split.
    + intros [[?|?]|(b & ? & ?)]; eauto.
    + intros [?|(b & [->|?] & ?)]; eauto.
Qed.

Lemma fold_NoDup : forall A (step : list config -> A -> list config) l acc,
  (forall acc a, NoDup acc -> NoDup (step acc a)) -> NoDup acc -> NoDup (fold_left step l acc).
Proof. intros A step l. induction l as [|a l IH]; intros acc H N; cbn; auto. Qed.

Lemma addContainer_iff : forall c ts at_ ale ls ns fs i acc x,
  In x (addContainer c ts at_ ale ls ns fs i acc) <->
  In x acc \/
  exists t, In t (intersection traversal_eq at_ ts) /\
  exists f, In f fs /\
  exists le, In le (applicableLoadEstimators c t ale) /\
  exists d, In d ls /\
  exists n, In n ns /\ hasCompatibleValues (Config c f t le d n i) = Some true /\ x = Config c f t le d n i.
Proof.
  intros c ts at_ ale ls ns fs i acc x. unfold addContainer.
  apply (fold_iff _ _ (fun t x => exists f, In f fs /\ exists le, In le (applicableLoadEstimators c t ale) /\
    exists d, In d ls /\ exists n, In n ns /\ hasCompatibleValues (Config c f t le d n i) = Some true /\
    x = Config c f t le d n i)); intros acc1 t x1.
  apply (fold_iff _ _ (fun f x => exists le, In le (applicableLoadEstimators c t ale) /\
    exists d, In d ls /\ exists n, In n ns /\ hasCompatibleValues (Config c f t le d n i) = Some true /\
    x = Config c f t le d n i)); intros acc2 f x2.
  apply (fold_iff _ _ (fun le x => 
    exists d, In d ls /\ exists n, In n ns /\ hasCompatibleValues (Config c f t le d n i) = Some true /\
    x = Config c f t le d n i)); intros acc3 le x3.
  apply (fold_iff _ _ (fun d x => exists n, In n ns /\ hasCompatibleValues (Config c f t le d n i) = Some true /\
    x = Config c f t le d n i)); intros acc4 d x4.
  apply (fold_iff _ _ (fun n x => hasCompatibleValues (Config c f t le d n i) = Some true /\
    x = Config c f t le d n i)); intros acc5 n x5.
  destruct (hasCompatibleValues (Config c f t le d n i)) as [[|]|].
  - rewrite setInsert_iff. split; intros [H|H]; auto. right; apply H.
  - split; auto. intros [?|[? _]]; auto; discriminate.
  - split; auto. intros [?|[? _]]; auto; discriminate.
Qed.

Lemma addContainer_NoDup : forall c ts at_ ale ls ns fs i acc,
  NoDup acc -> NoDup (addContainer c ts at_ ale ls ns fs i acc).
Proof.
  intros c ts at_ ale ls ns fs i acc H. unfold addContainer.
  repeat (apply fold_NoDup; auto; intros).
  match goal with |- NoDup (match ?h with _ => _ end) => destruct h as [[|]|] end; auto using setInsert_NoDup.
Qed.

Lemma compat_traversal : forall c f t le d n i, hasCompatibleValues (Config c f t le d n i) = Some true ->
  exists ts, allCompatibleTraversals c i = Some ts /\ In t ts.
Proof.
  intros c f t le d n i H. unfold hasCompatibleValues in H; cbn in H.
  destruct (allCompatibleTraversals c i) as [ts|]; [|discriminate].
  exists ts. split; auto. injection H as H. repeat (apply andb_true_iff in H as [H _]).
  apply contains_iff in H. exact H.
Qed.

Lemma outer : forall cs at_ ale ls ns fs i acc, i <> allInteractions -> NoDup acc ->
  exists s,
    fold_left (fun acc c =>
      match acc, allCompatibleTraversals c i with
      | Some s, Some ts => Some (addContainer c ts at_ ale ls ns fs i s)
      | _, _ => None
      end) cs (Some acc) = Some s /\ NoDup s /\
    forall x, In x s <-> In x acc \/ wanted cs at_ ale ls ns fs i x.
Proof.
  intros cs at_ ale ls ns fs i acc Hi. revert acc.
  induction cs as [|c cs IH]; intros acc N; cbn [fold_left].
  - exists acc. split; auto. split; auto. intros x. split; auto. intros [?|(? & _)]; auto. contradiction.
  - destruct (compatibleTraversals_some c i Hi) as [ts E]. rewrite E.
    destruct (IH _ (addContainer_NoDup c ts at_ ale ls ns fs i acc N)) as (s & Es & Ns & Is).
    exists s. split; auto. split; auto. intros x. rewrite Is, addContainer_iff.
    split.
    + intros [[?|(t & Ht & f & Hf & le & Hle & d & Hd & n & Hn & Hc & ->)]|W]; auto; right.
      * apply intersection_iff in Ht as [Ht _]. apply compatible_iff in Hc as (U & T & L). cbn in *.
        repeat split; cbn; auto; try apply U.
        unfold estimatorFits; cbn. apply estimators_iff; [apply U|exact Hle].
      * destruct W as (W1 & W). split; [right; exact W1 | exact W].
    + intros [?|([-> |W1] & W2 & W3 & W4 & W5 & W6 & W7 & W8 & W9)]; auto.
      * left; right. destruct x as [c f t le d n j]; cbn in *. subst j.
        assert (L : In le (applicableLoadEstimators c t ale)) by (apply estimators_iff; [apply W8|exact W7]).
        assert (Hc : hasCompatibleValues (Config c f t le d n i) = Some true).
        { apply compatible_iff; cbn. split; auto. split; auto. eapply estimators_all; [apply W8|exact L]. }
        destruct (compat_traversal _ _ _ _ _ _ _ Hc) as (ts' & Ets & Hts). rewrite E in Ets. injection Ets as ->.
        exists t; split; [apply intersection_iff; auto|]. exists f; split; auto. exists le; split; auto.
        exists d; split; auto. exists n; split; auto.
      * right. repeat split; auto; apply W8.
Qed.

Lemma outer_all : forall cs (g : container -> list traversal -> list config -> list config) acc, cs <> [] ->
  fold_left (fun acc c =>
      match acc, allCompatibleTraversals c allInteractions with
      | Some s, Some ts => Some (g c ts s)
      | _, _ => None
      end) cs acc = None.
Proof.
  intros cs g acc H. destruct cs as [|c cs]; [contradiction|]. clear H. cbn [fold_left].
  assert (E : match acc, allCompatibleTraversals c allInteractions with
              | Some s, Some ts => Some (g c ts s) | _, _ => None end = None) by (destruct acc; reflexivity).
  rewrite E. clear E. induction cs as [|a cs IH]; cbn [fold_left]; auto.
Qed.

Lemma product_exact : forall cs at_ ale ls ns fs i,
  match cartesianProduct cs at_ ale ls ns (Finite fs) i with
  | Some s => NoDup s /\ s <> [] /\ forall x, In x s <-> wanted cs at_ ale ls ns fs i x
  | None => forall x, ~ wanted cs at_ ale ls ns fs i x
  end.
Proof.
  intros cs at_ ale ls ns fs i. unfold cartesianProduct.
  destruct (interaction_eq i allInteractions) as [->|Hi].
  - destruct cs as [|c cs].
    + cbn. intros x (F & _). exact F.
    + rewrite outer_all by discriminate. intros x W.
      destruct W as (_ & _ & _ & _ & _ & E & _ & (U & _) & _). rewrite E in U. discriminate.
  - destruct (outer cs at_ ale ls ns fs i [] Hi (NoDup_nil _)) as (s & E & N & I). rewrite E.
    destruct s as [|y s].
    + intros x W. apply (I x). right. exact W.
    + split; auto. split; [discriminate|]. intros x. rewrite I. split; auto. intros [[]|W]; auto.
Qed.

(** ** Relevant cell size factors *)

Lemma relevant_iff : forall mn mx il L f, 0 < mn <= mx -> 0 < il -> 0 < L ->
  In f (relevantCsfs mn mx il L) <->
  exists n, (0 < n)%nat /\ mn <= f <= mx /\ L / (il * f) = INR n.
Proof.
  intros mn mx il L f [Hmn Hmx] Hil HL.
  assert (Hlo : (1 <= Zceil (L / (il * mx)))%Z).
  { assert (0 < L / (il * mx)) by (apply Rdiv_lt_0_compat; nra).
    assert (0 < Zceil (L / (il * mx)))%Z; [|lia].
    apply lt_IZR. eapply Rlt_le_trans; [eassumption|apply Zceil_ub]. }
  unfold relevantCsfs. rewrite in_map_iff. split.
  - intros (k & E & Hk). apply in_seq in Hk.
    set (z := (Zceil (L / (il * mx)) + Z.of_nat k)%Z) in *.
    assert (Hz : (0 < z)%Z) by (unfold z; lia).
    assert (Hz' : 0 < IZR z) by (apply (IZR_lt 0), Hz).
    exists (Z.to_nat z). split; [lia|].
    assert (Ef : L = IZR z * il * f) by (rewrite <- E; field; split; lra).
    assert (Hf : 0 < f) by (rewrite <- E; apply Rdiv_lt_0_compat; nra).
    split; [split|].
    + assert (Hu : IZR z <= L / (il * mn)).
      { apply Rle_trans with (IZR (Zfloor (L / (il * mn)))); [apply IZR_le; unfold z; lia | apply Zfloor_lb]. }
      assert (0 < il * mn) by nra.
      apply (Rmult_le_compat_r (il * mn)) in Hu; [|lra].
      replace (L / (il * mn) * (il * mn)) with L in Hu by (field; split; lra).
      rewrite Ef in Hu. assert (0 < IZR z * il) by nra. apply Rmult_le_reg_l with (IZR z * il); nra.
    + assert (Hu : L / (il * mx) <= IZR z).
      { apply Rle_trans with (IZR (Zceil (L / (il * mx)))); [apply Zceil_ub | apply IZR_le; unfold z; lia]. }
      assert (0 < il * mx) by nra.
      apply (Rmult_le_compat_r (il * mx)) in Hu; [|lra].
      replace (L / (il * mx) * (il * mx)) with L in Hu by (field; split; lra).
      rewrite Ef in Hu. assert (0 < IZR z * il) by nra. apply Rmult_le_reg_l with (IZR z * il); nra.
    + rewrite INR_IZR_INZ, Z2Nat.id by lia. rewrite Ef at 1. field. split; lra.
  - intros (n & Hn & [H1 H2] & E).
    assert (Hf : 0 < f) by lra.
    assert (Hn' : 0 < INR n) by (apply lt_0_INR; auto).
    assert (EL : L = INR n * il * f).
    { apply (Rmult_eq_compat_r (il * f)) in E. replace (L / (il * f) * (il * f)) with L in E by (field; split; lra). lra. }
    assert (Hlo' : (Zceil (L / (il * mx)) <= Z.of_nat n)%Z).
    { apply Zceil_glb. rewrite <- INR_IZR_INZ. apply Rmult_le_reg_r with (il * mx); [nra|].
      replace (L / (il * mx) * (il * mx)) with L by (field; split; lra). rewrite EL.
      assert (0 < INR n * il) by nra. nra. }
    assert (Hhi : (Z.of_nat n <= Zfloor (L / (il * mn)))%Z).
    { apply Zfloor_lub. rewrite <- INR_IZR_INZ. apply Rmult_le_reg_r with (il * mn); [nra|].
      replace (L / (il * mn) * (il * mn)) with L by (field; split; lra). rewrite EL.
      assert (0 < INR n * il) by nra. nra. }
    exists (Z.to_nat (Z.of_nat n - Zceil (L / (il * mx)))). split.
    + replace (Zceil (L / (il * mx)) + Z.of_nat (Z.to_nat (Z.of_nat n - Zceil (L / (il * mx)))))%Z with (Z.of_nat n) by lia.
      rewrite <- INR_IZR_INZ, EL. field. split; lra.
    + apply in_seq. lia.
Qed.
