(** The theorems about the Lennard-Jones functor. *)
From Coq Require Import Reals List ZArith Bool Arith Lra Lia.
From Verif.Base Require Import ZRange OptionM.
From Verif.Functor Require Import CellFunctorModel SortModel.
From Verif.Container Require Import IteratorModel ParticleModel.
From Verif.Logic Require Import ComputeModel.
From Verif.MD Require Import MixingModel MixingSpec LJModel LJSpec LJProofs LJPhysics.
Import ListNotations.
Local Open Scope R_scope.

Section Theorems.
  Context {A : Type}.
  Variable same : A -> A -> bool.
  Hypothesis sameEq : forall x y, same x y = true <-> x = y.
  Variable part : A -> Particle.
  Variable typeId : A -> nat.
  Variable cfg : LJConfig.
  Variable fld : Field.
  Variable known : nat -> Prop.
  Hypothesis Hset : setUp cfg fld known.

  Lemma fine_of i j : known (typeId i) -> known (typeId j) -> separate part i j -> fine part typeId cfg i j.
  Proof.
    intros Ki Kj S. unfold fine. destruct (isDummy (part i)) eqn:D; [now left|]. right.
    destruct (props_known typeId cfg fld known Hset _ _ Ki Kj) as (p & E & _). split; [congruence|].
    intros Z. apply (S D). now apply dot_zero.
  Qed.
  Lemma defined_of c : fine part typeId cfg (fstP c) (sndP c) -> defined part typeId cfg c.
  Proof. intros [D|[P N]]; [now left|right; right; auto]. Qed.

  Lemma later_in (view : list A) i j : In (i, j) (laterPairs (fun _ l => l) view) -> In i view /\ In j view.
  Proof.
    induction view as [|a view IH]; [intros []|]. cbn. intros H. apply in_app_or in H. destruct H as [H|H].
    - apply in_map_iff in H. destruct H as (q & [= <- <-] & H). auto.
    - destruct (IH H). auto.
  Qed.
  Lemma later_sep (Q : A -> A -> Prop) (view : list A) i j : ForallOrdPairs Q view -> In (i, j) (laterPairs (fun _ l => l) view) -> Q i j.
  Proof.
    induction 1 as [|a view F _ IH]; [intros []|]. cbn. intros H. apply in_app_or in H. destruct H as [H|H]; [|auto].
    apply in_map_iff in H. destruct H as (q & [= <- <-] & H). rewrite Forall_forall in F. auto.
  Qed.

  Lemma single_agree view s : (forall a, In a view -> known (typeId a)) -> ForallOrdPairs (separate part) view ->
    agree (soaFunctorSingle same part typeId cfg view s) (aosCalls same part typeId cfg (soaSingle view) s).
  Proof.
    intros K S.
    assert (L : laterFine part typeId cfg view).
    { intros i j H. destruct (later_in _ _ _ H). apply fine_of; auto. now apply (later_sep _ _ _ _ S). }
    destruct (singleLoop_value same part typeId cfg view L (forceAt s, noSums)) as (m & E & F).
    destruct (aosCalls_value same part typeId cfg (soaSingle view) s) as (t & Et & Ft & St).
    { intros c H. apply defined_of. unfold soaSingle in H. apply in_map_iff in H. destruct H as ([i j] & <- & H). now apply L. }
    unfold soaFunctorSingle. rewrite E. eexists; exists t. split; [reflexivity|]. split; [exact Et|]. cbn [forceAt sums fst snd] in *. split.
    - intros a. now rewrite F, Ft.
    - now rewrite St, addSums_zero_l.
  Qed.

  Lemma pair_agree newton3 v1 v2 s : (forall a, In a (v1 ++ v2) -> known (typeId a)) ->
    (forall i j, In i v1 -> In j v2 -> separate part i j) ->
    agree (soaFunctorPair same part typeId cfg newton3 v1 v2 s) (aosCalls same part typeId cfg (soaPair newton3 v1 v2) s).
  Proof.
    intros K S.
    assert (L : forall i j, In i v1 -> In j v2 -> fine part typeId cfg i j).
    { intros i j Hi Hj. apply fine_of; auto; apply K, in_or_app; auto. }
    destruct (pairLoop_value same part typeId cfg newton3 v1 v2 L (forceAt s, noSums)) as (m & E & F).
    destruct (aosCalls_value same part typeId cfg (soaPair newton3 v1 v2) s) as (t & Et & Ft & St).
    { intros c H. apply defined_of. unfold soaPair in H. apply in_flat_map in H. destruct H as (i & Hi & H).
      apply in_map_iff in H. destruct H as (j & <- & H). now apply L. }
    unfold soaFunctorPair.
    assert (Nil : soaPair newton3 v1 v2 = [] -> exists s0, Some s = Some s0 /\ (forall a, forceAt s0 a = forceAt t a) /\ sums s0 = sums t).
    { intros N. rewrite N in *. exists s. split; [reflexivity|]. split; [intros a; rewrite Ft; cbn; now rewrite radd_zero_r|].
      rewrite St. cbn. now rewrite addSums_zero_r. }
    destruct v1 as [|x v1].
    { destruct (Nil eq_refl) as (s0 & E0 & F0). exists s0, t. auto. }
    destruct v2 as [|y v2].
    { destruct Nil as (s0 & E0 & F0); [|exists s0, t; auto]. clear. unfold soaPair. cbn. induction v1; auto. }
    rewrite E. eexists; exists t. split; [reflexivity|]. split; [exact Et|]. cbn [forceAt sums fst snd] in *. split.
    - intros a. now rewrite F, Ft.
    - now rewrite St, addSums_zero_l.
  Qed.

  Lemma verlet_agree vecsize newton3 view first nbrs i js s : nth_error view first = Some i ->
    mapM (nth_error view) nbrs = Some js -> known (typeId i) -> (forall j, In j js -> known (typeId j)) ->
    (forall j, In j js -> separate part i j) ->
    agree (soaFunctorVerlet same part typeId cfg vecsize newton3 view first nbrs s)
      (aosCalls same part typeId cfg (map (fun j => mkCall i j newton3) js) s).
  Proof.
    intros Hi Hj Ki Kj S.
    destruct (verlet_value same sameEq part typeId cfg vecsize newton3 view first nbrs i js s Hi Hj) as (s' & E & F & Su).
    { intros D j I. split; [|now apply fine_of; auto]. intros <-. now apply (S i I D). }
    destruct (aosCalls_value same part typeId cfg (map (fun j => mkCall i j newton3) js) s) as (t & Et & Ft & St).
    { intros c H. apply defined_of. apply in_map_iff in H. destruct H as (j & <- & H). apply fine_of; auto. }
    exists s', t. split; [exact E|]. split; [exact Et|]. split.
    - intros a. now rewrite F, Ft.
    - now rewrite Su, St.
  Qed.

  Lemma forces_value cs s : (forall c, In c cs -> known (typeId (fstP c)) /\ known (typeId (sndP c)) /\ apart part fld (fstP c) (sndP c)) ->
    exists s', aosCalls same part typeId cfg cs s = Some s' /\
      (forall a, forceAt s' a = radd (forceAt s a) (forcesOn part typeId fld same a (flat_map added cs))) /\
      (calcGlobals cfg = true -> potentialSum (sums s') = potentialSum (sums s) + 6 * ownedEnergy part typeId fld (flat_map added cs) /\
         virialSum (sums s') = radd (virialSum (sums s)) (ownedVirial part typeId fld (flat_map added cs))) /\
      (countFLOPs cfg = true -> distCalls (sums s') = (distCalls (sums s) + count (alive part) cs)%nat /\
         kernelsN3 (sums s') = (kernelsN3 (sums s) + count (fun c => n3 c && hits part fld c) cs)%nat /\
         kernelsNoN3 (sums s') = (kernelsNoN3 (sums s) + count (fun c => negb (n3 c) && hits part fld c) cs)%nat).
  Proof.
    intros H.
    destruct (aosCalls_value same part typeId cfg cs s) as (s' & E & F & S).
    { intros c I. apply (usable_defined part typeId cfg fld known Hset). exact (H c I). }
    exists s'. split; [exact E|]. split; [|split].
    - intros a. rewrite F. f_equal. apply (calls_forces same part typeId cfg fld known Hset). exact H.
    - intros G. destruct (calls_sums part typeId cfg fld known Hset cs H G) as [C1 C2].
      rewrite S. unfold addSums. cbn [potentialSum virialSum]. now rewrite C1, C2.
    - intros G. destruct (calls_counts part typeId cfg fld known Hset cs G) as (C1 & C2 & C3).
      rewrite S. unfold addSums. cbn [distCalls kernelsN3 kernelsNoN3]. now rewrite C1, C2, C3.
  Qed.

  Lemma globals_value css ts : calcGlobals cfg = true ->
    (forall c, In c (concat css) -> known (typeId (fstP c)) /\ known (typeId (sndP c)) /\ apart part fld (fstP c) (sndP c)) ->
    Forall2 (fun cs t => exists s, sums s = noSums /\ aosCalls same part typeId cfg cs s = Some t) css ts ->
    endTraversal (map sums ts) =
      (ownedEnergy part typeId fld (flat_map added (concat css)) / 2, rscale (ownedVirial part typeId fld (flat_map added (concat css))) (1 / 2)).
  Proof.
    intros G H F. rewrite end_value.
    enough (X : potentialSum (ssum (map sums ts)) = 6 * ownedEnergy part typeId fld (flat_map added (concat css)) /\
            virialSum (ssum (map sums ts)) = ownedVirial part typeId fld (flat_map added (concat css))).
    { destruct X as [-> ->]. f_equal. field. }
    induction F as [|cs t css ts (s & Z & E) F IH]; [cbn; split; [ring|reflexivity]|].
    destruct IH as [I1 I2]; [intros c I; apply H; cbn; apply in_or_app; now right|].
    destruct (forces_value cs s) as (t' & E' & _ & Gl & _); [intros c I; apply H; cbn; apply in_or_app; now left|].
    rewrite E in E'. injection E' as <-. destruct (Gl G) as [G1 G2]. rewrite Z in *. cbn in G1, G2. rewrite radd_zero_l in G2.
    cbn [map concat]. rewrite flat_map_app, ownedEnergy_app, ownedVirial_app.
    change (ssum (sums t :: map sums ts)) with (addSums (sums t) (ssum (map sums ts))).
    unfold addSums. cbn [potentialSum virialSum]. rewrite I1, I2, G2, G1. split; [ring|reflexivity].
  Qed.
End Theorems.
