(** The AVX variant of the Lennard-Jones functor computes the Lennard-Jones interaction. *)
From Coq Require Import Reals List ZArith Bool Arith Lra Lia Permutation.
From Verif.Base Require Import ZRange OptionM Lists.
From Verif.Functor Require Import CellFunctorModel SortModel.
From Verif.Container Require Import IteratorModel ParticleModel IteratorLemmas.
From Verif.Logic Require Import ComputeModel.
From Verif.MD Require Import MixingModel MixingSpec LJModel LJSpec LJProofs LJPhysics LJTheorem LJComputeProofs
  AVXModel AVXSpec AVXProofs AVXVerlet.
Import ListNotations.
Local Open Scope R_scope.

(** ** The order of the calls of SoAFunctorSingle *)
Lemma later_snoc {B} (l : list B) a :
  Permutation (laterPairs (fun _ l => l) (l ++ [a])) (laterPairs (fun _ l => l) l ++ map (fun p => (p, a)) l).
Proof.
  induction l as [|b l IH]; [reflexivity|]. cbn. rewrite map_app. cbn [map]. rewrite <- !app_assoc.
  apply Permutation_app_head. cbn [app]. rewrite IH. apply Permutation_middle.
Qed.
Lemma earlier_app {B} (l r : list B) n : (n <= length l)%nat -> earlierCalls (l ++ r) n = earlierCalls l n.
Proof.
  induction n as [|n IH]; intros L; [reflexivity|]. cbn [earlierCalls]. rewrite IH by lia. rewrite nth_error_app1 by lia.
  rewrite firstn_app. replace (n - length l)%nat with 0%nat by lia. cbn [firstn]. now rewrite app_nil_r.
Qed.
Lemma flat_map_perm {B C} (f : B -> list C) l1 l2 : Permutation l1 l2 -> Permutation (flat_map f l1) (flat_map f l2).
Proof.
  induction 1 as [|x l1 l2 _ IH|x y l|l1 l2 l3 _ IH1 _ IH2]; cbn; [reflexivity|now apply Permutation_app_head| |now rewrite IH1].
  rewrite !app_assoc. apply Permutation_app_tail, Permutation_app_comm.
Qed.
Lemma earlier_single {B} (view : list B) :
  Permutation (flat_map added (earlierCalls view (length view))) (flat_map added (soaSingle view)).
Proof.
  induction view as [|a l IH] using rev_ind; [reflexivity|].
  rewrite app_length. cbn [length]. rewrite Nat.add_1_r. cbn [earlierCalls].
  rewrite (earlier_app l [a] (length l) (le_n _)), nth_error_app2 by lia. rewrite Nat.sub_diag. cbn [nth_error].
  rewrite firstn_app, firstn_all, Nat.sub_diag. cbn [firstn]. rewrite app_nil_r, flat_map_app.
  unfold soaSingle. rewrite (flat_map_perm added _ _ (Permutation_map (fun '(p, q) => mkCall p q true) (later_snoc l a))).
  rewrite map_app, flat_map_app. rewrite Permutation_app_comm. apply Permutation_app; [exact IH|].
  rewrite map_map. clear IH. induction l as [|b l IH]; [reflexivity|]. cbn. rewrite IH. apply perm_swap.
Qed.

Section Theorems.
  Context {A : Type}.
  Variable same : A -> A -> bool.
  Hypothesis sameEq : forall x y, same x y = true <-> x = y.
  Variable part : A -> Particle.
  Variable typeId : A -> nat.
  Variable cfg : LJConfig.
  Variable fld : Field.
  Variable known : nat -> Prop.
  Hypothesis Hset : setUp cfg fld known.

  Notation usable := (LJPhysics.usable part typeId fld known).
  Notation effectOf := (AVXSpec.effectOf same part typeId cfg fld).

  Lemma usable_fine i j b : usable (mkCall i j b) -> fineA part typeId cfg i j.
  Proof.
    intros (Ki & Kj & Ap). cbn [fstP sndP] in *. destruct (props_known typeId cfg fld known Hset _ _ Ki Kj) as (p & E & _). split; [congruence|].
    rewrite (hit_interacting part cfg fld known Hset). intros I Z. apply (Ap I). now apply dot_zero.
  Qed.

  Lemma callG_sums cs : potentialSum (ssum (map (callG part typeId cfg) cs)) = potentialSum (ssum (map (callSc part typeId cfg) cs)) /\
    virialSum (ssum (map (callG part typeId cfg) cs)) = virialSum (ssum (map (callSc part typeId cfg) cs)).
  Proof.
    induction cs as [|c cs [IH1 IH2]]; [auto|]. cbn [map].
    change (ssum (callG part typeId cfg c :: map (callG part typeId cfg) cs)) with (addSums (callG part typeId cfg c) (ssum (map (callG part typeId cfg) cs))).
    change (ssum (callSc part typeId cfg c :: map (callSc part typeId cfg) cs)) with (addSums (callSc part typeId cfg c) (ssum (map (callSc part typeId cfg) cs))).
    assert (E : potentialSum (callG part typeId cfg c) = potentialSum (callSc part typeId cfg c) /\
                virialSum (callG part typeId cfg c) = virialSum (callSc part typeId cfg c)).
    { unfold callG, callSc, pairS. destruct (isDummy (part (fstP c))) eqn:D.
      - rewrite (proj2 (nohit_zero same part typeId cfg (n3 c) (fstP c) _ _ (dummy_hit part cfg _ (sndP c) D))). auto.
      - fold (pairG part typeId cfg (n3 c) (fstP c) (sndP c)). unfold addSums, distCount, kernelCount. cbn [potentialSum virialSum].
        destruct (n3 c); cbn [potentialSum virialSum]; (split; [ring|r3]). }
    destruct E as [E1 E2]. unfold addSums. cbn [potentialSum virialSum]. now rewrite IH1, IH2, E1, E2.
  Qed.

  Lemma done_effect cs s s' vir pot : (forall c, In c cs -> usable c) ->
    AVXProofs.CallsDone same part typeId cfg cs (forceAt s, (set1 rzero, set1 0)) (forceAt s', (vir, pot)) ->
    sums s' = addGlobals cfg vir pot (sums s) -> effectOf cs s s'.
  Proof.
    intros U [F G] S. cbn [fst snd] in *. split.
    - intros a. rewrite F. f_equal. apply (calls_forces same part typeId cfg fld known Hset), U.
    - intros C. destruct (calls_sums part typeId cfg fld known Hset cs U C) as [C1 C2]. destruct (callG_sums cs) as [D1 D2].
      rewrite S. unfold addGlobals. rewrite C. unfold regsG in G. cbn [fst snd] in G. rewrite G.
      unfold addSums. cbn [potentialSum virialSum]. rewrite D1, D2, C1, C2.
      unfold globalSums, hsum, hsum3, set1. cbn [potentialSum virialSum l0 l1 l2 l3]. split; [ring|r3].
  Qed.

  Lemma effect_nil s : effectOf [] s s.
  Proof. split; [intros a; cbn; now rewrite radd_zero_r|]. intros _. cbn. split; [ring|r3]. Qed.
  Lemma effect_app l1 l2 s t u : effectOf l1 s t -> effectOf l2 t u -> effectOf (l1 ++ l2) s u.
  Proof.
    intros [F1 G1] [F2 G2]. split.
    - intros a. rewrite F2, F1, flat_map_app, forcesOn_app. now rewrite radd_assoc.
    - intros C. destruct (G1 C) as [P1 V1]. destruct (G2 C) as [P2 V2]. rewrite P2, P1, V2, V1, flat_map_app, ownedEnergy_app, ownedVirial_app.
      split; [ring|r3].
  Qed.
  Lemma effect_perm l1 l2 s t : Permutation (flat_map added l1) (flat_map added l2) -> effectOf l1 s t -> effectOf l2 s t.
  Proof.
    intros P [F G]. split.
    - intros a. rewrite F. f_equal. unfold forcesOn. apply vsum_perm, Permutation_map, filter_perm, P.
    - intros C. destruct (G C) as [-> ->]. unfold ownedEnergy, ownedVirial. split; f_equal; [f_equal|].
      + apply rsum_perm, Permutation_map, filter_perm, P.
      + apply vsum_perm, Permutation_map, filter_perm, P.
  Qed.

  Lemma usable_added c c' : In c' [mkCall (sndP c) (fstP c) true] -> usable c -> usable c'.
  Proof.
    intros [<-|[]] (Ki & Kj & Ap). split; [exact Kj|]. split; [exact Ki|]. cbn [fstP sndP]. intros I N. apply Ap; [|congruence].
    rewrite <- I. unfold interacting. rewrite (distance_sym (ppos (part (sndP c)))). f_equal. apply andb_comm.
  Qed.

  Lemma earlier_in (view : list A) n c : (n <= length view)%nat -> In c (earlierCalls view n) ->
    exists k l i j, (l < k < n)%nat /\ nth_error view k = Some i /\ nth_error view l = Some j /\ c = mkCall i j true.
  Proof.
    induction n as [|n IH]; intros L I; [destruct I|]. cbn [earlierCalls] in I. apply in_app_or in I. destruct I as [I|I].
    - destruct (nth_error view n) as [i|] eqn:Ei; [|destruct I]. apply in_map_iff in I. destruct I as (j & <- & I).
      apply In_nth_error in I. destruct I as [l El].
      assert (l < Nat.min n (length view))%nat.
      { rewrite <- firstn_length. apply nth_error_Some. congruence. }
      exists n, l, i, j. repeat split; try lia; auto. pose proof (window view 0 n l j) as W. cbn [skipn Nat.add] in W. auto.
    - destruct (IH ltac:(lia) I) as (k & l & i & j & K & E1 & E2 & ->). exists k, l, i, j. repeat split; auto; lia.
  Qed.
  Lemma later_nth {B} (view : list B) k l i j : (l < k)%nat -> nth_error view k = Some i -> nth_error view l = Some j ->
    In (mkCall j i true) (soaSingle view).
  Proof.
    unfold soaSingle. revert k l. induction view as [|a view IH]; intros k l K Ei Ej; [destruct k; discriminate|].
    destruct k as [|k]; [lia|]. cbn [laterPairs]. rewrite map_app. apply in_or_app. destruct l as [|l].
    - left. injection Ej as <-. rewrite map_map. apply in_map_iff. exists i. split; [reflexivity|]. eapply nth_error_In; eauto.
    - right. apply (IH k l); auto; lia.
  Qed.

  Lemma call_effect o s : admissible part typeId fld known o ->
    exists s', avxCall same part typeId cfg o s = Some s' /\ effectOf (pairsOf o) s s'.
  Proof.
    destruct o as [i j newton3|view|newton3 v1 v2|newton3 view first nbs]; intros [H U]; cbn [avxCall pairsOf] in *.
    - assert (Hs : setUp (noFlops cfg) fld known) by (destruct Hset; split; assumption).
      destruct (forces_value same part typeId (noFlops cfg) fld known Hs [mkCall i j newton3] s U) as (s' & E & F & G & _).
      exists s'. cbn [aosCalls] in E. destruct (aosFunctor same part typeId (noFlops cfg) _ s); [|discriminate].
      split; [exact E|]. split; assumption.
    - unfold avxFunctorSingle. destruct view as [|v0 vr] eqn:Ev; [exists s; split; [reflexivity|apply effect_nil]|]. rewrite <- Ev in *. clear Ev.
      assert (Fe : forall k l i j, (l < k < length view)%nat -> nth_error view k = Some i -> nth_error view l = Some j -> usable (mkCall i j true)).
      { intros k l i j K Ei Ej. apply (usable_added (mkCall j i true)); [now left|]. apply U. apply (later_nth view k l); auto; lia. }
      destruct (singleRows_value same sameEq part typeId cfg view H (length view) (forceAt s, (set1 rzero, set1 0)) (le_n _)) as ((m & vir & pot) & E & D).
      { intros k l i j K Ei Ej _. apply (usable_fine i j true). apply (Fe k l); auto. }
      rewrite E. eexists. split; [reflexivity|].
      apply (effect_perm (earlierCalls view (length view))); [apply earlier_single|].
      apply (done_effect _ _ _ vir pot); [|exact D|reflexivity].
      intros c I. destruct (earlier_in _ _ _ (le_n _) I) as (k & l & i & j & K & E1 & E2 & ->). apply (Fe k l); auto.
    - unfold avxFunctorPair. destruct v1 as [|a v1]; [exists s; split; [reflexivity|apply effect_nil]|].
      destruct v2 as [|b v2].
      { exists s. split; [reflexivity|]. replace (soaPair newton3 (a :: v1) []) with (@nil (Call A)); [apply effect_nil|].
        unfold soaPair. generalize (a :: v1). intros l. induction l as [|x l IHl]; [reflexivity|exact IHl]. }
      destruct (pairRows_value same sameEq part typeId cfg newton3 (b :: v2) H (a :: v1) (forceAt s, (set1 rzero, set1 0))) as ((m & vir & pot) & E & D).
      { intros i j Ii Ij _. apply (usable_fine i j newton3). apply U. unfold soaPair. apply in_flat_map. exists i. split; [exact Ii|].
        apply in_map_iff. exists j. auto. }
      rewrite E. eexists. split; [reflexivity|]. apply (done_effect _ _ _ vir pot); [exact U|exact D|reflexivity].
    - destruct H as [Hf (js & Hj & ND)]. rewrite Hj in U |- *. destruct (nth_error view first) as [i|] eqn:Ei; [|contradiction].
      destruct (verlet_value same sameEq part typeId cfg view nbs js Hj ND newton3 first i s Ei) as (s' & vir & pot & E & S & D).
      { intros _ b I. apply (usable_fine i b newton3). apply U. apply in_map_iff. exists b. auto. }
      exists s'. split; [exact E|]. exact (done_effect _ _ _ vir pot U D S).
  Qed.

  Lemma calls_effect os : forall s, (forall o, In o os -> admissible part typeId fld known o) ->
    exists s', avxCalls same part typeId cfg os s = Some s' /\ effectOf (flat_map pairsOf os) s s'.
  Proof.
    induction os as [|o os IH]; intros s H; [exists s; split; [reflexivity|apply effect_nil]|].
    cbn [avxCalls flat_map]. destruct (call_effect o s (H o (or_introl eq_refl))) as (t & -> & E1).
    destruct (IH t (fun o' I => H o' (or_intror I))) as (u & -> & E2). exists u. split; [reflexivity|]. exact (effect_app _ _ _ _ _ E1 E2).
  Qed.

  Lemma threads_globals oss ts : calcGlobals cfg = true -> (forall o, In o (concat oss) -> admissible part typeId fld known o) ->
    Forall2 (fun os t => exists s, sums s = noSums /\ avxCalls same part typeId cfg os s = Some t) oss ts ->
    endTraversal (map sums ts) =
      (ownedEnergy part typeId fld (flat_map added (flat_map pairsOf (concat oss))) / 2,
       rscale (ownedVirial part typeId fld (flat_map added (flat_map pairsOf (concat oss)))) (1 / 2)).
  Proof.
    intros G H F. rewrite end_value.
    enough (X : potentialSum (ssum (map sums ts)) = 6 * ownedEnergy part typeId fld (flat_map added (flat_map pairsOf (concat oss))) /\
            virialSum (ssum (map sums ts)) = ownedVirial part typeId fld (flat_map added (flat_map pairsOf (concat oss)))).
    { destruct X as [-> ->]. f_equal. field. }
    induction F as [|os t oss ts (s & Z & E) F IH]; [cbn; split; [ring|reflexivity]|].
    destruct IH as [I1 I2]; [intros o I; apply H; cbn; apply in_or_app; now right|].
    destruct (calls_effect os s) as (t' & E' & _ & Gl); [intros o I; apply H; cbn; apply in_or_app; now left|].
    rewrite E in E'. injection E' as <-. destruct (Gl G) as [G1 G2]. rewrite Z in *. cbn in G1, G2. rewrite radd_zero_l in G2.
    cbn [map concat]. rewrite !flat_map_app, ownedEnergy_app, ownedVirial_app.
    change (ssum (sums t :: map sums ts)) with (addSums (sums t) (ssum (map sums ts))).
    unfold addSums. cbn [potentialSum virialSum]. rewrite I1, I2, G2, G1. split; [ring|reflexivity].
  Qed.
End Theorems.
