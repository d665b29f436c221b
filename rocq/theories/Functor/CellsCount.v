(** Counting the functor calls for any collection of cells that are processed without
    a sorting direction. *)
From Coq Require Import Reals Lra.
From Verif.Base Require Import ZRange Occ Lists.
From Verif.Functor Require Import CellFunctorModel FunctorSpec CellFunctorProofs SortModel SortSpec SortProofs.
Local Open Scope Z_scope.

Section PairK.
  Context {K : Type}.
  Variable eqK : forall a b : K, {a = b} + {a <> b}.
  Variables ka kc : K.
  Let is k k' : bool := if eqK k k' then true else false.
  Definition samePairK (e : K * K) : bool := is (fst e) ka && is (snd e) kc || is (fst e) kc && is (snd e) ka.
  Definition orderedPairK (e : K * K) : bool := is (fst e) ka && is (snd e) kc.

  Lemma is_iff k k' : is k k' = true <-> k = k'.
  Proof. unfold is. destruct (eqK k k'); split; congruence. Qed.
  Lemma samePairK_iff k1 k2 : samePairK (k1, k2) = true <-> (k1 = ka /\ k2 = kc) \/ (k1 = kc /\ k2 = ka).
  Proof. unfold samePairK. cbn [fst snd]. now rewrite orb_true_iff, !andb_true_iff, !is_iff. Qed.
  Lemma orderedPairK_iff k1 k2 : orderedPairK (k1, k2) = true <-> k1 = ka /\ k2 = kc.
  Proof. unfold orderedPairK. cbn [fst snd]. now rewrite !andb_true_iff, !is_iff. Qed.
End PairK.

Section Cells.
  Context {K P : Type}.
  Variable eqK : forall a b : K, {a = b} + {a <> b}.
  Variables (pid : P -> Z) (isHalo : P -> bool) (pos : P -> R3) (view : R3 -> list P -> list P).
  Variables (cf : CFSettings) (sc : R) (content : K -> list P) (dirOf : K -> R3).
  Hypothesis Hview : forall dir l, isSortedView pos dir l (view dir l).
  Hypothesis Hdir : forall k, (dot (dirOf k) (dirOf k) <= 1)%R.
  Hypothesis Hids : forall k, distinctIds pid (content k).
  Hypothesis Hdisj : forall k1 k2 x y, In x (content k1) -> In y (content k2) -> pid x = pid y -> x = y /\ k1 = k2.

  Let cell k := mkCell (content k) true.
  Definition eventCalls (e : K * K) : list (Call P) :=
    let '(k1, k2) := e in
    if eqK k1 k2 then processCell isHalo (view (dirOf k1)) (farAlong pos sc (dirOf k1)) cf (cell k1)
    else processCellPair (view (dirOf k1)) (farAlong pos sc (dirOf k1)) cf false (cell k1) (cell k2).

  Lemma viewPerm d l : Permutation l (view d l).
  Proof. apply Hview. Qed.
  Lemma viewIn d l x : In x (view d l) -> In x l.
  Proof. intros H. eapply Permutation_in; [apply Permutation_sym, viewPerm|exact H]. Qed.
  Lemma viewIds d l : distinctIds pid l -> distinctIds pid (view d l).
  Proof. intros H. unfold distinctIds in *. eapply Permutation_NoDup; [|exact H]. apply Permutation_map, viewPerm. Qed.

  Lemma ids2 k1 k2 : k1 <> k2 -> distinctIds pid (content k1 ++ content k2).
  Proof.
    intros N. unfold distinctIds. rewrite map_app. apply NoDup_app_intro; [apply Hids|apply Hids|].
    intros z H1 H2. apply in_map_iff in H1 as (x & Ex & Hx). apply in_map_iff in H2 as (y & Ey & Hy).
    apply N. apply (Hdisj k1 k2 x y Hx Hy). congruence.
  Qed.

  Variables (a c : P) (ka kc : K).
  Hypothesis Ia : In a (content ka).
  Hypothesis Ic : In c (content kc).
  Hypothesis Hne : a <> c.

  Lemma event_other k1 k2 : ~ ((k1 = ka /\ k2 = kc) \/ (k1 = kc /\ k2 = ka)) -> received pid (eventCalls (k1, k2)) a c = 0%nat.
  Proof.
    intros Hs. unfold received. apply occ_zero. intros f Hf. unfold eventCalls in Hf.
    destruct (contributes pid (pid a) (pid c) f) eqn:E; [exfalso|reflexivity].
    unfold contributes in E. rewrite orb_true_iff, !andb_true_iff, !Z.eqb_eq in E.
    assert (Hcase : (In (fstP f) (content k1) /\ In (sndP f) (content k2)) \/ (In (fstP f) (content k2) /\ In (sndP f) (content k1))).
    { destruct (eqK k1 k2) as [E12|N12].
      - apply (processCell_sub pid) in Hf; [|intros x; apply viewIn|apply viewIds, Hids|apply Hids]. rewrite <- E12. cbn in Hf. tauto.
      - apply (processCellPair_sub pid _ isHalo) in Hf; [cbn in Hf; tauto|]. intros ? x _. apply viewIn. }
    assert (Hd : forall x y i j, In x (content i) -> In y (content j) -> pid x = pid a -> pid y = pid c -> i = ka /\ j = kc).
    { intros x y i j Hx Hy Ex Ey. split; [exact (proj2 (Hdisj _ _ _ _ Hx Ia Ex))|exact (proj2 (Hdisj _ _ _ _ Hy Ic Ey))]. }
    destruct E as [[E1 E2]|[[_ E1] E2]]; destruct Hcase as [[H1 H2]|[H1 H2]].
    - destruct (Hd _ _ _ _ H1 H2 E1 E2). tauto.
    - destruct (Hd _ _ _ _ H1 H2 E1 E2). tauto.
    - destruct (Hd _ _ _ _ H2 H1 E2 E1). tauto.
    - destruct (Hd _ _ _ _ H2 H1 E2 E1). tauto.
  Qed.

  (** With Newton 3. *)
  Lemma event_n3 k1 k2 : useNewton3 cf = true ->
    (received pid (eventCalls (k1, k2)) a c <= if samePairK eqK ka kc (k1, k2) then 1 else 0)%nat /\
    ((dist3 (pos a) (pos c) <= sc)%R -> (dist3 (pos c) (pos a) <= sc)%R ->
      received pid (eventCalls (k1, k2)) a c = if samePairK eqK ka kc (k1, k2) then 1 else 0)%nat.
  Proof.
    intros Hn. destruct (samePairK eqK ka kc (k1, k2)) eqn:Es.
    2: { assert (Z : received pid (eventCalls (k1, k2)) a c = 0%nat).
         { apply event_other. intros H. apply (samePairK_iff eqK) in H. congruence. } rewrite Z. split; [apply Nat.le_refl|reflexivity]. }
    apply (samePairK_iff eqK) in Es. unfold eventCalls. destruct (eqK k1 k2) as [E12|N12].
    - assert (Ea : ka = k1) by (destruct Es as [[? ?]|[? ?]]; congruence). assert (Ec : kc = k1) by (destruct Es as [[? ?]|[? ?]]; congruence).
      assert (X : expectedSame isHalo cf a = 1%nat) by (unfold expectedSame; rewrite Hn; cbn [orb]; now destruct (layout cf)).
      split.
      + destruct (processCell_received pid (farAlong pos sc (dirOf k1)) isHalo (view (dirOf k1)) cf (cell k1) a c) as [H _]; auto.
        * apply viewPerm.
        * apply Hids.
        * cbn. rewrite <- Ea. exact Ia.
        * cbn. rewrite <- Ec. exact Ic.
        * now rewrite X in H.
      + intros D1 D2. rewrite (sorted_cell_complete pid isHalo pos cf sc (dirOf k1) (view (dirOf k1)) (cell k1) a c); auto.
        * apply Hids.
        * cbn. rewrite <- Ea. exact Ia.
        * cbn. rewrite <- Ec. exact Ic.
    - enough (Z : received pid (processCellPair (view (dirOf k1)) (farAlong pos sc (dirOf k1)) cf false (cell k1) (cell k2)) a c = 1%nat)
        by (rewrite Z; auto).
      assert (Hrel : pairRelevant cf (cell k1) (cell k2)) by now left.
      destruct Es as [[E1 E2]|[E1 E2]].
      + destruct (processCellPair_received pid (farAlong pos sc (dirOf k1)) (view (dirOf k1)) cf false (cell k1) (cell k2) a c) as (_ & _ & H); auto.
        * intros; apply viewPerm.
        * now apply ids2.
        * cbn. rewrite E1. exact Ia.
        * cbn. rewrite E2. exact Ic.
        * apply H. auto.
      + destruct (processCellPair_received pid (farAlong pos sc (dirOf k1)) (view (dirOf k1)) cf false (cell k1) (cell k2) c a) as (_ & _ & H); auto.
        * intros; apply viewPerm.
        * now apply ids2.
        * cbn. rewrite E1. exact Ic.
        * cbn. rewrite E2. exact Ia.
        * destruct H as [_ H]; [auto|]. rewrite Hn in H. exact H.
  Qed.

  (** Without Newton 3 and only for the first cell. *)
  Lemma event_ordered k1 k2 : useNewton3 cf = false -> bidirectional cf = false -> isHalo a = false ->
    (dist3 (pos a) (pos c) <= sc)%R -> (dist3 (pos c) (pos a) <= sc)%R ->
    received pid (eventCalls (k1, k2)) a c = if orderedPairK eqK ka kc (k1, k2) then 1%nat else 0%nat.
  Proof.
    intros Hn Hb Ho D1 D2. destruct (orderedPairK eqK ka kc (k1, k2)) eqn:Es.
    - apply (orderedPairK_iff eqK) in Es as [E1 E2]. unfold eventCalls. destruct (eqK k1 k2) as [E12|N12].
      + rewrite (sorted_cell_complete pid isHalo pos cf sc (dirOf k1) (view (dirOf k1)) (cell k1) a c); auto.
        * unfold expectedSame. rewrite Ho. cbn [negb]. rewrite orb_true_r. now destruct (layout cf).
        * apply Hids.
        * cbn. rewrite E1. exact Ia.
        * cbn. rewrite E12, E2. exact Ic.
      + destruct (processCellPair_received pid (farAlong pos sc (dirOf k1)) (view (dirOf k1)) cf false (cell k1) (cell k2) a c) as (_ & _ & H); auto.
        * intros; apply viewPerm.
        * now apply ids2.
        * now left.
        * cbn. rewrite E1. exact Ia.
        * cbn. rewrite E2. exact Ic.
        * apply H. auto.
    - destruct (samePairK eqK ka kc (k1, k2)) eqn:Em.
      + apply (samePairK_iff eqK) in Em. assert (Hr : k1 = kc /\ k2 = ka).
        { destruct Em as [H|H]; [|exact H]. apply (orderedPairK_iff eqK) in H. congruence. }
        destruct Hr as [E1 E2]. unfold eventCalls. destruct (eqK k1 k2) as [E12|N12].
        { exfalso. assert (H : orderedPairK eqK ka kc (k1, k2) = true) by (apply (orderedPairK_iff eqK); split; congruence). congruence. }
        destruct (processCellPair_received pid (farAlong pos sc (dirOf k1)) (view (dirOf k1)) cf false (cell k1) (cell k2) c a) as (_ & H & _); auto.
        * intros; apply viewPerm.
        * now apply ids2.
        * now left.
        * cbn. rewrite E1. exact Ic.
        * cbn. rewrite E2. exact Ia.
        * rewrite Hn, Hb in H. cbn [orb] in H. lia.
      + apply event_other. intros H. apply (samePairK_iff eqK) in H. congruence.
  Qed.

  (** The same for any distance and ownership. *)
  Lemma event_ordered_le k1 k2 : useNewton3 cf = false -> bidirectional cf = false ->
    (received pid (eventCalls (k1, k2)) a c <= if orderedPairK eqK ka kc (k1, k2) then 1 else 0)%nat.
  Proof.
    intros Hn Hb. destruct (orderedPairK eqK ka kc (k1, k2)) eqn:Es.
    - apply (orderedPairK_iff eqK) in Es as [E1 E2]. unfold eventCalls. destruct (eqK k1 k2) as [E12|N12].
      + destruct (processCell_received pid (farAlong pos sc (dirOf k1)) isHalo (view (dirOf k1)) cf (cell k1) a c) as [H _]; auto.
        * apply viewPerm.
        * apply Hids.
        * cbn. rewrite E1. exact Ia.
        * cbn. rewrite E12, E2. exact Ic.
        * eapply Nat.le_trans; [exact H|]. unfold expectedSame. destruct (layout cf), (useNewton3 cf), (isHalo a); cbn; lia.
      + destruct (processCellPair_received pid (farAlong pos sc (dirOf k1)) (view (dirOf k1)) cf false (cell k1) (cell k2) a c) as (H & _ & _); auto.
        * intros; apply viewPerm.
        * now apply ids2.
        * now left.
        * cbn. rewrite E1. exact Ia.
        * cbn. rewrite E2. exact Ic.
    - destruct (samePairK eqK ka kc (k1, k2)) eqn:Em.
      + apply (samePairK_iff eqK) in Em. assert (Hr : k1 = kc /\ k2 = ka).
        { destruct Em as [H|H]; [|exact H]. apply (orderedPairK_iff eqK) in H. congruence. }
        destruct Hr as [E1 E2]. unfold eventCalls. destruct (eqK k1 k2) as [E12|N12].
        { exfalso. assert (H : orderedPairK eqK ka kc (k1, k2) = true) by (apply (orderedPairK_iff eqK); split; congruence). congruence. }
        destruct (processCellPair_received pid (farAlong pos sc (dirOf k1)) (view (dirOf k1)) cf false (cell k1) (cell k2) c a) as (_ & H & _); auto.
        * intros; apply viewPerm.
        * now apply ids2.
        * now left.
        * cbn. rewrite E1. exact Ic.
        * cbn. rewrite E2. exact Ia.
        * rewrite Hn, Hb in H. cbn [orb] in H. lia.
      + rewrite event_other; [lia|]. intros H. apply (samePairK_iff eqK) in H. congruence.
  Qed.

  Variable events : list (K * K).

  Lemma events_ordered_le : useNewton3 cf = false -> bidirectional cf = false ->
    (received pid (flat_map eventCalls events) a c <= occ (orderedPairK eqK ka kc) events)%nat.
  Proof.
    intros Hn Hb. unfold received. induction events as [|[k1 k2] l IH]; [apply Nat.le_refl|].
    cbn [flat_map]. rewrite occ_app, occ_cons. apply Nat.add_le_mono; [apply (event_ordered_le k1 k2 Hn Hb)|exact IH].
  Qed.

  Lemma events_n3 : useNewton3 cf = true ->
    (received pid (flat_map eventCalls events) a c <= occ (samePairK eqK ka kc) events)%nat /\
    ((dist3 (pos a) (pos c) <= sc)%R -> (dist3 (pos c) (pos a) <= sc)%R ->
      received pid (flat_map eventCalls events) a c = occ (samePairK eqK ka kc) events).
  Proof.
    intros Hn. unfold received. induction events as [|[k1 k2] l [IH1 IH2]]; [split; reflexivity|].
    cbn [flat_map]. rewrite occ_app, occ_cons. destruct (event_n3 k1 k2 Hn) as [E1 E2]. unfold received in *. split.
    - lia.
    - intros D1 D2. now rewrite (IH2 D1 D2), (E2 D1 D2).
  Qed.

  Lemma events_ordered : useNewton3 cf = false -> bidirectional cf = false -> isHalo a = false ->
    (dist3 (pos a) (pos c) <= sc)%R -> (dist3 (pos c) (pos a) <= sc)%R ->
    received pid (flat_map eventCalls events) a c = occ (orderedPairK eqK ka kc) events.
  Proof.
    intros Hn Hb Ho D1 D2. unfold received. induction events as [|[k1 k2] l IH]; [reflexivity|].
    cbn [flat_map]. rewrite occ_app, occ_cons, IH. f_equal. apply (event_ordered k1 k2 Hn Hb Ho D1 D2).
  Qed.
End Cells.
