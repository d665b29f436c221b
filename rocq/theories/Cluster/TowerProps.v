(** Statements about the towers that are used as properties. *)
From Coq Require Import Reals Lra Sorted Permutation Lia.
From Verif.Base Require Import ZRange.
From Verif.Functor Require Import SortModel.
From Verif.Container Require Import ParticleModel IteratorModel IteratorContainers.
From Verif.Cluster Require Import TowerModel TowerSpec TowerProofs.
Local Open Scope nat_scope.

Lemma actual_padding t : tParts t = actual t ++ padding t.
Proof. symmetry. apply firstn_skipn. Qed.
Lemma numActual_eq t t' : length (tParts t') = length (tParts t) -> tDummies t' = tDummies t -> numActual t' = numActual t.
Proof. unfold numActual. lia. Qed.
Lemma actual_length t : length (actual t) = numActual t.
Proof. unfold actual. rewrite firstn_length. unfold numActual. lia. Qed.

(** generateClusters and setDummyValues *)
Lemma tower_generate sortZ cs t x dz : sortsByZ sortZ -> 0 < cs -> tDummies t = 0 ->
  exists t1 t2, generateClusters sortZ cs t = Some t1 /\ setDummyValues cs x dz t1 = Some t2 /\
    fullClusters cs t2 /\ Permutation (tParts t) (actual t2) /\ zSorted (actual t2) /\
    (forall k, k < tClusters t2 -> exists p, In p (clusterOf cs t2 k) /\ In p (tParts t)) /\
    (forall p, In p (tParts t) -> exists k, k < tClusters t2 /\ In p (clusterOf cs t2 k)).
Proof.
  intros S C D. destruct (gen_ok sortZ cs S C t D) as (t1 & G & F & P & Z & _ & _).
  destruct F as (F1 & F2 & F3 & F4).
  destruct (setDummyValues_ok cs x dz t1 C F1 F2 F3) as (t2 & E & F' & A & D' & C' & _ & _ & _).
  exists t1, t2. rewrite A. repeat (split; [assumption|]). split; [|].
  - intros k K. destruct (cluster_has_actual cs t2 k C F' K) as (p & I & J). exists p. split; auto.
    apply Permutation_in with (actual t1); [symmetry; auto|]. rewrite <- A. exact J.
  - intros p I. apply in_some_cluster; auto. rewrite (actual_padding t2), A. apply in_or_app. left. apply Permutation_in with (tParts t); auto.
Qed.

(** The owned clusters *)
Lemma owned_iff_actual cs t k p : fullClusters cs t -> In p (clusterOf cs t k) -> isOwned p = true ->
  exists i, nth_error (actual t) i = Some p /\ cs * k <= i < cs * k + cs.
Proof.
  intros (L & D & D2 & F) I O. apply In_nth_error in I. destruct I as [i E]. unfold clusterOf in E. rewrite cluster_nth in E.
  destruct (Nat.ltb_spec i cs) as [H|H]; [|discriminate].
  exists (cs * k + i). split; [|lia]. unfold actual. rewrite nth_error_firstn'.
  destruct (Nat.ltb_spec (cs * k + i) (numActual t)) as [B|B]; [exact E|]. exfalso.
  rewrite Forall_forall in F. assert (In p (padding t)).
  { apply nth_error_In with (cs * k + i - numActual t). unfold padding. rewrite nth_error_skipn'.
    replace (numActual t + (cs * k + i - numActual t)) with (cs * k + i) by lia. exact E. }
  apply F in H0. unfold isOwned, isDummy in *. apply Z.eqb_eq in O, H0. rewrite O in H0. discriminate.
Qed.

Lemma owned_contiguous cs t : 0 < cs -> fullClusters cs t -> zSorted (actual t) -> ownedTogether (actual t) ->
  forall x y z, x <= y -> y <= z -> z < tClusters t ->
  anyOwned (clusterOf cs t x) = true -> anyOwned (clusterOf cs t z) = true -> anyOwned (clusterOf cs t y) = true.
Proof.
  intros C F S T x y z XY YZ ZN OX OZ.
  destruct (Nat.eq_dec x y) as [->|NXY]; [exact OX|]. destruct (Nat.eq_dec y z) as [->|NYZ]; [exact OZ|].
  apply anyOwned_true in OX, OZ. destruct OX as (p & PX & PO). destruct OZ as (r & RZ & RO).
  destruct (owned_iff_actual cs t x p F PX PO) as (i & PI & BI). destruct (owned_iff_actual cs t z r F RZ RO) as (j & RJ & BJ).
  assert (JB : j < numActual t). { assert (nth_error (actual t) j <> None) by congruence. apply nth_error_Some in H. rewrite actual_length in H. exact H. }
  assert (B : cs * y + 0 < numActual t) by nia.
  destruct (nth_error (actual t) (cs * y + 0)) as [q|] eqn:Q; [|apply nth_error_None in Q; rewrite actual_length in Q; lia].
  apply anyOwned_true. exists q. split.
  - apply nth_error_In with 0. unfold clusterOf. rewrite cluster_nth. destruct (Nat.ltb_spec 0 cs); [|lia].
    unfold actual in Q. rewrite nth_error_firstn' in Q. destruct (Nat.ltb_spec (cs * y + 0) (numActual t)); [exact Q|discriminate].
  - apply (T p q r); auto; try (eapply nth_error_In; eassumption).
    split; [eapply (sorted_nth _ S i (cs * y + 0))|eapply (sorted_nth _ S (cs * y + 0) j)]; eauto; nia.
Qed.

Lemma anyOwned_setDummy cs t t' k : fullClusters cs t -> fullClusters cs t' -> actual t' = actual t -> numActual t' = numActual t ->
  anyOwned (clusterOf cs t' k) = anyOwned (clusterOf cs t k).
Proof.
  intros F F' A N.
  assert (X : forall u u', fullClusters cs u -> actual u = actual u' -> numActual u = numActual u' -> anyOwned (clusterOf cs u k) = true -> anyOwned (clusterOf cs u' k) = true).
  { clear. intros u u' F A N H. apply anyOwned_true in H. destruct H as (p & I & O).
    destruct (owned_iff_actual cs u k p F I O) as (i & E & B). apply anyOwned_true. exists p. split; auto.
    apply nth_error_In with (i - cs * k). unfold clusterOf. rewrite cluster_nth. destruct (Nat.ltb_spec (i - cs * k) cs); [|lia].
    replace (cs * k + (i - cs * k)) with i by lia. rewrite A in E. unfold actual in E. rewrite nth_error_firstn' in E.
    destruct (i <? numActual u'); [exact E|discriminate]. }
  destruct (anyOwned (clusterOf cs t' k)) eqn:E1; destruct (anyOwned (clusterOf cs t k)) eqn:E2; auto.
  - rewrite (X t' t) in E2; auto.
  - rewrite (X t t') in E1; auto.
Qed.

Lemma tower_owned_range sortZ cs t x dz t1 t2 : sortsByZ sortZ -> 0 < cs -> tDummies t = 0 -> ownedTogether (tParts t) ->
  generateClusters sortZ cs t = Some t1 -> setDummyValues cs x dz t1 = Some t2 ->
  forall k, k < tClusters t2 -> ((exists p, In p (clusterOf cs t2 k) /\ isOwned p = true) <-> tFirstOwned t2 <= k < tFirstTail t2).
Proof.
  intros S C D T G0 E0 k K. destruct (gen_ok sortZ cs S C t D) as (t1' & G & F & P & Z & _ & R).
  rewrite G0 in G. injection G as <-. pose proof F as F'. destruct F as (F1 & F2 & F3 & F4).
  destruct (setDummyValues_ok cs x dz t1 C F1 F2 F3) as (t2' & E & F2' & A & D' & C' & O' & T' & _).
  rewrite E0 in E. injection E as <-.
  rewrite <- anyOwned_true, (anyOwned_setDummy cs t1 t2); auto.
  2:{ unfold numActual. destruct F2' as (L2 & _). rewrite D', L2, C', F1. reflexivity. }
  assert (T1 : ownedTogether (actual t1)).
  { intros p q r Ip Iq Ir. apply T; apply Permutation_in with (actual t1); auto; symmetry; auto. }
  assert (X := range_spec (cluster cs (tParts t1)) (tClusters t1) (owned_contiguous cs t1 C F' Z T1)).
  destruct (ownedRange _ 0 None None) as [fo ft]. cbv zeta in X, R. injection R as R1 R2.
  rewrite O', T', R1, R2. apply X. lia.
Qed.

(** Afterwards the particles may be changed in place (moved, or deleted by marking). *)
Lemma skipn_changed {A} (a p : list A) : skipn (length a) (a ++ p) = p.
Proof. rewrite skipn_app, Nat.sub_diag, skipn_all. reflexivity. Qed.
Lemma filter_none {A} (f : A -> bool) l : Forall (fun x => f x = false) l -> filter f l = [].
Proof. induction 1 as [|a l H _ IH]; [reflexivity|]. cbn. rewrite H. exact IH. Qed.
Lemma tower_collect cs t changed : fullClusters cs t -> length changed = numActual t ->
  let t' := withParts t (changed ++ padding t) in
  collectAllActualParticles t' = changed /\
  tParts (deleteDummyParticles t') = filter (fun p => negb (isDummy p)) changed /\ tDummies (deleteDummyParticles t') = 0.
Proof.
  intros (L & D & D2 & F) E t'. assert (LP : length (padding t) = tDummies t).
  { unfold padding. rewrite skipn_length. unfold numActual. lia. }
  assert (N : numActual t' = length changed).
  { unfold numActual, t'. cbn [tParts withParts tDummies]. rewrite app_length, LP. lia. }
  split; [|split; [|reflexivity]].
  - unfold collectAllActualParticles. rewrite N. unfold t'. cbn [tParts withParts]. rewrite firstn_app, Nat.sub_diag, firstn_all. cbn. apply app_nil_r.
  - unfold deleteDummyParticles, t'. cbn [tParts withParts]. rewrite filter_app, (filter_none _ (padding t)); [apply app_nil_r|].
    eapply Forall_impl; [|exact F]. intros p H. cbn in H. rewrite H. reflexivity.
Qed.

(** Moving the dummies to the last particle and back *)
Lemma tower_refill cs t changed x dz : 0 < cs -> fullClusters cs t -> length changed = numActual t ->
  exists t1 t2, setDummyParticlesToLastActualParticle cs (withParts t (changed ++ padding t)) = Some t1 /\
    (forall p, In p (padding t1) -> nth_error changed (length changed - 1) = Some p) /\ actual t1 = changed /\
    setDummyValues cs x dz t1 = Some t2 /\ fullClusters cs t2 /\ actual t2 = changed.
Proof.
  intros C (L & D & D2 & F) E. set (t' := withParts t (changed ++ padding t)).
  assert (LP : length (padding t) = tDummies t). { unfold padding. rewrite skipn_length. unfold numActual. lia. }
  assert (L' : length (tParts t') = length (tParts t)).
  { unfold t'. cbn [tParts withParts]. rewrite app_length, LP, E. unfold numActual. lia. }
  assert (A' : actual t' = changed).
  { unfold actual, numActual. rewrite L'. cbn [tParts withParts t' tDummies]. unfold numActual in E. rewrite <- E, firstn_app, Nat.sub_diag, firstn_all. cbn. apply app_nil_r. }
  destruct (toLast_ok cs t') as (t1 & T & L1 & A1 & D1 & C1 & O1 & T1 & Q); cbn [tClusters tDummies withParts t'] in *; try lia.
  destruct (setDummyValues_ok cs x dz t1) as (t2 & T2 & F2 & A2 & _); try lia.
  exists t1, t2. split; [exact T|]. split; [|split; [congruence|split; [exact T2|split; [exact F2|congruence]]]].
  intros p I. specialize (Q p I). rewrite A1, A' in Q.
  rewrite (numActual_eq t' t1) in Q by (cbn [tDummies withParts t'] in *; lia).
  assert (N' : numActual t' = length changed) by (rewrite <- A'; symmetry; apply actual_length). rewrite N' in Q. exact Q.
Qed.

(** deleteByIndex *)
Lemma removelast_firstn' {A} (l : list A) : removelast l = firstn (length l - 1) l.
Proof.
  induction l as [|a l IH]; [reflexivity|]. destruct l as [|b l]; [reflexivity|].
  transitivity (a :: removelast (b :: l)); [reflexivity|]. rewrite IH. cbn [length]. rewrite !Nat.sub_succ, !Nat.sub_0_r. reflexivity.
Qed.
Lemma tower_delete cs t i p : fullClusters cs t -> nth_error (actual t) i = Some p ->
  exists t', deleteByIndex i t = Some t' /\ Permutation (actual t) (p :: actual t') /\ tDummies t' = tDummies t /\
    Forall (fun q => isDummy q = true) (padding t').
Proof.
  intros (L & D & D2 & F) E.
  assert (I : i < numActual t). { assert (nth_error (actual t) i <> None) by congruence. apply nth_error_Some in H. rewrite actual_length in H. exact H. }
  assert (NL : numActual t + tDummies t = length (tParts t)) by (unfold numActual; lia).
  unfold deleteByIndex. set (n := numActual t) in *.
  destruct (swapNth_some (tParts t) i (n - 1)) as [l1 S1]; try lia. rewrite S1.
  destruct (swapNth_spec _ _ _ _ S1) as (a & b & A & B & L1 & N1).
  assert (a = p) as ->. { unfold actual in E. fold n in E. rewrite nth_error_firstn' in E. destruct (Nat.ltb_spec i n); [congruence|lia]. }
  assert (PA : Permutation (actual t) (p :: firstn (n - 1) l1)).
  { (* the first n of l1 *)
    assert (SW : swapNth (actual t) i (n - 1) = Some (firstn n l1)).
    { destruct (swapNth_some (actual t) i (n - 1)) as [m M]; try (rewrite actual_length; fold n; lia).
      rewrite M. f_equal. apply nth_error_ext. intros k. destruct (swapNth_spec _ _ _ _ M) as (a' & b' & A' & B' & LM & NM).
      rewrite NM, nth_error_firstn', N1. unfold actual in A', B' |- *. fold n in A', B' |- *. rewrite nth_error_firstn' in A', B' |- *.
      destruct (Nat.ltb_spec i n); [|lia]. destruct (Nat.ltb_spec (n - 1) n); [|lia].
      destruct (Nat.eqb_spec k (n - 1)); destruct (Nat.eqb_spec k i); destruct (Nat.ltb_spec k n); try lia; congruence. }
    apply swapNth_perm in SW. rewrite SW.
    assert (X : firstn n l1 = firstn (n - 1) l1 ++ [p]).
    { apply nth_error_ext. intros k. rewrite nth_error_firstn'.
      assert (LF : length (firstn (n - 1) l1) = n - 1) by (rewrite firstn_length; lia).
      destruct (Nat.lt_ge_cases k (n - 1)).
      - rewrite nth_error_app1 by lia. rewrite nth_error_firstn'. destruct (Nat.ltb_spec k n); destruct (Nat.ltb_spec k (n - 1)); try lia; reflexivity.
      - rewrite nth_error_app2 by lia. rewrite LF. destruct (Nat.ltb_spec k n).
        + replace (k - (n - 1)) with 0 by lia. cbn. rewrite N1. destruct (Nat.eqb_spec k (n - 1)); [reflexivity|lia].
        + symmetry. apply nth_error_None. cbn. lia. }
    rewrite X. rewrite Permutation_app_comm. reflexivity. }
  assert (PADD : forall k q, n <= k -> nth_error l1 k = Some q -> isDummy q = true).
  { intros k q K Q. rewrite N1 in Q. destruct (Nat.eqb_spec k (n - 1)); [lia|]. destruct (Nat.eqb_spec k i); [lia|].
    rewrite Forall_forall in F. apply F. apply nth_error_In with (k - n). unfold padding. fold n. rewrite nth_error_skipn'. replace (n + (k - n)) with k by lia. exact Q. }
  destruct (Nat.eqb_spec (tDummies t) 0) as [Z|Z]; cbn [option_map].
  - exists (withParts t (removelast l1)). split; [reflexivity|]. rewrite removelast_firstn', L1.
    assert (NE : numActual (withParts t (firstn (length (tParts t) - 1) l1)) = n - 1).
    { unfold numActual. cbn [tParts withParts tDummies]. rewrite firstn_length. lia. }
    split; [|split; [reflexivity|]].
    + unfold actual at 2. rewrite NE. cbn [tParts withParts]. rewrite firstn_firstn.
      replace (Nat.min (n - 1) (length (tParts t) - 1)) with (n - 1) by lia. exact PA.
    + unfold padding. rewrite NE. cbn [tParts withParts]. rewrite skipn_all2; [constructor|]. rewrite firstn_length. lia.
  - destruct (swapNth_some l1 (n - 1) (length l1 - 1)) as [l2 S2]; try lia. rewrite S2. cbn [option_map].
    destruct (swapNth_spec _ _ _ _ S2) as (a2 & b2 & A2 & B2 & L2 & N2).
    exists (withParts t (removelast l2)). split; [reflexivity|]. rewrite removelast_firstn', L2, L1.
    assert (NE : numActual (withParts t (firstn (length (tParts t) - 1) l2)) = n - 1).
    { unfold numActual. cbn [tParts withParts tDummies]. rewrite firstn_length. lia. }
    split; [|split; [reflexivity|]].
    + unfold actual at 2. rewrite NE. cbn [tParts withParts]. rewrite firstn_firstn.
      replace (Nat.min (n - 1) (length (tParts t) - 1)) with (n - 1) by lia.
      replace (firstn (n - 1) l2) with (firstn (n - 1) l1); [exact PA|].
      apply firstn_same. intros j J. rewrite N2. destruct (Nat.eqb_spec j (length l1 - 1)); [lia|]. destruct (Nat.eqb_spec j (n - 1)); [lia|reflexivity].
    + apply Forall_nth_error. intros j q Q. unfold padding in Q. rewrite NE in Q. cbn [tParts withParts] in Q.
      rewrite nth_error_skipn', nth_error_firstn' in Q. destruct (Nat.ltb_spec (n - 1 + j) (length (tParts t) - 1)); [|discriminate].
      rewrite N2 in Q. destruct (Nat.eqb_spec (n - 1 + j) (length l1 - 1)); [lia|].
      destruct (Nat.eqb_spec (n - 1 + j) (n - 1)).
      * injection Q as <-. apply (PADD (length l1 - 1)); [lia|exact B2].
      * apply (PADD (n - 1 + j)); [lia|exact Q].
Qed.
