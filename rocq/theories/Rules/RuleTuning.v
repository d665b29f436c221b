(** * Patterns, typed programs, and the queue *)

From Coq Require Import ZArith List Bool String Lia Sorted.
From Verif.Rules Require Import RuleModel RuleSpec RuleProofs RuleTheorem.
Import ListNotations.
Open Scope Z_scope.

Section Tuning.
Variable F : doubles.
Notation cell := (cell F).
Notation pexpr := (pexpr F).
Notation pstmt := (pstmt F).
Notation config := (config F).

(** ** Typed programs run *)

Definition envTyped (rho : env F) (G : tenv) : Prop :=
  forall x t, G x = Some t -> exists v, rho x = Some v /\ typeOf F v = t.

Lemma numeric_cases : forall v t, typeOf F v = t -> numeric t -> (exists d, v = VDouble d) \/ (exists n, v = VSize n).
Proof. intros [b|d|n|k n] t H N; cbn in H; subst; inversion N; eauto. Qed.

Lemma bool_case : forall v, typeOf F v = TBool -> exists b, v = VBool b.
Proof. intros [b|d|n|k n] H; cbn in H; try discriminate; eauto. Qed.

Lemma less_num : forall l r t u, typeOf F l = t -> typeOf F r = u -> numeric t -> numeric u ->
  exists b, apply F OLess l r (VBool b).
Proof.
  intros l r t u Hl Hr Nl Nr.
  destruct (numeric_cases _ _ Hl Nl) as [[a ->]|[a ->]], (numeric_cases _ _ Hr Nr) as [[b ->]|[b ->]];
    eexists; solve [apply ApLessSize | apply ApLessDouble; constructor].
Qed.

Lemma less_same : forall l r, typeOf F l = typeOf F r -> exists b, apply F OLess l r (VBool b).
Proof.
  intros [a|a|a|k a] [b|b|b|k' b] H; cbn in H; try discriminate; try (injection H as <-); eexists;
    solve [apply ApLessSize | apply ApLessBool | apply ApLessOption | apply ApLessDouble; constructor].
Qed.

Lemma arith_ok : forall o l r t u, o = OAdd \/ o = OSub \/ o = OMul \/ o = ODiv ->
  typeOf F l = t -> typeOf F r = u -> numeric t -> numeric u ->
  exists v, apply F o l r v /\ typeOf F v = join t u.
Proof.
  intros o l r t u Ho Hl Hr Nl Nr.
  assert (HD : forall a b, asDoubles F l r a b -> join t u = TDouble -> exists v, apply F o l r v /\ typeOf F v = join t u).
  { intros a b Hab ->. destruct Ho as [-> | [-> | [-> | ->]]].
    - eexists; split; [eapply ApAddDouble; eassumption|reflexivity].
    - eexists; split; [eapply ApSubDouble; eassumption|reflexivity].
    - eexists; split; [eapply ApMulDouble; eassumption|reflexivity].
    - destruct (isZero F r) eqn:E; eexists; split;
        [eapply ApDivDoubleZero; eassumption|reflexivity|eapply ApDivDouble; eassumption|reflexivity]. }
  destruct (numeric_cases _ _ Hl Nl) as [[a ->]|[a ->]], (numeric_cases _ _ Hr Nr) as [[b ->]|[b ->]];
    cbn in Hl, Hr; subst t u.
  - eapply HD; [constructor|reflexivity].
  - eapply HD; [constructor|reflexivity].
  - eapply HD; [constructor|reflexivity].
  - destruct Ho as [-> | [-> | [-> | ->]]].
    + eexists; split; [apply ApAddSize|reflexivity].
    + eexists; split; [apply ApSubSize|reflexivity].
    + eexists; split; [apply ApMulSize|reflexivity].
    + destruct (Z.eq_dec b 0) as [->|N]; eexists; split;
        [apply ApDivSizeZero|reflexivity|now apply ApDivSize|reflexivity].
Qed.

Lemma typed_evals : forall G e t, typed F G e t -> forall rho, envTyped rho G ->
  exists v, evals F rho e v /\ typeOf F v = t.
Proof.
  intros G e t H.
  induction H as [v|x t Hx|e H IH|o a b Ho Ha IHa Hb IHb|o a b t u Ho Ha IHa Hb IHb Nt Nu
                 |o a b t Ho Ha IHa Hb IHb|o a b t u Ho Ha IHa Hb IHb Nt Nu]; intros rho R.
  - exists v. split; [constructor|reflexivity].
  - destruct (R _ _ Hx) as (v & Hv & Ht). exists v. split; [now constructor|assumption].
  - destruct (IH rho R) as (v & Hv & Ht). destruct (bool_case _ Ht) as [b ->].
    eexists. split; [constructor; eassumption|reflexivity].
  - destruct (IHa rho R) as (l & Hl & Tl). destruct (IHb rho R) as (r & Hr & Tr).
    destruct (bool_case _ Tl) as [x ->]. destruct (bool_case _ Tr) as [y ->].
    destruct Ho as [-> | ->]; eexists; (split; [econstructor; [eassumption|eassumption|constructor]|reflexivity]).
  - destruct (IHa rho R) as (l & Hl & Tl). destruct (IHb rho R) as (r & Hr & Tr).
    destruct Ho as [-> | ->].
    + destruct (less_num _ _ _ _ Tl Tr Nt Nu) as [x Hx]. eexists; split; [econstructor; eassumption|reflexivity].
    + destruct (less_num _ _ _ _ Tr Tl Nu Nt) as [x Hx].
      eexists; split; [econstructor; [eassumption|eassumption|apply ApGreater; eassumption]|reflexivity].
  - destruct (IHa rho R) as (l & Hl & Tl). destruct (IHb rho R) as (r & Hr & Tr).
    destruct Ho as [-> | ->].
    + destruct (less_same l r ltac:(congruence)) as [x Hx]. eexists; split; [econstructor; eassumption|reflexivity].
    + destruct (less_same r l ltac:(congruence)) as [x Hx].
      eexists; split; [econstructor; [eassumption|eassumption|apply ApGreater; eassumption]|reflexivity].
  - destruct (IHa rho R) as (l & Hl & Tl). destruct (IHb rho R) as (r & Hr & Tr).
    destruct (arith_ok _ _ _ _ _ Ho Tl Tr Nt Nu) as (v & Hv & Tv).
    exists v. split; [econstructor; eassumption|assumption].
Qed.

Lemma envTyped_update : forall rho G x v t, envTyped rho G -> typeOf F v = t -> envTyped (update rho x v) (update G x t).
Proof.
  intros rho G x v t R Ht y u. unfold update. destruct (String.eqb y x); [|apply R].
  intros H. injection H as <-. eauto.
Qed.

Lemma typedProg_runs : forall outer G ls prog, typedProg F outer G ls prog ->
  forall rho, (forall x t, outer x = Some t -> G x = Some t) -> envTyped rho G ->
  exists rho' os, runs F rho ls prog rho' os /\ envTyped rho' outer.
Proof.
  intros outer G ls prog H.
  induction H as [outer G ls|outer G ls x vs prog H IH|outer G ls x e t prog He Hx H IH
                 |outer G ls c body prog Hc Hb IHb H IH|outer G ls g sm same sg ssm prog Hg Hs H IH]; intros rho O R.
  - exists rho, []. split; [constructor|]. intros x t Ht. apply R. auto.
  - destruct (IH rho O R) as (rho' & os & Hr & Ht). exists rho', os. split; [now constructor|assumption].
  - destruct (typed_evals _ _ _ He rho R) as (v & Hv & Tv).
    destruct (IH (update rho x v)) as (rho' & os & Hr & Ht).
    + intros y u Hy. unfold update. destruct (String.eqb_spec y x) as [->|N]; [|now apply O].
      f_equal. symmetry. now apply Hx.
    + now apply envTyped_update.
    + exists rho', os. split; [econstructor; eassumption|assumption].
  - destruct (typed_evals _ _ _ Hc rho R) as (v & Hv & Tv). destruct (bool_case _ Tv) as [b ->].
    destruct b.
    + destruct (IHb rho (fun _ _ E => E) R) as (rho1 & os1 & Hr1 & R1).
      destruct (IH rho1 O R1) as (rho' & os & Hr & Ht).
      exists rho', (os1 ++ os). split; [eapply RunIfTrue; eassumption|assumption].
    + destruct (IH rho O R) as (rho' & os & Hr & Ht).
      exists rho', os. split; [eapply RunIfFalse; eassumption|assumption].
  - destruct (IH rho O R) as (rho' & os & Hr & Ht).
    eexists rho', (SOrd sg ssm same :: os). split; [econstructor; eassumption|assumption].
Qed.

Lemma typed_scoped : forall G e t, typed F G e t -> forall K : string -> Prop, (forall x t, G x = Some t -> K x) -> scopedE F K e.
Proof. intros G e t H. induction H; intros K HK; cbn; eauto. Qed.

Lemma defined_mono : forall s (K : string -> Prop) x, K x -> defined F K s x.
Proof.
  induction s as [x vs|x e|c body IH|g s same] using pstmt_ind'; intros K y Hy; cbn; auto.
  revert K Hy. induction IH as [|s body H _ IH]; intros K Hy; cbn; auto.
Qed.

Lemma typedProg_scoped : forall outer G ls prog, typedProg F outer G ls prog ->
  forall K : string -> Prop, (forall x t, G x = Some t -> K x) -> scoped F K ls prog.
Proof.
  intros outer G ls prog H.
  induction H as [outer G ls|outer G ls x vs prog H IH|outer G ls x e t prog He Hx H IH
                 |outer G ls c body prog Hc Hb IHb H IH|outer G ls g sm same sg ssm prog Hg Hs H IH]; intros K HK.
  - constructor.
  - constructor. auto.
  - constructor; [eapply typed_scoped; eassumption|]. apply IH. intros y u. unfold update. cbn.
    destruct (String.eqb_spec y x); eauto.
  - constructor; [eapply typed_scoped; eassumption|auto|]. apply IH. intros. eapply defined_mono; eauto.
  - econstructor; eauto.
Qed.

Theorem welltyped_ok : forall info prog, wellTyped F info prog -> wellScoped F info prog /\ exists os, applies F info prog os.
Proof.
  intros info prog H. split.
  - eapply typedProg_scoped; [exact H|]. intros x t. unfold infoTypes.
    destruct (lookup x info) eqn:E; cbn; [|discriminate]. intros _. eapply lookup_some_in. exact E.
  - destruct (typedProg_runs _ _ _ _ H (infoEnv F info)) as (rho' & os & Hr & _).
    + discriminate.
    + intros x t. unfold infoTypes, infoEnv. destruct (lookup x info) as [v|]; cbn; [|discriminate].
      intros E. injection E as <-. eauto.
    + exists os. now exists rho'.
Qed.

(** ** Patterns *)

Section Option.
Variables (k : okind) (proj : pattern F -> list nat) (fld : config -> nat) (p : prop).
Hypothesis proj_add : forall q v, proj (patternAdd F q v) = match v with
  | VOption k' n => if okind_eqb k k' then n :: proj q else proj q | _ => proj q end.
Hypothesis proj_empty : proj (emptyPattern F) = [].
Hypothesis p_value : forall v c, isValue F p v c <-> v = VOption k (fld c).
Hypothesis p_fits : forall v, fits F p v -> exists n, v = VOption k n.
Hypothesis p_only : forall q n, fits F q (VOption k n) -> q = p.

Lemma okind_eqb_eq : forall a b, okind_eqb a b = true <-> a = b.
Proof. intros [| | | |] [| | | |]; cbn; split; congruence. Qed.

Lemma proj_fold : forall vs q n, In n (proj (fold_left (patternAdd F) vs q)) <-> In (VOption k n) vs \/ In n (proj q).
Proof.
  induction vs as [|v vs IH]; intros q n; cbn; [tauto|]. rewrite IH, proj_add.
  destruct v as [b|d|z|k' m]; try (split; [tauto|intros [[H|H]|H]; [discriminate|tauto|tauto]]).
  destruct (okind_eqb k k') eqn:E.
  - apply okind_eqb_eq in E. subst k'. cbn. split; [intros [H|[<-|H]]; auto|intros [[H|H]|H]; auto; injection H; auto].
  - split; [tauto|]. intros [[H|H]|H]; auto. injection H as -> _.
    assert (okind_eqb k k = true) by now apply okind_eqb_eq. congruence.
Qed.

Lemma in_concat_sp : forall (sp : spattern F) v, In v (List.concat (map snd sp)) <-> exists q vs, In (q, vs) sp /\ In v vs.
Proof.
  intros sp v. rewrite in_concat. split.
  - intros (vs & H & Hv). apply in_map_iff in H. destruct H as ([q vs'] & <- & Hin). eauto.
  - intros (q & vs & H & Hv). exists vs. split; [|assumption]. apply in_map_iff. now exists (q, vs).
Qed.

Lemma option_ok : forall sp c, patternFits F sp ->
  (allowsNat (proj (patOf F sp)) (fld c) = true <->
   (In p (map fst sp) -> exists vs v, In (p, vs) sp /\ In v vs /\ isValue F p v c)).
Proof.
  intros sp c Hf.
  assert (Hin : forall n, In n (proj (patOf F sp)) <-> In (VOption k n) (List.concat (map snd sp))).
  { intros n. unfold patOf. rewrite proj_fold, proj_empty. cbn. tauto. }
  unfold allowsNat. destruct (proj (patOf F sp)) as [|m set] eqn:Ep.
  - split; [|reflexivity]. intros _ Hp. exfalso. apply in_map_iff in Hp. destruct Hp as ([q vs] & Eq & Hq).
    cbn in Eq. subst q. destruct (Hf _ _ Hq) as [Hne Hall]. destruct vs as [|v vs]; [congruence|].
    destruct (p_fits v (Hall v (or_introl eq_refl))) as [n ->].
    apply (Hin n). apply in_concat_sp. exists p, (VOption k n :: vs). cbn. auto.
  - rewrite <- Ep in *. split.
    + intros H _. apply existsb_exists in H. destruct H as (n & Hn & En). apply Nat.eqb_eq in En. subst n.
      apply Hin, in_concat_sp in Hn. destruct Hn as (q & vs & Hq & Hv).
      assert (q = p) by (eapply p_only; apply (Hf _ _ Hq); exact Hv). subst q.
      exists vs, (VOption k (fld c)). repeat split; auto. now apply p_value.
    + intros H. destruct H as (vs & v & Hvs & Hv & Hval).
      * assert (Hm : In m (proj (patOf F sp))) by (rewrite Ep; now left).
        apply Hin, in_concat_sp in Hm. destruct Hm as (q & vs & Hq & Hv).
        assert (q = p) by (eapply p_only; apply (Hf _ _ Hq); exact Hv). subst q.
        apply in_map_iff. now exists (p, vs).
      * apply p_value in Hval. subst v. apply existsb_exists. exists (fld c). split; [|apply Nat.eqb_refl].
        apply Hin, in_concat_sp. eauto.
Qed.
End Option.

Lemma double_fold : forall vs q d,
  In d (ptCellSizeFactors F (fold_left (patternAdd F) vs q)) <-> In (VDouble d) vs \/ In d (ptCellSizeFactors F q).
Proof.
  induction vs as [|v vs IH]; intros q d; cbn; [tauto|]. rewrite IH.
  destruct v as [b|e|z|[| | | |] m]; cbn; try (split; [tauto|intros [[H|H]|H]; [discriminate|tauto|tauto]]).
  split; [intros [H|[<-|H]]; auto|intros [[H|H]|H]; auto; injection H; auto].
Qed.

Lemma csf_only : forall q d, fits F q (VDouble d) -> q = PCellSizeFactor.
Proof. intros [| | | | |] d H; cbn in H; tauto. Qed.

Lemma csf_ok : forall sp c, patternFits F sp ->
  (allowsDouble F (ptCellSizeFactors F (patOf F sp)) (cCellSizeFactor F c) = true <->
   (In PCellSizeFactor (map fst sp) ->
    exists vs v, In (PCellSizeFactor, vs) sp /\ In v vs /\ isValue F PCellSizeFactor v c)).
Proof.
  intros sp c Hf.
  assert (Hin : forall d, In d (ptCellSizeFactors F (patOf F sp)) <-> In (VDouble d) (List.concat (map snd sp))).
  { intros d. unfold patOf. rewrite double_fold. cbn. tauto. }
  assert (Hsame : forall a b, sameDouble F a b = true <-> dLt F a b = false /\ dLt F b a = false).
  { intros a b. unfold sameDouble. rewrite andb_true_iff, !negb_true_iff. tauto. }
  unfold allowsDouble. destruct (ptCellSizeFactors F (patOf F sp)) as [|m set] eqn:Ep.
  - split; [|reflexivity]. intros _ Hp. exfalso. apply in_map_iff in Hp. destruct Hp as ([q vs] & Eq & Hq).
    cbn in Eq. subst q. destruct (Hf _ _ Hq) as [Hne Hall]. destruct vs as [|v vs]; [congruence|].
    assert (Hv := Hall v (or_introl eq_refl)). destruct v as [b|d|z|[| | | |] n]; cbn in Hv; try tauto.
    apply (Hin d). apply in_concat_sp. exists PCellSizeFactor, (VDouble d :: vs). cbn. auto.
  - rewrite <- Ep in *. split.
    + intros H _. apply existsb_exists in H. destruct H as (d & Hd & Ed). apply Hsame in Ed.
      apply Hin, in_concat_sp in Hd. destruct Hd as (q & vs & Hq & Hv).
      assert (q = PCellSizeFactor) by (eapply csf_only; apply (Hf _ _ Hq); exact Hv). subst q.
      exists vs, (VDouble d). auto.
    + intros H. destruct H as (vs & v & Hvs & Hv & Hval).
      * assert (Hm : In m (ptCellSizeFactors F (patOf F sp))) by (rewrite Ep; now left).
        apply Hin, in_concat_sp in Hm. destruct Hm as (q & vs & Hq & Hv).
        assert (q = PCellSizeFactor) by (eapply csf_only; apply (Hf _ _ Hq); exact Hv). subst q.
        apply in_map_iff. now exists (PCellSizeFactor, vs).
      * assert (Hfit := proj2 (Hf _ _ Hvs) _ Hv). destruct v as [b|d|z|[| | | |] n]; cbn in Hfit; try tauto.
        cbn in Hval. apply existsb_exists. exists d. split; [|now apply Hsame].
        apply Hin, in_concat_sp. eauto.
Qed.

Lemma matches_describes : forall sp c, patternFits F sp -> (matches F (patOf F sp) c = true <-> describes F sp c).
Proof.
  intros sp c Hf. unfold matches, describes. rewrite !andb_true_iff.
  assert (H1 := option_ok KContainer (ptContainers F) (cContainer F) PContainer
    ltac:(now intros q [?|?|?|[| | | |] ?]) eq_refl
    ltac:(intros [?|?|?|[| | | |] ?] ?; cbn; split; try tauto; try discriminate; try (intros ->; reflexivity); intros E; now injection E)
    ltac:(intros [?|?|?|[| | | |] ?]; cbn; try tauto; eauto)
    ltac:(intros [| | | | |] ?; cbn; tauto) sp c Hf).
  assert (H2 := option_ok KTraversal (ptTraversals F) (cTraversal F) PTraversal
    ltac:(now intros q [?|?|?|[| | | |] ?]) eq_refl
    ltac:(intros [?|?|?|[| | | |] ?] ?; cbn; split; try tauto; try discriminate; try (intros ->; reflexivity); intros E; now injection E)
    ltac:(intros [?|?|?|[| | | |] ?]; cbn; try tauto; eauto)
    ltac:(intros [| | | | |] ?; cbn; tauto) sp c Hf).
  assert (H3 := option_ok KLoadEstimator (ptLoadEstimators F) (cLoadEstimator F) PLoadEstimator
    ltac:(now intros q [?|?|?|[| | | |] ?]) eq_refl
    ltac:(intros [?|?|?|[| | | |] ?] ?; cbn; split; try tauto; try discriminate; try (intros ->; reflexivity); intros E; now injection E)
    ltac:(intros [?|?|?|[| | | |] ?]; cbn; try tauto; eauto)
    ltac:(intros [| | | | |] ?; cbn; tauto) sp c Hf).
  assert (H4 := option_ok KDataLayout (ptDataLayouts F) (cDataLayout F) PDataLayout
    ltac:(now intros q [?|?|?|[| | | |] ?]) eq_refl
    ltac:(intros [?|?|?|[| | | |] ?] ?; cbn; split; try tauto; try discriminate; try (intros ->; reflexivity); intros E; now injection E)
    ltac:(intros [?|?|?|[| | | |] ?]; cbn; try tauto; eauto)
    ltac:(intros [| | | | |] ?; cbn; tauto) sp c Hf).
  assert (H5 := option_ok KNewton3 (ptNewton3 F) (cNewton3 F) PNewton3
    ltac:(now intros q [?|?|?|[| | | |] ?]) eq_refl
    ltac:(intros [?|?|?|[| | | |] ?] ?; cbn; split; try tauto; try discriminate; try (intros ->; reflexivity); intros E; now injection E)
    ltac:(intros [?|?|?|[| | | |] ?]; cbn; try tauto; eauto)
    ltac:(intros [| | | | |] ?; cbn; tauto) sp c Hf).
  assert (H6 := csf_ok sp c Hf).
  rewrite H1, H2, H3, H4, H5, H6. split.
  - intros (((((A & B) & C) & E) & G) & H) [| | | | |]; assumption.
  - intros H. repeat split; apply H.
Qed.

(** ** The queue *)

Section Queue.
Variable cLt : config -> config -> bool.
Hypothesis lt_irrefl : forall a, cLt a a = false.
Hypothesis lt_trans : forall a b c, cLt a b = true -> cLt b c = true -> cLt a c = true.
Hypothesis lt_total : forall a b, cLt a b = false -> cLt b a = false -> a = b.

Lemma setInsert_in : forall c l x, In x (setInsert F cLt c l) <-> x = c \/ In x l.
Proof.
  induction l as [|h t IH]; intros x; cbn; [intuition congruence|].
  destruct (cLt c h) eqn:E1; [cbn; intuition congruence|].
  destruct (cLt h c) eqn:E2.
  - cbn. rewrite IH. intuition congruence.
  - assert (c = h) by auto. subst. cbn. intuition congruence.
Qed.

Lemma setFold_in : forall l acc x, In x (fold_left (fun acc c => setInsert F cLt c acc) l acc) <-> In x l \/ In x acc.
Proof.
  induction l as [|c l IH]; intros acc x; cbn; [tauto|]. rewrite IH, setInsert_in. intuition congruence.
Qed.

Definition ltP (a b : config) : Prop := cLt a b = true.

Lemma setInsert_sorted : forall c l, StronglySorted ltP l -> StronglySorted ltP (setInsert F cLt c l).
Proof.
  intros c l H. induction H as [|h t Ht IH Hh]; cbn; [repeat constructor|].
  destruct (cLt c h) eqn:E1.
  - constructor; [now constructor|]. constructor; [assumption|].
    eapply Forall_impl; [|exact Hh]. intros a Ha. unfold ltP in *. eauto.
  - destruct (cLt h c) eqn:E2; [|now constructor]. constructor; [assumption|].
    apply Forall_forall. intros x Hx. apply setInsert_in in Hx. destruct Hx as [->|Hx]; [assumption|].
    rewrite Forall_forall in Hh. auto.
Qed.

Lemma setFold_sorted : forall l acc, StronglySorted ltP acc ->
  StronglySorted ltP (fold_left (fun acc c => setInsert F cLt c acc) l acc).
Proof. induction l as [|c l IH]; intros acc H; cbn; auto. apply IH. now apply setInsert_sorted. Qed.

Lemma sorted_nodup : forall l, StronglySorted ltP l -> NoDup l.
Proof.
  intros l H. induction H as [|h t Ht IH Hh]; constructor; [|assumption].
  intros Hin. rewrite Forall_forall in Hh. specialize (Hh _ Hin). unfold ltP in Hh. rewrite lt_irrefl in Hh. discriminate.
Qed.

Lemma removable_worse : forall os c, Forall (fun o => patternFits F (worse o)) os ->
  (removable F (map (orderOf F) os) c = true <-> declaredWorse F os c).
Proof.
  intros os c Hf. unfold removable, declaredWorse. rewrite existsb_exists. rewrite Forall_forall in Hf. split.
  - intros (o' & Hin & Hm). apply in_map_iff in Hin. destruct Hin as (o & <- & Ho). exists o. split; [assumption|].
    apply matches_describes; [now apply Hf|]. exact Hm.
  - intros (o & Ho & Hd). exists (orderOf F o). split; [now apply in_map|]. cbn.
    apply matches_describes; [now apply Hf|]. exact Hd.
Qed.

Lemma removable_false : forall os c, Forall (fun o => patternFits F (worse o)) os ->
  (negb (removable F (map (orderOf F) os) c) = true <-> ~ declaredWorse F os c).
Proof.
  intros os c Hf. rewrite negb_true_iff, <- not_true_iff_false. now rewrite removable_worse by assumption.
Qed.

Theorem queue_ok : forall info prog os,
  NoDup (map fst info) -> noParens F prog -> wellScoped F info prog -> applies F info prog os ->
  Forall (fun o => patternFits F (worse o)) os ->
  exists n, forall fuel s queue, (n <= fuel)%nat ->
  exists s' queue', optimizeSuggestions F cLt fuel prog info s queue = Ok (s', queue') /\
    rbVerify F s' = rbVerify F s /\ rbTuningTime F s' = rbTuningTime F s /\
    (forall c, In c (rbRemoved F s') <-> In c (rbRemoved F s) \/ (In c queue /\ declaredWorse F os c)) /\
    (rbVerify F s = false -> rbTooHarsh F s = false ->
     ((exists c, In c queue /\ ~ declaredWorse F os c) \/ rbTuningTime F s <> 0) ->
     rbTooHarsh F s' = false /\
     (forall c, In c queue' <-> In c queue /\ ~ declaredWorse F os c) /\ NoDup queue' /\
     StronglySorted (fun a b => cLt a b = true) (rev queue')) /\
    (rbVerify F s = false -> (forall c, In c queue -> declaredWorse F os c) -> rbTuningTime F s = 0 ->
     queue' = queue /\ rbTooHarsh F s' = true) /\
    (rbTooHarsh F s = true -> queue' = queue /\ rbTooHarsh F s' = true) /\
    (rbVerify F s = true -> queue' = queue).
Proof.
  intros info prog os ND N Sc Ap Hf. destruct (enough_exists F prog info) as [n Hn]. exists n.
  intros fuel s queue Hfuel. unfold optimizeSuggestions.
  rewrite (applicable_meaning F info prog os fuel ND N Sc (Hn _ Hfuel) Ap). cbn [bind].
  set (os' := map (orderOf F) os). set (kept := filter (fun c => negb (removable F os' c)) queue).
  assert (Hkept : forall c, In c kept <-> In c queue /\ ~ declaredWorse F os c).
  { intros c. unfold kept. rewrite filter_In. unfold os'. now rewrite removable_false. }
  assert (Hset : forall c, In c (setOf F cLt kept) <-> In c queue /\ ~ declaredWorse F os c).
  { intros c. unfold setOf. rewrite setFold_in. rewrite Hkept. cbn. tauto. }
  assert (Hrem : forall c, In c (fold_left (fun acc c => setInsert F cLt c acc) (filter (removable F os') queue) (rbRemoved F s))
                   <-> In c (rbRemoved F s) \/ (In c queue /\ declaredWorse F os c)).
  { intros c. rewrite setFold_in, filter_In. unfold os'. rewrite removable_worse by assumption. tauto. }
  unfold applyOrders. fold os'. fold kept. cbn [rbVerify rbTuningTime rbTooHarsh rbSearchSpace rbRemoved].
  destruct (rbTooHarsh F s) eqn:Eh; cbn [orb].
  - eexists _, _. split; [reflexivity|]. cbn [rbVerify rbTuningTime rbTooHarsh rbSearchSpace rbRemoved].
    repeat split; auto; try discriminate; try apply Hrem.
  - destruct (rbVerify F s) eqn:Ev.
    + destruct (match rbSearchSpace F s with [] => true | _ => false end && (rbTuningTime F s =? 0));
        eexists _, _; (split; [reflexivity|]); cbn [rbVerify rbTuningTime rbTooHarsh rbSearchSpace rbRemoved];
        repeat split; auto; try discriminate; try congruence; try apply Hrem.
    + destruct (setOf F cLt kept) as [|h t] eqn:Es.
      * assert (Hnone : forall c, In c queue -> declaredWorse F os c).
        { intros c Hc. destruct (removable F os' c) eqn:Er.
          - apply (removable_worse os c Hf). exact Er.
          - exfalso. apply (proj2 (Hset c)). split; [assumption|]. rewrite <- removable_worse by assumption.
            fold os'. now rewrite Er. }
        destruct (Z.eqb_spec (rbTuningTime F s) 0) as [Ez|Ez]; cbn [andb].
        -- eexists _, _. split; [reflexivity|]. cbn [rbVerify rbTuningTime rbTooHarsh rbSearchSpace rbRemoved].
           split; [reflexivity|]. split; [reflexivity|]. split; [exact Hrem|]. split; [|split; [auto|split; [discriminate|discriminate]]].
           intros _ _ [(c & Hc & Hw)|Ht]; [exfalso; apply Hw; auto|congruence].
        -- eexists _, _. split; [reflexivity|]. cbn [rbVerify rbTuningTime rbTooHarsh rbSearchSpace rbRemoved].
           split; [reflexivity|]. split; [reflexivity|]. split; [exact Hrem|].
           split; [|split; [congruence|split; [discriminate|discriminate]]].
           intros _ _ _. cbn. split; [reflexivity|]. split; [|split; constructor].
           intros c. split; [intros []|]. intros [Hc Hw]. exfalso. apply Hw. auto.
      * cbn [andb]. eexists _, _. split; [reflexivity|]. cbn [rbVerify rbTuningTime rbTooHarsh rbSearchSpace rbRemoved].
        split; [reflexivity|]. split; [reflexivity|]. split; [exact Hrem|].
        split; [|split; [|split; [discriminate|discriminate]]].
        -- intros _ _ _. split; [reflexivity|]. split; [|split].
           ++ intros c. rewrite <- in_rev. apply Hset.
           ++ apply NoDup_rev. apply sorted_nodup. rewrite <- Es. unfold setOf. apply setFold_sorted. constructor.
           ++ rewrite rev_involutive. rewrite <- Es. unfold setOf. apply setFold_sorted. constructor.
        -- intros _ Hall _. exfalso. destruct (proj1 (Hset h) (or_introl eq_refl)) as [Hh Hw]. apply Hw. auto.
Qed.

Theorem reset_ok : forall info prog os,
  NoDup (map fst info) -> noParens F prog -> wellScoped F info prog -> applies F info prog os ->
  Forall (fun o => patternFits F (worse o)) os ->
  exists n, forall fuel s queue, (n <= fuel)%nat -> queue <> [] ->
  exists s' queue', resetStrategy F cLt fuel prog info s queue = Ok (s', queue') /\
    queue' <> [] /\ (forall c, In c queue' -> In c queue) /\
    (rbVerify F s = false -> forall c c', In c queue -> ~ declaredWorse F os c ->
     (In c' queue' <-> In c' queue /\ ~ declaredWorse F os c')).
Proof.
  intros info prog os ND N Sc Ap Hf. destruct (queue_ok info prog os ND N Sc Ap Hf) as [n Hn]. exists n.
  intros fuel s queue Hfuel Hq. unfold resetStrategy.
  destruct (Hn fuel (Strategy F (rbVerify F s) 0 false (rbSearchSpace F s) []) queue Hfuel)
    as (s' & queue' & E & _ & _ & _ & Hnormal & Hharsh & _ & Hver).
  cbn [rbVerify rbTuningTime rbTooHarsh rbSearchSpace rbRemoved] in *.
  exists s', queue'. split; [exact E|].
  destruct (rbVerify F s) eqn:Ev.
  - rewrite (Hver eq_refl). repeat split; auto; try discriminate.
  - destruct (existsb (fun c => negb (removable F (map (orderOf F) os) c)) queue) eqn:Ex.
    + apply existsb_exists in Ex. destruct Ex as (c0 & Hc0 & Hr0). apply removable_false in Hr0; [|assumption].
      destruct (Hnormal eq_refl eq_refl (or_introl (ex_intro _ c0 (conj Hc0 Hr0)))) as (_ & Hin & _ & _).
      split; [|split].
      * intros ->. now apply (proj2 (Hin c0)).
      * intros c Hc. now apply Hin.
      * intros _ c c' _ _. apply Hin.
    + assert (Hall : forall c, In c queue -> declaredWorse F os c).
      { intros c Hc. apply removable_worse; [assumption|].
        destruct (removable F (map (orderOf F) os) c) eqn:Er; [reflexivity|]. exfalso.
        assert (existsb (fun c => negb (removable F (map (orderOf F) os) c)) queue = true) by
          (apply existsb_exists; exists c; now rewrite Er). congruence. }
      destruct (Hharsh eq_refl Hall eq_refl) as [-> _]. split; [assumption|]. split; [auto|].
      intros _ c c' Hc Hw. exfalso. apply Hw. auto.
Qed.

End Queue.
End Tuning.
