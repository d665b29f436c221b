(** Proofs about the fuzzy tuning strategy. *)
From Coq Require Import Reals List Bool Lra Permutation Sorted.
From Verif.Fuzzy Require Import FuzzyTuningModel FuzzyTuningSpec.
Import ListNotations.
Open Scope R_scope.

Section Proofs.
  Context {Conf Pattern : Type}.
  Variable matches : Pattern -> Conf -> bool.

  Lemma closest_fold v (r : list (R * list Pattern)) : forall pre best post,
    (forall e, In e pre -> Rabs (fst best - v) < Rabs (fst e - v)) -> (forall e, In e post -> Rabs (fst best - v) <= Rabs (fst e - v)) ->
    closestEntry v (pre ++ best :: post ++ r)
      (snd (fold_left (fun best a => if Rlt_dec (Rabs (fst a - v)) (Rabs (fst best - v)) then a else best) r best)).
  Proof.
    induction r as [|a r IH]; intros pre best post A B; cbn [fold_left].
    - rewrite app_nil_r. destruct best as [k ps]. exists pre, k, post. auto.
    - destruct (Rlt_dec (Rabs (fst a - v)) (Rabs (fst best - v))) as [L|L].
      + replace (pre ++ best :: post ++ a :: r) with ((pre ++ best :: post) ++ a :: [] ++ r) by (rewrite <- app_assoc; reflexivity).
        apply IH; [|intros ? []]. intros e I. apply in_app_iff in I. destruct I as [I|[<-|I]]; [specialize (A e I); lra|exact L|specialize (B e I); lra].
      + replace (pre ++ best :: post ++ a :: r) with (pre ++ best :: (post ++ [a]) ++ r) by (rewrite <- app_assoc; reflexivity).
        apply IH; [exact A|]. intros e I. apply in_app_iff in I. destruct I as [I|[<-|[]]]; [exact (B e I)|lra].
  Qed.
  Lemma closest_spec v m ps : closest v m = Some ps -> closestEntry v m (ps : list Pattern).
  Proof.
    destruct m as [|e r]; [discriminate|]. cbn. intros E. injection E as <-. apply (closest_fold v r [] e []); intros ? [].
  Qed.
  Lemma closest_unique v m ps qs : closestEntry v m ps -> closestEntry v m qs -> ps = (qs : list Pattern).
  Proof.
    intros [m1 [k [m2 [E [A B]]]]] [n1 [l [n2 [F [C D]]]]]. rewrite E in F. clear E. revert n1 F C.
    induction m1 as [|e m1 IH]; intros [|f n1] F C; cbn in F.
    - injection F as _ -> _. reflexivity.
    - injection F as <- ->. specialize (C (k, ps) (or_introl eq_refl)). cbn in C.
      specialize (B (l, qs) (in_elt (l, qs) n1 n2)). cbn in B. lra.
    - injection F as -> <-. specialize (A (l, qs) (or_introl eq_refl)). cbn in A.
      specialize (D (k, ps) (in_elt (k, ps) m1 m2)). cbn in D. lra.
    - injection F as <- F. apply (IH (fun x X => A x (or_intror X)) n1 F (fun x X => C x (or_intror X))).
  Qed.
  Lemma anyMatch_in ps c : anyMatch matches ps c = true <-> exists p, In p ps /\ matches p c = true.
  Proof. unfold anyMatch. apply existsb_exists. Qed.
  Lemma fits_patterns s ps c : patternsOf s = Some ps -> (fits matches s c <-> anyMatch matches ps c = true).
  Proof.
    unfold patternsOf. destruct (fst s) as [v|] eqn:V; [|discriminate]. intros E. apply closest_spec in E. rewrite anyMatch_in. unfold fits. split.
    - intros [w [qs [p [W [C [I M]]]]]]. pose proof (eq_trans (eq_sym V) W) as X. injection X as <-. rewrite (closest_unique _ _ _ _ E C). exists p. auto.
    - intros [p [I M]]. exists v, ps, p. auto.
  Qed.

  Lemma filter_filter {A} (f g : A -> bool) l : filter f (filter g l) = filter (fun x => g x && f x) l.
  Proof. induction l as [|x l IH]; [reflexivity|]. cbn. destruct (g x); cbn; [destruct (f x); rewrite IH; reflexivity|exact IH]. Qed.

  Lemma individual_spec systems : forall queue r, filterSystems matches systems queue = Some r ->
    exists keep, r = filter keep queue /\ forall c, keep c = true <-> forall s, In s systems -> fits matches s c.
  Proof.
    induction systems as [|s systems IH]; intros queue r E; cbn [filterSystems] in E.
    - injection E as <-. exists (fun _ => true). split; [|intros c; split; [intros _ ? []|reflexivity]].
      induction queue as [|x q IHq]; [reflexivity|cbn; rewrite <- IHq; reflexivity].
    - destruct (patternsOf s) as [ps|] eqn:P; [|discriminate]. destruct (IH _ _ E) as [keep [-> K]]. rewrite filter_filter.
      exists (fun x => anyMatch matches ps x && keep x). split; [reflexivity|]. intros c. rewrite andb_true_iff, K, <- (fits_patterns s ps c P). split.
      + intros [A B] t [<-|I]; auto.
      + intros H. split; [apply H; left; reflexivity|intros t I; apply H; right; exact I].
  Qed.

  Lemma insertSuit_perm p l : Permutation (insertSuit p l) (p :: l : list (Pattern * R)).
  Proof. induction l as [|q l IH]; cbn; [reflexivity|]. destruct (Rlt_dec _ _); [reflexivity|]. rewrite IH. apply perm_swap. Qed.
  Lemma sortSuit_perm l : Permutation (sortSuit l) (l : list (Pattern * R)).
  Proof. induction l as [|p l IH]; cbn; [reflexivity|]. rewrite insertSuit_perm, IH. reflexivity. Qed.
  Definition geS (p q : Pattern * R) : Prop := snd q <= snd p.
  Lemma insertSuit_sorted p l : StronglySorted geS l -> StronglySorted geS (insertSuit p l).
  Proof.
    induction 1 as [|q l S IH F]; cbn; [repeat constructor|]. destruct (Rlt_dec (snd q) (snd p)) as [L|L].
    - constructor; [constructor; assumption|]. constructor; [unfold geS; lra|]. eapply Forall_impl; [|exact F]. unfold geS. intros. lra.
    - constructor; [exact IH|]. apply (Permutation_Forall (Permutation_sym (insertSuit_perm p l))). constructor; [unfold geS; lra|exact F].
  Qed.
  Lemma sortSuit_sorted l : StronglySorted geS (sortSuit l).
  Proof. induction l as [|p l IH]; cbn; [constructor|]. apply insertSuit_sorted, IH. Qed.
  Lemma takeBest_in limit l : StronglySorted geS l -> forall p, In p (takeBest limit l) <-> exists s, In (p, s) l /\ limit <= s.
  Proof.
    induction 1 as [|[q t] l S IH F]; intros p; cbn [takeBest].
    - split; [intros []|intros [s [[] _]]].
    - destruct (Rlt_dec t limit) as [L|L].
      + split; [intros []|]. intros [s [[E|I] K]]; [injection E as <- <-; lra|]. rewrite Forall_forall in F. specialize (F _ I). unfold geS in F. cbn in F. lra.
      + cbn [In]. rewrite IH. split.
        * intros [<-|[s [I K]]]; [exists t; split; [auto|lra]|exists s; auto].
        * intros [s [[E|I] K]]; [injection E as <- _; auto|right; exists s; auto].
  Qed.
  Lemma suitabilities_in systems : forall l, suitabilities systems = Some (l : list (Pattern * R)) ->
    forall p v, In (p, v) l <-> exists s, In s systems /\ fst s = Some v /\ patternsOf s = Some [p].
  Proof.
    induction systems as [|s systems IH]; intros l E p v; cbn [suitabilities] in E.
    - injection E as <-. split; [intros []|intros [s [[] _]]].
    - destruct (fst s) as [w|] eqn:W; [|discriminate]. destruct (patternsOf s) as [[|q [|]]|] eqn:Q; try discriminate.
      destruct (suitabilities systems) as [k|]; [|discriminate]. injection E as <-. cbn [In]. rewrite (IH k eq_refl). split.
      + intros [X|[t [I X]]]; [injection X as <- <-; exists s; auto|exists t; auto].
      + intros [t [[<-|I] [X Y]]]; [left; rewrite W in X; rewrite Q in Y; congruence|right; exists t; auto].
  Qed.

  Lemma suitability_spec threshold systems queue q' : updateSuitability matches threshold systems queue = Some q' ->
    exists best keep, (exists s, In s systems /\ fst s = Some best) /\ (forall s v, In s systems -> fst s = Some v -> v <= best) /\
      q' = rev (filter keep queue) /\
      forall c, keep c = true <-> exists s v, In s systems /\ fst s = Some v /\ best * (1 - threshold) <= v /\ fits matches s c.
  Proof.
    unfold updateSuitability. destruct (suitabilities systems) as [l|] eqn:S; [|discriminate]. pose proof (suitabilities_in systems l S) as I.
    assert (ALL : forall s, In s systems -> exists v p, fst s = Some v /\ patternsOf s = Some [p]).
    { clear I. revert l S. induction systems as [|t systems IH]; intros l S s X; [destruct X|]. cbn [suitabilities] in S.
      destruct (fst t) as [w|] eqn:W; [|discriminate]. destruct (patternsOf t) as [[|q [|]]|] eqn:Q; try discriminate.
      destruct (suitabilities systems) as [k|]; [|discriminate]. destruct X as [<-|X]; [exists w, q; auto|exact (IH k eq_refl s X)]. }
    pose proof (sortSuit_perm l) as P. pose proof (sortSuit_sorted l) as O. destruct (sortSuit l) as [|b r]; [discriminate|]. intros E. injection E as <-.
    assert (J : forall x, In x (b :: r) <-> In x l) by (intros x; split; apply Permutation_in; [exact P|apply Permutation_sym, P]).
    assert (M : forall x, In x (b :: r) -> snd x <= snd b).
    { intros x [<-|X]; [lra|]. inversion O as [|? ? ? F]; subst. rewrite Forall_forall in F. exact (F x X). }
    exists (snd b). eexists. split.
    { destruct b as [p v]. destruct (proj1 (I p v) (proj1 (J _) (or_introl eq_refl))) as [s [X [Y _]]]. exists s. auto. }
    split.
    { intros s v X Y. destruct (ALL s X) as [w [p [W Q]]]. rewrite Y in W. injection W as <-. apply (M (p, v)), J, I. exists s. auto. }
    split; [reflexivity|]. intros c. rewrite anyMatch_in. split.
    - intros [p [X Y]]. apply (takeBest_in _ _ O) in X. destruct X as [v [X K]]. apply J, I in X. destruct X as [s [A [B D]]].
      exists s, v. split; [exact A|]. split; [exact B|]. split; [exact K|]. apply (fits_patterns s [p] c D). apply anyMatch_in. exists p. cbn. auto.
    - intros [s [v [A [B [K D]]]]]. destruct (ALL s A) as [w [p [W Q]]]. apply (fits_patterns s [p] c Q) in D. apply anyMatch_in in D.
      destruct D as [p' [[<-|[]] D]]. exists p. split; [|exact D]. apply (takeBest_in _ _ O). exists v. split; [|exact K]. apply J, I. exists s. auto.
  Qed.
End Proofs.
