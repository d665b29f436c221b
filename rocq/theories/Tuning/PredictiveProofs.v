(** Proofs about the prediction strategy. *)
From Coq Require Import Reals List ZArith Bool Arith Lia Lra Sorted Permutation.
From Verif.Tuning Require Import PredictiveModel PredictiveSpec.
Import ListNotations.

Section Proofs.
  Context {Conf Params : Type}.
  Variable eqb : Conf -> Conf -> bool.
  Hypothesis eqbEq : forall x y, eqb x y = true <-> x = y.
  Variable range : R.
  Hypothesis range1 : (1 <= range)%R.
  Variable maxPhases : nat.
  Variable extrapolate : nat -> nat -> list Evid -> option Params -> Extrapolated * option Params.

  Lemma eqb_refl c : eqb c c = true.
  Proof. apply eqbEq. reflexivity. Qed.
  Lemma eqb_neq c d : eqb c d = false <-> c <> d.
  Proof. split; intros H; [intros E; apply eqbEq in E; congruence|destruct (eqb c d) eqn:X; [apply eqbEq in X; contradiction|reflexivity]]. Qed.
  Lemma existsb_in c l : existsb (eqb c) l = true <-> In c l.
  Proof. rewrite existsb_exists. split; [intros [x [H E]]; apply eqbEq in E; subst; exact H|intros H; exists c; split; [exact H|apply eqb_refl]]. Qed.

  Lemma emplace_in c l x : In x (emplaceConf eqb c l) <-> x = c \/ In x l.
  Proof.
    unfold emplaceConf. destruct (existsb (eqb c) l) eqn:E; [apply existsb_in in E|]; cbn [In]; split; intros H; auto.
    - destruct H as [->|H]; auto.
    - destruct H as [->|H]; auto.
    - destruct H as [->|H]; auto.
  Qed.
  Lemma emplace_nodup c l : NoDup l -> NoDup (emplaceConf eqb c l).
  Proof.
    intros N. unfold emplaceConf. destruct (existsb (eqb c) l) eqn:E; [exact N|]. constructor; [|exact N].
    intros H. apply existsb_in in H. congruence.
  Qed.
  Lemma back_last l e : back l = Some e <-> exists es, l = es ++ [e].
  Proof.
    unfold back. split.
    - intros H. destruct l as [|x l] using rev_ind; [discriminate|]. rewrite app_length in H. cbn in H.
      rewrite nth_error_app2 in H by lia. replace (length l + 1 - 1 - length l) with 0 in H by lia. cbn in H. injection H as ->. exists l. reflexivity.
    - intros [es ->]. rewrite app_length. cbn. rewrite nth_error_app2 by lia. replace (length es + 1 - 1 - length es) with 0 by lia. reflexivity.
  Qed.
  Lemma back_some l : l <> [] -> exists e, back l = Some e.
  Proof. intros N. destruct l as [|x l] using rev_ind; [congruence|]. exists x. apply back_last. exists l. reflexivity. Qed.

  Lemma collect_spec phase evidence queue : forall tl, NoDup tl ->
    NoDup (collectTooLong eqb maxPhases phase evidence queue tl) /\
    forall x, In x (collectTooLong eqb maxPhases phase evidence queue tl) <->
      In x tl \/ (In x queue /\ exists e, back (evidence x) = Some e /\ maxPhases <= phase - ePhase e).
  Proof.
    unfold collectTooLong. induction queue as [|c queue IH]; intros tl N; cbn [fold_left].
    - split; [exact N|]. intros x. cbn. tauto.
    - match goal with |- context [fold_left _ queue ?t] => set (tl' := t) end.
      assert (N' : NoDup tl').
      { unfold tl'. destruct (back (evidence c)) as [e|]; [|exact N]. destruct (_ <=? _); [apply emplace_nodup|]; exact N. }
      destruct (IH tl' N') as [A B]. split; [exact A|]. intros x. rewrite B. cbn [In].
      assert (T : In x tl' <-> In x tl \/ (x = c /\ exists e, back (evidence x) = Some e /\ maxPhases <= phase - ePhase e)).
      { unfold tl'. destruct (back (evidence c)) as [e|] eqn:E.
        - destruct (Nat.leb_spec maxPhases (phase - ePhase e)) as [L|L].
          + rewrite emplace_in. split.
            * intros [->|H]; [right; split; [reflexivity|exists e; auto]|auto].
            * intros [H|[-> _]]; auto.
          + split; [auto|]. intros [H|[-> [f [F G]]]]; [exact H|]. rewrite E in F. injection F as <-. lia.
        - split; [auto|]. intros [H|[-> [f [F G]]]]; [exact H|congruence]. }
      rewrite T. split.
      + intros [[H|[-> H]]|[H K]]; auto.
      + intros [H|[[<-|H] K]]; auto.
  Qed.

  Definition pred (iteration phase : nat) (evidence : Conf -> list Evid) (stored : Conf -> option Params) (c : Conf) (z : Z) : Prop :=
    evidence c <> [] /\ exists v, fst (extrapolate iteration phase (evidence c) (stored c)) = Predicted v /\ v <> predictionErrorValue /\ z = Z.max 0 v.
  Definition lacking (iteration phase : nat) (evidence : Conf -> list Evid) (stored : Conf -> option Params) (c : Conf) : Prop :=
    evidence c <> [] /\ fst (extrapolate iteration phase (evidence c) (stored c)) = NotEnough.

  Lemma setPrediction_in c z ps x y : In (x, y) (setPrediction eqb c z ps) <-> (x = c /\ y = z) \/ (x <> c /\ In (x, y) ps).
  Proof.
    unfold setPrediction. cbn [In]. rewrite filter_In. cbn [fst]. rewrite negb_true_iff, eqb_neq. split.
    - intros [E|[H N]]; [injection E as -> ->; auto|auto].
    - intros [[-> ->]|[N H]]; auto.
  Qed.
  Lemma setPrediction_nodup c z ps : NoDup (map fst ps) -> NoDup (map fst (setPrediction eqb c z ps)).
  Proof.
    intros N. unfold setPrediction. cbn [map fst]. constructor.
    - rewrite in_map_iff. intros [p [E H]]. apply filter_In in H. destruct H as [_ H]. rewrite E, eqb_refl in H. discriminate.
    - induction ps as [|p ps IH]; [constructor|]. cbn [filter]. inversion N as [|? ? N1 N2]; subst. destruct (negb (eqb (fst p) c)); [|exact (IH N2)].
      cbn [map]. constructor; [|exact (IH N2)]. rewrite in_map_iff. intros [q [E H]]. apply filter_In in H. apply N1. rewrite <- E. apply in_map. exact (proj1 H).
  Qed.

  Lemma calculate_spec iteration phase evidence stored : forall queue ps s ps' s',
    NoDup queue -> NoDup (map fst ps) -> NoDup (tooLong s) ->
    (forall x, In x queue -> params s x = stored x) -> (forall x, In x queue -> ~ In x (map fst ps)) ->
    calculatePredictions eqb extrapolate iteration phase evidence queue ps s = Some (ps', s') ->
    NoDup (map fst ps') /\ NoDup (tooLong s') /\
    (forall x z, In (x, z) ps' <-> In (x, z) ps \/ (In x queue /\ pred iteration phase evidence stored x z)) /\
    (forall x, In x (tooLong s') <-> In x (tooLong s) \/ (In x queue /\ lacking iteration phase evidence stored x)).
  Proof.
    induction queue as [|c queue IH]; intros ps s ps' s' NQ NP NT HS HD E; cbn [calculatePredictions] in E.
    - injection E as <- <-. repeat split; auto; intros; cbn in *; tauto.
    - inversion NQ as [|? ? Nc NQ']; subst.
      assert (STEP : forall ps1 s1, NoDup (map fst ps1) -> NoDup (tooLong s1) ->
        (forall x, In x queue -> params s1 x = stored x) -> (forall x, In x queue -> ~ In x (map fst ps1)) ->
        (forall x z, In (x, z) ps1 <-> In (x, z) ps \/ (x = c /\ pred iteration phase evidence stored x z)) ->
        (forall x, In x (tooLong s1) <-> In x (tooLong s) \/ (x = c /\ lacking iteration phase evidence stored x)) ->
        calculatePredictions eqb extrapolate iteration phase evidence queue ps1 s1 = Some (ps', s') ->
        NoDup (map fst ps') /\ NoDup (tooLong s') /\
        (forall x z, In (x, z) ps' <-> In (x, z) ps \/ (In x (c :: queue) /\ pred iteration phase evidence stored x z)) /\
        (forall x, In x (tooLong s') <-> In x (tooLong s) \/ (In x (c :: queue) /\ lacking iteration phase evidence stored x))).
      { intros ps1 s1 A1 A2 A3 A4 A5 A6 A7. destruct (IH ps1 s1 ps' s' NQ' A1 A2 A3 A4 A7) as [B1 [B2 [B3 B4]]].
        split; [exact B1|]. split; [exact B2|]. split.
        - intros x z. rewrite B3, A5. cbn [In]. split; [intros [[H|[-> H]]|[H K]]; auto|intros [H|[[<-|H] K]]; auto].
        - intros x. rewrite B4, A6. cbn [In]. split; [intros [[H|[-> H]]|[H K]]; auto|intros [H|[[<-|H] K]]; auto]. }
      assert (HSq : forall x, In x queue -> params s x = stored x) by (intros x Hx; apply HS; right; exact Hx).
      assert (HDq : forall x, In x queue -> ~ In x (map fst ps)) by (intros x Hx; apply HD; right; exact Hx).
      destruct (evidence c) as [|e es] eqn:EV.
      + apply (STEP ps s); auto.
        * intros x z. split; [auto|]. intros [H|[-> [H _]]]; [exact H|congruence].
        * intros x. split; [auto|]. intros [H|[-> [H _]]]; [exact H|congruence].
      + rewrite <- EV in E. rewrite (HS c (or_introl eq_refl)) in E.
        assert (NE : evidence c <> []) by (rewrite EV; discriminate).
        destruct (extrapolate iteration phase (evidence c) (stored c)) as [r p] eqn:X.
        assert (HS' : forall x, In x queue -> (if eqb x c then p else params s x) = stored x).
        { intros x Hx. destruct (eqb x c) eqn:Q; [apply eqbEq in Q; subst; contradiction|apply HSq; exact Hx]. }
        destruct r as [|v|]; [| |discriminate].
        * eapply (STEP ps); [exact NP| | |exact HDq| | |exact E].
          -- cbn. apply emplace_nodup, NT.
          -- cbn. exact HS'.
          -- intros x z. split; [auto|]. intros [H|[-> [_ [w [W _]]]]]; [exact H|]. rewrite X in W. discriminate.
          -- intros x. cbn. rewrite emplace_in. split.
             ++ intros [->|H]; [right; split; [reflexivity|split; [exact NE|rewrite X; reflexivity]]|auto].
             ++ intros [H|[-> _]]; auto.
        * assert (TL : forall x, In x (tooLong s) <-> In x (tooLong s) \/ (x = c /\ lacking iteration phase evidence stored x)).
          { intros x. split; [auto|]. intros [H|[-> [_ H]]]; [exact H|]. rewrite X in H. discriminate. }
          destruct (Z.eqb_spec v predictionErrorValue) as [Z1|Z1].
          -- eapply (STEP ps); [exact NP| | |exact HDq| | |exact E]; cbn; auto.
             intros x z. split; [auto|]. intros [H|[-> [_ [w [W [W' _]]]]]]; [exact H|]. rewrite X in W. cbn in W. injection W as <-. contradiction.
          -- eapply (STEP (setPrediction eqb c (Z.max 0 v) ps)); [apply setPrediction_nodup, NP| | | | | |exact E]; cbn [tooLong params]; auto.
             ++ intros x Hx. rewrite in_map_iff. intros [[y z] [Y H]]. cbn in Y. subst y. apply setPrediction_in in H.
                destruct H as [[-> _]|[_ H]]; [contradiction|]. apply (HDq x Hx). apply in_map_iff. exists (x, z). auto.
             ++ intros x z. rewrite setPrediction_in. split.
                ** intros [[-> ->]|[_ H]]; [|auto]. right. split; [reflexivity|]. split; [exact NE|]. exists v. rewrite X. auto.
                ** intros [H|[-> [_ [w [W [W' ->]]]]]].
                   --- right. split; [|exact H]. intros ->. apply (HD c (or_introl eq_refl)). apply in_map_iff. exists (c, z). auto.
                   --- left. rewrite X in W. cbn in W. injection W as <-. auto.
  Qed.

  (** The best prediction. *)
  Lemma best_spec ps : forall b, let m := fold_left (fun b q => if (snd q <? b)%Z then snd q else b) (ps : list (Conf * Z)) b in
    (m <= b)%Z /\ (forall q, In q ps -> (m <= snd q)%Z) /\ (m = b \/ exists q, In q ps /\ snd q = m).
  Proof.
    induction ps as [|q ps IH]; intros b; cbn [fold_left]; cbv zeta.
    - split; [lia|]. split; [intros ? []|auto].
    - destruct (IH (if (snd q <? b)%Z then snd q else b)) as [A [B C]]. cbv zeta in *.
      destruct (Z.ltb_spec (snd q) b) as [L|L].
      + split; [lia|]. split; [intros r [<-|H]; [exact A|auto]|]. right. destruct C as [C|[r [H C]]]; [exists q; cbn; auto|exists r; cbn; auto].
      + split; [exact A|]. split; [intros r [<-|H]; [lia|auto]|]. destruct C as [C|[r [H C]]]; [auto|right; exists r; cbn; auto].
  Qed.

  Lemma insertSorted_perm p l : Permutation (insertSorted p l) (p :: l : list (Conf * Z)).
  Proof. induction l as [|q l IH]; cbn; [reflexivity|]. destruct (_ <? _)%Z; [reflexivity|]. rewrite IH. apply perm_swap. Qed.
  Lemma sort_perm l : Permutation (sortPredictions l) (l : list (Conf * Z)).
  Proof. induction l as [|p l IH]; cbn; [reflexivity|]. rewrite insertSorted_perm, IH. reflexivity. Qed.
  Definition geP (p q : Conf * Z) : Prop := (snd q <= snd p)%Z.
  Lemma insertSorted_sorted p l : StronglySorted geP l -> StronglySorted geP (insertSorted p l).
  Proof.
    induction 1 as [|q l S IH F]; cbn; [repeat constructor|]. destruct (Z.ltb_spec (snd q) (snd p)) as [L|L].
    - constructor; [constructor; assumption|]. constructor; [unfold geP; lia|].
      eapply Forall_impl; [|exact F]. unfold geP. intros. lia.
    - constructor; [exact IH|]. apply (Permutation_Forall (Permutation_sym (insertSorted_perm p l))). constructor; [exact L|exact F].
  Qed.
  Lemma sort_sorted l : StronglySorted geP (sortPredictions l).
  Proof. induction l as [|p l IH]; cbn; [constructor|]. apply insertSorted_sorted, IH. Qed.

  Lemma limit_spec x z : (z <= Int_part x)%Z <-> (IZR z <= x)%R.
  Proof.
    pose proof (base_Int_part x) as [A B]. split; intros H.
    - apply IZR_le in H. lra.
    - apply Z.lt_succ_r. apply lt_IZR. unfold Z.succ. rewrite plus_IZR. lra.
  Qed.

  Lemma nodup_app_intro {T} (l k : list T) : NoDup l -> NoDup k -> (forall x, In x l -> ~ In x k) -> NoDup (l ++ k).
  Proof.
    induction 1 as [|x l N1 N2 IH]; intros NK D; [exact NK|]. cbn. constructor.
    - rewrite in_app_iff. intros [H|H]; [contradiction|exact (D x (or_introl eq_refl) H)].
    - apply IH; [exact NK|]. intros y Hy. apply D. right. exact Hy.
  Qed.

  Theorem reset_spec iteration phase evidence queue s q' s' : NoDup queue -> NoDup (tooLong s) ->
    resetPredictive eqb range maxPhases extrapolate iteration phase evidence queue s = Some (q', s') ->
    NoDup (tooLong s') /\
    (forall c, In c (tooLong s') <-> In c (tooLong s) \/ due extrapolate iteration phase evidence queue (params s) maxPhases c) /\
    (((forall c z, ~ hasPrediction extrapolate iteration phase evidence queue (params s) c z) /\ q' = queue) \/
     exists best overdue promising,
       (exists c, hasPrediction extrapolate iteration phase evidence queue (params s) c best) /\
       (forall c z, hasPrediction extrapolate iteration phase evidence queue (params s) c z -> (best <= z)%Z) /\
       NoDup q' /\ q' = overdue ++ map fst promising /\ promising <> [] /\
       (forall c z, In (c, z) promising <-> hasPrediction extrapolate iteration phase evidence queue (params s) c z /\ (IZR z <= range * IZR best)%R) /\
       StronglySorted (fun p q => (snd q <= snd p)%Z) promising /\
       (forall c, In c overdue <-> In c (tooLong s') /\ ~ In c (map fst promising))).
  Proof.
    intros NQ NT E. unfold resetPredictive in E.
    destruct (collect_spec phase evidence queue (tooLong s) NT) as [C1 C2].
    set (s1 := mkPState (collectTooLong eqb maxPhases phase evidence queue (tooLong s)) (params s)) in E.
    destruct (calculatePredictions eqb extrapolate iteration phase evidence queue [] s1) as [[ps s2]|] eqn:P; [|discriminate].
    destruct (calculate_spec iteration phase evidence (params s) queue [] s1 ps s2) as [D1 [D2 [D3 D4]]]; auto; [constructor|].
    assert (TL : forall c, In c (tooLong s2) <-> In c (tooLong s) \/ due extrapolate iteration phase evidence queue (params s) maxPhases c).
    { intros c. rewrite D4. cbn [s1 tooLong]. rewrite C2. unfold due, lacking. split.
      - intros [[H|[H [e [B L]]]]|[H [N L]]]; [auto| |].
        + right. split; [exact H|]. apply back_last in B. destruct B as [es B]. exists e, es. auto.
        + right. split; [exact H|]. destruct (back_some _ N) as [e B]. apply back_last in B. destruct B as [es B]. exists e, es. auto.
      - intros [H|[H [e [es [B [L|L]]]]]]; [auto| |].
        + left. right. split; [exact H|]. exists e. split; [apply back_last; exists es; exact B|exact L].
        + right. split; [exact H|]. split; [rewrite B; destruct es; discriminate|exact L]. }
    assert (HP : forall c z, In (c, z) ps <-> hasPrediction extrapolate iteration phase evidence queue (params s) c z).
    { intros c z. rewrite D3. unfold hasPrediction, pred. cbn [In]. tauto. }
    destruct ps as [|p ps].
    - injection E as <- <-. split; [exact D2|]. split; [exact TL|]. left. split; [|reflexivity]. intros c z H. apply HP in H. exact H.
    - destruct (bestAcceptable range (bestPrediction p ps)) as [limit|] eqn:LIM; [|discriminate]. injection E as <- <-.
      split; [exact D2|]. split; [exact TL|]. right.
      pose proof (best_spec ps (snd p)) as B. cbv zeta in B. fold (bestPrediction p ps) in B. set (best := bestPrediction p ps) in *.
      destruct B as [B1 [B2 B3]].
      assert (BI : exists q, In q (p :: ps) /\ snd q = best).
      { destruct B3 as [B3|[q [H B3]]]; [exists p; cbn; auto|exists q; cbn; auto]. }
      assert (BM : forall q, In q (p :: ps) -> (best <= snd q)%Z) by (intros q [<-|H]; auto).
      set (worthy := sortPredictions (filter (fun q => snd q <=? limit)%Z (p :: ps))).
      assert (W : forall q, In q worthy <-> In q (p :: ps) /\ (snd q <= limit)%Z).
      { intros q. unfold worthy. rewrite <- Z.leb_le. rewrite <- (filter_In (fun q => snd q <=? limit)%Z).
        split; apply Permutation_in; [apply sort_perm|apply Permutation_sym, sort_perm]. }
      unfold bestAcceptable in LIM. destruct (_ <=? longMax)%Z; [|discriminate]. injection LIM as LIM.
      assert (B0 : (0 <= best)%Z).
      { destruct BI as [[c z] [H <-]]. apply HP in H. destruct H as [_ [_ [v [_ [_ ->]]]]]. cbn. lia. }
      assert (NW : NoDup (map fst worthy)).
      { unfold worthy. apply (Permutation_NoDup (Permutation_sym (Permutation_map fst (sort_perm _)))).
        clear -D1. induction (p :: ps) as [|q l IH]; [constructor|]. cbn [filter]. inversion D1 as [|? ? N1 N2]; subst.
        destruct (_ <=? _)%Z; [|exact (IH N2)]. cbn [map]. constructor; [|exact (IH N2)].
        intros H. apply N1. apply in_map_iff in H. destruct H as [r [R H]]. apply filter_In in H. rewrite <- R. apply in_map. exact (proj1 H). }
      assert (O : forall c, In c (filter (fun c => negb (existsb (eqb c) (map fst worthy))) (tooLong s2)) <-> In c (tooLong s2) /\ ~ In c (map fst worthy)).
      { intros c. rewrite filter_In, negb_true_iff, <- not_true_iff_false, existsb_in. tauto. }
      exists best, (filter (fun c => negb (existsb (eqb c) (map fst worthy))) (tooLong s2)), worthy.
      split; [destruct BI as [[c z] [H <-]]; exists c; apply HP; exact H|].
      split; [intros c z H; apply HP in H; exact (BM _ H)|].
      split; [apply nodup_app_intro; [apply NoDup_filter; exact D2|exact NW|intros x Hx; apply O in Hx; tauto]|].
      split; [reflexivity|].
      split.
      { destruct BI as [q [H Q]]. intros C. assert (In q worthy); [|rewrite C in *; contradiction].
        apply W. split; [exact H|]. rewrite Q, <- LIM. apply limit_spec. apply IZR_le in B0.
        assert (1 * IZR best <= range * IZR best)%R by (apply Rmult_le_compat_r; assumption). lra. }
      split; [intros c z; rewrite W, HP, <- LIM, limit_spec; reflexivity|].
      split; [exact (sort_sorted _)|exact O].
  Qed.
End Proofs.

(** Consequences and the methods of extrapolation. *)
Section Consequences.
  Context {Conf Params : Type}.
  Variable eqb : Conf -> Conf -> bool.
  Hypothesis eqbEq : forall x y, eqb x y = true <-> x = y.
  Variable range : R.
  Hypothesis range1 : (1 <= range)%R.
  Variable maxPhases : nat.
  Variable extrapolate : nat -> nat -> list Evid -> option Params -> Extrapolated * option Params.

  Lemma reset_kept iteration phase evidence queue s q' s' c : NoDup queue -> NoDup (tooLong s) ->
    resetPredictive eqb range maxPhases extrapolate iteration phase evidence queue s = Some (q', s') ->
    due extrapolate iteration phase evidence queue (params s) maxPhases c -> In c q'.
  Proof.
    intros NQ NT E D. destruct (reset_spec eqb eqbEq range range1 maxPhases extrapolate iteration phase evidence queue s q' s' NQ NT E) as [_ [T [[_ ->]|H]]].
    - exact (proj1 D).
    - destruct H as [b [o [p [_ [_ [_ [-> [_ [_ [_ O]]]]]]]]]]. apply in_app_iff.
      destruct (in_dec (fun x y => match bool_dec (eqb x y) true with left e => left (proj1 (eqbEq x y) e) | right n => right (fun e => n (proj2 (eqbEq x y) e)) end) c (map fst p)) as [I|I]; [right; exact I|].
      left. apply O. split; [|exact I]. apply T. right. exact D.
  Qed.

  Lemma reset_nonempty iteration phase evidence queue s q' s' : NoDup queue -> NoDup (tooLong s) -> queue <> [] ->
    resetPredictive eqb range maxPhases extrapolate iteration phase evidence queue s = Some (q', s') -> q' <> [].
  Proof.
    intros NQ NT N E. destruct (reset_spec eqb eqbEq range range1 maxPhases extrapolate iteration phase evidence queue s q' s' NQ NT E) as [_ [_ [[_ ->]|H]]]; [exact N|].
    destruct H as [b [o [p [_ [_ [_ [-> [H _]]]]]]]]. intros C. apply app_eq_nil in C. destruct C as [_ C]. apply H. destruct p; [reflexivity|discriminate].
  Qed.

  Lemma reset_untested iteration phase evidence queue s q' s' c d z : NoDup queue -> NoDup (tooLong s) ->
    evidence c = [] -> ~ In c (tooLong s) -> hasPrediction extrapolate iteration phase evidence queue (params s) d z ->
    resetPredictive eqb range maxPhases extrapolate iteration phase evidence queue s = Some (q', s') -> ~ In c q'.
  Proof.
    intros NQ NT EC NC D E. destruct (reset_spec eqb eqbEq range range1 maxPhases extrapolate iteration phase evidence queue s q' s' NQ NT E) as [_ [T [[H _]|H]]].
    - destruct (H _ _ D).
    - destruct H as [b [o [p [_ [_ [_ [-> [_ [P [_ O]]]]]]]]]]. rewrite in_app_iff. intros [I|I].
      + apply O in I. destruct I as [I _]. apply T in I. destruct I as [I|[_ [e [es [I _]]]]]; [contradiction|]. rewrite EC in I. destruct es; discriminate.
      + apply in_map_iff in I. destruct I as [[x y] [X I]]. cbn in X. subst x. apply P in I. destruct I as [[_ [I _]] _]. contradiction.
  Qed.

  Lemma reset_foreign iteration phase evidence queue s q' s' c d z : NoDup queue -> NoDup (tooLong s) ->
    ~ In c queue -> In c (tooLong s) -> hasPrediction extrapolate iteration phase evidence queue (params s) d z ->
    resetPredictive eqb range maxPhases extrapolate iteration phase evidence queue s = Some (q', s') -> In c q'.
  Proof.
    intros NQ NT EC NC D E. destruct (reset_spec eqb eqbEq range range1 maxPhases extrapolate iteration phase evidence queue s q' s' NQ NT E) as [_ [T [[H _]|H]]].
    - destruct (H _ _ D).
    - destruct H as [b [o [p [_ [_ [_ [-> [_ [P [_ O]]]]]]]]]]. apply in_app_iff. left. apply O. split; [apply T; auto|].
      intros I. apply in_map_iff in I. destruct I as [[x y] [X I]]. cbn in X. subst x. apply P in I. destruct I as [[I _] _]. contradiction.
  Qed.

  Lemma measured_gone c s : ~ In c (tooLong (addEvidencePredictive eqb c (s : @PState Conf Params))) /\
    forall x, x <> c -> (In x (tooLong (addEvidencePredictive eqb c s)) <-> In x (tooLong s)).
  Proof.
    unfold addEvidencePredictive, eraseConf. cbn [tooLong]. split.
    - rewrite filter_In, (eqb_refl eqb eqbEq). intros [_ H]. discriminate.
    - intros x N. rewrite filter_In, negb_true_iff, (eqb_neq eqb eqbEq). tauto.
  Qed.
End Consequences.

Lemma last_result_history (iteration : nat -> nat) (evs news : nat -> list Evid) (stored : nat -> option Z) :
  evs 0 = [] -> stored 0 = None ->
  (forall k, evs (S k) = evs k ++ news k) -> (forall k e, In e (news k) -> ePhase e = k) ->
  (forall k, stored (S k) = snd (lastResult (iteration k) k (evs k) (stored k))) ->
  forall k es e, evs k = es ++ [e] -> fst (lastResult (iteration k) k (evs k) (stored k)) = Predicted (eValue e).
Proof.
  intros E0 S0 ES NS SS.
  assert (INV : forall k, fst (lastResult (iteration k) k (evs k) (stored k)) = match back (evs k) with Some e => Predicted (eValue e) | None => NotEnough end
    /\ snd (lastResult (iteration k) k (evs k) (stored k)) = option_map eValue (back (evs k))).
  { induction k as [|k [IH1 IH2]].
    - rewrite E0, S0. cbn. auto.
    - specialize (SS k). rewrite IH2 in SS. rewrite SS, ES. unfold lastResult, testedLastPhase.
      destruct (news k) as [|x l] eqn:N using rev_ind.
      + rewrite app_nil_r. destruct (back (evs k)) as [e|]; cbn; [destruct (negb _); auto|auto].
      + clear IHl. assert (B : back (evs k ++ l ++ [x]) = Some x) by (apply back_last; exists (evs k ++ l); apply app_assoc).
        rewrite B. rewrite (NS k x) by (rewrite N; apply in_or_app; right; left; reflexivity). rewrite Nat.eqb_refl. cbn. auto. }
  intros k es e E. destruct (INV k) as [-> _]. assert (back (evs k) = Some e) as -> by (apply back_last; exists es; exact E). reflexivity.
Qed.

Lemma truncate_IZR z : truncate (IZR z) = z.
Proof.
  assert (I : forall y, Int_part (IZR y) = y).
  { intros y. apply Z.le_antisymm; [apply le_IZR; apply base_Int_part|apply limit_spec; lra]. }
  unfold truncate. destruct (Rlt_dec (IZR z) 0); [rewrite <- opp_IZR, I; lia|apply I].
Qed.

Lemma newton_beyond iteration minEvidence evs coefficients : 2 <= minEvidence -> length evs = minEvidence ->
  (Z.of_nat minEvidence < 2 ^ 64)%Z -> length coefficients = minEvidence -> newtonReuse iteration minEvidence evs coefficients = None.
Proof.
  intros M L B K. unfold newtonReuse. destruct coefficients as [|a [|b r]]; cbn [length] in K; try lia.
  cbn [newtonTerms seq newtonProduct].
  assert (A : access evs (newtonIndex (length evs) minEvidence 0) = None); [|rewrite A; reflexivity].
  unfold access, newtonIndex, sizeT. rewrite L.
  rewrite (Z.mod_small (Z.of_nat minEvidence - 1)) by lia.
  replace (Z.of_nat minEvidence - 1 - Z.of_nat minEvidence + Z.of_nat 0)%Z with (2 ^ 64 - 1 + (-1) * 2 ^ 64)%Z by lia.
  rewrite Z.mod_add by lia. rewrite Z.mod_small by lia.
  destruct (Z.ltb_spec (2 ^ 64 - 1) (Z.of_nat minEvidence)); [lia|reflexivity].
Qed.

Lemma newton_wrong : newtonReuse 40 2 [mkEvid 10 1 50; mkEvid 20 2 200; mkEvid 30 3 300] [200%R; 10%R] = Some 500%Z.
Proof.
  unfold newtonReuse. cbn [newtonTerms seq newtonProduct length].
  replace (newtonIndex 3 2 0) with 0%Z by reflexivity. cbn [access length Z.of_nat]. change (access _ 0) with (Some (mkEvid 10 1 50)).
  cbn [eIteration]. rewrite (truncate_IZR 200).
  replace (10 * (INR 40 - INR 10))%R with (IZR 300) by (rewrite !INR_IZR_INZ; cbn; lra).
  rewrite truncate_IZR. reflexivity.
Qed.

Lemma rejected_gone {Conf Params} (eqb : Conf -> Conf -> bool) (E : forall x y, eqb x y = true <-> x = y) c (s : @PState Conf Params) :
  rejectPredictive eqb c false s = s /\ forall x, In x (tooLong (rejectPredictive eqb c true s)) <-> In x (tooLong s) /\ x <> c.
Proof.
  split; [reflexivity|]. intros x. cbn [rejectPredictive eraseConf tooLong]. rewrite filter_In, negb_true_iff.
  split; intros [A B]; (split; [exact A|]).
  - intros ->. rewrite (proj2 (E c c) eq_refl) in B. discriminate.
  - destruct (eqb x c) eqn:Q; [apply E in Q; contradiction|reflexivity].
Qed.

(** When the start of a phase is well defined. *)
Section Defined.
  Context {Conf Params : Type}.
  Variable eqb : Conf -> Conf -> bool.
  Hypothesis eqbEq : forall x y, eqb x y = true <-> x = y.
  Variable range : R.
  Hypothesis range1 : (1 <= range)%R.
  Variable maxPhases : nat.
  Variable extrapolate : nat -> nat -> list Evid -> option Params -> Extrapolated * option Params.

  Lemma calculate_defined iteration phase evidence stored : forall queue ps s, NoDup queue ->
    (forall x, In x queue -> params s x = stored x) ->
    (forall c, In c queue -> evidence c <> [] -> fst (extrapolate iteration phase (evidence c) (stored c)) <> Undefined) ->
    exists r, calculatePredictions eqb extrapolate iteration phase evidence queue ps s = Some r.
  Proof using eqbEq.
    clear range range1 maxPhases. induction queue as [|c queue IH]; intros ps s ND HS H; cbn [calculatePredictions]; [eexists; reflexivity|].
    inversion ND as [|? ? N1 N2]; subst.
    assert (HS1 : forall x, In x queue -> params s x = stored x) by (intros; apply HS; right; assumption).
    assert (H1 : forall d, In d queue -> evidence d <> [] -> fst (extrapolate iteration phase (evidence d) (stored d)) <> Undefined) by (intros; apply H; [right; assumption|assumption]).
    destruct (evidence c) as [|e es] eqn:EV; [apply IH; assumption|]. rewrite <- EV.
    assert (U : fst (extrapolate iteration phase (evidence c) (stored c)) <> Undefined) by (apply H; [left; reflexivity|rewrite EV; discriminate]).
    rewrite (HS c (or_introl eq_refl)).
    destruct (extrapolate iteration phase (evidence c) (stored c)) as [r p]. cbn [fst] in U.
    assert (HS2 : forall x, In x queue -> (if eqb x c then p else params s x) = stored x).
    { intros x Hx. destruct (eqb x c) eqn:Q; [apply eqbEq in Q; subst; contradiction|apply HS1; exact Hx]. }
    destruct r as [|v|]; [| |congruence]; apply IH; cbn [params]; assumption.
  Qed.

  Lemma reset_defined iteration phase evidence queue s : NoDup queue -> NoDup (tooLong s) ->
    (forall c, In c queue -> evidence c <> [] -> fst (extrapolate iteration phase (evidence c) (params s c)) <> Undefined) ->
    (exists r, resetPredictive eqb range maxPhases extrapolate iteration phase evidence queue s = Some r) <->
    (forall c, ~ (exists z, hasPrediction extrapolate iteration phase evidence queue (params s) c z)) \/
    (exists c z, hasPrediction extrapolate iteration phase evidence queue (params s) c z /\ (range * IZR z < 2 ^ 63)%R).
  Proof.
    intros NQ NT U.
    set (s1 := mkPState (collectTooLong eqb maxPhases phase evidence queue (tooLong s)) (params s)).
    destruct (calculate_defined iteration phase evidence (params s) queue [] s1 NQ) as [[ps s2] P]; [reflexivity|exact U|].
    destruct (calculate_spec eqb eqbEq maxPhases extrapolate iteration phase evidence (params s) queue [] s1 ps s2) as [D1 [D2 [D3 D4]]]; [exact NQ|exact (NoDup_nil _)|apply (collect_spec eqb eqbEq maxPhases extrapolate phase evidence queue (tooLong s) NT)|reflexivity|intros x _ []|exact P|].
    assert (HP : forall c z, In (c, z) ps <-> hasPrediction extrapolate iteration phase evidence queue (params s) c z).
    { intros c z. rewrite D3. unfold hasPrediction, pred. cbn [In]. tauto. }
    unfold resetPredictive. fold s1. rewrite P. destruct ps as [|p ps].
    - split; [|intros _; eexists; reflexivity]. intros _. left. intros c [z H]. apply HP in H. exact H.
    - pose proof (best_spec ps (snd p)) as B. cbv zeta in B. fold (bestPrediction p ps) in B. set (best := bestPrediction p ps) in *.
      destruct B as [B1 [B2 B3]].
      assert (BI : exists q, In q (p :: ps) /\ snd q = best).
      { destruct B3 as [B3|[q [H B3]]]; [exists p; cbn; auto|exists q; cbn; auto]. }
      assert (BM : forall q, In q (p :: ps) -> (best <= snd q)%Z) by (intros q [<-|H]; auto).
      assert (LIM : (exists l, bestAcceptable range best = Some l) <-> (range * IZR best < 2 ^ 63)%R).
      { unfold bestAcceptable. replace (2 ^ 63)%R with (IZR (longMax + 1)) by (rewrite (pow_IZR 2 63); reflexivity).
        pose proof (limit_spec (range * IZR best) (longMax + 1)) as LS.
        destruct (Z.leb_spec (Int_part (range * IZR best)) longMax) as [L|L].
        - split; [intros _|intros _; eexists; reflexivity]. apply Rnot_le_lt. intros C. apply LS in C. lia.
        - split; [intros [? ?]; discriminate|]. intros C. assert (longMax + 1 <= Int_part (range * IZR best))%Z as G by lia. apply LS in G. lra. }
      destruct (bestAcceptable range best) as [l|] eqn:Q.
      + split; [|intros _; eexists; reflexivity]. intros _. right. destruct BI as [[c z] [I J]]. exists c, z. split; [apply HP; exact I|].
        cbn in J. subst z. apply LIM. eexists. reflexivity.
      + split; [intros [? ?]; discriminate|]. intros [C|[c [z [H K]]]].
        * destruct BI as [[c z] [I J]]. destruct (C c). exists z. apply HP. exact I.
        * exfalso. apply HP in H. specialize (BM _ H). cbn in BM. apply IZR_le in BM.
          assert (range * IZR best <= range * IZR z)%R by (apply Rmult_le_compat_l; lra).
          destruct (proj2 LIM) as [l Hl]; [lra|discriminate].
  Qed.
End Defined.
