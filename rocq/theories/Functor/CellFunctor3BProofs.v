(** Counting lemmas for the three-body cell functor. *)
From Verif.Base Require Import ZRange Occ Lists.
From Verif.Functor Require Import CellFunctorModel FunctorSpec CellFunctorProofs CellFunctor3BModel Functor3BSpec.

Section Proofs.
  Context {P : Type}.
  Variable pid : P -> Z.
  Notation received3 := (received3 pid).
  Notation distinctIds := (distinctIds pid).
  Notation isP := (isP pid).
  Notation isPP := (isPP pid).

  Definition sp (b d : Z) (pq : P * P) : bool := samePairId b d (pid (fst pq)) (pid (snd pq)).
  Definition sameTriple (a b d : Z) (t : P * P * P) : bool :=
    let '(p, q, s) := t in
    ((pid p =? a) && samePairId b d (pid q) (pid s)) ||
    ((pid q =? a) && samePairId b d (pid p) (pid s)) ||
    ((pid s =? a) && samePairId b d (pid p) (pid q)).

  Lemma samePairId_true b d x y : samePairId b d x y = true <-> (x = b /\ y = d) \/ (x = d /\ y = b).
  Proof. unfold samePairId. rewrite orb_true_iff, !andb_true_iff, !Z.eqb_eq. tauto. Qed.

  Lemma samePairId_sym b d x y : samePairId b d x y = samePairId b d y x.
  Proof.
    unfold samePairId. rewrite orb_comm. f_equal; apply andb_comm.
  Qed.

  Lemma samePairId_symL b d x y : samePairId b d x y = samePairId d b x y.
  Proof. unfold samePairId. apply orb_comm. Qed.

  Lemma sameTriple_true a b d p q s : sameTriple a b d (p, q, s) = true <->
    (pid p = a /\ ((pid q = b /\ pid s = d) \/ (pid q = d /\ pid s = b))) \/
    (pid q = a /\ ((pid p = b /\ pid s = d) \/ (pid p = d /\ pid s = b))) \/
    (pid s = a /\ ((pid p = b /\ pid q = d) \/ (pid p = d /\ pid q = b))).
  Proof.
    unfold sameTriple. rewrite !orb_true_iff, !andb_true_iff, !Z.eqb_eq, !samePairId_true. tauto.
  Qed.

  Lemma bool_eq_iff (x y : bool) : (x = true <-> y = true) -> x = y.
  Proof. destruct x, y; intuition congruence. Qed.

  Lemma sameTriple_rot a b d t : sameTriple a b d t = sameTriple b a d t.
  Proof. destruct t as [[p q] s]. apply bool_eq_iff. rewrite !sameTriple_true. tauto. Qed.
  Lemma sameTriple_rot2 a b d t : sameTriple a b d t = sameTriple a d b t.
  Proof. destruct t as [[p q] s]. apply bool_eq_iff. rewrite !sameTriple_true. tauto. Qed.

  Lemma occ_sp b d prs : b <> d -> occ (sp b d) prs = (occ (isPP b d) prs + occ (isPP d b) prs)%nat.
  Proof.
    intros Hne. induction prs as [|[p q] prs IH]; [reflexivity|].
    rewrite !occ_cons, IH. unfold sp, samePairId, CellFunctorProofs.isPP. cbn [fst snd].
    destruct (pid p =? b) eqn:E1, (pid q =? d) eqn:E2, (pid p =? d) eqn:E3, (pid q =? b) eqn:E4;
      cbn [andb orb]; try lia;
      apply Z.eqb_eq in E1 || apply Z.eqb_eq in E2; apply Z.eqb_eq in E3 || apply Z.eqb_eq in E4; congruence.
  Qed.

  (** first particle fixed *)
  Lemma occ_triple_row p prs a b d : a <> b -> a <> d -> b <> d -> pid p = a ->
    occ (sameTriple a b d) (map (fun '(q, s) => (p, q, s)) prs) = occ (sp b d) prs.
  Proof.
    intros H1 H2 H3 Hp. rewrite occ_map. apply occ_ext. intros [q s] _.
    apply bool_eq_iff. unfold sp. cbn [fst snd]. rewrite sameTriple_true, samePairId_true.
    split; [|intros; left; split; [assumption|tauto]].
    intros [H|[H|H]]; destruct H as [H [[Ha Hb]|[Ha Hb]]]; try congruence; tauto.
  Qed.

  Lemma occ_triple_row_other p prs a b d : pid p <> a -> pid p <> b -> pid p <> d ->
    occ (sameTriple a b d) (map (fun '(q, s) => (p, q, s)) prs) = 0%nat.
  Proof.
    intros H1 H2 H3. rewrite occ_map. apply occ_zero. intros [q s] _.
    destruct (sameTriple a b d (p, q, s)) eqn:E; [|reflexivity].
    apply sameTriple_true in E. exfalso. intuition.
  Qed.

  (** ** untilFar2, pairsBehind *)
  Section Brk.
    Variable brk : P -> P -> bool.

    Lemma untilFar2_prefix p q l : exists r, l = untilFar2 brk p q l ++ r.
    Proof.
      induction l as [|x l [r IH]]; [now exists []|].
      simpl. destruct (_ || _); [now exists (x :: l)|]. exists r. simpl. now f_equal.
    Qed.

    Lemma untilFar2_sub p q l x : In x (untilFar2 brk p q l) -> In x l.
    Proof. destruct (untilFar2_prefix p q l) as [r E]. intros H. rewrite E. apply in_or_app. now left. Qed.

    Lemma distinct_prefix l r : distinctIds (l ++ r) -> distinctIds l.
    Proof. unfold FunctorSpec.distinctIds. rewrite map_app. intros H. now apply NoDup_app_inv in H. Qed.

    Lemma untilFar2_distinct p q l : distinctIds l -> distinctIds (untilFar2 brk p q l).
    Proof. destruct (untilFar2_prefix p q l) as [r E]. intros H. rewrite E in H. now apply distinct_prefix in H. Qed.

    Lemma breakSafe_tail p x l : breakSafe brk p (x :: l) -> breakSafe brk p l.
    Proof. intros H l1 y l2 -> Hy. exact (H (x :: l1) y l2 eq_refl Hy). Qed.

    Lemma untilFar2_in p q l x : breakSafe brk p l -> breakSafe brk q l ->
      In x l -> brk p x = false -> brk q x = false -> In x (untilFar2 brk p q l).
    Proof.
      induction l as [|y l IH]; intros Hp Hq Hin H1 H2; [destruct Hin|].
      simpl. destruct (brk p y || brk q y) eqn:E.
      - exfalso. apply orb_true_iff in E as [E|E].
        + specialize (Hp [] y l eq_refl E). rewrite Forall_forall in Hp.
          destruct Hin as [->|Hin]; [congruence|]. specialize (Hp x Hin). congruence.
        + specialize (Hq [] y l eq_refl E). rewrite Forall_forall in Hq.
          destruct Hin as [->|Hin]; [congruence|]. specialize (Hq x Hin). congruence.
      - destruct Hin as [->|Hin]; [now left|]. right.
        apply IH; auto; eapply breakSafe_tail; eauto.
    Qed.

    Lemma pairsBehind_sub p l q s : In (q, s) (pairsBehind brk p l) -> In q l /\ In s l.
    Proof.
      induction l as [|x l IH]; intros H; [destruct H|].
      simpl in H. destruct (brk p x); [destruct H|].
      apply in_app_iff in H as [H|H].
      - apply in_map_iff in H as (y & Hy & Hin). inversion Hy; subst.
        split; [now left|right; eapply untilFar2_sub; eauto].
      - destruct (IH H). split; now right.
    Qed.

    Lemma pairsBehind_notin p l b d : ~ In b (map pid l) \/ ~ In d (map pid l) ->
      occ (sp b d) (pairsBehind brk p l) = 0%nat.
    Proof.
      intros H. apply occ_zero. intros [q s] Hin. apply pairsBehind_sub in Hin as [Hq Hs].
      apply (in_map pid) in Hq. apply (in_map pid) in Hs.
      unfold sp. cbn [fst snd]. destruct (samePairId _ _ _ _) eqn:E; [|reflexivity].
      apply samePairId_true in E as [[<- <-]|[<- <-]]; tauto.
    Qed.

    Lemma occ_sp_row x l b d : pid x = b -> b <> d ->
      occ (sp b d) (map (fun s => (x, s)) l) = occ (isP d) l.
    Proof.
      intros Hx Hne. rewrite occ_map. apply occ_ext. intros y _. unfold sp, CellFunctorProofs.isP. cbn [fst snd].
      apply bool_eq_iff. rewrite samePairId_true, Z.eqb_eq. subst b. split; [|tauto].
      intros [[_ H]|[H _]]; [assumption|congruence].
    Qed.

    Lemma pairsBehind_in p l b d : distinctIds l -> In b l -> In d l -> b <> d ->
      (occ (sp (pid b) (pid d)) (pairsBehind brk p l) <= 1)%nat /\
      (breakSafe brk p l -> suffixesSafe brk l -> brk p b = false -> brk p d = false ->
       brk b d = false -> brk d b = false -> occ (sp (pid b) (pid d)) (pairsBehind brk p l) = 1%nat).
    Proof.
      induction l as [|x l IH]; intros Hl Hb Hd Hne; [destruct Hb|].
      assert (Hl' : distinctIds l) by (unfold FunctorSpec.distinctIds in *; simpl in Hl; now inversion Hl).
      assert (Hxn : ~ In (pid x) (map pid l)) by (unfold FunctorSpec.distinctIds in *; simpl in Hl; now inversion Hl).
      assert (Hneq : pid b <> pid d) by (intros E; apply Hne; exact (distinct_inj pid (x :: l) b d Hl Hb Hd E)).
      cbn [pairsBehind]. destruct (brk p x) eqn:Ex.
      - split; [rewrite occ_nil; lia|]. intros Hp _ H1 H2 _ _. exfalso.
        specialize (Hp [] x l eq_refl Ex). rewrite Forall_forall in Hp.
        destruct Hb as [->|Hb]; [congruence|]. specialize (Hp b Hb). congruence.
      - rewrite occ_app.
        destruct Hb as [->|Hb].
        + destruct Hd as [->|Hd]; [contradiction|].
          rewrite occ_sp_row by auto. rewrite (pairsBehind_notin p l) by (left; assumption).
          split.
          * pose proof (occ_isP_le pid (untilFar2 brk p b l) (pid d) (untilFar2_distinct p b l Hl')). lia.
          * intros Hp Hs H1 H2 H3 H4. rewrite (occ_isP_in pid); [lia|now apply untilFar2_distinct|].
            apply untilFar2_in; auto; [now apply breakSafe_tail in Hp|exact (Hs [] b l eq_refl)].
        + destruct Hd as [->|Hd].
          * rewrite (occ_ext (sp (pid b) (pid d)) (sp (pid d) (pid b))) by (intros; unfold sp; apply samePairId_symL).
            rewrite occ_sp_row by auto. rewrite (pairsBehind_notin p l) by (right; assumption).
            split.
            -- pose proof (occ_isP_le pid (untilFar2 brk p d l) (pid b) (untilFar2_distinct p d l Hl')). lia.
            -- intros Hp Hs H1 H2 H3 H4. rewrite (occ_isP_in pid); [lia|now apply untilFar2_distinct|].
               apply untilFar2_in; auto; [now apply breakSafe_tail in Hp|exact (Hs [] d l eq_refl)].
          * assert (Hxb : pid x <> pid b) by (intros E; apply Hxn; rewrite E; now apply in_map).
            assert (Hxd : pid x <> pid d) by (intros E; apply Hxn; rewrite E; now apply in_map).
            rewrite (occ_zero (sp (pid b) (pid d)) (map _ _)).
            -- destruct (IH Hl' Hb Hd Hne) as [I1 I2]. split; [lia|].
               intros Hp Hs H1 H2 H3 H4. rewrite I2; auto.
               ++ now apply breakSafe_tail in Hp.
               ++ intros l1 y r -> . exact (Hs (x :: l1) y r eq_refl).
            -- intros [q s] Hin. apply in_map_iff in Hin as (y & Hy & _). inversion Hy; subst.
               unfold sp. cbn [fst snd]. destruct (samePairId _ _ _ _) eqn:E; [|reflexivity].
               apply samePairId_true in E as [[E _]|[E _]]; congruence.
    Qed.

    (** ** one cell *)
    Lemma triplesInCell_sub l p q s : In (p, q, s) (triplesInCell brk l) -> In p l /\ In q l /\ In s l.
    Proof.
      induction l as [|x l IH]; intros H; [destruct H|].
      simpl in H. apply in_app_iff in H as [H|H].
      - apply in_map_iff in H as ([y z] & Hy & Hin). inversion Hy; subst.
        apply pairsBehind_sub in Hin. split; [now left|]. split; right; tauto.
      - destruct (IH H) as (? & ? & ?). split; [|split]; now right.
    Qed.

    Lemma triplesInCell_notin l a b d :
      ~ In a (map pid l) \/ ~ In b (map pid l) \/ ~ In d (map pid l) ->
      occ (sameTriple a b d) (triplesInCell brk l) = 0%nat.
    Proof.
      intros H. apply occ_zero. intros [[p q] s] Hin. apply triplesInCell_sub in Hin as (Hp & Hq & Hs).
      apply (in_map pid) in Hp. apply (in_map pid) in Hq. apply (in_map pid) in Hs.
      destruct (sameTriple _ _ _ _) eqn:E; [|reflexivity]. exfalso. apply sameTriple_true in E.
      destruct E as [(<- & [[<- <-]|[<- <-]])|[(<- & [[<- <-]|[<- <-]])|(<- & [[<- <-]|[<- <-]])]]; tauto.
    Qed.

    Definition mutuallyNear (a b d : P) : Prop :=
      (brk a b = false /\ brk b a = false) /\ (brk a d = false /\ brk d a = false) /\
      (brk b d = false /\ brk d b = false).

    Lemma triplesInCell_head x l b d : distinctIds (x :: l) -> In b l -> In d l -> b <> d ->
      (occ (sameTriple (pid x) (pid b) (pid d)) (triplesInCell brk (x :: l)) <= 1)%nat /\
      (suffixesSafe brk (x :: l) -> mutuallyNear x b d ->
       occ (sameTriple (pid x) (pid b) (pid d)) (triplesInCell brk (x :: l)) = 1%nat).
    Proof.
      intros Hl Hb Hd Hne.
      assert (Hl' : distinctIds l) by (unfold FunctorSpec.distinctIds in *; simpl in Hl; now inversion Hl).
      assert (Hxn : ~ In (pid x) (map pid l)) by (unfold FunctorSpec.distinctIds in *; simpl in Hl; now inversion Hl).
      assert (Hneq : pid b <> pid d) by (intros E; apply Hne; exact (distinct_inj pid l b d Hl' Hb Hd E)).
      assert (Hxb : pid x <> pid b) by (intros E; apply Hxn; rewrite E; now apply in_map).
      assert (Hxd : pid x <> pid d) by (intros E; apply Hxn; rewrite E; now apply in_map).
      cbn [triplesInCell]. rewrite occ_app, occ_triple_row by auto.
      rewrite triplesInCell_notin by (left; assumption).
      destruct (pairsBehind_in x l b d Hl' Hb Hd Hne) as [I1 I2].
      split; [lia|]. intros Hs ((N1 & N2) & (N3 & N4) & (N5 & N6)).
      rewrite I2; auto.
      - exact (Hs [] x l eq_refl).
      - intros l1 y r ->. exact (Hs (x :: l1) y r eq_refl).
    Qed.

    Lemma triplesInCell_in l a b d : distinctIds l -> In a l -> In b l -> In d l ->
      a <> b -> a <> d -> b <> d ->
      (occ (sameTriple (pid a) (pid b) (pid d)) (triplesInCell brk l) <= 1)%nat /\
      (suffixesSafe brk l -> mutuallyNear a b d ->
       occ (sameTriple (pid a) (pid b) (pid d)) (triplesInCell brk l) = 1%nat).
    Proof.
      induction l as [|x l IH]; intros Hl Ha Hb Hd N1 N2 N3; [destruct Ha|].
      destruct Ha as [->|Ha]; [|destruct Hb as [->|Hb]; [|destruct Hd as [->|Hd]]].
      - destruct Hb as [->|Hb]; [contradiction|]. destruct Hd as [->|Hd]; [contradiction|].
        now apply triplesInCell_head.
      - destruct Hd as [->|Hd]; [contradiction|].
        destruct (triplesInCell_head b l a d Hl Ha Hd N2) as [I1 I2].
        rewrite (occ_ext _ (sameTriple (pid b) (pid a) (pid d))) by (intros; apply sameTriple_rot).
        split; [assumption|]. intros Hs Hm. apply I2; auto. unfold mutuallyNear in *. tauto.
      - destruct (triplesInCell_head d l a b Hl Ha Hb N1) as [I1 I2].
        rewrite (occ_ext _ (sameTriple (pid d) (pid a) (pid b)))
          by (intros; rewrite sameTriple_rot2; apply sameTriple_rot).
        split; [assumption|]. intros Hs Hm. apply I2; auto. unfold mutuallyNear in *. tauto.
      - assert (Hl' : distinctIds l) by (unfold FunctorSpec.distinctIds in *; simpl in Hl; now inversion Hl).
        assert (Hxn : ~ In (pid x) (map pid l)) by (unfold FunctorSpec.distinctIds in *; simpl in Hl; now inversion Hl).
        cbn [triplesInCell]. rewrite occ_app, occ_triple_row_other.
        + destruct (IH Hl' Ha Hb Hd N1 N2 N3) as [I1 I2]. split; [lia|].
          intros Hs Hm. rewrite I2; auto. intros l1 y r ->. exact (Hs (x :: l1) y r eq_refl).
        + intros E. apply Hxn. rewrite E. now apply in_map.
        + intros E. apply Hxn. rewrite E. now apply in_map.
        + intros E. apply Hxn. rewrite E. now apply in_map.
    Qed.

    (** ** two cells *)
    Definition tri (t : P * P * P * bool) : P * P * P := fst t.

    Lemma triplesInPair_sub l1 l2 p q s f : In (p, q, s, f) (triplesInPair brk l1 l2) ->
      In p l1 /\ In s l2 /\ In q (if f : bool then l1 else l2).
    Proof.
      induction l1 as [|x l1 IH]; intros H; [destruct H|].
      cbn [triplesInPair] in H. apply in_app_iff in H as [H|H]; [|apply in_app_iff in H as [H|H]].
      - apply in_flat_map in H as (y & Hy & H). apply in_map_iff in H as (z & E & Hz). inversion E; subst.
        split; [now left|]. split; [eapply untilFar2_sub; eauto|]. right. eapply untilFar_sub; eauto.
      - apply in_map_iff in H as ([y z] & E & Hin). inversion E; subst. apply pairsBehind_sub in Hin.
        split; [now left|]. tauto.
      - destruct (IH H) as (H1 & H2 & H3). split; [now right|]. split; [assumption|]. destruct f; [now right|assumption].
    Qed.

    Lemma occ_tri_true p q l a b d : pid p = a -> pid q = b -> a <> b -> a <> d -> b <> d ->
      occ (fun t => sameTriple a b d (tri t)) (map (fun s => (p, q, s, true)) l) = occ (isP d) l.
    Proof.
      intros Hp Hq N1 N2 N3. rewrite occ_map. apply occ_ext. intros s _. cbn [tri fst].
      unfold CellFunctorProofs.isP. apply bool_eq_iff. rewrite sameTriple_true, Z.eqb_eq. subst a b.
      split; [|tauto]. intros [H|[H|H]]; destruct H as [H [[H1 H2]|[H1 H2]]]; congruence.
    Qed.

    (** a, b in the first cell (a before b), d in the second *)
    Lemma triplesInPair_AB_head l1 l2 a b d : distinctIds ((a :: l1) ++ l2) ->
      In b l1 -> In d l2 ->
      (occ (fun t => sameTriple (pid a) (pid b) (pid d) (tri t)) (triplesInPair brk (a :: l1) l2) <= 1)%nat /\
      (suffixesSafe brk (a :: l1) -> breakSafe brk a l2 -> breakSafe brk b l2 -> mutuallyNear a b d ->
       occ (fun t => sameTriple (pid a) (pid b) (pid d) (tri t)) (triplesInPair brk (a :: l1) l2) = 1%nat).
    Proof.
      intros Hdis Hb Hd.
      assert (HD := Hdis). unfold FunctorSpec.distinctIds in HD. rewrite map_app in HD.
      apply NoDup_app_inv in HD as (HD1 & HD2 & HD3). cbn [map] in HD1. inversion HD1 as [|? ? Han HD1']; subst.
      assert (N1 : pid a <> pid b) by (intros E; apply Han; rewrite E; now apply in_map).
      assert (N2 : pid a <> pid d).
      { intros E. apply (HD3 (pid a)); [now left|]. rewrite E. now apply in_map. }
      assert (N3 : pid b <> pid d).
      { intros E. apply (HD3 (pid b)); [right; now apply in_map|]. rewrite E. now apply in_map. }
      cbn [triplesInPair]. rewrite !occ_app.
      (* part B *)
      rewrite (occ_zero _ (map _ (pairsBehind brk a l2))); cycle 1.
      { intros [[[p q] s] f] Hin. apply in_map_iff in Hin as ([y z] & E & Hin). injection E; intros; subst p q s f.
        apply pairsBehind_sub in Hin as [Hy Hz]. cbn [tri fst].
        destruct (sameTriple _ _ _ _) eqn:Et; [|reflexivity]. exfalso. apply sameTriple_true in Et.
        apply (in_map pid) in Hy. apply (in_map pid) in Hz. apply (in_map pid) in Hb.
        destruct Et as [(_ & [[E1 _]|[_ E1]])|[(E1 & _)|(E1 & _)]].
        - apply (HD3 (pid b)); [now right|]. now rewrite <- E1.
        - apply (HD3 (pid b)); [now right|]. now rewrite <- E1.
        - apply (HD3 (pid a)); [now left|]. now rewrite <- E1.
        - apply (HD3 (pid a)); [now left|]. now rewrite <- E1. }
      (* rest *)
      rewrite (occ_zero _ (triplesInPair brk l1 l2)); cycle 1.
      { intros [[[p q] s] f] Hin. apply triplesInPair_sub in Hin as (Hp & Hs & Hq). cbn [tri fst].
        destruct (sameTriple _ _ _ _) eqn:Et; [|reflexivity]. exfalso. apply sameTriple_true in Et.
        apply (in_map pid) in Hp. apply (in_map pid) in Hs. apply (in_map pid) in Hq.
        destruct Et as [(E1 & _)|[(E1 & _)|(E1 & _)]].
        - apply Han. now rewrite <- E1.
        - destruct f; [apply Han; now rewrite <- E1|]. apply (HD3 (pid a)); [now left|]. now rewrite <- E1.
        - apply (HD3 (pid a)); [now left|]. now rewrite <- E1. }
      rewrite !Nat.add_0_r.
      (* part A *)
      assert (HA : forall k, distinctIds k -> (forall x, In x k -> In x l1) ->
        occ (fun t => sameTriple (pid a) (pid b) (pid d) (tri t))
          (flat_map (fun p2 => map (fun p3 => (a, p2, p3, true)) (untilFar2 brk a p2 l2)) k) =
        if in_dec Z.eq_dec (pid b) (map pid k) then occ (isP (pid d)) (untilFar2 brk a b l2) else 0%nat).
      { intros k Hk Hsub. destruct (in_dec Z.eq_dec (pid b) (map pid k)) as [Hin|Hnin].
        - apply in_map_iff in Hin as (b' & Eb & Hin).
          assert (b' = b).
          { apply (distinct_inj pid l1); auto. }
          subst b'.
          rewrite (occ_flat_map_unique _ (fun p2 => map (fun p3 => (a, p2, p3, true)) (untilFar2 brk a p2 l2)) k b).
          + now apply occ_tri_true.
          + apply (NoDup_map_inv pid). exact Hk.
          + exact Hin.
          + intros x Hx Hxne. apply occ_zero. intros [[[p q] s] f] Hi.
            apply in_map_iff in Hi as (z & E & Hz). injection E; intros; subst p q s f. cbn [tri fst].
            destruct (sameTriple _ _ _ _) eqn:Et; [|reflexivity]. exfalso. apply sameTriple_true in Et.
            apply untilFar2_sub in Hz. apply (in_map pid) in Hz. apply (in_map pid) in Hb.
            assert (Hq : In (pid x) (map pid l1)) by (apply in_map; auto).
            assert (Hqb : pid x <> pid b).
            { intros Eq. apply Hxne. apply (distinct_inj pid k); auto. }
            destruct Et as [(_ & [[E1 _]|[E1 E2]])|[(E1 & _)|(E1 & _)]].
            * congruence.
            * apply (HD3 (pid b)); [now right|]. now rewrite <- E2.
            * apply Han. now rewrite <- E1.
            * apply (HD3 (pid a)); [now left|]. now rewrite <- E1.
        - apply occ_flat_map_zero. intros x Hx. apply occ_zero. intros [[[p q] s] f] Hi.
          apply in_map_iff in Hi as (z & E & Hz). injection E; intros; subst p q s f. cbn [tri fst].
          destruct (sameTriple _ _ _ _) eqn:Et; [|reflexivity]. exfalso. apply sameTriple_true in Et.
          apply untilFar2_sub in Hz. apply (in_map pid) in Hz. apply (in_map pid) in Hb.
          assert (Hq : In (pid x) (map pid l1)) by (apply in_map; auto).
          assert (Hq' : In (pid x) (map pid k)) by (apply in_map; auto).
          destruct Et as [(_ & [[E1 _]|[E1 E2]])|[(E1 & _)|(E1 & _)]].
          * apply Hnin. now rewrite <- E1.
          * apply (HD3 (pid b)); [now right|]. now rewrite <- E2.
          * apply Han. now rewrite <- E1.
          * apply (HD3 (pid a)); [now left|]. now rewrite <- E1. }
      rewrite HA.
      - destruct (in_dec _ _ _) as [Hin|Hnin].
        + split; [apply occ_isP_le; now apply untilFar2_distinct|].
          intros Hs S1 S2 ((M1 & M2) & (M3 & M4) & (M5 & M6)).
          apply occ_isP_in; [now apply untilFar2_distinct|]. now apply untilFar2_in.
        + split; [lia|]. intros Hs S1 S2 ((M1 & M2) & _). exfalso. apply Hnin. apply in_map.
          apply untilFar_in; auto. exact (Hs [] a l1 eq_refl).
      - apply (untilFar_distinct pid brk). exact HD1'.
      - intros x. apply untilFar_sub.
    Qed.

    Lemma triplesInPair_AB l1 l2 a b d : distinctIds (l1 ++ l2) ->
      In a l1 -> In b l1 -> a <> b -> In d l2 ->
      (occ (fun t => sameTriple (pid a) (pid b) (pid d) (tri t)) (triplesInPair brk l1 l2) <= 1)%nat /\
      (suffixesSafe brk l1 -> breakSafe brk a l2 -> breakSafe brk b l2 -> mutuallyNear a b d ->
       occ (fun t => sameTriple (pid a) (pid b) (pid d) (tri t)) (triplesInPair brk l1 l2) = 1%nat).
    Proof.
      induction l1 as [|x l1 IH]; intros Hdis Ha Hb Hne Hd; [destruct Ha|].
      destruct Ha as [->|Ha]; [|destruct Hb as [->|Hb]].
      - destruct Hb as [->|Hb]; [contradiction|]. now apply triplesInPair_AB_head.
      - destruct (triplesInPair_AB_head l1 l2 b a d Hdis Ha Hd) as [I1 I2].
        rewrite (occ_ext _ (fun t => sameTriple (pid b) (pid a) (pid d) (tri t))) by (intros; apply sameTriple_rot).
        split; [assumption|]. intros. apply I2; auto. unfold mutuallyNear in *. tauto.
      - assert (HD := Hdis). unfold FunctorSpec.distinctIds in HD. cbn [app map] in HD. inversion HD as [|? ? Hxn HD']; subst.
        assert (Nx : forall y, In y l1 \/ In y l2 -> pid x <> pid y).
        { intros y Hy E. apply Hxn. rewrite E. apply in_map. apply in_or_app. assumption. }
        destruct (IH HD' Ha Hb Hne Hd) as [I1 I2].
        cbn [triplesInPair]. rewrite !occ_app.
        assert (Hz : forall t, (exists q s f, t = (x, q, s, f)) -> sameTriple (pid a) (pid b) (pid d) (tri t) = false).
        { intros t (q & s & f & ->). cbn [tri fst]. destruct (sameTriple _ _ _ _) eqn:Et; [|reflexivity].
          exfalso. apply sameTriple_true in Et.
          pose proof (Nx a ltac:(tauto)). pose proof (Nx b ltac:(tauto)). pose proof (Nx d ltac:(tauto)). intuition. }
        rewrite (occ_zero _ (flat_map _ _)).
        + rewrite (occ_zero _ (map _ _)).
          * split; [lia|]. intros Hs S1 S2 M. rewrite I2; auto.
            intros k1 y r ->. exact (Hs (x :: k1) y r eq_refl).
          * intros t Ht. apply Hz. apply in_map_iff in Ht as ([y z] & E & _). eauto.
        + intros t Ht. apply Hz. apply in_flat_map in Ht as (y & _ & Ht). apply in_map_iff in Ht as (z & E & _). eauto.
    Qed.

    (** a in the first cell, b and d in the second *)
    Lemma triplesInPair_BD l1 l2 a b d : distinctIds (l1 ++ l2) ->
      In a l1 -> In b l2 -> In d l2 -> b <> d ->
      (occ (fun t => sameTriple (pid a) (pid b) (pid d) (tri t)) (triplesInPair brk l1 l2) <= 1)%nat /\
      (suffixesSafe brk l2 -> breakSafe brk a l2 -> mutuallyNear a b d ->
       occ (fun t => sameTriple (pid a) (pid b) (pid d) (tri t)) (triplesInPair brk l1 l2) = 1%nat).
    Proof.
      intros Hdis Ha Hb Hd Hne.
      induction l1 as [|x l1 IH]; [destruct Ha|].
      assert (HD := Hdis). unfold FunctorSpec.distinctIds in HD. cbn [app map] in HD. inversion HD as [|? ? Hxn HD']; subst.
      assert (HL := HD'). rewrite map_app in HL. apply NoDup_app_inv in HL as (HL1 & HL2 & HL3).
      assert (Nx : forall y, In y l1 \/ In y l2 -> pid x <> pid y).
      { intros y Hy E. apply Hxn. rewrite E. apply in_map. apply in_or_app. assumption. }
      assert (Hpart : forall t, (exists q s, t = (x, q, s, true) /\ In q l1 /\ In s l2) ->
                sameTriple (pid a) (pid b) (pid d) (tri t) = false).
      { intros t (q & s & -> & Hq & Hs). cbn [tri fst]. destruct (sameTriple _ _ _ _) eqn:Et; [|reflexivity].
        exfalso. apply sameTriple_true in Et.
        pose proof (Nx b ltac:(tauto)). pose proof (Nx d ltac:(tauto)).
        assert (pid q <> pid b) by (intros E; apply (HL3 (pid q)); [now apply in_map|rewrite E; now apply in_map]).
        assert (pid q <> pid d) by (intros E; apply (HL3 (pid q)); [now apply in_map|rewrite E; now apply in_map]).
        intuition. }
      cbn [triplesInPair]. rewrite !occ_app.
      rewrite (occ_zero _ (flat_map _ _)); cycle 1.
      { intros t Ht. apply Hpart. apply in_flat_map in Ht as (y & Hy & Ht). apply in_map_iff in Ht as (z & E & Hz).
        apply untilFar_sub in Hy. apply untilFar2_sub in Hz. eauto. }
      assert (Hneq : pid b <> pid d) by (intros E; apply Hne; exact (distinct_inj pid l2 b d HL2 Hb Hd E)).
      destruct Ha as [->|Ha].
      - rewrite (occ_zero _ (triplesInPair brk l1 l2)); cycle 1.
        { intros [[[p q] s] f] Hin. apply triplesInPair_sub in Hin as (Hp & Hs & Hq). cbn [tri fst].
          destruct (sameTriple _ _ _ _) eqn:Et; [|reflexivity]. exfalso. apply sameTriple_true in Et.
          assert (pid a <> pid p) by (apply Nx; tauto). assert (pid a <> pid s) by (apply Nx; tauto).
          assert (pid a <> pid q) by (apply Nx; destruct f; tauto). intuition. }
        assert (E : occ (fun t => sameTriple (pid a) (pid b) (pid d) (tri t))
                      (map (fun '(p2, p3) => (a, p2, p3, false)) (pairsBehind brk a l2)) =
                    occ (sp (pid b) (pid d)) (pairsBehind brk a l2)).
        { rewrite <- (occ_triple_row a (pairsBehind brk a l2) (pid a) (pid b) (pid d)); auto.
          rewrite !occ_map. apply occ_ext. intros [q s] _. reflexivity. }
        rewrite E, Nat.add_0_r. cbn [Nat.add].
        destruct (pairsBehind_in a l2 b d HL2 Hb Hd Hne) as [I1 I2].
        split; [lia|]. intros S2 Sa ((M1 & M2) & (M3 & M4) & (M5 & M6)). now apply I2.
      - rewrite (occ_zero _ (map _ _)); cycle 1.
        { intros t Ht. apply in_map_iff in Ht as ([y z] & E & _). subst t. cbn [tri fst].
          destruct (sameTriple _ _ _ _) eqn:Et; [|reflexivity]. exfalso. apply sameTriple_true in Et.
          assert (pid x <> pid a) by (apply Nx; tauto). assert (pid x <> pid b) by (apply Nx; tauto).
          assert (pid x <> pid d) by (apply Nx; tauto). intuition. }
        destruct (IH HD' Ha) as [I1 I2]. split; [lia|]. intros. cbn [Nat.add]. apply I2; auto.
    Qed.

    (** ** three cells *)
    Lemma triplesInTriple_in l1 l2 l3 a b d : distinctIds (l1 ++ l2 ++ l3) ->
      In a l1 -> In b l2 -> In d l3 ->
      (occ (sameTriple (pid a) (pid b) (pid d)) (triplesInTriple brk l1 l2 l3) <= 1)%nat /\
      (breakSafe brk a l2 -> brk a b = false ->
       occ (sameTriple (pid a) (pid b) (pid d)) (triplesInTriple brk l1 l2 l3) = 1%nat).
    Proof.
      intros Hdis Ha Hb Hd. unfold FunctorSpec.distinctIds in Hdis. rewrite !map_app in Hdis.
      apply NoDup_app_inv in Hdis as (H1 & H23 & X1). apply NoDup_app_inv in H23 as (H2 & H3 & X2).
      assert (Y12 : forall x y, In x l1 -> In y l2 -> pid x <> pid y).
      { intros x y Hx Hy E. apply (X1 (pid x)); [now apply in_map|]. rewrite E. apply in_or_app. left. now apply in_map. }
      assert (Y13 : forall x y, In x l1 -> In y l3 -> pid x <> pid y).
      { intros x y Hx Hy E. apply (X1 (pid x)); [now apply in_map|]. rewrite E. apply in_or_app. right. now apply in_map. }
      assert (Y23 : forall x y, In x l2 -> In y l3 -> pid x <> pid y).
      { intros x y Hx Hy E. apply (X2 (pid x)); [now apply in_map|]. rewrite E. now apply in_map. }
      unfold triplesInTriple.
      assert (Hst : forall p q s, In p l1 -> In q l2 -> In s l3 ->
                sameTriple (pid a) (pid b) (pid d) (p, q, s) = true -> p = a /\ q = b /\ s = d).
      { intros p q s Hp Hq Hs Et. apply sameTriple_true in Et.
        pose proof (Y12 p b Hp Hb). pose proof (Y13 p d Hp Hd).
        pose proof (Y12 a q Ha Hq). pose proof (Y13 a s Ha Hs). pose proof (Y23 b s Hb Hs). pose proof (Y23 q d Hq Hd).
        destruct Et as [(E1 & [[E2 E3]|[E2 E3]])|[(E1 & _)|(E1 & _)]]; try congruence.
        split; [|split]; [apply (distinct_inj pid l1)|apply (distinct_inj pid l2)|apply (distinct_inj pid l3)]; auto. }
      assert (E : occ (sameTriple (pid a) (pid b) (pid d))
         (flat_map (fun p1 => flat_map (fun p2 => map (fun p3 => (p1, p2, p3)) l3) (untilFar brk p1 l2)) l1) =
         occ (isP (pid b)) (untilFar brk a l2)).
      { rewrite (occ_flat_map_unique _ (fun p1 => flat_map (fun p2 => map (fun p3 => (p1, p2, p3)) l3) (untilFar brk p1 l2)) l1 a).
        - assert (Hgen : forall k, (forall x, In x k -> In x l2) ->
            occ (sameTriple (pid a) (pid b) (pid d)) (flat_map (fun p2 => map (fun p3 => (a, p2, p3)) l3) k) = occ (isP (pid b)) k).
          { induction k as [|q k IHk]; intros Hsub; [reflexivity|].
            cbn [flat_map]. rewrite occ_app, occ_cons, IHk by (intros; apply Hsub; now right). f_equal.
            rewrite occ_map. unfold CellFunctorProofs.isP at 1. destruct (pid q =? pid b) eqn:Eq.
            - apply Z.eqb_eq in Eq. assert (q = b) by (apply (distinct_inj pid l2); auto; apply Hsub; now left). subst q.
              apply (occ_one_of_unique _ _ d); auto.
              + now apply (NoDup_map_inv pid).
              + apply sameTriple_true. tauto.
              + intros y Hy Et. apply Hst in Et; auto. tauto.
            - apply Z.eqb_neq in Eq. apply occ_zero. intros s Hs.
              destruct (sameTriple _ _ _ _) eqn:Et; [|reflexivity]. exfalso.
              apply Hst in Et; auto; [|apply Hsub; now left]. destruct Et as (_ & -> & _). now apply Eq. }
          apply Hgen. intros x. apply untilFar_sub.
        - now apply (NoDup_map_inv pid).
        - exact Ha.
        - intros x Hx Hxa. apply occ_zero. intros [[p q] s] Hin.
          apply in_flat_map in Hin as (y & Hy & Hin). apply in_map_iff in Hin as (z & Ez & Hz). injection Ez; intros; subst p q s.
          destruct (sameTriple _ _ _ _) eqn:Et; [|reflexivity]. exfalso.
          apply untilFar_sub in Hy. apply Hst in Et; auto. apply Hxa. tauto. }
      rewrite E. split.
      - apply occ_isP_le. now apply untilFar_distinct.
      - intros Hs Hf. apply occ_isP_in; [now apply untilFar_distinct|]. now apply untilFar_in.
    Qed.

    Lemma triplesInTriple_sub l1 l2 l3 p q s : In (p, q, s) (triplesInTriple brk l1 l2 l3) ->
      In p l1 /\ In q l2 /\ In s l3.
    Proof.
      intros Hin. unfold triplesInTriple in Hin. apply in_flat_map in Hin as (x & Hx & Hin).
      apply in_flat_map in Hin as (y & Hy & Hin). apply in_map_iff in Hin as (z & Ez & Hz). injection Ez; intros; subst p q s.
      apply untilFar_sub in Hy. auto.
    Qed.
  End Brk.
End Proofs.
