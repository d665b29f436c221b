(** Counting lemmas for the cell functor. *)
From Verif.Base Require Import ZRange Occ Lists.
From Verif.Functor Require Import CellFunctorModel FunctorSpec.

Section Proofs.
  Context {P : Type}.
  Variable pid : P -> Z.
  Variable far : P -> P -> bool.
  Notation received := (received pid).
  Notation distinctIds := (distinctIds pid).

  (** Particles with id [a]. *)
  Definition isP (a : Z) (p : P) : bool := pid p =? a.
  (** Pairs of particles with ids (a, b). *)
  Definition isPP (a b : Z) (pq : P * P) : bool := (pid (fst pq) =? a) && (pid (snd pq) =? b).

  Lemma distinct_inj l p q : distinctIds l -> In p l -> In q l -> pid p = pid q -> p = q.
  Proof.
    unfold distinctIds. induction l as [|x l IH]; intros Hd Hp Hq He; [destruct Hp|].
    simpl in Hd. inversion Hd as [|? ? Hn Hd']; subst.
    destruct Hp as [->|Hp], Hq as [->|Hq]; auto.
    - exfalso. apply Hn. rewrite He. now apply in_map.
    - exfalso. apply Hn. rewrite <- He. now apply in_map.
  Qed.

  Lemma occ_isP_in l a : distinctIds l -> In a l -> occ (isP (pid a)) l = 1%nat.
  Proof.
    intros Hd Hin. apply (occ_one_of_unique _ _ a); auto.
    - apply (NoDup_map_inv pid). exact Hd.
    - apply Z.eqb_refl.
    - intros y Hy He. apply Z.eqb_eq in He. eapply distinct_inj; eauto.
  Qed.

  Lemma occ_isP_le l a : distinctIds l -> (occ (isP a) l <= 1)%nat.
  Proof.
    intros Hd. apply occ_le_one_of_unique.
    - apply (NoDup_map_inv pid). exact Hd.
    - unfold isP. intros x y Hx Hy H1 H2. apply Z.eqb_eq in H1, H2. eapply distinct_inj; eauto. congruence.
  Qed.

  Lemma occ_isP_notin l a : ~ In a (map pid l) -> occ (isP a) l = 0%nat.
  Proof.
    intros H. apply occ_zero. intros x Hx. unfold isP. apply Z.eqb_neq. intros E. apply H.
    rewrite <- E. now apply in_map.
  Qed.

  Lemma occ_isPP_row p l a b :
    occ (isPP a b) (map (fun q => (p, q)) l) = if pid p =? a then occ (isP b) l else 0%nat.
  Proof.
    rewrite occ_map. unfold isPP, isP. cbn [fst snd].
    destruct (pid p =? a); [apply occ_ext; reflexivity|].
    apply occ_zero. reflexivity.
  Qed.

  (** product loops *)
  Lemma occ_product l1 l2 a b :
    occ (isPP a b) (flat_map (fun p => map (fun q => (p, q)) l2) l1) = (occ (isP a) l1 * occ (isP b) l2)%nat.
  Proof. clear far.
    induction l1 as [|p l1 IH]; [reflexivity|].
    cbn [flat_map]. rewrite occ_app, IH, occ_isPP_row, occ_cons. change (isP a p) with (pid p =? a).
    destruct (pid p =? a); lia.
  Qed.

  Lemma untilFar_prefix p l : exists r, l = untilFar far p l ++ r.
  Proof.
    induction l as [|q l [r IH]]; [now exists []|].
    simpl. destruct (far p q); [now exists (q :: l)|].
    exists r. simpl. now f_equal.
  Qed.

  Lemma untilFar_in p l q : breakSafe far p l -> In q l -> far p q = false -> In q (untilFar far p l).
  Proof.
    induction l as [|x l IH]; intros Hb Hin Hf; [destruct Hin|].
    simpl. destruct (far p x) eqn:E.
    - exfalso. specialize (Hb [] x l eq_refl E). rewrite Forall_forall in Hb.
      destruct Hin as [->|Hin]; [congruence|]. specialize (Hb q Hin). congruence.
    - destruct Hin as [->|Hin]; [now left|]. right. apply IH; auto.
      intros l1 y l2 -> Hy. exact (Hb (x :: l1) y l2 eq_refl Hy).
  Qed.

  Lemma untilFar_sub p l q : In q (untilFar far p l) -> In q l.
  Proof. destruct (untilFar_prefix p l) as [r E]. intros H. rewrite E. apply in_or_app. now left. Qed.

  Lemma untilFar_distinct p l : distinctIds l -> distinctIds (untilFar far p l).
  Proof.
    unfold distinctIds. intros H. destruct (untilFar_prefix p l) as [r E]. rewrite E in H.
    rewrite map_app in H. clear E. revert H. generalize (untilFar far p l) as k.
    induction k as [|x k IH]; intros H; [constructor|].
    simpl in *. inversion H; subst. constructor; [|auto].
    intros Hin. apply H2. apply in_or_app. now left.
  Qed.

  Lemma untilFar_occ_le p l b : (occ (isP b) (untilFar far p l) <= occ (isP b) l)%nat.
  Proof. destruct (untilFar_prefix p l) as [r E]. rewrite E at 2. rewrite occ_app. lia. Qed.

  (** product loops with break *)
  Lemma occ_productFar l1 l2 a b :
    occ (isPP a b) (flat_map (fun p => map (fun q => (p, q)) (untilFar far p l2)) l1) =
    occ (isPP a b) (flat_map (fun p => if pid p =? a then map (fun q => (p, q)) (untilFar far p l2) else []) l1).
  Proof.
    induction l1 as [|p l1 IH]; [reflexivity|].
    cbn [flat_map]. rewrite !occ_app, IH, occ_isPP_row.
    destruct (pid p =? a) eqn:E; [|reflexivity]. now rewrite occ_isPP_row, E.
  Qed.

  Lemma occ_productFar_in l1 l2 a b :
    distinctIds l1 -> distinctIds l2 -> In a l1 -> In b l2 ->
    let n := occ (isPP (pid a) (pid b)) (flat_map (fun p => map (fun q => (p, q)) (untilFar far p l2)) l1) in
    (n <= 1)%nat /\ (breakSafe far a l2 -> far a b = false -> n = 1%nat).
  Proof.
    intros H1 H2 Ha Hb. cbv zeta.
    assert (E0 : occ (isPP (pid a) (pid b)) (flat_map (fun p => map (fun q => (p, q)) (untilFar far p l2)) l1) =
                 occ (isPP (pid a) (pid b)) (map (fun q => (a, q)) (untilFar far a l2))).
    { apply (occ_flat_map_unique _ (fun p => map (fun q => (p, q)) (untilFar far p l2)) l1 a).
      - apply (NoDup_map_inv pid). exact H1.
      - exact Ha.
      - intros x Hx Hne. rewrite occ_isPP_row.
        destruct (pid x =? pid a) eqn:E; [|reflexivity].
        exfalso. apply Hne. apply Z.eqb_eq in E. exact (distinct_inj l1 x a H1 Hx Ha E). }
    rewrite E0. rewrite occ_isPP_row, Z.eqb_refl. split.
    - apply occ_isP_le. now apply untilFar_distinct.
    - intros Hs Hf. apply occ_isP_in; [now apply untilFar_distinct|]. now apply untilFar_in.
  Qed.

  Lemma occ_productFar_out l1 l2 a b :
    ~ In a (map pid l1) \/ ~ In b (map pid l2) ->
    occ (isPP a b) (flat_map (fun p => map (fun q => (p, q)) (untilFar far p l2)) l1) = 0%nat.
  Proof.
    intros H. apply occ_flat_map_zero. intros p Hp. rewrite occ_isPP_row.
    destruct (pid p =? a) eqn:E; [|reflexivity]. apply Z.eqb_eq in E.
    destruct H as [H|H].
    - exfalso. apply H. rewrite <- E. now apply in_map.
    - apply Nat.le_0_r. etransitivity; [apply untilFar_occ_le|]. now rewrite occ_isP_notin.
  Qed.

  (** laterPairs *)
  Lemma laterPairs_notin inner l a b :
    (forall p r q, In q (inner p r) -> In q r) ->
    ~ In a (map pid l) \/ ~ In b (map pid l) -> occ (isPP a b) (laterPairs inner l) = 0%nat.
  Proof. clear far.
    intros Hs. induction l as [|p l IH]; intros H; [reflexivity|].
    simpl in *. rewrite occ_app, occ_isPP_row, IH by tauto.
    destruct (pid p =? a) eqn:E; [|reflexivity]. apply Z.eqb_eq in E.
    rewrite occ_zero; [reflexivity|]. intros q Hq. apply Z.eqb_neq. intros E'.
    apply Hs in Hq. apply (in_map pid) in Hq. rewrite E' in Hq. tauto.
  Qed.

  Lemma laterPairs_in inner l a b :
    (forall p r q, In q (inner p r) -> In q r) ->
    (forall p r, distinctIds r -> distinctIds (inner p r)) ->
    distinctIds l -> In a l -> In b l -> a <> b ->
    let n := (occ (isPP (pid a) (pid b)) (laterPairs inner l) + occ (isPP (pid b) (pid a)) (laterPairs inner l))%nat in
    (n <= 1)%nat /\
    ((forall l1 p r q, l = l1 ++ p :: r -> In q r -> (p = a /\ q = b) \/ (p = b /\ q = a) -> In q (inner p r)) -> n = 1%nat).
  Proof. clear far.
    intros Hs Hd. induction l as [|p l IH]; intros Hl Ha Hb Hne; [destruct Ha|].
    assert (Hl' : distinctIds l) by (unfold distinctIds in *; simpl in Hl; now inversion Hl).
    assert (Hpn : ~ In (pid p) (map pid l)) by (unfold distinctIds in *; simpl in Hl; now inversion Hl).
    assert (Hneq : pid a <> pid b) by (intros E; apply Hne; exact (distinct_inj (p :: l) a b Hl Ha Hb E)).
    cbn [laterPairs]. cbv zeta. rewrite !occ_app, !occ_isPP_row.
    destruct Ha as [->|Ha].
    - (* a is the head *)
      destruct Hb as [->|Hb]; [contradiction|].
      rewrite Z.eqb_refl. apply Z.eqb_neq in Hneq. rewrite Hneq. apply Z.eqb_neq in Hneq.
      rewrite !laterPairs_notin by (auto; now (left + right)).
      split.
      + pose proof (occ_isP_le (inner a l) (pid b) (Hd a l Hl')). lia.
      + intros Hin. rewrite occ_isP_in; [lia|now apply Hd|].
        apply (Hin [] a l b eq_refl Hb). now left.
    - destruct Hb as [->|Hb].
      + rewrite Z.eqb_refl. assert (E : (pid b =? pid a) = false) by (apply Z.eqb_neq; congruence).
        rewrite E. rewrite !laterPairs_notin by (auto; now (left + right)).
        split.
        * pose proof (occ_isP_le (inner b l) (pid a) (Hd b l Hl')). lia.
        * intros Hin. rewrite occ_isP_in; [lia|now apply Hd|].
          apply (Hin [] b l a eq_refl Ha). now right.
      + assert (E1 : (pid p =? pid a) = false).
        { apply Z.eqb_neq. intros E. apply Hpn. rewrite E. now apply in_map. }
        assert (E2 : (pid p =? pid b) = false).
        { apply Z.eqb_neq. intros E. apply Hpn. rewrite E. now apply in_map. }
        rewrite E1, E2. destruct (IH Hl' Ha Hb Hne) as [I1 I2]. cbv zeta in I1, I2. split; [lia|].
        intros Hin. rewrite !Nat.add_0_l. apply I2. intros l1 p' r q -> Hq Hc.
        exact (Hin (p :: l1) p' r q eq_refl Hq Hc).
  Qed.

  (** from pairs to received contributions *)
  Lemma received_nil a b : received [] a b = 0%nat.
  Proof. reflexivity. Qed.

  Lemma received_app c1 c2 a b : received (c1 ++ c2) a b = (received c1 a b + received c2 a b)%nat.
  Proof. apply occ_app. Qed.

  Lemma received_interactPair cf prs a b : pid a <> pid b ->
    received (flat_map (interactPair cf) prs) a b =
    (occ (isPP (pid a) (pid b)) prs +
     (if useNewton3 cf || bidirectional cf then occ (isPP (pid b) (pid a)) prs else 0))%nat.
  Proof.
    clear far. intros Hne. induction prs as [|[p q] prs IH]; [destruct (_ || _); reflexivity|].
    cbn [flat_map]. rewrite received_app, IH, !occ_cons.
    unfold interactPair, received, isPP. cbn [fst snd].
    destruct (useNewton3 cf), (bidirectional cf);
      rewrite ?occ_cons, ?occ_nil; unfold contributes; cbn [fstP sndP n3 orb andb];
      repeat match goal with |- context [Z.eqb ?x ?y] =>
        let E := fresh "E" in destruct (Z.eqb x y) eqn:E;
        [apply Z.eqb_eq in E|apply Z.eqb_neq in E] end; cbn [orb andb]; try lia; try congruence.
  Qed.

  Lemma received_soaPair n l1 l2 a b : pid a <> pid b ->
    received (soaPair n l1 l2) a b =
    (occ (isP (pid a)) l1 * occ (isP (pid b)) l2 +
     (if n then occ (isP (pid b)) l1 * occ (isP (pid a)) l2 else 0))%nat.
  Proof.
    clear far. intros Hne.
    assert (E : soaPair n l1 l2 =
      flat_map (interactPair (mkCF SoA n false 0)) (flat_map (fun p => map (fun q => (p, q)) l2) l1)).
    { clear. unfold soaPair. induction l1 as [|p l1 IH]; [reflexivity|].
      cbn [flat_map]. rewrite flat_map_app, <- IH. f_equal.
      clear. induction l2 as [|q l2 IH]; [reflexivity|]. cbn [map flat_map]. rewrite <- IH.
      unfold interactPair. cbn. destruct n; reflexivity. }
    rewrite E, received_interactPair by assumption. rewrite !occ_product. cbn. destruct n; reflexivity.
  Qed.

  Variable isHalo : P -> bool.

  Lemma received_interactSame cf prs a b : pid a <> pid b ->
    (forall p q, In (p, q) prs -> (pid p = pid a -> p = a) /\ (pid q = pid a -> q = a)) ->
    received (flat_map (interactSame isHalo cf) prs) a b =
    (if useNewton3 cf || negb (isHalo a)
     then occ (isPP (pid a) (pid b)) prs + occ (isPP (pid b) (pid a)) prs else 0)%nat.
  Proof.
    intros Hne Hin. induction prs as [|[p q] prs IH]; [destruct (_ || _); reflexivity|].
    cbn [flat_map]. rewrite received_app, IH by (intros; apply Hin; now right). rewrite !occ_cons.
    destruct (Hin p q) as [Hp Hq]; [now left|].
    unfold interactSame, received, isPP. cbn [fst snd].
    destruct (useNewton3 cf).
    - rewrite occ_cons, occ_nil. unfold contributes; cbn [fstP sndP n3 orb andb].
      repeat match goal with |- context [Z.eqb ?x ?y] =>
        let E := fresh "E" in destruct (Z.eqb x y) eqn:E;
        [apply Z.eqb_eq in E|apply Z.eqb_neq in E] end; cbn [orb andb]; try lia; try congruence.
    - rewrite occ_app. cbn [orb].
      assert (H1 : occ (contributes pid (pid a) (pid b)) (if negb (isHalo p) then [mkCall p q false] else []) =
                   if negb (isHalo a) then if (pid p =? pid a) && (pid q =? pid b) then 1%nat else 0%nat else 0%nat).
      { destruct (pid p =? pid a) eqn:E.
        - apply Z.eqb_eq in E. rewrite (Hp E). destruct (isHalo a); [reflexivity|].
          cbn [negb]. rewrite occ_cons, occ_nil. unfold contributes. cbn [fstP sndP n3 andb].
          rewrite ?Z.eqb_refl, orb_false_r. cbn [andb]. destruct (pid q =? pid b); reflexivity.
        - cbn [andb]. rewrite occ_zero; [now destruct (negb _)|].
          intros c Hc. destruct (negb (isHalo p)); [|destruct Hc]. destruct Hc as [<-|[]].
          unfold contributes. cbn [fstP sndP n3 andb]. now rewrite E. }
      assert (H2 : occ (contributes pid (pid a) (pid b)) (if negb (isHalo q) then [mkCall q p false] else []) =
                   if negb (isHalo a) then if (pid p =? pid b) && (pid q =? pid a) then 1%nat else 0%nat else 0%nat).
      { destruct (pid q =? pid a) eqn:E.
        - apply Z.eqb_eq in E. rewrite (Hq E). destruct (isHalo a); [reflexivity|].
          cbn [negb]. rewrite occ_cons, occ_nil. unfold contributes. cbn [fstP sndP n3 andb].
          rewrite ?Z.eqb_refl, orb_false_r. cbn [andb]. rewrite andb_true_r. destruct (pid p =? pid b); reflexivity.
        - rewrite andb_false_r. rewrite occ_zero; [now destruct (negb _)|].
          intros c Hc. destruct (negb (isHalo q)); [|destruct Hc]. destruct Hc as [<-|[]].
          unfold contributes. cbn [fstP sndP n3 andb]. now rewrite E. }
      rewrite H1, H2. destruct (negb (isHalo a)); [lia|reflexivity].
  Qed.

  Lemma laterPairs_sub inner l p q :
    (forall (p : P) r q, In q (inner p r) -> In q r) -> In (p, q) (laterPairs inner l) -> In p l /\ In q l.
  Proof.
    intros Hs. induction l as [|x l IH]; intros H; [destruct H|].
    simpl in H. apply in_app_iff in H as [H|H].
    - apply in_map_iff in H as (y & Hy & Hin). inversion Hy; subst. split; [now left|right; eapply Hs; eauto].
    - destruct (IH H). split; now right.
  Qed.

  Variable view : list P -> list P.

  (** Every suffix of the sorted view is safe for breaking. *)
  Definition suffixesSafe (l : list P) : Prop :=
    forall l1 p r, l = l1 ++ p :: r -> breakSafe far p r.

  Lemma distinct_perm l l' : Permutation l l' -> distinctIds l -> distinctIds l'.
  Proof.
    unfold FunctorSpec.distinctIds. intros Hp Hd. eapply Permutation_NoDup; [|exact Hd]. now apply Permutation_map.
  Qed.

  Definition expectedSame (cf : CFSettings) (a : P) : nat :=
    match layout cf with SoA => 1 | AoS => if useNewton3 cf || negb (isHalo a) then 1 else 0 end.

  Lemma processCell_received cf c a b :
    Permutation (parts c) (view (parts c)) -> distinctIds (parts c) -> mayOwn c = true ->
    In a (parts c) -> In b (parts c) -> a <> b ->
    (received (processCell isHalo view far cf c) a b <= expectedSame cf a)%nat /\
    ((layout cf = SoA \/ (length (parts c) <= sortingThreshold cf)%nat \/
      (suffixesSafe (view (parts c)) /\ far a b = false /\ far b a = false)) ->
     received (processCell isHalo view far cf c) a b = expectedSame cf a).
  Proof.
    intros Hperm Hd Hown Ha Hb Hne.
    assert (Hneq : pid a <> pid b) by (intros E; apply Hne; exact (distinct_inj (parts c) a b Hd Ha Hb E)).
    unfold processCell, expectedSame. rewrite Hown. cbn [negb].
    destruct (parts c) as [|p0 l0] eqn:El; [destruct Ha|]. rewrite <- El in *. clear El p0 l0.
    set (l := parts c) in *.
    assert (Hid : let n := (occ (isPP (pid a) (pid b)) (laterPairs (fun _ l => l) l) +
                            occ (isPP (pid b) (pid a)) (laterPairs (fun _ l => l) l))%nat in n = 1%nat).
    { now destruct (laterPairs_in (fun _ l => l) l a b) as [_ H]; auto. }
    cbv zeta in Hid.
    destruct (layout cf).
    - unfold processCellAoS. fold l.
      assert (Hgen : forall prs, (forall p q, In (p, q) prs -> In p l /\ In q l) ->
        received (flat_map (interactSame isHalo cf) prs) a b =
        (if useNewton3 cf || negb (isHalo a)
         then occ (isPP (pid a) (pid b)) prs + occ (isPP (pid b) (pid a)) prs else 0)%nat).
      { intros prs Hprs. apply received_interactSame; [assumption|].
        intros p q Hpq. destruct (Hprs p q Hpq) as [Hp Hq].
        split; intros E; eapply distinct_inj; eassumption. }
      destruct (Nat.ltb (sortingThreshold cf) (length l)) eqn:Et.
      + rewrite Hgen.
        * destruct (laterPairs_in (untilFar far) (view l) a b) as [H1 H2].
          -- apply untilFar_sub.
          -- apply untilFar_distinct.
          -- now apply (distinct_perm l).
          -- now apply (Permutation_in a Hperm).
          -- now apply (Permutation_in b Hperm).
          -- assumption.
          -- cbv zeta in H1, H2. destruct (useNewton3 cf || negb (isHalo a)); [|split; [lia|reflexivity]].
             split; [exact H1|]. intros [H|[H|(Hs & Hab & Hba)]]; [discriminate| |].
             ++ apply Nat.ltb_lt in Et. lia.
             ++ apply H2. intros l1 p r q E Hq Hc. apply untilFar_in; [exact (Hs l1 p r E)|exact Hq|].
                destruct Hc as [[-> ->]|[-> ->]]; assumption.
        * intros p q Hpq. apply laterPairs_sub in Hpq; [|apply untilFar_sub].
          split; apply (Permutation_in _ (Permutation_sym Hperm)); tauto.
      + rewrite Hgen.
        * rewrite Hid. destruct (_ || _); split; auto.
        * intros p q Hpq. apply laterPairs_sub in Hpq; auto.
    - unfold soaSingle. fold l.
      assert (E : map (fun '(p, q) => mkCall p q true) (laterPairs (fun _ l => l) l) =
                  flat_map (interactPair (mkCF SoA true false 0)) (laterPairs (fun _ l => l) l)).
      { generalize (laterPairs (fun _ l => l) l). clear. induction l as [|[p q] l IH]; [reflexivity|].
        cbn [map flat_map]. rewrite IH. reflexivity. }
      rewrite E, received_interactPair by assumption. cbn [useNewton3 orb]. rewrite Hid. split; auto.
  Qed.

  Lemma processCell_sub cf c call :
    (forall x, In x (view (parts c)) -> In x (parts c)) -> distinctIds (view (parts c)) -> distinctIds (parts c) ->
    In call (processCell isHalo view far cf c) ->
    In (fstP call) (parts c) /\ In (sndP call) (parts c) /\ fstP call <> sndP call.
  Proof.
    intros Hv Hdv Hd H. unfold processCell in H.
    destruct (parts c) as [|p0 l0] eqn:El; [destruct H|]. rewrite <- El in *. clear El p0 l0.
    destruct (negb (mayOwn c)); [destruct H|].
    assert (Hlp : forall inner l p q, (forall (p : P) r q, In q (inner p r) -> In q r) -> distinctIds l ->
              In (p, q) (laterPairs inner l) -> In p l /\ In q l /\ p <> q).
    { intros inner l p q Hs Hl Hin. destruct (laterPairs_sub inner l p q Hs Hin) as [Hp Hq].
      split; [assumption|split; [assumption|]]. intros ->.
      clear Hp Hq. induction l as [|x l IH]; [destruct Hin|].
      unfold FunctorSpec.distinctIds in *. cbn [map] in Hl. inversion Hl as [|? ? Hn Hl']; subst.
      cbn [laterPairs] in Hin. apply in_app_iff in Hin as [Hin|Hin]; [|auto].
      apply in_map_iff in Hin as (y & Hy & Hin). inversion Hy; subst. apply Hs in Hin.
      apply Hn. now apply in_map. }
    destruct (layout cf).
    - unfold processCellAoS in H. apply in_flat_map in H as ([p q] & Hpq & Hc).
      assert (Hpq' : In p (parts c) /\ In q (parts c) /\ p <> q).
      { destruct (Nat.ltb _ _).
        - apply Hlp in Hpq; [|apply untilFar_sub|assumption]. destruct Hpq as (? & ? & ?). auto.
        - apply Hlp in Hpq; auto. }
      destruct Hpq' as (Hp & Hq & Hne). unfold interactSame in Hc.
      destruct (useNewton3 cf).
      + destruct Hc as [<-|[]]. auto.
      + apply in_app_iff in Hc as [Hc|Hc];
          (destruct (negb _) in Hc; [|destruct Hc]); destruct Hc as [<-|[]]; cbn; auto.
    - unfold soaSingle in H. apply in_map_iff in H as ([p q] & <- & Hpq). cbn.
      apply Hlp in Hpq; auto.
  Qed.

  (** the cell functor has to look at the pair: at least one cell may hold owned
      particles, and if only the first cell is updated it is that one *)
  Definition pairRelevant (cf : CFSettings) (c1 c2 : Cell P) : Prop :=
    mayOwn c1 = true \/ (mayOwn c2 = true /\ (useNewton3 cf = true \/ bidirectional cf = true)).

  Lemma processCellPair_received cf hasDir c1 c2 a b :
    (forall c, c = c1 \/ c = c2 -> Permutation (parts c) (view (parts c))) ->
    distinctIds (parts c1 ++ parts c2) -> pairRelevant cf c1 c2 ->
    In a (parts c1) -> In b (parts c2) ->
    let calls := processCellPair view far cf hasDir c1 c2 in
    let back := if useNewton3 cf || bidirectional cf then 1%nat else 0%nat in
    (received calls a b <= 1)%nat /\ (received calls b a <= back)%nat /\
    ((layout cf = SoA \/ (length (parts c1) + length (parts c2) <= sortingThreshold cf)%nat \/ hasDir = false \/
      (breakSafe far a (view (parts c2)) /\ far a b = false)) ->
     received calls a b = 1%nat /\ received calls b a = back).
  Proof.
    clear isHalo. intros Hperm Hd Hrel Ha Hb. cbv zeta.
    assert (Hd1 : distinctIds (parts c1)).
    { unfold FunctorSpec.distinctIds in *. rewrite map_app in Hd. now apply NoDup_app_inv in Hd. }
    assert (Hd2 : distinctIds (parts c2)).
    { unfold FunctorSpec.distinctIds in *. rewrite map_app in Hd. now apply NoDup_app_inv in Hd. }
    assert (Hdis : forall x y, In x (parts c1) -> In y (parts c2) -> pid x <> pid y).
    { intros x y Hx Hy E. unfold FunctorSpec.distinctIds in Hd. rewrite map_app in Hd. revert Hd Hx.
      generalize (parts c1) as l1. induction l1 as [|z l1 IH]; intros Hd Hx; [destruct Hx|].
      cbn [map app] in Hd. inversion Hd as [|? ? Hn Hd']; subst. destruct Hx as [->|Hx]; [|auto].
      apply Hn. apply in_or_app. right. rewrite E. now apply in_map. }
    assert (Hneq : pid a <> pid b) by auto.
    assert (Hneq' : pid b <> pid a) by auto.
    assert (Hba1 : occ (isP (pid b)) (parts c1) = 0%nat).
    { apply occ_isP_notin. intros Hin. apply in_map_iff in Hin as (x & E & Hx). symmetry in E. symmetry in E. exact (Hdis x b Hx Hb E). }
    assert (Hab2 : occ (isP (pid a)) (parts c2) = 0%nat).
    { apply occ_isP_notin. intros Hin. apply in_map_iff in Hin as (x & E & Hx). symmetry in E. exact (Hdis a x Ha Hx E). }
    unfold processCellPair.
    destruct (parts c1) as [|p1 l1] eqn:E1; [destruct Ha|]. rewrite <- E1 in *.
    destruct (parts c2) as [|p2 l2] eqn:E2; [destruct Hb|]. rewrite <- E2 in *.
    clear E1 E2 p1 l1 p2 l2.
    assert (Hcond : (negb (mayOwn c1) && negb (useNewton3 cf) && negb (bidirectional cf)) ||
                    (negb (mayOwn c1) && negb (mayOwn c2)) = false).
    { destruct Hrel as [H|[H1 [H|H]]]; rewrite ?H, ?H1; destruct (mayOwn c1); cbn; rewrite ?andb_false_r; reflexivity. }
    rewrite Hcond. clear Hcond.
    destruct (layout cf).
    - unfold processCellPairAoS. rewrite !received_interactPair by assumption.
      destruct (Nat.ltb _ _ && hasDir) eqn:Et.
      + assert (Hout : occ (isPP (pid b) (pid a)) (flat_map (fun p => map (fun q => (p, q)) (untilFar far p (view (parts c2)))) (view (parts c1))) = 0%nat).
        { apply occ_productFar_out. left. intros Hin. apply in_map_iff in Hin as (x & E & Hx).
          apply (Permutation_in x (Permutation_sym (Hperm c1 (or_introl eq_refl)))) in Hx.
          exact (Hdis x b Hx Hb E). }
        rewrite Hout.
        destruct (occ_productFar_in (view (parts c1)) (view (parts c2)) a b) as [H1 H2].
        * apply (distinct_perm (parts c1)); auto.
        * apply (distinct_perm (parts c2)); auto.
        * apply (Permutation_in a (Hperm c1 (or_introl eq_refl))); assumption.
        * apply (Permutation_in b (Hperm c2 (or_intror eq_refl))); assumption.
        * cbv zeta in H1, H2. revert H1 H2.
          generalize (occ (isPP (pid a) (pid b)) (flat_map (fun p => map (fun q => (p, q)) (untilFar far p (view (parts c2)))) (view (parts c1)))).
          intros n H1 H2. apply andb_true_iff in Et as [Et1 Et2]. apply Nat.ltb_lt in Et1.
          destruct (useNewton3 cf || bidirectional cf); split; try lia; (split; [lia|]);
          intros [H|[H|[H|[Hs Hf]]]]; try discriminate; try lia; try congruence; specialize (H2 Hs Hf); split; lia.
      + rewrite !occ_product, Hba1, Hab2, (occ_isP_in (parts c1) a Hd1 Ha), (occ_isP_in (parts c2) b Hd2 Hb).
        destruct (_ || _); cbn; repeat split; lia.
    - unfold processCellPairSoA. destruct (useNewton3 cf).
      + rewrite !received_soaPair by assumption.
        rewrite Hba1, Hab2, (occ_isP_in (parts c1) a Hd1 Ha), (occ_isP_in (parts c2) b Hd2 Hb). cbn. repeat split; lia.
      + rewrite !received_app, !received_soaPair by assumption.
        rewrite Hba1, Hab2, (occ_isP_in (parts c1) a Hd1 Ha), (occ_isP_in (parts c2) b Hd2 Hb).
        destruct (bidirectional cf).
        * rewrite !received_soaPair by assumption.
          rewrite Hba1, Hab2, (occ_isP_in (parts c1) a Hd1 Ha), (occ_isP_in (parts c2) b Hd2 Hb). cbn. repeat split; lia.
        * rewrite !received_nil. cbn. repeat split; lia.
  Qed.

  Lemma processCellPair_sub cf hasDir c1 c2 call :
    (forall c x, c = c1 \/ c = c2 -> In x (view (parts c)) -> In x (parts c)) ->
    In call (processCellPair view far cf hasDir c1 c2) ->
    (In (fstP call) (parts c1) /\ In (sndP call) (parts c2)) \/
    ((useNewton3 cf = true \/ bidirectional cf = true) /\ In (fstP call) (parts c2) /\ In (sndP call) (parts c1)).
  Proof.
    intros Hv H. unfold processCellPair in H.
    destruct (parts c1) as [|p1 l1] eqn:E1; [destruct H|]. rewrite <- E1 in *.
    destruct (parts c2) as [|p2 l2] eqn:E2; [destruct H|]. rewrite <- E2 in *.
    clear E1 E2 p1 l1 p2 l2.
    destruct (_ || _) in H; [destruct H|].
    destruct (layout cf).
    - unfold processCellPairAoS in H. apply in_flat_map in H as ([p q] & Hpq & Hc).
      assert (Hpq' : In p (parts c1) /\ In q (parts c2)).
      { destruct (_ && _) in Hpq; apply in_flat_map in Hpq as (x & Hx & Hq); apply in_map_iff in Hq as (y & E & Hy);
          inversion E; subst; auto.
        apply untilFar_sub in Hy. split; [apply (Hv c1)|apply (Hv c2)]; auto. }
      unfold interactPair in Hc. destruct (useNewton3 cf).
      + destruct Hc as [<-|[]]. now left.
      + destruct Hc as [<-|Hc]; [now left|]. destruct (bidirectional cf); [|destruct Hc].
        destruct Hc as [<-|[]]. right. cbn. tauto.
    - unfold processCellPairSoA, soaPair in H.
      assert (Hsp : forall n l1 l2, In call (flat_map (fun p => map (fun q => mkCall p q n) l2) l1) ->
                In (fstP call) l1 /\ In (sndP call) l2).
      { intros n l1 l2 Hin. apply in_flat_map in Hin as (x & Hx & Hq). apply in_map_iff in Hq as (y & <- & Hy). auto. }
      destruct (useNewton3 cf).
      + left. now apply Hsp in H.
      + apply in_app_iff in H as [H|H]; [left; now apply Hsp in H|].
        destruct (bidirectional cf); [|destruct H]. right. apply Hsp in H. tauto.
  Qed.
End Proofs.
