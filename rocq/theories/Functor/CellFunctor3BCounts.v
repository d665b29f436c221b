(** What the particles receive from processing one, two or three cells with the
    three-body cell functor. *)
From Coq Require Import Reals Lra Sorted.
From Verif.Base Require Import ZRange Occ Lists.
From Verif.Functor Require Import CellFunctorModel FunctorSpec CellFunctorProofs SortModel SortSpec SortProofs
  CellFunctor3BModel Functor3BSpec CellFunctor3BProofs.
Open Scope Z_scope.

Lemma occ_flat_map_pointwise {A B} (g : B -> bool) (f : A -> list B) (h : A -> bool) l :
  (forall t, In t l -> occ g (f t) = if h t then 1%nat else 0%nat) -> occ g (flat_map f l) = occ h l.
Proof.
  induction l as [|x l IH]; intros H; [reflexivity|].
  cbn [flat_map]. rewrite occ_app, occ_cons, IH by (intros; apply H; now right).
  rewrite (H x) by now left. reflexivity.
Qed.

Section Counts.
  Context {P : Type}.
  Variable pid : P -> Z.
  Notation received3 := (received3 pid).
  Notation distinctIds := (distinctIds pid).
  Notation sameTriple := (sameTriple pid).

  Definition distinct3 (a b d : P) : Prop := pid a <> pid b /\ pid a <> pid d /\ pid b <> pid d.

  (** Case analysis on which of the ids a, b, d the id of p is. *)
  Ltac casep p a b d :=
    let Ea := fresh "E" in let Eb := fresh "E" in let Ed := fresh "E" in
    destruct (Z.eq_dec (pid p) (pid a)) as [Ea|Ea];
    [|destruct (Z.eq_dec (pid p) (pid b)) as [Eb|Eb];
      [|destruct (Z.eq_dec (pid p) (pid d)) as [Ed|Ed]]].
  Ltac ids :=
    repeat match goal with
    | |- context [(?x =? ?x)] => rewrite Z.eqb_refl
    | H : ?x <> ?y |- context [(?x =? ?y)] => rewrite (proj2 (Z.eqb_neq x y) H)
    | H : ?y <> ?x |- context [(?x =? ?y)] => rewrite (proj2 (Z.eqb_neq x y) (not_eq_sym H))
    | H : pid ?p = ?y |- context [pid ?p] => rewrite H
    end.
  Ltac eval3 := unfold contributes3, CellFunctor3BProofs.sameTriple, samePairId; cbn [p3a p3b p3c p3n]; ids;
    cbn [andb orb]; try reflexivity; try lia.

  (** ** one cell *)
  Variable isHalo : P -> bool.

  Lemma received3_same cf trs a b d : distinct3 a b d ->
    (forall p q s, In (p, q, s) trs -> (pid p = pid a -> p = a) /\ (pid q = pid a -> q = a) /\ (pid s = pid a -> s = a)) ->
    received3 (flat_map (interactSame3 isHalo cf) trs) a b d =
    (if useNewton3 cf || negb (isHalo a) then occ (sameTriple (pid a) (pid b) (pid d)) trs else 0)%nat.
  Proof.
    intros (N1 & N2 & N3) Hinj. unfold Functor3BSpec.received3.
    assert (E : occ (contributes3 pid (pid a) (pid b) (pid d)) (flat_map (interactSame3 isHalo cf) trs) =
      occ (fun t => (useNewton3 cf || negb (isHalo a)) && sameTriple (pid a) (pid b) (pid d) t) trs).
    { apply occ_flat_map_pointwise. intros [[p q] s] Hin. destruct (Hinj p q s Hin) as (I1 & I2 & I3).
      unfold interactSame3. destruct (useNewton3 cf).
      - rewrite occ_cons, occ_nil, Nat.add_0_r. cbn [orb andb].
        unfold contributes3, CellFunctor3BProofs.sameTriple. cbn [p3a p3b p3c p3n andb]. now rewrite orb_assoc.
      - cbn [orb]. rewrite !occ_app.
        assert (Hone : forall x y z, occ (contributes3 pid (pid a) (pid b) (pid d))
                  (if negb (isHalo x) then [mkCall3 x y z false] else []) =
                if negb (isHalo x) && ((pid x =? pid a) && samePairId (pid b) (pid d) (pid y) (pid z)) then 1%nat else 0%nat).
        { intros x y z. destruct (negb (isHalo x)); [|reflexivity]. rewrite occ_cons, occ_nil, Nat.add_0_r.
          unfold contributes3. cbn [p3a p3b p3c p3n andb]. rewrite orb_false_r. reflexivity. }
        rewrite !Hone. unfold CellFunctor3BProofs.sameTriple.
        assert (Hr : forall x u, (pid x = pid a -> x = a) ->
                  (negb (isHalo x) && ((pid x =? pid a) && u)) = (negb (isHalo a) && ((pid x =? pid a) && u))).
        { intros x u Hx. destruct (pid x =? pid a) eqn:Ex; [|now rewrite !andb_false_r].
          apply Z.eqb_eq in Ex. now rewrite (Hx Ex). }
        rewrite !Hr by assumption. destruct (negb (isHalo a)); [|reflexivity]. cbn [andb]. clear Hr Hone.
        casep p a b d; casep q a b d; casep s a b d; eval3. }
    rewrite E. destruct (useNewton3 cf || negb (isHalo a)); [reflexivity|]. now apply occ_zero.
  Qed.

  Lemma received3_soaSingle l a b d : distinct3 a b d ->
    received3 (soaSingle3 l) a b d = occ (sameTriple (pid a) (pid b) (pid d)) (triplesInCell never l).
  Proof.
    intros _. unfold Functor3BSpec.received3, soaSingle3. rewrite occ_map. apply occ_ext. intros [[p q] s] _.
    unfold contributes3, CellFunctor3BProofs.sameTriple. cbn [p3a p3b p3c p3n andb]. now rewrite orb_assoc.
  Qed.

  Lemma never_safe : forall p (l : list P), breakSafe never p l.
  Proof. intros p l l1 q l2 _ H. discriminate. Qed.
  Lemma never_suffixes (l : list P) : suffixesSafe never l.
  Proof. intros l1 p r _. apply never_safe. Qed.
  Lemma never_near (a b d : P) : mutuallyNear never a b d.
  Proof. unfold mutuallyNear. auto. Qed.

  Variable view : list P -> list P.
  Variable far : P -> P -> bool.

  Lemma distinct3_of l a b d : distinctIds l -> In a l -> In b l -> In d l -> a <> b -> a <> d -> b <> d -> distinct3 a b d.
  Proof.
    intros Hl Ha Hb Hd N1 N2 N3. repeat split; intros E.
    - apply N1. exact (distinct_inj pid l a b Hl Ha Hb E).
    - apply N2. exact (distinct_inj pid l a d Hl Ha Hd E).
    - apply N3. exact (distinct_inj pid l b d Hl Hb Hd E).
  Qed.

  Lemma processCell3_received cf c a b d :
    Permutation (parts c) (view (parts c)) -> distinctIds (parts c) -> mayOwn c = true ->
    In a (parts c) -> In b (parts c) -> In d (parts c) -> a <> b -> a <> d -> b <> d ->
    (received3 (processCell3 isHalo view far cf c) a b d <= expectedSame isHalo cf a)%nat /\
    ((layout cf = SoA \/ (length (parts c) <= sortingThreshold cf)%nat \/
      (suffixesSafe far (view (parts c)) /\ mutuallyNear far a b d)) ->
     received3 (processCell3 isHalo view far cf c) a b d = expectedSame isHalo cf a).
  Proof.
    intros Hperm Hl Hown Ha Hb Hd N1 N2 N3.
    pose proof (distinct3_of _ a b d Hl Ha Hb Hd N1 N2 N3) as ND.
    unfold processCell3, expectedSame. rewrite Hown. cbn [negb].
    destruct (parts c) as [|p0 l0] eqn:El; [destruct Ha|]. rewrite <- El in *. clear El p0 l0.
    set (l := parts c) in *.
    pose proof (proj2 (triplesInCell_in pid never l a b d Hl Ha Hb Hd N1 N2 N3) (never_suffixes l) (never_near a b d)) as Hnv.
    destruct (layout cf).
    - destruct (Nat.ltb (sortingThreshold cf) (length l)) eqn:Et.
      + assert (Hin : forall x, In x (view l) -> In x l) by (intros x; apply (Permutation_in x (Permutation_sym Hperm))).
        rewrite received3_same; auto.
        * destruct (triplesInCell_in pid far (view l) a b d) as [I1 I2]; auto;
            try (now apply (Permutation_in _ Hperm)).
          { now apply (distinct_perm pid l). }
          destruct (useNewton3 cf || negb (isHalo a)) eqn:Ec; [|split; [lia|reflexivity]].
          clear Ec. split; [exact I1|]. intros [H|[H|(Hs & Hm)]]; [discriminate| |now apply I2].
          apply Nat.ltb_lt in Et. lia.
        * intros p q s Hpqs. apply (triplesInCell_sub pid) in Hpqs as (Hp & Hq & Hs).
          apply Hin in Hp, Hq, Hs. split; [|split]; intros E; apply (distinct_inj pid l); auto.
      + rewrite received3_same; auto.
        * rewrite Hnv. destruct (_ || _); split; auto.
        * intros p q s Hpqs. apply (triplesInCell_sub pid) in Hpqs as (Hp & Hq & Hs).
          split; [|split]; intros E; apply (distinct_inj pid l); auto.
    - rewrite received3_soaSingle by assumption. rewrite Hnv. split; auto.
  Qed.

  (** ** two cells *)
  Definition wellFormedPair (l1 l2 : list P) (trs : list (P * P * P * bool)) : Prop :=
    forall p q s f, In (p, q, s, f) trs -> In p l1 /\ In s l2 /\ In q (if f : bool then l1 else l2).

  Lemma cross l1 l2 x y : distinctIds (l1 ++ l2) -> In x l1 -> In y l2 -> pid x <> pid y.
  Proof.
    unfold FunctorSpec.distinctIds. rewrite map_app. intros H Hx Hy E. apply NoDup_app_inv in H as (_ & _ & H).
    apply (H (pid x)); [now apply in_map|]. rewrite E. now apply in_map.
  Qed.

  (** a, b in the first cell, d in the second *)
  Lemma received3_pair_AB cf l1 l2 trs a b d : distinctIds (l1 ++ l2) -> wellFormedPair l1 l2 trs ->
    In a l1 -> In b l1 -> a <> b -> In d l2 ->
    let n := occ (fun t => sameTriple (pid a) (pid b) (pid d) (tri t)) trs in
    received3 (flat_map (interactPair3 cf) trs) a b d = n /\
    received3 (flat_map (interactPair3 cf) trs) b a d = n /\
    received3 (flat_map (interactPair3 cf) trs) d a b = (if useNewton3 cf || bidirectional cf then n else 0)%nat.
  Proof.
    intros Hdis Hwf Ha Hb Hne Hd.
    assert (N2 : pid a <> pid d) by (apply (cross l1 l2); auto).
    assert (N3 : pid b <> pid d) by (apply (cross l1 l2); auto).
    assert (N1 : pid a <> pid b).
    { intros E. apply Hne. apply (distinct_inj pid (l1 ++ l2)); auto; apply in_or_app; now left. }
    assert (Hel : forall t, In t trs ->
      occ (contributes3 pid (pid a) (pid b) (pid d)) (interactPair3 cf t) = (if sameTriple (pid a) (pid b) (pid d) (tri t) then 1 else 0)%nat /\
      occ (contributes3 pid (pid b) (pid a) (pid d)) (interactPair3 cf t) = (if sameTriple (pid a) (pid b) (pid d) (tri t) then 1 else 0)%nat /\
      occ (contributes3 pid (pid d) (pid a) (pid b)) (interactPair3 cf t) =
        (if (useNewton3 cf || bidirectional cf) && sameTriple (pid a) (pid b) (pid d) (tri t) then 1 else 0)%nat).
    { intros [[[p q] s] f] Hin. destruct (Hwf p q s f Hin) as (Hp & Hs & Hq). clear Hin.
      cbn [tri fst]. unfold interactPair3.
      assert (X1 : pid p <> pid d) by (apply (cross l1 l2); auto).
      assert (X2 : pid s <> pid a) by (intros E; symmetry in E; revert E; apply (cross l1 l2); auto).
      assert (X3 : pid s <> pid b) by (intros E; symmetry in E; revert E; apply (cross l1 l2); auto).
      assert (X4 : if f then pid q <> pid d else pid q <> pid a /\ pid q <> pid b).
      { destruct f; [apply (cross l1 l2); auto|].
        split; intros E; symmetry in E; revert E; apply (cross l1 l2); auto. }
      destruct f; [|destruct X4 as [X4 X5]];
      destruct (useNewton3 cf), (bidirectional cf); rewrite ?occ_app, ?occ_cons, ?occ_nil; cbn [andb orb];
        casep p a b d; try congruence; casep q a b d; try congruence; casep s a b d; try congruence;
        (split; [|split]); eval3. }
    cbv zeta. unfold Functor3BSpec.received3.
    split; [|split].
    - apply occ_flat_map_pointwise. intros t Ht. apply (Hel t Ht).
    - apply occ_flat_map_pointwise. intros t Ht. apply (Hel t Ht).
    - rewrite (occ_flat_map_pointwise _ _ _ _ (fun t Ht => proj2 (proj2 (Hel t Ht)))).
      destruct (_ || _); [reflexivity|]. now apply occ_zero.
  Qed.

  (** a in the first cell, b, d in the second *)
  Lemma received3_pair_BD cf l1 l2 trs a b d : distinctIds (l1 ++ l2) -> wellFormedPair l1 l2 trs ->
    In a l1 -> In b l2 -> b <> d -> In d l2 ->
    let n := occ (fun t => sameTriple (pid a) (pid b) (pid d) (tri t)) trs in
    received3 (flat_map (interactPair3 cf) trs) a b d = n /\
    received3 (flat_map (interactPair3 cf) trs) b a d = (if useNewton3 cf || bidirectional cf then n else 0)%nat /\
    received3 (flat_map (interactPair3 cf) trs) d a b = (if useNewton3 cf || bidirectional cf then n else 0)%nat.
  Proof.
    intros Hdis Hwf Ha Hb Hne Hd.
    assert (N2 : pid a <> pid d) by (apply (cross l1 l2); auto).
    assert (N1 : pid a <> pid b) by (apply (cross l1 l2); auto).
    assert (N3 : pid b <> pid d).
    { intros E. apply Hne. apply (distinct_inj pid (l1 ++ l2)); auto; apply in_or_app; now right. }
    assert (Hel : forall t, In t trs ->
      occ (contributes3 pid (pid a) (pid b) (pid d)) (interactPair3 cf t) = (if sameTriple (pid a) (pid b) (pid d) (tri t) then 1 else 0)%nat /\
      occ (contributes3 pid (pid b) (pid a) (pid d)) (interactPair3 cf t) =
        (if (useNewton3 cf || bidirectional cf) && sameTriple (pid a) (pid b) (pid d) (tri t) then 1 else 0)%nat /\
      occ (contributes3 pid (pid d) (pid a) (pid b)) (interactPair3 cf t) =
        (if (useNewton3 cf || bidirectional cf) && sameTriple (pid a) (pid b) (pid d) (tri t) then 1 else 0)%nat).
    { intros [[[p q] s] f] Hin. destruct (Hwf p q s f Hin) as (Hp & Hs & Hq). clear Hin.
      cbn [tri fst]. unfold interactPair3.
      assert (X1 : pid p <> pid d) by (apply (cross l1 l2); auto).
      assert (X1b : pid p <> pid b) by (apply (cross l1 l2); auto).
      assert (X2 : pid s <> pid a) by (intros E; symmetry in E; revert E; apply (cross l1 l2); auto).
      assert (X4 : if f then pid q <> pid d /\ pid q <> pid b else pid q <> pid a).
      { destruct f; [split; apply (cross l1 l2); auto|].
        intros E; symmetry in E; revert E; apply (cross l1 l2); auto. }
      destruct f; [destruct X4 as [X4 X5]|];
      destruct (useNewton3 cf), (bidirectional cf); rewrite ?occ_app, ?occ_cons, ?occ_nil; cbn [andb orb];
        casep p a b d; try congruence; casep q a b d; try congruence; casep s a b d; try congruence;
        (split; [|split]); eval3. }
    cbv zeta. unfold Functor3BSpec.received3.
    split; [|split].
    - apply occ_flat_map_pointwise. intros t Ht. apply (Hel t Ht).
    - rewrite (occ_flat_map_pointwise _ _ _ _ (fun t Ht => proj1 (proj2 (Hel t Ht)))).
      destruct (_ || _); [reflexivity|]. now apply occ_zero.
    - rewrite (occ_flat_map_pointwise _ _ _ _ (fun t Ht => proj2 (proj2 (Hel t Ht)))).
      destruct (_ || _); [reflexivity|]. now apply occ_zero.
  Qed.

  Lemma wf_triplesInPair brk l1 l2 : wellFormedPair l1 l2 (triplesInPair brk l1 l2).
  Proof. intros p q s f. apply (triplesInPair_sub pid brk). Qed.

  Lemma wf_perm l1 l2 k1 k2 trs : Permutation l1 k1 -> Permutation l2 k2 -> wellFormedPair k1 k2 trs -> wellFormedPair l1 l2 trs.
  Proof.
    intros H1 H2 Hw p q s f Hin. destruct (Hw p q s f Hin) as (A & B & C).
    split; [|split]; [apply (Permutation_in p (Permutation_sym H1) A)|apply (Permutation_in s (Permutation_sym H2) B)|].
    destruct f; [apply (Permutation_in q (Permutation_sym H1) C)|apply (Permutation_in q (Permutation_sym H2) C)].
  Qed.

  Lemma soaPair3_eq b (l1 l2 : list P) : soaPair3 b l1 l2 = flat_map (interactPair3 (mkCF SoA b false 0)) (triplesInPair never l1 l2).
  Proof.
    unfold soaPair3. generalize (triplesInPair never l1 l2). induction l as [|[[[p q] s] f] l IH]; [reflexivity|].
    cbn [flat_map]. rewrite IH. f_equal. unfold interactPair3. cbn [useNewton3 bidirectional].
    destruct b, f; reflexivity.
  Qed.

  Lemma received3_app c1 c2 a b d : received3 (c1 ++ c2) a b d = (received3 c1 a b d + received3 c2 a b d)%nat.
  Proof. apply occ_app. Qed.

  Definition bidir (cf : CFSettings) (n : nat) : nat := if useNewton3 cf || bidirectional cf then n else 0%nat.

  Lemma distinct_app_comm l1 l2 : distinctIds (l1 ++ l2) -> distinctIds (l2 ++ l1).
  Proof. apply distinct_perm. apply Permutation_app_comm. Qed.

  Lemma received3_swap12 calls (a b d : P) : received3 calls a b d = received3 calls a d b.
  Proof.
    apply occ_ext. intros [p q s n] _. unfold contributes3. cbn [p3a p3b p3c p3n].
    f_equal; [|f_equal]; rewrite !(samePairId_symL (pid b) (pid d)); reflexivity.
  Qed.

  (** Conditions under which the two sorted lists are searched far enough. *)
  Definition sortedPairOK (cf : CFSettings) (hasDir : bool) (c1 c2 : Cell P) (a b d : P) (S : Prop) : Prop :=
    layout cf = SoA \/ (length (parts c1) + length (parts c2) <= sortingThreshold cf)%nat \/ hasDir = false \/
    (S /\ mutuallyNear far a b d).

  Lemma processCellPair3_AB cf hasDir c1 c2 a b d :
    (forall c, c = c1 \/ c = c2 -> Permutation (parts c) (view (parts c))) ->
    distinctIds (parts c1 ++ parts c2) -> pairRelevant cf c1 c2 ->
    In a (parts c1) -> In b (parts c1) -> a <> b -> In d (parts c2) ->
    let calls := processCellPair3 view far cf hasDir c1 c2 in
    ((received3 calls a b d <= 1)%nat /\ (received3 calls d a b <= bidir cf 1)%nat) /\
    (sortedPairOK cf hasDir c1 c2 a b d
       (suffixesSafe far (view (parts c1)) /\ breakSafe far a (view (parts c2)) /\ breakSafe far b (view (parts c2))) ->
     received3 calls a b d = 1%nat /\ received3 calls b a d = 1%nat /\ received3 calls d a b = bidir cf 1).
  Proof.
    intros Hperm Hdis Hrel Ha Hb Hne Hd. cbv zeta. unfold sortedPairOK.
    assert (Hp1 := Hperm c1 (or_introl eq_refl)). assert (Hp2 := Hperm c2 (or_intror eq_refl)).
    assert (Hrel' : ((negb (mayOwn c1) && negb (useNewton3 cf) && negb (bidirectional cf)) ||
           (negb (mayOwn c1) && negb (mayOwn c2))) = false).
    { unfold pairRelevant in Hrel. destruct (mayOwn c1), (mayOwn c2), (useNewton3 cf), (bidirectional cf); cbn; try reflexivity;
        exfalso; destruct Hrel as [H|[H [H'|H']]]; discriminate. }
    unfold processCellPair3.
    destruct (parts c1) as [|p0 l0] eqn:E1; [destruct Ha|]. destruct (parts c2) as [|p0' l0'] eqn:E2; [destruct Hd|].
    rewrite <- E1, <- E2 in *. clear E1 E2 p0 l0 p0' l0'. rewrite Hrel'. clear Hrel' Hrel Hperm.
    set (l1 := parts c1) in *. set (l2 := parts c2) in *.
    pose proof (proj2 (triplesInPair_AB pid never l1 l2 a b d Hdis Ha Hb Hne Hd)
      (never_suffixes l1) (never_safe a l2) (never_safe b l2) (never_near a b d)) as Hnv.
    destruct (layout cf).
    - destruct (Nat.ltb (sortingThreshold cf) (length l1 + length l2) && hasDir) eqn:Et.
      + destruct (received3_pair_AB cf l1 l2 (triplesInPair far (view l1) (view l2)) a b d Hdis
          (wf_perm _ _ _ _ _ Hp1 Hp2 (wf_triplesInPair far _ _)) Ha Hb Hne Hd) as (R1 & R2 & R3).
        rewrite R1, R2, R3. unfold bidir.
        destruct (triplesInPair_AB pid far (view l1) (view l2) a b d) as [I1 I2]; auto;
          try (now apply (Permutation_in _ Hp1)); try (now apply (Permutation_in _ Hp2)).
        { apply (distinct_perm pid (l1 ++ l2)); [now apply Permutation_app|assumption]. }
        split; [split; [exact I1|destruct (_ || _); [exact I1|lia]]|].
        apply andb_true_iff in Et as [Et1 Et2]. apply Nat.ltb_lt in Et1.
        intros [H|[H|[H|((S1 & S2 & S3) & M)]]]; [discriminate|lia|congruence|].
        rewrite I2 by auto. auto.
      + destruct (received3_pair_AB cf l1 l2 (triplesInPair never l1 l2) a b d Hdis
          (wf_triplesInPair never l1 l2) Ha Hb Hne Hd) as (R1 & R2 & R3).
        rewrite R1, R2, R3, Hnv. unfold bidir. clear Et. split; [split; [lia|destruct (_ || _); lia]|auto].
    - destruct (received3_pair_AB (mkCF SoA true false 0) l1 l2 (triplesInPair never l1 l2) a b d Hdis
          (wf_triplesInPair never l1 l2) Ha Hb Hne Hd) as (R1 & R2 & R3).
      destruct (received3_pair_AB (mkCF SoA false false 0) l1 l2 (triplesInPair never l1 l2) a b d Hdis
          (wf_triplesInPair never l1 l2) Ha Hb Hne Hd) as (Q1 & Q2 & Q3).
      destruct (received3_pair_BD (mkCF SoA false false 0) l2 l1 (triplesInPair never l2 l1) d a b
          (distinct_app_comm _ _ Hdis) (wf_triplesInPair never l2 l1) Hd Ha Hne Hb) as (T1 & T2 & T3).
      pose proof (proj2 (triplesInPair_BD pid never l2 l1 d a b (distinct_app_comm _ _ Hdis) Hd Ha Hb Hne)
        (never_suffixes l1) (never_safe d l1) (never_near d a b)) as Hnv2.
      cbn [useNewton3 bidirectional orb] in *. unfold bidir.
      destruct (useNewton3 cf).
      + rewrite soaPair3_eq, R1, R2, R3, Hnv. cbn [orb]. split; [split; lia|auto].
      + rewrite !received3_app, !soaPair3_eq, Q1, Q2, Q3, Hnv. cbn [orb].
        destruct (bidirectional cf).
        * rewrite (received3_swap12 _ a b d), (received3_swap12 _ b a d), T1, T2, T3, Hnv2.
          split; [split; lia|auto].
        * cbn. split; [split; lia|auto].
  Qed.

  Lemma processCellPair3_BD cf hasDir c1 c2 a b d :
    (forall c, c = c1 \/ c = c2 -> Permutation (parts c) (view (parts c))) ->
    distinctIds (parts c1 ++ parts c2) -> pairRelevant cf c1 c2 ->
    In a (parts c1) -> In b (parts c2) -> b <> d -> In d (parts c2) ->
    let calls := processCellPair3 view far cf hasDir c1 c2 in
    ((received3 calls a b d <= 1)%nat /\ (received3 calls b a d <= bidir cf 1)%nat) /\
    (sortedPairOK cf hasDir c1 c2 a b d (suffixesSafe far (view (parts c2)) /\ breakSafe far a (view (parts c2))) ->
     received3 calls a b d = 1%nat /\ received3 calls b a d = bidir cf 1 /\ received3 calls d a b = bidir cf 1).
  Proof.
    intros Hperm Hdis Hrel Ha Hb Hne Hd. cbv zeta. unfold sortedPairOK.
    assert (Hp1 := Hperm c1 (or_introl eq_refl)). assert (Hp2 := Hperm c2 (or_intror eq_refl)).
    assert (Hrel' : ((negb (mayOwn c1) && negb (useNewton3 cf) && negb (bidirectional cf)) ||
           (negb (mayOwn c1) && negb (mayOwn c2))) = false).
    { unfold pairRelevant in Hrel. destruct (mayOwn c1), (mayOwn c2), (useNewton3 cf), (bidirectional cf); cbn; try reflexivity;
        exfalso; destruct Hrel as [H|[H [H'|H']]]; discriminate. }
    unfold processCellPair3.
    destruct (parts c1) as [|p0 l0] eqn:E1; [destruct Ha|]. destruct (parts c2) as [|p0' l0'] eqn:E2; [destruct Hd|].
    rewrite <- E1, <- E2 in *. clear E1 E2 p0 l0 p0' l0'. rewrite Hrel'. clear Hrel' Hrel Hperm.
    set (l1 := parts c1) in *. set (l2 := parts c2) in *.
    pose proof (proj2 (triplesInPair_BD pid never l1 l2 a b d Hdis Ha Hb Hd Hne)
      (never_suffixes l2) (never_safe a l2) (never_near a b d)) as Hnv.
    destruct (layout cf).
    - destruct (Nat.ltb (sortingThreshold cf) (length l1 + length l2) && hasDir) eqn:Et.
      + destruct (received3_pair_BD cf l1 l2 (triplesInPair far (view l1) (view l2)) a b d Hdis
          (wf_perm _ _ _ _ _ Hp1 Hp2 (wf_triplesInPair far _ _)) Ha Hb Hne Hd) as (R1 & R2 & R3).
        rewrite R1, R2, R3. unfold bidir.
        destruct (triplesInPair_BD pid far (view l1) (view l2) a b d) as [I1 I2]; auto;
          try (now apply (Permutation_in _ Hp1)); try (now apply (Permutation_in _ Hp2)).
        { apply (distinct_perm pid (l1 ++ l2)); [now apply Permutation_app|assumption]. }
        split; [split; [exact I1|destruct (_ || _); [exact I1|lia]]|].
        apply andb_true_iff in Et as [Et1 Et2]. apply Nat.ltb_lt in Et1.
        intros [H|[H|[H|((S1 & S2) & M)]]]; [discriminate|lia|congruence|].
        rewrite I2 by auto. auto.
      + destruct (received3_pair_BD cf l1 l2 (triplesInPair never l1 l2) a b d Hdis
          (wf_triplesInPair never l1 l2) Ha Hb Hne Hd) as (R1 & R2 & R3).
        rewrite R1, R2, R3, Hnv. unfold bidir. clear Et. split; [split; [lia|destruct (_ || _); lia]|auto].
    - destruct (received3_pair_BD (mkCF SoA true false 0) l1 l2 (triplesInPair never l1 l2) a b d Hdis
          (wf_triplesInPair never l1 l2) Ha Hb Hne Hd) as (R1 & R2 & R3).
      destruct (received3_pair_BD (mkCF SoA false false 0) l1 l2 (triplesInPair never l1 l2) a b d Hdis
          (wf_triplesInPair never l1 l2) Ha Hb Hne Hd) as (Q1 & Q2 & Q3).
      destruct (received3_pair_AB (mkCF SoA false false 0) l2 l1 (triplesInPair never l2 l1) b d a
          (distinct_app_comm _ _ Hdis) (wf_triplesInPair never l2 l1) Hb Hd Hne Ha) as (T1 & T2 & T3).
      pose proof (proj2 (triplesInPair_AB pid never l2 l1 b d a (distinct_app_comm _ _ Hdis) Hb Hd Hne Ha)
        (never_suffixes l2) (never_safe b l1) (never_safe d l1) (never_near b d a)) as Hnv2.
      cbn [useNewton3 bidirectional orb] in *. unfold bidir.
      destruct (useNewton3 cf).
      + rewrite soaPair3_eq, R1, R2, R3, Hnv. cbn [orb]. split; [split; lia|auto].
      + rewrite !received3_app, !soaPair3_eq, Q1, Q2, Q3, Hnv. cbn [orb].
        destruct (bidirectional cf).
        * rewrite (received3_swap12 _ b a d), (received3_swap12 _ d a b), T1, T2, T3, Hnv2.
          split; [split; lia|auto].
        * cbn. split; [split; lia|auto].
  Qed.

  (** ** three cells *)
  Lemma received3_triple cf l1 l2 l3 trs a b d : distinctIds (l1 ++ l2 ++ l3) ->
    (forall p q s, In (p, q, s) trs -> In p l1 /\ In q l2 /\ In s l3) ->
    In a l1 -> In b l2 -> In d l3 ->
    let n := occ (sameTriple (pid a) (pid b) (pid d)) trs in
    received3 (flat_map (interactTriple3 cf) trs) a b d = n /\
    received3 (flat_map (interactTriple3 cf) trs) b a d = (if useNewton3 cf || bidirectional cf then n else 0)%nat /\
    received3 (flat_map (interactTriple3 cf) trs) d a b = (if useNewton3 cf || bidirectional cf then n else 0)%nat.
  Proof.
    intros Hdis Hwf Ha Hb Hd.
    assert (Y1 : forall x y, In x l1 -> In y l2 \/ In y l3 -> pid x <> pid y).
    { intros x y Hx Hy. apply (cross l1 (l2 ++ l3)); auto. apply in_or_app. assumption. }
    assert (Y2 : forall x y, In x l2 -> In y l3 -> pid x <> pid y).
    { intros x y Hx Hy. apply (cross l2 l3); auto. unfold FunctorSpec.distinctIds in *. rewrite map_app in Hdis.
      now apply NoDup_app_inv in Hdis as (_ & Hdis & _). }
    assert (N1 : pid a <> pid b) by auto. assert (N2 : pid a <> pid d) by auto. assert (N3 : pid b <> pid d) by auto.
    assert (Hel : forall t, In t trs ->
      occ (contributes3 pid (pid a) (pid b) (pid d)) (interactTriple3 cf t) = (if sameTriple (pid a) (pid b) (pid d) t then 1 else 0)%nat /\
      occ (contributes3 pid (pid b) (pid a) (pid d)) (interactTriple3 cf t) =
        (if (useNewton3 cf || bidirectional cf) && sameTriple (pid a) (pid b) (pid d) t then 1 else 0)%nat /\
      occ (contributes3 pid (pid d) (pid a) (pid b)) (interactTriple3 cf t) =
        (if (useNewton3 cf || bidirectional cf) && sameTriple (pid a) (pid b) (pid d) t then 1 else 0)%nat).
    { intros [[p q] s] Hin. destruct (Hwf p q s Hin) as (Hp & Hq & Hs). clear Hin.
      unfold interactTriple3.
      assert (X1 : pid p <> pid b) by auto. assert (X2 : pid p <> pid d) by auto.
      assert (X3 : pid q <> pid a) by (apply not_eq_sym; auto). assert (X4 : pid q <> pid d) by auto.
      assert (X5 : pid s <> pid a) by (apply not_eq_sym; auto). assert (X6 : pid s <> pid b) by (apply not_eq_sym; auto).
      destruct (useNewton3 cf), (bidirectional cf); rewrite ?occ_app, ?occ_cons, ?occ_nil; cbn [andb orb];
        casep p a b d; try congruence; casep q a b d; try congruence; casep s a b d; try congruence;
        (split; [|split]); eval3. }
    cbv zeta. unfold Functor3BSpec.received3.
    split; [|split].
    - apply occ_flat_map_pointwise. intros t Ht. apply (Hel t Ht).
    - rewrite (occ_flat_map_pointwise _ _ _ _ (fun t Ht => proj1 (proj2 (Hel t Ht)))).
      destruct (_ || _); [reflexivity|]. now apply occ_zero.
    - rewrite (occ_flat_map_pointwise _ _ _ _ (fun t Ht => proj2 (proj2 (Hel t Ht)))).
      destruct (_ || _); [reflexivity|]. now apply occ_zero.
  Qed.

  Lemma soaTriple3_eq b (l1 l2 l3 : list P) :
    soaTriple3 b l1 l2 l3 = flat_map (interactTriple3 (mkCF SoA b false 0)) (triplesInTriple never l1 l2 l3).
  Proof.
    unfold soaTriple3. generalize (triplesInTriple never l1 l2 l3). induction l as [|[[p q] s] l IH]; [reflexivity|].
    cbn [flat_map map]. rewrite IH. unfold interactTriple3. cbn [useNewton3 bidirectional].
    destruct b; reflexivity.
  Qed.

  (** At least one of the cells may hold owned particles and the first cell may, or
      the others also receive contributions. *)
  Definition tripleRelevant (cf : CFSettings) (c1 c2 c3 : Cell P) : Prop :=
    mayOwn c1 = true \/
    ((mayOwn c2 = true \/ mayOwn c3 = true) /\ (useNewton3 cf = true \/ bidirectional cf = true)).

  Lemma processCellTriple3_received cf hasDir c1 c2 c3 a b d :
    (forall c, c = c1 \/ c = c2 -> Permutation (parts c) (view (parts c))) ->
    distinctIds (parts c1 ++ parts c2 ++ parts c3) -> tripleRelevant cf c1 c2 c3 ->
    In a (parts c1) -> In b (parts c2) -> In d (parts c3) ->
    let calls := processCellTriple3 view far cf hasDir c1 c2 c3 in
    ((received3 calls a b d <= 1)%nat /\ (received3 calls b a d <= bidir cf 1)%nat /\ (received3 calls d a b <= bidir cf 1)%nat) /\
    ((layout cf = SoA \/ (length (parts c1) + length (parts c2) + length (parts c3) <= sortingThreshold cf)%nat \/
      hasDir = false \/ (breakSafe far a (view (parts c2)) /\ far a b = false)) ->
     received3 calls a b d = 1%nat /\ received3 calls b a d = bidir cf 1 /\ received3 calls d a b = bidir cf 1).
  Proof.
    intros Hperm Hdis Hrel Ha Hb Hd. cbv zeta.
    assert (Hp1 := Hperm c1 (or_introl eq_refl)). assert (Hp2 := Hperm c2 (or_intror eq_refl)).
    assert (Hrel' : ((negb (mayOwn c1) && negb (useNewton3 cf) && negb (bidirectional cf)) ||
           (negb (mayOwn c1) && negb (mayOwn c2) && negb (mayOwn c3))) = false).
    { unfold tripleRelevant in Hrel. destruct (mayOwn c1), (mayOwn c2), (mayOwn c3), (useNewton3 cf), (bidirectional cf); cbn; try reflexivity;
        exfalso; destruct Hrel as [H|[[H|H] [H'|H']]]; discriminate. }
    unfold processCellTriple3.
    destruct (parts c1) as [|p0 l0] eqn:E1; [destruct Ha|]. destruct (parts c2) as [|p0' l0'] eqn:E2; [destruct Hb|].
    destruct (parts c3) as [|p0'' l0''] eqn:E3; [destruct Hd|].
    rewrite <- E1, <- E2, <- E3 in *. clear E1 E2 E3 p0 l0 p0' l0' p0'' l0''. rewrite Hrel'. clear Hrel' Hrel Hperm.
    set (l1 := parts c1) in *. set (l2 := parts c2) in *. set (l3 := parts c3) in *.
    assert (Hwf : forall brk k1 k2 k3 (p q s : P), In (p, q, s) (triplesInTriple brk k1 k2 k3) -> In p k1 /\ In q k2 /\ In s k3).
    { intros brk k1 k2 k3 p q s. apply (triplesInTriple_sub brk). }
    pose proof (proj2 (triplesInTriple_in pid never l1 l2 l3 a b d Hdis Ha Hb Hd) (never_safe a l2) eq_refl) as Hnv.
    destruct (layout cf).
    - destruct (Nat.ltb (sortingThreshold cf) (length l1 + length l2 + length l3) && hasDir) eqn:Et.
      + destruct (received3_triple cf l1 l2 l3 (triplesInTriple far (view l1) (view l2) l3) a b d Hdis) as (R1 & R2 & R3); auto.
        { intros p q s Hin. apply Hwf in Hin as (I1 & I2 & I3). split; [|split]; auto;
          [apply (Permutation_in p (Permutation_sym Hp1) I1)|apply (Permutation_in q (Permutation_sym Hp2) I2)]. }
        rewrite R1, R2, R3. unfold bidir.
        destruct (triplesInTriple_in pid far (view l1) (view l2) l3 a b d) as [I1 I2]; auto;
          try (now apply (Permutation_in _ Hp1)); try (now apply (Permutation_in _ Hp2)).
        { apply (distinct_perm pid (l1 ++ l2 ++ l3)); [|assumption].
          apply Permutation_app; [assumption|]. now apply Permutation_app_tail. }
        split; [split; [exact I1|destruct (_ || _); lia]|].
        apply andb_true_iff in Et as [Et1 Et2]. apply Nat.ltb_lt in Et1.
        intros [H|[H|[H|(S1 & M)]]]; [discriminate|lia|congruence|].
        rewrite I2 by auto. auto.
      + destruct (received3_triple cf l1 l2 l3 (triplesInTriple never l1 l2 l3) a b d Hdis (Hwf _ _ _ _) Ha Hb Hd) as (R1 & R2 & R3).
        rewrite R1, R2, R3, Hnv. unfold bidir. clear Et. split; [split; [lia|destruct (_ || _); lia]|auto].
    - assert (D2 : distinctIds (l2 ++ l1 ++ l3)).
      { apply (distinct_perm pid (l1 ++ l2 ++ l3)); [|assumption]. rewrite !app_assoc.
        apply Permutation_app_tail. apply Permutation_app_comm. }
      assert (D3 : distinctIds (l3 ++ l1 ++ l2)).
      { apply (distinct_perm pid (l1 ++ l2 ++ l3)); [|assumption]. rewrite (app_assoc l1).
        apply Permutation_app_comm. }
      destruct (received3_triple (mkCF SoA true false 0) l1 l2 l3 (triplesInTriple never l1 l2 l3) a b d Hdis (Hwf _ _ _ _) Ha Hb Hd) as (R1 & R2 & R3).
      destruct (received3_triple (mkCF SoA false false 0) l1 l2 l3 (triplesInTriple never l1 l2 l3) a b d Hdis (Hwf _ _ _ _) Ha Hb Hd) as (Q1 & Q2 & Q3).
      destruct (received3_triple (mkCF SoA false false 0) l2 l1 l3 (triplesInTriple never l2 l1 l3) b a d D2 (Hwf _ _ _ _) Hb Ha Hd) as (T1 & T2 & T3).
      destruct (received3_triple (mkCF SoA false false 0) l3 l1 l2 (triplesInTriple never l3 l1 l2) d a b D3 (Hwf _ _ _ _) Hd Ha Hb) as (U1 & U2 & U3).
      pose proof (proj2 (triplesInTriple_in pid never l2 l1 l3 b a d D2 Hb Ha Hd) (never_safe b l1) eq_refl) as Hnv2.
      pose proof (proj2 (triplesInTriple_in pid never l3 l1 l2 d a b D3 Hd Ha Hb) (never_safe d l1) eq_refl) as Hnv3.
      cbn [useNewton3 bidirectional orb] in *. unfold bidir.
      destruct (useNewton3 cf).
      + rewrite soaTriple3_eq, R1, R2, R3, Hnv. cbn [orb]. split; [split; lia|auto].
      + rewrite !received3_app, !soaTriple3_eq, Q1, Q2, Q3, Hnv. cbn [orb].
        destruct (bidirectional cf).
        * rewrite !received3_app.
          rewrite (received3_swap12 (flat_map _ (triplesInTriple never l2 l1 l3)) d a b).
          rewrite (received3_swap12 (flat_map _ (triplesInTriple never l3 l1 l2)) a b d).
          rewrite (received3_swap12 (flat_map _ (triplesInTriple never l3 l1 l2)) b a d).
          rewrite T1, T2, T3, U1, U2, U3, Hnv2, Hnv3.
          split; [split; lia|auto].
        * cbn. split; [split; lia|auto].
  Qed.

  (** All calls are about three particles of the cells at hand. *)
  Definition callWithin (c : Call3 P) (l : list P) : Prop := In (p3a c) l /\ In (p3b c) l /\ In (p3c c) l.

  Lemma processCell3_sub cf c call :
    (forall x, In x (view (parts c)) -> In x (parts c)) ->
    In call (processCell3 isHalo view far cf c) -> callWithin call (parts c).
  Proof.
    intros Hv H. unfold processCell3 in H.
    destruct (parts c) as [|p0 l0] eqn:El; [destruct H|]. rewrite <- El in *. clear El p0 l0.
    destruct (negb (mayOwn c)); [destruct H|].
    assert (Hgen : forall trs, (forall p q s, In (p, q, s) trs -> In p (parts c) /\ In q (parts c) /\ In s (parts c)) ->
      In call (flat_map (interactSame3 isHalo cf) trs) -> callWithin call (parts c)).
    { intros trs Ht Hin. apply in_flat_map in Hin as ([[p q] s] & Hin & Hc). destruct (Ht p q s Hin) as (A & B & C).
      unfold interactSame3 in Hc. unfold callWithin. destruct (useNewton3 cf).
      - destruct Hc as [<-|[]]. cbn. auto.
      - apply in_app_iff in Hc as [Hc|Hc]; [|apply in_app_iff in Hc as [Hc|Hc]];
          destruct (negb _) in Hc; try (now destruct Hc); destruct Hc as [<-|[]]; cbn; auto. }
    destruct (layout cf).
    - revert H. destruct (Nat.ltb _ _); apply Hgen; intros p q s Hin; apply (triplesInCell_sub pid) in Hin; auto.
      destruct Hin as (A & B & C). auto.
    - unfold soaSingle3 in H. apply in_map_iff in H as ([[p q] s] & <- & Hin). apply (triplesInCell_sub pid) in Hin.
      exact Hin.
  Qed.

  Lemma processCellPair3_sub cf hasDir c1 c2 call :
    (forall c x, c = c1 \/ c = c2 -> In x (view (parts c)) -> In x (parts c)) ->
    In call (processCellPair3 view far cf hasDir c1 c2) ->
    callWithin call (parts c1 ++ parts c2) /\
    (useNewton3 cf || bidirectional cf = false -> In (p3a call) (parts c1) /\ p3n call = false) /\
    ~ (In (p3a call) (parts c1) /\ In (p3b call) (parts c1) /\ In (p3c call) (parts c1) /\ distinctIds (parts c1 ++ parts c2)) /\
    ~ (In (p3a call) (parts c2) /\ In (p3b call) (parts c2) /\ In (p3c call) (parts c2) /\ distinctIds (parts c1 ++ parts c2)).
  Proof.
    intros Hv H. unfold processCellPair3 in H.
    destruct (parts c1) as [|p0 l0] eqn:E1; [destruct H|]. destruct (parts c2) as [|p0' l0'] eqn:E2; [destruct H|].
    rewrite <- E1, <- E2 in *. clear E1 E2 p0 l0 p0' l0'.
    destruct (_ || _) in H; [destruct H|].
    assert (Hgen : forall cf' l1 l2 trs, wellFormedPair l1 l2 trs ->
      In call (flat_map (interactPair3 cf') trs) ->
      callWithin call (l1 ++ l2) /\ (useNewton3 cf' || bidirectional cf' = false -> In (p3a call) l1 /\ p3n call = false) /\
      ~ (In (p3a call) l1 /\ In (p3b call) l1 /\ In (p3c call) l1 /\ distinctIds (l1 ++ l2)) /\
      ~ (In (p3a call) l2 /\ In (p3b call) l2 /\ In (p3c call) l2 /\ distinctIds (l1 ++ l2))).
    { intros cf' l1 l2 trs Ht Hin. apply in_flat_map in Hin as ([[[p q] s] f] & Hin & Hc).
      destruct (Ht p q s f Hin) as (A & B & C). unfold callWithin. rewrite !in_app_iff.
      assert (Hx : forall x, In x l1 -> In x l2 -> ~ distinctIds (l1 ++ l2)).
      { intros x X1 X2 Hd. exact (cross l1 l2 x x Hd X1 X2 eq_refl). }
      pose proof (Hx p) as Hxp. pose proof (Hx s) as Hxs. clear Hx.
      unfold interactPair3 in Hc. destruct (useNewton3 cf'), (bidirectional cf'), f; cbn in Hc;
        repeat (destruct Hc as [<-|Hc]); try (now destruct Hc);
        cbn [p3a p3b p3c p3n orb]; (split; [tauto|split; [intros; split; solve [assumption|reflexivity|discriminate]|tauto]]). }
    destruct (layout cf).
    - refine (Hgen cf _ _ _ _ H). clear H. destruct (_ && _).
      + intros p q s f Hin. apply wf_triplesInPair in Hin as (A & B & C).
        split; [apply (Hv c1); auto|split; [apply (Hv c2); auto|]]. destruct f; [apply (Hv c1)|apply (Hv c2)]; auto.
      + apply wf_triplesInPair.
    - destruct (useNewton3 cf) eqn:En.
      + rewrite soaPair3_eq in H. destruct (Hgen _ _ _ _ (wf_triplesInPair never _ _) H) as (A & _ & C & D).
        split; [exact A|]. split; [discriminate|tauto].
      + apply in_app_iff in H as [H|H].
        * rewrite soaPair3_eq in H. destruct (Hgen _ _ _ _ (wf_triplesInPair never _ _) H) as (A & B & C & D).
          split; [exact A|]. split; [intros _; now apply B|tauto].
        * destruct (bidirectional cf); [|destruct H].
          rewrite soaPair3_eq in H. destruct (Hgen _ _ _ _ (wf_triplesInPair never _ _) H) as (A & B & C & D).
          split; [unfold callWithin in *; rewrite !in_app_iff in *; tauto|]. split; [discriminate|].
          split; [intros (F & G & I & J); apply D|intros (F & G & I & J); apply C];
            (split; [|split; [|split]]); auto; now apply distinct_app_comm.
  Qed.

  Lemma processCellTriple3_sub cf hasDir c1 c2 c3 call :
    (forall c x, c = c1 \/ c = c2 -> In x (view (parts c)) -> In x (parts c)) ->
    In call (processCellTriple3 view far cf hasDir c1 c2 c3) ->
    exists p q s, In p (parts c1) /\ In q (parts c2) /\ In s (parts c3) /\
      ((p3a call = p /\ p3b call = q /\ p3c call = s) \/
       (bidirectional cf = true /\ useNewton3 cf = false /\ p3n call = false /\
        ((p3a call = q /\ p3b call = p /\ p3c call = s) \/ (p3a call = s /\ p3b call = p /\ p3c call = q)))).
  Proof.
    intros Hv H. unfold processCellTriple3 in H.
    destruct (parts c1) as [|p0 l0] eqn:E1; [destruct H|]. destruct (parts c2) as [|p0' l0'] eqn:E2; [destruct H|].
    destruct (parts c3) as [|p0'' l0''] eqn:E3; [destruct H|].
    rewrite <- E1, <- E2, <- E3 in *. clear E1 E2 E3 p0 l0 p0' l0' p0'' l0''.
    destruct (_ || _) in H; [destruct H|].
    destruct (layout cf).
    - apply in_flat_map in H as ([[p q] s] & Hin & Hc).
      assert (Hi : In p (parts c1) /\ In q (parts c2) /\ In s (parts c3)).
      { destruct (_ && _) in Hin; apply triplesInTriple_sub in Hin as (A & B & C);
          (split; [try (apply (Hv c1); now auto); assumption|]); (split; [try (apply (Hv c2); now auto); assumption|assumption]). }
      exists p, q, s. split; [tauto|]. split; [tauto|]. split; [tauto|].
      unfold interactTriple3 in Hc. destruct (useNewton3 cf), (bidirectional cf); cbn in Hc;
        repeat (destruct Hc as [<-|Hc]); try (now destruct Hc); cbn [p3a p3b p3c p3n]; tauto.
    - destruct (useNewton3 cf).
      + unfold soaTriple3 in H. apply in_map_iff in H as ([[p q] s] & <- & Hin).
        apply triplesInTriple_sub in Hin as (A & B & C). exists p, q, s. cbn. tauto.
      + apply in_app_iff in H as [H|H].
        * unfold soaTriple3 in H. apply in_map_iff in H as ([[p q] s] & <- & Hin).
          apply triplesInTriple_sub in Hin as (A & B & C). exists p, q, s. cbn. tauto.
        * destruct (bidirectional cf); [|destruct H].
          apply in_app_iff in H as [H|H]; unfold soaTriple3 in H; apply in_map_iff in H as ([[p q] s] & <- & Hin);
            apply triplesInTriple_sub in Hin as (A & B & C).
          -- exists q, p, s. cbn. tauto.
          -- exists q, s, p. cbn. tauto.
  Qed.
End Counts.

(** ** Sorting *)
Open Scope R_scope.
Section Sorted3.
  Context {P : Type}.
  Variable pid : P -> Z.
  Variable isHalo : P -> bool.
  Variable pos : P -> R3.
  Notation far := (farAlong pos).

  Definition within (sc : R) (p q : P) : Prop := dist3 (pos p) (pos q) <= sc /\ dist3 (pos q) (pos p) <= sc.

  Lemma near_of sc dir a b d : dot dir dir <= 1 -> within sc a b -> within sc a d -> within sc b d ->
    mutuallyNear (far sc dir) a b d.
  Proof. intros H [H1 H2] [H3 H4] [H5 H6]. unfold mutuallyNear. repeat split; now apply far_false_of_near. Qed.

  Lemma sorted3_cell cf sc dir view c a b d :
    dot dir dir <= 1 -> isSortedView pos dir (parts c) (view (parts c)) ->
    distinctIds pid (parts c) -> mayOwn c = true ->
    In a (parts c) -> In b (parts c) -> In d (parts c) -> a <> b -> a <> d -> b <> d ->
    within sc a b -> within sc a d -> within sc b d ->
    received3 pid (processCell3 isHalo view (far sc dir) cf c) a b d = expectedSame isHalo cf a.
  Proof.
    intros Hdir [Hp Hs] Hid Ho Ha Hb Hd N1 N2 N3 W1 W2 W3.
    apply (processCell3_received pid isHalo view (far sc dir) cf c a b d Hp Hid Ho Ha Hb Hd N1 N2 N3).
    right. right. split; [now apply sorted_suffixesSafe|now apply near_of].
  Qed.

  Section Pair.
    Variables (cf : CFSettings) (sc skin : R) (dir : R3) (view : list P -> list P) (old : P -> R3)
      (lo1 hi1 lo2 hi2 : R3) (c1 c2 : Cell P).
    Hypothesis Hdir : dot dir dir <= 1.
    Hypothesis Hsk : skin <= sc.
    Hypothesis Hv : forall c, c = c1 \/ c = c2 -> isSortedView pos dir (parts c) (view (parts c)).
    Hypothesis Hpt : pointsFromTo lo1 hi1 lo2 hi2 dir.
    Hypothesis Hb1 : Forall (fun p => inClosedBox lo1 hi1 (old p)) (parts c1).
    Hypothesis Hb2 : Forall (fun p => inClosedBox lo2 hi2 (old p)) (parts c2).
    Hypothesis Hdr : Forall (fun p => dist3 (pos p) (old p) <= skin / 2) (parts c1 ++ parts c2).

    Lemma perms : forall c, c = c1 \/ c = c2 -> Permutation (parts c) (view (parts c)).
    Proof. intros c Hc. exact (proj1 (Hv c Hc)). Qed.

    Lemma safe1 p : In p (parts c1) -> breakSafe (far sc dir) p (view (parts c2)).
    Proof.
      intros Hp. rewrite Forall_forall in Hb1, Hb2, Hdr.
      apply sorted_breakSafe; [exact (proj2 (Hv c2 (or_intror eq_refl)))|].
      intros q Hq. apply (Permutation_in q (Permutation_sym (perms c2 (or_intror eq_refl)))) in Hq.
      apply Rle_trans with skin; [|assumption].
      apply (behind_le pos old skin dir lo1 hi1 lo2 hi2); auto.
      - apply Hdr. apply in_or_app. now left.
      - apply Hdr. apply in_or_app. now right.
    Qed.

    Lemma sorted3_pair_AB a b d :
      distinctIds pid (parts c1 ++ parts c2) -> pairRelevant cf c1 c2 ->
      In a (parts c1) -> In b (parts c1) -> a <> b -> In d (parts c2) ->
      within sc a b -> within sc a d -> within sc b d ->
      let calls := processCellPair3 view (far sc dir) cf true c1 c2 in
      received3 pid calls a b d = 1%nat /\ received3 pid calls b a d = 1%nat /\ received3 pid calls d a b = bidir cf 1.
    Proof.
      intros Hid Hr Ha Hb Hne Hd W1 W2 W3.
      apply (processCellPair3_AB pid isHalo view (far sc dir) cf true c1 c2 a b d perms Hid Hr Ha Hb Hne Hd).
      right. right. right. split; [|now apply near_of].
      split; [|split]; [|now apply safe1|now apply safe1].
      apply sorted_suffixesSafe. exact (proj2 (Hv c1 (or_introl eq_refl))).
    Qed.

    Lemma sorted3_pair_BD a b d :
      distinctIds pid (parts c1 ++ parts c2) -> pairRelevant cf c1 c2 ->
      In a (parts c1) -> In b (parts c2) -> b <> d -> In d (parts c2) ->
      within sc a b -> within sc a d -> within sc b d ->
      let calls := processCellPair3 view (far sc dir) cf true c1 c2 in
      received3 pid calls a b d = 1%nat /\ received3 pid calls b a d = bidir cf 1 /\ received3 pid calls d a b = bidir cf 1.
    Proof.
      intros Hid Hr Ha Hb Hne Hd W1 W2 W3.
      apply (processCellPair3_BD pid isHalo view (far sc dir) cf true c1 c2 a b d perms Hid Hr Ha Hb Hne Hd).
      right. right. right. split; [|now apply near_of].
      split; [|now apply safe1].
      apply sorted_suffixesSafe. exact (proj2 (Hv c2 (or_intror eq_refl))).
    Qed.

    Lemma sorted3_triple c3 a b d :
      distinctIds pid (parts c1 ++ parts c2 ++ parts c3) -> tripleRelevant cf c1 c2 c3 ->
      In a (parts c1) -> In b (parts c2) -> In d (parts c3) -> within sc a b ->
      let calls := processCellTriple3 view (far sc dir) cf true c1 c2 c3 in
      received3 pid calls a b d = 1%nat /\ received3 pid calls b a d = bidir cf 1 /\ received3 pid calls d a b = bidir cf 1.
    Proof.
      intros Hid Hr Ha Hb Hd [W1 _].
      apply (processCellTriple3_received pid isHalo view (far sc dir) cf true c1 c2 c3 a b d perms Hid Hr Ha Hb Hd).
      right. right. right. split; [now apply safe1|now apply far_false_of_near].
    Qed.
  End Pair.
End Sorted3.
