From Verif.Base Require Import ZRange Occ.
From Verif.Grid Require Import IndexModel IndexSpec IndexProofs.
From Verif.Traversal Require Import ColorModel ColorProofs CellSpec CellLemmas C01Model C01Spec.

Definition inReachBox (ov o : I3) : Prop :=
  - ix ov <= ix o <= ix ov /\ - iy ov <= iy o <= iy ov /\ - iz ov <= iz o <= iz ov.

Lemma flat_off_inj dims ov o o' : gridFits2x dims ov -> inReachBox ov o -> inReachBox ov o' ->
  threeToOneD o dims = threeToOneD o' dims -> o = o'.
Proof.
  intros (Hp & Hx & Hy & Hz) Ho Ho' E. unfold inReachBox, positive in *.
  assert (i3add o ov = i3add o' ov).
  { apply (threeToOneD_inj dims); [unfold inGrid, i3add; simpl; lia..|].
    rewrite !threeToOneD_add. lia. }
  destruct o, o'; unfold i3add in H; simpl in H. injection H as H1 H2 H3. f_equal; lia.
Qed.

Section Proofs.
  Variable near : Z -> Z -> Z -> bool.
  Variables ov dims : I3.
  Hypothesis Hfit : gridFits2x dims ov.

  Lemma c01AddRow_at x y z s j :
    c01AddRow ov dims x y z s j =
    if (x <=? j - ix ov) && (j - ix ov <=? Z.abs x)
    then if (y =? 0) && (z =? 0) then threeToOneD (mkI3 (j - ix ov) y z) dims :: s j
         else s j ++ [threeToOneD (mkI3 (j - ix ov) y z) dims]
    else s j.
  Proof.
    unfold c01AddRow.
    assert (G : forall l s, NoDup l ->
      fold_left (fun s0 i => let offset := threeToOneD (mkI3 i y z) dims in
        let index := i + ix ov in
        if (y =? 0) && (z =? 0) then updSlice s0 index (offset :: s0 index)
        else updSlice s0 index (s0 index ++ [offset])) l s j =
      if existsb (fun i => i =? j - ix ov) l then
        if (y =? 0) && (z =? 0) then threeToOneD (mkI3 (j - ix ov) y z) dims :: s j
         else s j ++ [threeToOneD (mkI3 (j - ix ov) y z) dims]
      else s j).
    { clear s. induction l as [|i l IH]; intros s Hnd; [reflexivity|].
      inversion Hnd as [|? ? Hni Hnd']; subst. simpl fold_left. rewrite IH by assumption.
      simpl existsb. destruct (Z.eqb_spec i (j - ix ov)) as [->|Hne].
      - replace (existsb (fun i => i =? j - ix ov) l) with false.
        2:{ symmetry. apply not_true_iff_false. rewrite existsb_exists. intros (k & Hk & E).
            apply Z.eqb_eq in E; subst. contradiction. }
        simpl. unfold updSlice. replace (j - ix ov + ix ov) with j by ring.
        destruct ((y =? 0) && (z =? 0)); now rewrite Z.eqb_refl.
      - simpl. unfold updSlice.
        assert (j =? i + ix ov = false) by (apply Z.eqb_neq; lia).
        destruct ((y =? 0) && (z =? 0)); rewrite H; reflexivity. }
    rewrite G by apply NoDup_zrange.
    replace (existsb (fun i => i =? j - ix ov) (zrange x (Z.abs x + 1)))
      with ((x <=? j - ix ov) && (j - ix ov <=? Z.abs x)); [reflexivity|].
    apply bool_iff_eq. rewrite existsb_exists, andb_true_iff, !Z.leb_le. split.
    - intros H. exists (j - ix ov). rewrite in_zrange, Z.eqb_refl. lia.
    - intros (i & Hi & E). rewrite in_zrange in Hi. apply Z.eqb_eq in E. lia.
  Qed.

  Definition inHalfBox (t : Z * Z * Z) : Prop :=
    let '(x, y, z) := t in - ix ov <= x <= 0 /\ - iy ov <= y <= iy ov /\ - iz ov <= z <= iz ov.

  Definition Inv (L : list (Z * Z * Z)) (s : slices) : Prop :=
    forall i, - ix ov <= i <= ix ov ->
      NoDup (s (i + ix ov)) /\
      forall o, In o (s (i + ix ov)) <->
        exists x y z, In (x, y, z) L /\ x <= - Z.abs i /\ near (Z.abs x) (Z.abs y) (Z.abs z) = true /\
                      o = threeToOneD (mkI3 i y z) dims.

  Lemma row_inj i y z y' z' : - ix ov <= i <= ix ov ->
    - iy ov <= y <= iy ov -> - iz ov <= z <= iz ov -> - iy ov <= y' <= iy ov -> - iz ov <= z' <= iz ov ->
    threeToOneD (mkI3 i y z) dims = threeToOneD (mkI3 i y' z') dims -> y = y' /\ z = z'.
  Proof.
    intros Hi Hy Hz Hy' Hz' E. apply (flat_off_inj dims ov) in E; [|assumption|unfold inReachBox; simpl; lia..].
    injection E; auto.
  Qed.

  Lemma c01Step_inv L s t : Forall inHalfBox L -> inHalfBox t ->
    (forall x y z, In (x, y, z) L -> x <= fst (fst t)) ->
    Inv L s -> Inv (L ++ [t]) (c01Step near ov dims s t).
  Proof.
    intros HL Ht Hord HI. destruct t as [[x y] z]. simpl in Hord.
    assert (Hb : forall x' y' z', In (x', y', z') L -> inHalfBox (x', y', z'))
      by (intros; eapply Forall_forall in HL; eauto).
    unfold inHalfBox in Ht. unfold c01Step.
    destruct (near (Z.abs x) (Z.abs y) (Z.abs z)) eqn:Hn.
    2:{ intros i Hi. destruct (HI i Hi) as [Hnd Hin]. split; [assumption|].
        intros o. rewrite Hin. split.
        - intros (x' & y' & z' & H & H'). exists x', y', z'. rewrite in_app_iff. tauto.
        - intros (x' & y' & z' & H & Hx & Hnear & E). apply in_app_or in H as [H|[H|[]]].
          + exists x', y', z'. tauto.
          + injection H as <- <- <-. congruence. }
    destruct (existsb (fun e => e =? threeToOneD (mkI3 x y z) dims) (s (x + ix ov))) eqn:Hex.
    - (* already contained *)
      apply existsb_exists in Hex as (e & He & Ee). apply Z.eqb_eq in Ee; subst e.
      destruct (HI x ltac:(lia)) as [_ Hin]. apply Hin in He as (x' & y' & z' & HinL & Hx' & Hnear & E).
      pose proof (Hb _ _ _ HinL) as B. unfold inHalfBox in B.
      apply row_inj in E as [-> ->]; [|lia..].
      intros i Hi. destruct (HI i Hi) as [Hnd Hin']. split; [assumption|].
      intros o. rewrite Hin'. split.
      + intros (x2 & y2 & z2 & H & H'). exists x2, y2, z2. rewrite in_app_iff. tauto.
      + intros (x2 & y2 & z2 & H & Hx2 & Hn2 & Eo). apply in_app_or in H as [H|[H|[]]].
        * exists x2, y2, z2. tauto.
        * injection H as <- <- <-. exists x', y', z'. repeat split; auto. lia.
    - (* new *)
      assert (Hnew : forall x' , In (x', y, z) L -> near (Z.abs x') (Z.abs y) (Z.abs z) = true -> False).
      { intros x' HinL Hnear. apply not_true_iff_false in Hex. apply Hex. apply existsb_exists.
        exists (threeToOneD (mkI3 x y z) dims). split; [|apply Z.eqb_refl].
        apply (HI x ltac:(lia)). exists x', y, z. repeat split; auto. pose proof (Hord _ _ _ HinL). lia. }
      intros i Hi. destruct (HI i Hi) as [Hnd Hin]. rewrite c01AddRow_at.
      replace (i + ix ov - ix ov) with i by ring.
      destruct (Z.leb_spec x i) as [C1|C1], (Z.leb_spec i (Z.abs x)) as [C2|C2]; cbn [andb].
      2,3,4: (split; [assumption|]; intros o; rewrite Hin; split;
        [ intros (x' & y' & z' & H & H'); exists x', y', z'; rewrite in_app_iff; tauto
        | intros (x' & y' & z' & H & Hx & Hnear & E); apply in_app_or in H as [H|[H|[]]];
          [exists x', y', z'; tauto | exfalso; injection H as <- <- <-; lia] ]).
      set (off := threeToOneD (mkI3 i y z) dims).
      assert (Hni : ~ In off (s (i + ix ov))).
      { intros H. apply Hin in H as (x' & y' & z' & HinL & Hx & Hnear & E).
        pose proof (Hb _ _ _ HinL) as B. unfold inHalfBox in B.
        apply row_inj in E as [<- <-]; [|lia..]. eapply Hnew; eauto. }
      assert (Hgoal : forall o, (o = off \/ In o (s (i + ix ov))) <->
        exists x' y' z', In (x', y', z') (L ++ [(x, y, z)]) /\ x' <= - Z.abs i /\
          near (Z.abs x') (Z.abs y') (Z.abs z') = true /\ o = threeToOneD (mkI3 i y' z') dims).
      { intros o. rewrite Hin. split.
        - intros [->|(x' & y' & z' & H & H')].
          + exists x, y, z. rewrite in_app_iff. simpl. repeat split; auto. lia.
          + exists x', y', z'. rewrite in_app_iff. tauto.
        - intros (x' & y' & z' & H & Hx & Hnear & E). apply in_app_or in H as [H|[H|[]]].
          + right. exists x', y', z'. tauto.
          + left. injection H as <- <- <-. exact E. }
      destruct ((y =? 0) && (z =? 0)).
      + split; [now constructor|]. intros o. rewrite <- Hgoal. simpl. intuition congruence.
      + split.
        * apply (Permutation_NoDup (l := off :: s (i + ix ov))); [|now constructor].
          apply Permutation_cons_append.
        * intros o. rewrite <- Hgoal, in_app_iff. simpl. intuition congruence.
  Qed.

  Lemma c01Loop_in x y z : In (x, y, z) (c01Loop ov) <-> inHalfBox (x, y, z).
  Proof. clear near Hfit dims.
    unfold c01Loop, inHalfBox. rewrite in_flat_map. split.
    - intros (x' & Hx & H). apply in_flat_map in H as (y' & Hy & H). apply in_map_iff in H as (z' & E & Hz).
      injection E as -> -> ->. rewrite in_zrange in *. lia.
    - intros H. exists x. rewrite in_zrange. split; [lia|]. apply in_flat_map. exists y.
      rewrite in_zrange. split; [lia|]. apply in_map_iff. exists z. rewrite in_zrange. split; [reflexivity|lia].
  Qed.

  (** prefixes of the loop are ordered by x *)
  Definition xSorted (L : list (Z * Z * Z)) : Prop :=
    forall L1 t L2, L = L1 ++ t :: L2 -> forall x y z, In (x, y, z) L1 -> x <= fst (fst t).

  Lemma xSorted_spec L : (forall i j t u, (i < j)%nat -> nth_error L i = Some t -> nth_error L j = Some u ->
    fst (fst t) <= fst (fst u)) -> xSorted L.
  Proof.
    intros H L1 t L2 -> x y z Hin. apply In_nth_error in Hin as (i & Hi).
    pose proof (H i (length L1) (x, y, z) t) as G. simpl in G. apply G.
    - apply nth_error_Some. congruence.
    - rewrite nth_error_app1; [assumption|]. apply nth_error_Some. congruence.
    - rewrite nth_error_app2 by lia. now rewrite Nat.sub_diag.
  Qed.

  Lemma fold_inv L : Forall inHalfBox L -> xSorted L ->
    Inv L (fold_left (c01Step near ov dims) L (fun _ => [])).
  Proof.
    induction L as [|t L IH] using rev_ind; intros HF Hs.
    - intros i _. split; [constructor|]. simpl. intros o. split; [intros []|]. intros (? & ? & ? & [] & _).
    - rewrite fold_left_app. simpl. apply Forall_app in HF as [HF Ht]. inversion Ht; subst.
      apply c01Step_inv; auto.
      + apply (Hs L t []). reflexivity.
      + apply IH; [assumption|]. intros L1 u L2 -> . apply (Hs L1 u (L2 ++ [t])).
        now rewrite <- app_assoc.
  Qed.
End Proofs.

Lemma xSorted_flat_map (g : Z -> list (Z * Z * Z)) n lo :
  (forall x t, In t (g x) -> fst (fst t) = x) ->
  xSorted (flat_map g (map (fun k => lo + Z.of_nat k) (seq 0 n))).
Proof.
  intros Hg.
  assert (G : forall n st, xSorted (flat_map g (map (fun k => lo + Z.of_nat k) (seq st n)))).
  { clear n. induction n as [|n IH]; intros st.
    - intros L1 t L2 E. destruct L1; discriminate.
    - simpl seq. cbn [map flat_map].
      intros L1 t L2 E x y z Hin.
      assert (A : forall (A : list (Z*Z*Z)) B L1 L2 t, A ++ B = L1 ++ t :: L2 ->
         (exists A2, A = L1 ++ t :: A2) \/ (exists B1, L1 = A ++ B1 /\ B = B1 ++ t :: L2)).
      { clear. induction A as [|a A IHA]; intros B L1 L2 t E.
        - right. exists L1. auto.
        - destruct L1 as [|b L1]; simpl in E.
          + injection E as <- E. left. now exists A.
          + injection E as <- E. destruct (IHA _ _ _ _ E) as [[A2 ->]|(B1 & -> & ->)].
            * left. now exists A2.
            * right. now exists B1. }
      apply A in E as [[A2 E]|(B1 & -> & E)].
      + assert (Hx : fst (fst (x, y, z)) = lo + Z.of_nat st) by (apply Hg; rewrite E; auto with datatypes).
        assert (Ht : fst (fst t) = lo + Z.of_nat st) by (apply Hg; rewrite E; auto with datatypes).
        simpl in Hx. lia.
      + apply in_app_or in Hin as [Hin|Hin].
        * apply Hg in Hin. simpl in Hin.
          assert (Ht : In t (flat_map g (map (fun k => lo + Z.of_nat k) (seq (S st) n)))) by (rewrite E; auto with datatypes).
          apply in_flat_map in Ht as (x' & Hx' & Ht). apply Hg in Ht.
          apply in_map_iff in Hx' as (k & <- & Hk). apply in_seq in Hk. lia.
        * apply (IH (S st) B1 t L2 E x y z Hin). }
  apply G.
Qed.

Lemma c01Loop_xSorted ov : xSorted (c01Loop ov).
Proof.
  unfold c01Loop, zrange at 3. apply xSorted_flat_map.
  intros x t Ht. apply in_flat_map in Ht as (y & _ & Ht). apply in_map_iff in Ht as (z & <- & _). reflexivity.
Qed.

Section Results.
  Variable near : Z -> Z -> Z -> bool.
  Variables ov dims : I3.
  Hypothesis Hfit : gridFits2x dims ov.
  Hypothesis Hmono : monotoneX near.

  Lemma c01_slice i : - ix ov <= i <= ix ov ->
    NoDup (c01PairwiseOffsets near ov dims (i + ix ov)) /\
    forall o, In o (c01PairwiseOffsets near ov dims (i + ix ov)) <->
      exists y z, inReachBox ov (mkI3 i y z) /\ near (Z.abs i) (Z.abs y) (Z.abs z) = true /\
                  o = threeToOneD (mkI3 i y z) dims.
  Proof.
    intros Hi. pose proof (fold_inv near ov dims Hfit (c01Loop ov)) as F.
    destruct (F ltac:(apply Forall_forall; intros [[? ?] ?]; apply c01Loop_in) (c01Loop_xSorted ov) i Hi) as [Hnd Hin].
    unfold c01PairwiseOffsets. split; [assumption|]. intros o. rewrite Hin. unfold inReachBox; simpl. split.
    - intros (x & y & z & HL & Hx & Hn & E). apply c01Loop_in in HL. unfold inHalfBox in HL.
      exists y, z. repeat split; try lia. apply (Hmono _ (Z.abs x)); [lia|assumption].
    - intros (y & z & B & Hn & E). exists (- Z.abs i), y, z. repeat split; auto.
      + apply c01Loop_in. unfold inHalfBox. lia.
      + lia.
      + now replace (Z.abs (- Z.abs i)) with (Z.abs i) by lia.
  Qed.

  Lemma in_c01AllOffsets o : In o (c01AllOffsets near ov dims) <->
    exists o3, inReachBox ov o3 /\ near (Z.abs (ix o3)) (Z.abs (iy o3)) (Z.abs (iz o3)) = true /\
               o = threeToOneD o3 dims.
  Proof.
    unfold c01AllOffsets. rewrite in_flat_map. split.
    - intros (j & Hj & H). rewrite in_zrange in Hj.
      replace j with ((j - ix ov) + ix ov) in H by ring.
      apply c01_slice in H as (y & z & B & Hn & E); [|lia].
      exists (mkI3 (j - ix ov) y z). auto.
    - intros ([x y z] & B & Hn & E). pose proof B as B'. unfold inReachBox in B'; simpl in B'.
      exists (x + ix ov). rewrite in_zrange. split; [lia|].
      apply c01_slice; [lia|]. exists y, z. auto.
  Qed.

  Lemma NoDup_c01AllOffsets : NoDup (c01AllOffsets near ov dims).
  Proof.
    unfold c01AllOffsets. apply NoDup_flat_map; [apply NoDup_zrange| |].
    - intros j Hj. rewrite in_zrange in Hj. replace j with ((j - ix ov) + ix ov) by ring.
      apply c01_slice. lia.
    - intros j k o Hj Hk H1 H2. rewrite in_zrange in Hj, Hk.
      replace j with ((j - ix ov) + ix ov) in H1 by ring.
      replace k with ((k - ix ov) + ix ov) in H2 by ring.
      apply c01_slice in H1 as (y1 & z1 & B1 & _ & E1); [|lia].
      apply c01_slice in H2 as (y2 & z2 & B2 & _ & E2); [|lia].
      assert (mkI3 (j - ix ov) y1 z1 = mkI3 (k - ix ov) y2 z2).
      { apply (flat_off_inj dims ov); auto. congruence. }
      injection H; lia.
  Qed.

  Lemma c01_bases b : In b (concat (c01Colors ov dims)) <-> ownedCell dims ov b.
  Proof.
    unfold c01Colors. rewrite colorTraversal_in by (unfold positive; simpl; lia). simpl. reflexivity.
  Qed.

  Lemma c01_bases_NoDup : NoDup (concat (c01Colors ov dims)).
  Proof. unfold c01Colors. apply colorTraversal_NoDup. unfold positive; simpl; lia. Qed.

  Lemma c01Calls_eq : concat (concat (c01Tasks near ov dims)) =
    flat_map (c01ProcessBaseCell near ov dims) (concat (c01Colors ov dims)).
  Proof. unfold c01Tasks. apply concat_tasks. Qed.

  Lemma c01_base_occ b a c : inGrid dims b -> inGrid dims a ->
    occ (orderedPair (threeToOneD a dims) c) (c01ProcessBaseCell near ov dims b) =
    if i3eqb a b then occ (fun o => threeToOneD b dims + o =? c) (c01AllOffsets near ov dims) else 0%nat.
  Proof.
    intros Hb Ha. unfold c01ProcessBaseCell. rewrite occ_map. unfold orderedPair; simpl.
    destruct (i3eqb a b) eqn:E.
    - apply i3eqb_eq in E; subst. apply occ_ext. intros o _. now rewrite Z.eqb_refl.
    - apply occ_zero. intros o _. apply andb_false_intro1. apply Z.eqb_neq. intros F.
      apply threeToOneD_inj in F; auto. subst. rewrite (proj2 (i3eqb_eq a a) eq_refl) in E. discriminate.
  Qed.

  Lemma owned_inGrid b : ownedCell dims ov b -> inGrid dims b.
  Proof.
    unfold ownedCell, inGrid. destruct Hfit as (Hp & _). unfold positive in Hp. lia.
  Qed.

  Lemma c01_exactly_once a b : ownedCell dims ov a -> inGrid dims b -> withinReach near ov a b ->
    occ (orderedPair (threeToOneD a dims) (threeToOneD b dims)) (concat (concat (c01Tasks near ov dims))) = 1%nat.
  Proof.
    intros Ha Hb (Rx & Ry & Rz & Hn). rewrite c01Calls_eq.
    pose proof (owned_inGrid a Ha) as Hga.
    rewrite (occ_flat_map_unique _ _ _ a).
    - rewrite c01_base_occ by assumption. rewrite (proj2 (i3eqb_eq a a) eq_refl).
      set (o3 := mkI3 (ix b - ix a) (iy b - iy a) (iz b - iz a)).
      assert (Eo : threeToOneD a dims + threeToOneD o3 dims = threeToOneD b dims).
      { rewrite <- threeToOneD_add. f_equal. unfold o3. apply i3_ext; simpl; ring. }
      apply occ_one_of_unique with (x := threeToOneD o3 dims).
      + apply NoDup_c01AllOffsets.
      + apply in_c01AllOffsets. exists o3. unfold inReachBox, o3; simpl. repeat split; try lia.
        replace (Z.abs (ix b - ix a)) with (Z.abs (ix a - ix b)) by lia.
        replace (Z.abs (iy b - iy a)) with (Z.abs (iy a - iy b)) by lia.
        replace (Z.abs (iz b - iz a)) with (Z.abs (iz a - iz b)) by lia. exact Hn.
      + apply Z.eqb_eq. exact Eo.
      + intros o _ E. apply Z.eqb_eq in E. lia.
    - apply c01_bases_NoDup.
    - now apply c01_bases.
    - intros x Hx Hne. apply c01_bases in Hx. rewrite c01_base_occ by auto using owned_inGrid.
      destruct (i3eqb a x) eqn:E; [|reflexivity]. apply i3eqb_eq in E. congruence.
  Qed.

  Lemma c01_at_most_once a b : inGrid dims a -> inGrid dims b ->
    (occ (orderedPair (threeToOneD a dims) (threeToOneD b dims)) (concat (concat (c01Tasks near ov dims))) <= 1)%nat /\
    ((1 <= occ (orderedPair (threeToOneD a dims) (threeToOneD b dims)) (concat (concat (c01Tasks near ov dims))))%nat ->
     ownedCell dims ov a /\ withinReach near ov a b).
  Proof.
    intros Ha Hb. rewrite c01Calls_eq.
    destruct (in_dec i3_eq_dec a (concat (c01Colors ov dims))) as [Hin|Hin].
    - rewrite (occ_flat_map_unique _ _ _ a).
      + rewrite c01_base_occ by assumption. rewrite (proj2 (i3eqb_eq a a) eq_refl). split.
        * apply occ_le_one_of_unique; [apply NoDup_c01AllOffsets|].
          intros x y _ _ E1 E2. apply Z.eqb_eq in E1, E2. lia.
        * intros H. split; [now apply c01_bases|].
          apply occ_pos_in in H as (o & Ho & E). apply Z.eqb_eq in E.
          apply in_c01AllOffsets in Ho as (o3 & B & Hn & ->).
          rewrite <- threeToOneD_add in E.
          apply c01_bases in Hin. destruct Hfit as (Hp & Hx & Hy & Hz). unfold positive in Hp.
          assert (Eb : i3add a o3 = b).
          { apply (threeToOneD_inj dims); auto. unfold inGrid, i3add, ownedCell, inReachBox in *; simpl; lia. }
          subst b. unfold withinReach, inReachBox, i3add in *; simpl.
          replace (Z.abs (ix a - (ix a + ix o3))) with (Z.abs (ix o3)) by lia.
          replace (Z.abs (iy a - (iy a + iy o3))) with (Z.abs (iy o3)) by lia.
          replace (Z.abs (iz a - (iz a + iz o3))) with (Z.abs (iz o3)) by lia.
          repeat split; try lia. exact Hn.
      + apply c01_bases_NoDup.
      + assumption.
      + intros x Hx Hne. apply c01_bases in Hx. rewrite c01_base_occ by auto using owned_inGrid.
        destruct (i3eqb a x) eqn:E; [|reflexivity]. apply i3eqb_eq in E. congruence.
    - rewrite occ_flat_map_zero; [split; lia|].
      intros x Hx. pose proof (proj1 (c01_bases x) Hx). rewrite c01_base_occ by auto using owned_inGrid.
      destruct (i3eqb a x) eqn:E; [|reflexivity]. apply i3eqb_eq in E. subst. contradiction.
  Qed.

  Lemma c01_inBounds : inBounds dims (concat (concat (c01Tasks near ov dims))).
  Proof.
    rewrite c01Calls_eq. intros c1 c2 H. apply in_flat_map in H as (b & Hb & H).
    apply c01_bases in Hb. apply in_map_iff in H as (o & E & Ho). injection E as <- <-.
    apply in_c01AllOffsets in Ho as (o3 & B & _ & ->). rewrite <- threeToOneD_add.
    split; apply threeToOneD_range; [now apply owned_inGrid|].
    destruct Hfit as (Hp & Hx & Hy & Hz). unfold positive, inGrid, i3add, ownedCell, inReachBox in *; simpl. lia.
  Qed.

  (** A task writes only its base cell, and different tasks have different base cells. *)
  Lemma c01_write_own col i j t1 t2 c1 c2 : In col (c01Tasks near ov dims) -> i <> j ->
    nth_error col i = Some t1 -> nth_error col j = Some t2 -> In c1 t1 -> In c2 t2 -> fst c1 <> fst c2.
  Proof.
    intros Hcol Hij H1 H2 I1 I2. unfold c01Tasks in Hcol. apply in_map_iff in Hcol as (bases & <- & Hb).
    rewrite nth_error_map in H1, H2.
    destruct (nth_error bases i) as [b1|] eqn:E1; [|discriminate].
    destruct (nth_error bases j) as [b2|] eqn:E2; [|discriminate].
    simpl in H1, H2. injection H1 as <-. injection H2 as <-.
    unfold c01ProcessBaseCell in I1, I2. apply in_map_iff in I1 as (? & <- & _), I2 as (? & <- & _). simpl.
    intros E. 
    assert (G : forall b k, nth_error bases k = Some b -> inGrid dims b).
    { intros b k Hk. apply owned_inGrid, c01_bases, in_concat. exists bases. split; [assumption|]. eapply nth_error_In; eauto. }
    apply threeToOneD_inj in E; eauto. subst b2. apply Hij.
    assert (Hnd : NoDup bases) by (eapply colorTraversal_color_NoDup; [|exact Hb]; unfold positive; simpl; lia).
    apply (proj1 (NoDup_nth_error bases) Hnd); [|congruence].
    apply nth_error_Some. congruence.
  Qed.

  (** * triplets *)
  Lemma in_cube o : In o (cube ov) <-> inReachBox ov o.
  Proof.
    unfold cube, inReachBox. rewrite in_flat_map. split.
    - intros (x & Hx & H). apply in_flat_map in H as (y & Hy & H). apply in_map_iff in H as (z & <- & Hz).
      rewrite in_zrange in *. simpl. lia.
    - intros H. exists (ix o). rewrite in_zrange. split; [lia|]. apply in_flat_map.
      exists (iy o). rewrite in_zrange. split; [lia|]. apply in_map_iff. exists (iz o).
      rewrite in_zrange. split; [now destruct o|lia].
  Qed.

  Lemma NoDup_cube : NoDup (cube ov).
  Proof.
    unfold cube. apply NoDup_flat_map; [apply NoDup_zrange| |].
    - intros z _. apply NoDup_flat_map; [apply NoDup_zrange| |].
      + intros y _. apply NoDup_map_inj; [intros; congruence|apply NoDup_zrange].
      + intros y1 y2 t _ _ H1 H2. apply in_map_iff in H1 as (? & <- & _), H2 as (? & E & _). congruence.
    - intros z1 z2 t _ _ H1 H2. rewrite in_flat_map in H1, H2.
      destruct H1 as (? & _ & H1), H2 as (? & _ & H2).
      apply in_map_iff in H1 as (? & <- & _), H2 as (? & E & _). congruence.
  Qed.

  Definition o0 := mkI3 0 0 0.
  Definition tri3 : list (I3 * I3) :=
    filter (fun '(o1, o2) => near3 near o0 o1 && near3 near o1 o2 && near3 near o0 o2 &&
                             (threeToOneD o1 dims <? threeToOneD o2 dims))
           (list_prod (cube ov) (cube ov)).

  Lemma c01Triwise_eq : c01TriwiseOffsets near ov dims = (0, 0) :: map (flat2 dims) tri3.
  Proof.
    unfold c01TriwiseOffsets, tri3. f_equal. fold o0.
    generalize (cube ov) at 1 4 as L2. induction (cube ov) as [|o1 L IH]; intros L2; [reflexivity|].
    cbn [flat_map list_prod]. rewrite filter_app, map_app, <- IH. f_equal.
    destruct (near3 near o0 o1) eqn:E01; cbn [negb].
    - clear IH. induction L2 as [|o2 L2 IH2]; [reflexivity|].
      cbn [flat_map map filter]. rewrite IH2, E01. simpl.
      destruct (near3 near o1 o2); cbn [negb andb]; [|reflexivity].
      destruct (near3 near o0 o2); cbn [negb andb]; [|reflexivity].
      destruct (Z.leb_spec (threeToOneD o2 dims) (threeToOneD o1 dims)),
               (Z.ltb_spec (threeToOneD o1 dims) (threeToOneD o2 dims)); try lia; reflexivity.
    - clear IH. induction L2 as [|o2 L2 IH2]; [reflexivity|].
      cbn [map filter]. now rewrite E01.
  Qed.

  Lemma in_tri3 o1 o2 : In (o1, o2) tri3 <->
    inReachBox ov o1 /\ inReachBox ov o2 /\ near3 near o0 o1 = true /\ near3 near o1 o2 = true /\
    near3 near o0 o2 = true /\ threeToOneD o1 dims < threeToOneD o2 dims.
  Proof.
    unfold tri3. rewrite filter_In, in_prod_iff, !in_cube, !andb_true_iff, Z.ltb_lt. tauto.
  Qed.

  Lemma NoDup_list_prod {A B} (l1 : list A) (l2 : list B) : NoDup l1 -> NoDup l2 -> NoDup (list_prod l1 l2).
  Proof.
    intros H1 H2.
    assert (E : list_prod l1 l2 = flat_map (fun a => map (pair a) l2) l1).
    { clear. induction l1 as [|a l1 IH]; [reflexivity|]. simpl. now rewrite IH. }
    rewrite E. apply NoDup_flat_map; [assumption| |].
    - intros a _. apply NoDup_map_inj; [intros; congruence|assumption].
    - intros a a' p _ _ Ha Ha'. apply in_map_iff in Ha as (? & <- & _), Ha' as (? & E' & _). congruence.
  Qed.

  Lemma NoDup_tri3 : NoDup tri3.
  Proof. apply NoDup_filter, NoDup_list_prod; apply NoDup_cube. Qed.

  Definition call3 (b : I3) (f : Z * Z) : Call3B :=
    let baseIndex := threeToOneD b dims in
    let '(offset1, offset2) := f in
      let o1 := baseIndex + offset1 in
      let o2 := baseIndex + offset2 in
      if (baseIndex =? o1) && (baseIndex =? o2) then CCell baseIndex
      else if (baseIndex =? o1) && negb (baseIndex =? o2) then CPair baseIndex o2
      else if negb (baseIndex =? o1) && (baseIndex =? o2) then CPair baseIndex o1
      else if negb (baseIndex =? o1) && (o1 =? o2) then CPair baseIndex o1
      else CTriple baseIndex o1 o2.

  Definition baseOf (c : Call3B) : Z :=
    match c with CCell b => b | CPair b _ => b | CTriple b _ _ => b end.

  Lemma baseOf_call3 b f : baseOf (call3 b f) = threeToOneD b dims.
  Proof.
    destruct f as [o1 o2]. unfold call3.
    repeat match goal with |- context [if ?c then _ else _] => destruct c end; reflexivity.
  Qed.

  (** Counting calls that can only stem from base cell [a]. *)
  Lemma occ_base (P : Call3B -> bool) a :
    ownedCell dims ov a -> (forall c, P c = true -> baseOf c = threeToOneD a dims) ->
    occ P (c01Calls3B near ov dims) =
    occ (fun f => P (call3 a f)) (c01TriwiseOffsets near ov dims).
  Proof.
    intros Ha HP. unfold c01Calls3B.
    assert (E : forall b, c01ProcessBaseCell3B near ov dims b = map (call3 b) (c01TriwiseOffsets near ov dims)) by reflexivity.
    rewrite (occ_flat_map_unique _ _ _ a).
    - now rewrite E, occ_map.
    - apply c01_bases_NoDup.
    - now apply c01_bases.
    - intros b Hb Hne. rewrite E, occ_map. apply occ_zero. intros f _.
      destruct (P (call3 b f)) eqn:EP; [|reflexivity]. apply HP in EP. rewrite baseOf_call3 in EP.
      exfalso. apply Hne. apply (threeToOneD_inj dims); auto; apply owned_inGrid; auto. now apply c01_bases.
  Qed.

  Lemma occ_tri (Q : Z * Z -> bool) :
    occ Q (c01TriwiseOffsets near ov dims) =
    ((if Q (0%Z, 0%Z) then 1 else 0) + occ (fun c => Q (flat2 dims c)) tri3)%nat.
  Proof. rewrite c01Triwise_eq, occ_cons, occ_map. reflexivity. Qed.

  Ltac eqbs := repeat match goal with
    | H : context [?x =? ?y] |- _ => destruct (Z.eqb_spec x y); cbn [andb negb orb] in *
    | |- context [?x =? ?y] => destruct (Z.eqb_spec x y); cbn [andb negb orb] in *
    end.

  Lemma c01_cell_once a : ownedCell dims ov a ->
    occ (isCell (threeToOneD a dims)) (c01Calls3B near ov dims) = 1%nat.
  Proof.
    intros Ha. rewrite (occ_base _ a Ha).
    2:{ intros [c|? ?|? ? ?]; simpl; try discriminate. intros E. now apply Z.eqb_eq. }
    rewrite occ_tri.
    assert (E0 : isCell (threeToOneD a dims) (call3 a (0, 0)) = true).
    { unfold call3. rewrite Z.add_0_r, Z.eqb_refl. simpl. apply Z.eqb_refl. }
    rewrite E0, occ_zero; [reflexivity|].
    intros [o1 o2] Hin. apply in_tri3 in Hin as (_ & _ & _ & _ & _ & L).
    unfold call3, flat2; simpl. eqbs; try reflexivity; exfalso; lia.
  Qed.

  Hypothesis Hnear0 : near 0 0 0 = true.

  Lemma flat_o0 : threeToOneD o0 dims = 0.
  Proof. reflexivity. Qed.

  Lemma c01_pair_once a b : ownedCell dims ov a -> inGrid dims b -> a <> b -> withinReach near ov a b ->
    occ (isPair (threeToOneD a dims) (threeToOneD b dims)) (c01Calls3B near ov dims) = 1%nat.
  Proof.
    intros Ha Hb Hne (Rx & Ry & Rz & Hn). rewrite (occ_base _ a Ha).
    2:{ intros [c|? ?|? ? ?]; simpl; try discriminate. intros E. apply andb_true_iff in E as [E _]. now apply Z.eqb_eq. }
    set (o := mkI3 (ix b - ix a) (iy b - iy a) (iz b - iz a)).
    assert (Eo : threeToOneD a dims + threeToOneD o dims = threeToOneD b dims).
    { rewrite <- threeToOneD_add. f_equal. unfold o. apply i3_ext; simpl; ring. }
    assert (Bo : inReachBox ov o) by (unfold inReachBox, o; simpl; lia).
    assert (B0 : inReachBox ov o0).
    { destruct Hfit as (Hp & _). unfold positive in Hp. unfold inReachBox, o0; simpl; lia. }
    assert (No : near3 near o0 o = true).
    { unfold near3, o0, o; simpl.
      replace (Z.abs (0 - (ix b - ix a))) with (Z.abs (ix a - ix b)) by lia.
      replace (Z.abs (0 - (iy b - iy a))) with (Z.abs (iy a - iy b)) by lia.
      replace (Z.abs (0 - (iz b - iz a))) with (Z.abs (iz a - iz b)) by lia. exact Hn. }
    assert (N0 : near3 near o0 o0 = true) by (unfold near3, o0; simpl; exact Hnear0).
    assert (No' : near3 near o o0 = true).
    { unfold near3, o0, o; simpl.
      replace (Z.abs (ix b - ix a - 0)) with (Z.abs (ix a - ix b)) by lia.
      replace (Z.abs (iy b - iy a - 0)) with (Z.abs (iy a - iy b)) by lia.
      replace (Z.abs (iz b - iz a - 0)) with (Z.abs (iz a - iz b)) by lia. exact Hn. }
    assert (Ho : threeToOneD o dims <> 0).
    { intros E. rewrite <- flat_o0 in E. apply (flat_off_inj dims ov) in E; auto.
      unfold o, o0 in E. injection E as E1 E2 E3. apply Hne. apply i3_ext; lia. }
    rewrite occ_tri.
    assert (E0 : isPair (threeToOneD a dims) (threeToOneD b dims) (call3 a (0, 0)) = false).
    { unfold call3. rewrite Z.add_0_r, Z.eqb_refl. reflexivity. }
    rewrite E0. cbn [Nat.add].
    assert (U : forall c, In c tri3 -> isPair (threeToOneD a dims) (threeToOneD b dims) (call3 a (flat2 dims c)) = true ->
               (fst c = o0 /\ snd c = o) \/ (fst c = o /\ snd c = o0)).
    { intros [o1 o2] Hin E. apply in_tri3 in Hin as (B1 & B2 & _ & _ & _ & L).
      unfold call3, flat2 in E. cbn [fst snd] in E |- *. unfold isPair in E.
      destruct (Z.eqb_spec (threeToOneD a dims) (threeToOneD a dims + threeToOneD o1 dims)),
               (Z.eqb_spec (threeToOneD a dims) (threeToOneD a dims + threeToOneD o2 dims)); cbn [andb negb] in E.
      - discriminate.
      - left. apply andb_true_iff in E as [_ E]. apply Z.eqb_eq in E.
        split; apply (flat_off_inj dims ov); auto; rewrite ?flat_o0; lia.
      - right. apply andb_true_iff in E as [_ E]. apply Z.eqb_eq in E.
        split; apply (flat_off_inj dims ov); auto; rewrite ?flat_o0; lia.
      - eqbs; try discriminate; exfalso; lia. }
    assert (V : forall p q, In (p, q) tri3 -> (p = o0 /\ q = o) \/ (p = o /\ q = o0) ->
               isPair (threeToOneD a dims) (threeToOneD b dims) (call3 a (flat2 dims (p, q))) = true).
    { intros p q Hin [[-> ->]|[-> ->]]; unfold call3, flat2, isPair; cbn [fst snd]; rewrite flat_o0; eqbs; auto; lia. }
    destruct (Z_lt_le_dec 0 (threeToOneD o dims)) as [C|C].
    - assert (Hin : In (o0, o) tri3) by (apply in_tri3; rewrite flat_o0; tauto).
      apply occ_one_of_unique with (x := (o0, o)); auto using NoDup_tri3.
      intros [p q] Hc E. destruct (U _ Hc E) as [[E1 E2]|[E1 E2]]; simpl in *; subst; [reflexivity|].
      apply in_tri3 in Hc. rewrite flat_o0 in Hc. lia.
    - assert (Hin : In (o, o0) tri3) by (apply in_tri3; rewrite flat_o0; assert (threeToOneD o dims < 0) by lia; tauto).
      apply occ_one_of_unique with (x := (o, o0)); auto using NoDup_tri3.
      intros [p q] Hc E. destruct (U _ Hc E) as [[E1 E2]|[E1 E2]]; simpl in *; subst; [|reflexivity].
      apply in_tri3 in Hc. rewrite flat_o0 in Hc. lia.
  Qed.

  Lemma c01_triple_once a b d : ownedCell dims ov a -> inGrid dims b -> inGrid dims d ->
    a <> b -> a <> d -> b <> d -> reach3 near ov a b d ->
    occ (isTriple (threeToOneD a dims) (threeToOneD b dims) (threeToOneD d dims)) (c01Calls3B near ov dims) = 1%nat.
  Proof.
    intros Ha Hb Hd Nab Nad Nbd ((Rx & Ry & Rz & Hn) & (Rx' & Ry' & Rz' & Hn') & Hbd). rewrite (occ_base _ a Ha).
    2:{ intros [c|? ?|? ? ?]; simpl; try discriminate. intros E. apply andb_true_iff in E as [E _]. now apply Z.eqb_eq. }
    set (o := mkI3 (ix b - ix a) (iy b - iy a) (iz b - iz a)).
    set (u := mkI3 (ix d - ix a) (iy d - iy a) (iz d - iz a)).
    assert (Eo : threeToOneD a dims + threeToOneD o dims = threeToOneD b dims).
    { rewrite <- threeToOneD_add. f_equal. unfold o. apply i3_ext; simpl; ring. }
    assert (Eu : threeToOneD a dims + threeToOneD u dims = threeToOneD d dims).
    { rewrite <- threeToOneD_add. f_equal. unfold u. apply i3_ext; simpl; ring. }
    assert (Bo : inReachBox ov o) by (unfold inReachBox, o; simpl; lia).
    assert (Bu : inReachBox ov u) by (unfold inReachBox, u; simpl; lia).
    assert (B0 : inReachBox ov o0).
    { destruct Hfit as (Hp & _). unfold positive in Hp. unfold inReachBox, o0; simpl; lia. }
    assert (No : near3 near o0 o = true).
    { unfold near3, o0, o; simpl.
      replace (Z.abs (0 - (ix b - ix a))) with (Z.abs (ix a - ix b)) by lia.
      replace (Z.abs (0 - (iy b - iy a))) with (Z.abs (iy a - iy b)) by lia.
      replace (Z.abs (0 - (iz b - iz a))) with (Z.abs (iz a - iz b)) by lia. exact Hn. }
    assert (Nu : near3 near o0 u = true).
    { unfold near3, o0, u; simpl.
      replace (Z.abs (0 - (ix d - ix a))) with (Z.abs (ix a - ix d)) by lia.
      replace (Z.abs (0 - (iy d - iy a))) with (Z.abs (iy a - iy d)) by lia.
      replace (Z.abs (0 - (iz d - iz a))) with (Z.abs (iz a - iz d)) by lia. exact Hn'. }
    assert (Nou : near3 near o u = true).
    { unfold near3, o, u; simpl.
      replace (ix b - ix a - (ix d - ix a)) with (ix b - ix d) by lia.
      replace (iy b - iy a - (iy d - iy a)) with (iy b - iy d) by lia.
      replace (iz b - iz a - (iz d - iz a)) with (iz b - iz d) by lia. exact Hbd. }
    assert (Nuo : near3 near u o = true).
    { unfold near3, o, u; simpl.
      replace (Z.abs (ix d - ix a - (ix b - ix a))) with (Z.abs (ix b - ix d)) by lia.
      replace (Z.abs (iy d - iy a - (iy b - iy a))) with (Z.abs (iy b - iy d)) by lia.
      replace (Z.abs (iz d - iz a - (iz b - iz a))) with (Z.abs (iz b - iz d)) by lia. exact Hbd. }
    assert (Ho : threeToOneD o dims <> 0).
    { intros E. rewrite <- flat_o0 in E. apply (flat_off_inj dims ov) in E; auto.
      unfold o, o0 in E. injection E as E1 E2 E3. apply Nab. apply i3_ext; lia. }
    assert (Hu : threeToOneD u dims <> 0).
    { intros E. rewrite <- flat_o0 in E. apply (flat_off_inj dims ov) in E; auto.
      unfold u, o0 in E. injection E as E1 E2 E3. apply Nad. apply i3_ext; lia. }
    assert (Hou : threeToOneD o dims <> threeToOneD u dims).
    { intros E. apply Nbd. apply (threeToOneD_inj dims); auto. lia. }
    rewrite occ_tri.
    assert (E0 : isTriple (threeToOneD a dims) (threeToOneD b dims) (threeToOneD d dims) (call3 a (0, 0)) = false).
    { unfold call3. rewrite Z.add_0_r, Z.eqb_refl. reflexivity. }
    rewrite E0. cbn [Nat.add].
    assert (U : forall c, In c tri3 -> isTriple (threeToOneD a dims) (threeToOneD b dims) (threeToOneD d dims) (call3 a (flat2 dims c)) = true ->
               (fst c = o /\ snd c = u) \/ (fst c = u /\ snd c = o)).
    { intros [o1 o2] Hin E. apply in_tri3 in Hin as (B1 & B2 & _ & _ & _ & L).
      unfold call3, flat2 in E. cbn [fst snd] in E |- *. unfold isTriple in E.
      destruct (Z.eqb_spec (threeToOneD a dims) (threeToOneD a dims + threeToOneD o1 dims)); cbn [andb negb] in E;
      destruct (Z.eqb_spec (threeToOneD a dims) (threeToOneD a dims + threeToOneD o2 dims)); cbn [andb negb] in E;
        try discriminate.
      destruct (Z.eqb_spec (threeToOneD a dims + threeToOneD o1 dims) (threeToOneD a dims + threeToOneD o2 dims)); cbn [andb negb] in E;
        try discriminate.
      apply andb_true_iff in E as [_ E]. apply orb_true_iff in E as [E|E];
      apply andb_true_iff in E as [E1 E2]; apply Z.eqb_eq in E1, E2.
      - left. split; apply (flat_off_inj dims ov); auto; lia.
      - right. split; apply (flat_off_inj dims ov); auto; lia. }
    assert (V : forall p q, (p = o /\ q = u) \/ (p = u /\ q = o) ->
               isTriple (threeToOneD a dims) (threeToOneD b dims) (threeToOneD d dims) (call3 a (flat2 dims (p, q))) = true).
    { intros p q [[-> ->]|[-> ->]]; unfold call3, flat2; cbn [fst snd]; rewrite Eo, Eu.
      - destruct (Z.eqb_spec (threeToOneD a dims) (threeToOneD b dims)); [lia|].
        destruct (Z.eqb_spec (threeToOneD a dims) (threeToOneD d dims)); [lia|].
        destruct (Z.eqb_spec (threeToOneD b dims) (threeToOneD d dims)); [lia|].
        simpl. now rewrite !Z.eqb_refl.
      - destruct (Z.eqb_spec (threeToOneD a dims) (threeToOneD d dims)); [lia|].
        destruct (Z.eqb_spec (threeToOneD a dims) (threeToOneD b dims)); [lia|].
        destruct (Z.eqb_spec (threeToOneD d dims) (threeToOneD b dims)); [lia|].
        simpl. rewrite !Z.eqb_refl. simpl. now rewrite orb_true_r. }
    destruct (Z_lt_le_dec (threeToOneD o dims) (threeToOneD u dims)) as [C|C].
    - assert (Hin : In (o, u) tri3) by (apply in_tri3; tauto).
      apply occ_one_of_unique with (x := (o, u)); auto using NoDup_tri3.
      intros [p q] Hc E. destruct (U _ Hc E) as [[E1 E2]|[E1 E2]]; simpl in *; subst; [reflexivity|].
      apply in_tri3 in Hc. lia.
    - assert (Hin : In (u, o) tri3) by (apply in_tri3; assert (threeToOneD u dims < threeToOneD o dims) by lia; tauto).
      apply occ_one_of_unique with (x := (u, o)); auto using NoDup_tri3.
      intros [p q] Hc E. destruct (U _ Hc E) as [[E1 E2]|[E1 E2]]; simpl in *; subst; [|reflexivity].
      apply in_tri3 in Hc. lia.
  Qed.

  Lemma near3_o0 o : near3 near o0 o = near (Z.abs (ix o)) (Z.abs (iy o)) (Z.abs (iz o)).
  Proof.
    unfold near3, o0; simpl.
    replace (Z.abs (0 - ix o)) with (Z.abs (ix o)) by lia.
    replace (Z.abs (0 - iy o)) with (Z.abs (iy o)) by lia.
    replace (Z.abs (0 - iz o)) with (Z.abs (iz o)) by lia. reflexivity.
  Qed.

  Lemma reach_of_off a o : ownedCell dims ov a -> inReachBox ov o -> near3 near o0 o = true ->
    inGrid dims (i3add a o) /\ withinReach near ov a (i3add a o).
  Proof.
    intros Ha Bo Hn. rewrite near3_o0 in Hn.
    destruct Hfit as (Hp & Hx & Hy & Hz). unfold positive in Hp.
    unfold inGrid, withinReach, i3add, ownedCell, inReachBox in *; simpl.
    replace (Z.abs (ix a - (ix a + ix o))) with (Z.abs (ix o)) by lia.
    replace (Z.abs (iy a - (iy a + iy o))) with (Z.abs (iy o)) by lia.
    replace (Z.abs (iz a - (iz a + iz o))) with (Z.abs (iz o)) by lia.
    repeat split; try lia; assumption.
  Qed.

  Lemma c01_3b_sound c : In c (c01Calls3B near ov dims) ->
    exists a, ownedCell dims ov a /\
      (c = CCell (threeToOneD a dims) \/
       (exists b, inGrid dims b /\ a <> b /\ withinReach near ov a b /\
                  c = CPair (threeToOneD a dims) (threeToOneD b dims)) \/
       (exists b d, inGrid dims b /\ inGrid dims d /\ a <> b /\ a <> d /\ b <> d /\ reach3 near ov a b d /\
                  c = CTriple (threeToOneD a dims) (threeToOneD b dims) (threeToOneD d dims))).
  Proof.
    intros Hc. unfold c01Calls3B in Hc. apply in_flat_map in Hc as (a & Ha & Hc).
    apply c01_bases in Ha. exists a. split; [assumption|].
    change (c01ProcessBaseCell3B near ov dims a) with (map (call3 a) (c01TriwiseOffsets near ov dims)) in Hc.
    apply in_map_iff in Hc as (f & <- & Hf). rewrite c01Triwise_eq in Hf. destruct Hf as [<-|Hf].
    { left. unfold call3. now rewrite Z.add_0_r, Z.eqb_refl. }
    apply in_map_iff in Hf as ([o1 o2] & <- & Hin).
    apply in_tri3 in Hin as (B1 & B2 & N1 & N12 & N2 & L).
    pose proof (reach_of_off a o1 Ha B1 N1) as [G1 R1].
    pose proof (reach_of_off a o2 Ha B2 N2) as [G2 R2].
    unfold call3, flat2; cbn [fst snd]. rewrite <- !threeToOneD_add.
    assert (Heq : forall o, threeToOneD a dims = threeToOneD (i3add a o) dims <-> threeToOneD o dims = 0).
    { intros o. rewrite threeToOneD_add. lia. }
    assert (Hne : forall o, threeToOneD a dims <> threeToOneD (i3add a o) dims -> a <> i3add a o) by congruence.
    destruct (Z.eqb_spec (threeToOneD a dims) (threeToOneD (i3add a o1) dims)) as [E1|E1];
    destruct (Z.eqb_spec (threeToOneD a dims) (threeToOneD (i3add a o2) dims)) as [E2|E2]; cbn [andb negb].
    - left. reflexivity.
    - right; left. exists (i3add a o2). auto.
    - right; left. exists (i3add a o1). auto.
    - destruct (Z.eqb_spec (threeToOneD (i3add a o1) dims) (threeToOneD (i3add a o2) dims)) as [E3|E3].
      + rewrite !threeToOneD_add in E3. lia.
      + right; right. exists (i3add a o1), (i3add a o2). repeat split; auto.
        * apply G1. * apply G1. * apply G1. * apply G1. * apply G1. * apply G1.
        * apply G2. * apply G2. * apply G2. * apply G2. * apply G2. * apply G2.
        * congruence.
        * apply R1. * apply R1. * apply R1. * apply R1.
        * apply R2. * apply R2. * apply R2. * apply R2.
        * unfold near3 in N12. unfold i3add; simpl.
          replace (ix a + ix o1 - (ix a + ix o2)) with (ix o1 - ix o2) by ring.
          replace (iy a + iy o1 - (iy a + iy o2)) with (iy o1 - iy o2) by ring.
          replace (iz a + iz o1 - (iz a + iz o2)) with (iz o1 - iz o2) by ring. exact N12.
  Qed.
End Results.
