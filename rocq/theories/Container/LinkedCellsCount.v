(** Counting the functor calls of a traversal of linked cells. *)
From Coq Require Import Reals Lra.
From Verif.Base Require Import ZRange Occ Lists.
From Verif.Grid Require Import IndexModel IndexSpec IndexProofs CellBlockModel.
From Verif.Functor Require Import CellFunctorModel FunctorSpec CellFunctorProofs SortModel SortSpec SortProofs.
From Verif.Traversal Require Import CellSpec CellLemmas C01Spec.
From Verif.Container Require Import LinkedCellsModel LinkedCellsBuild.
Open Scope Z_scope.

Lemma occ_flat_map_le {A B} (f : B -> bool) (t : A -> bool) (g : A -> list B) l :
  (forall x, In x l -> (occ f (g x) <= if t x then 1 else 0)%nat) -> (occ f (flat_map g l) <= occ t l)%nat.
Proof.
  induction l as [|x l IH]; intros H; [apply Nat.le_refl|]. cbn [flat_map]. rewrite occ_app, occ_cons.
  pose proof (H x (or_introl eq_refl)). assert (occ f (flat_map g l) <= occ t l)%nat by (apply IH; intros; apply H; now right). lia.
Qed.

Lemma occ_flat_map_eq {A B} (f : B -> bool) (t : A -> bool) (g : A -> list B) l :
  (forall x, In x l -> occ f (g x) = if t x then 1%nat else 0%nat) -> occ f (flat_map g l) = occ t l.
Proof.
  induction l as [|x l IH]; intros H; [reflexivity|]. cbn [flat_map]. rewrite occ_app, occ_cons.
  rewrite (H x (or_introl eq_refl)), IH; [reflexivity|]. intros; apply H; now right.
Qed.

(** Cell functor calls on cells of the grid with the direction from the first to
    the second cell. *)
Definition directed (dims : I3) (calls : list (Z * Z * I3)) : Prop :=
  forall c1 c2 dir, In (c1, c2, dir) calls -> exists k1 k2, inGrid dims k1 /\ inGrid dims k2 /\
    c1 = threeToOneD k1 dims /\ c2 = threeToOneD k2 dims /\ (k1 <> k2 -> dir = i3sub k2 k1).

Lemma filter_ids {P} (pid : P -> Z) f (l : list P) : distinctIds pid l -> distinctIds pid (filter f l).
Proof.
  unfold distinctIds. induction l as [|x l IH]; intros H; [exact H|]. cbn [map filter] in *.
  inversion H as [|? ? H1 H2]; subst. destruct (f x); [|now apply IH]. cbn [map]. constructor; [|now apply IH].
  intros Hin. apply H1. apply in_map_iff in Hin as (y & E & Hy). apply filter_In in Hy as [Hy _].
  apply in_map_iff. eauto.
Qed.

Lemma ids_inj {P} (pid : P -> Z) (l : list P) x y : distinctIds pid l -> In x l -> In y l -> pid x = pid y -> x = y.
Proof.
  unfold distinctIds. induction l as [|z l IH]; intros H Hx Hy E; [destruct Hx|]. cbn [map] in H.
  inversion H as [|? ? H1 H2]; subst. destruct Hx as [-> | Hx], Hy as [-> | Hy].
  - reflexivity.
  - exfalso. apply H1. rewrite E. now apply in_map.
  - exfalso. apply H1. rewrite <- E. now apply in_map.
  - now apply IH.
Qed.

Section Count.
  Context {P : Type}.
  Variables (pid : P -> Z) (isHalo : P -> bool) (pos old : P -> R3) (view : R3 -> list P -> list P).
  Variables (cf : CFSettings) (rnd : R -> R) (b : Block) (ps : list P) (cells : list (Cell P)).
  Variables (sc skin : R) (origin len : R3).
  Let dims := blockDims b.
  Hypothesis Hpos : positive dims.
  Hypothesis Hview : forall dir l, isSortedView pos dir l (view dir l).
  Hypothesis Hids : distinctIds pid ps.
  Hypothesis Hplaced : Forall (placed isHalo rnd b old) ps.
  Hypothesis Hbuilt : built rnd b old ps cells.
  Hypothesis Hlen : positiveR len.
  Hypothesis Hskin : (skin <= sc)%R.
  Hypothesis Hdrift : Forall (fun p => (dist3 (pos p) (old p) <= skin / 2)%R) ps.
  Hypothesis Hgeo : forall p k, In p ps -> inGrid dims k -> inCell rnd b old (threeToOneD k dims) p = true ->
    inClosedBox (cellLo origin len k) (cellHi origin len k) (old p).

  Let cell i := cellWith rnd b old ps i.
  Let calls1 := cellCall isHalo view pos cf sc len cells.

  Lemma in_cell i x : In x (parts (cell i)) <-> In x ps /\ inCell rnd b old i x = true.
  Proof. unfold cell, cellWith. cbn [parts]. apply filter_In. Qed.

  Lemma inCell_unique i j x : inCell rnd b old i x = true -> inCell rnd b old j x = true -> i = j.
  Proof.
    unfold inCell. destruct (get1DIndexOfPosition rnd b (old x)); [|discriminate]. rewrite !Z.eqb_eq. congruence.
  Qed.

  Lemma cell_ids i : distinctIds pid (parts (cell i)).
  Proof. apply filter_ids. exact Hids. Qed.

  Lemma cell_ids2 i j : i <> j -> distinctIds pid (parts (cell i) ++ parts (cell j)).
  Proof.
    intros Hij. unfold distinctIds. rewrite map_app. apply NoDup_app_intro; [apply cell_ids|apply cell_ids|].
    intros z Hi Hj. apply in_map_iff in Hi as (x & Ex & Hx). apply in_map_iff in Hj as (y & Ey & Hy).
    apply in_cell in Hx as [Hx Hcx]. apply in_cell in Hy as [Hy Hcy].
    assert (x = y) by (apply (ids_inj pid ps); auto; congruence). subst y. apply Hij. eapply inCell_unique; eauto.
  Qed.

  Lemma cell_own i x : In x (parts (cell i)) -> mayOwn (cell i) = negb (isHalo x).
  Proof.
    intros H. apply in_cell in H as [H1 H2]. rewrite Forall_forall in Hplaced.
    destruct (Hplaced x H1) as (j & Ej & _ & Ho). unfold inCell in H2. rewrite Ej in H2. apply Z.eqb_eq in H2. subst j. exact Ho.
  Qed.

  Lemma view_perm dir l : Permutation l (view dir l).
  Proof. apply Hview. Qed.
  Lemma view_in dir l x : In x (view dir l) -> In x l.
  Proof. intros H. eapply Permutation_in; [apply Permutation_sym, view_perm|exact H]. Qed.
  Lemma view_ids dir l : distinctIds pid l -> distinctIds pid (view dir l).
  Proof. intros H. unfold distinctIds in *. eapply Permutation_NoDup; [|exact H]. apply Permutation_map, view_perm. Qed.

  Section Call.
    Variables (k1 k2 dir : I3) (a c : P) (ka kc : I3).
    Hypothesis G1 : inGrid dims k1.
    Hypothesis G2 : inGrid dims k2.
    Hypothesis Hdir : k1 <> k2 -> dir = i3sub k2 k1.
    Hypothesis Ga : inGrid dims ka.
    Hypothesis Gc : inGrid dims kc.
    Hypothesis Ia : In a (parts (cell (threeToOneD ka dims))).
    Hypothesis Ic : In c (parts (cell (threeToOneD kc dims))).
    Hypothesis Hne : a <> c.
    Let call := (threeToOneD k1 dims, threeToOneD k2 dims, dir).
    Let i1 := threeToOneD k1 dims.
    Let i2 := threeToOneD k2 dims.
    Let ia := threeToOneD ka dims.
    Let ic := threeToOneD kc dims.

    Lemma call_unfold : calls1 call =
      if i1 =? i2 then processCell isHalo (view (normalize len)) (farAlong pos sc (normalize len)) cf (cell i1)
      else processCellPair (view (sortingDirection len dir)) (farAlong pos sc (sortingDirection len dir)) cf true (cell i1) (cell i2).
    Proof.
      unfold calls1, call, cellCall.
      rewrite (built_nth rnd b old ps cells (threeToOneD k1 dims) Hbuilt) by now apply threeToOneD_range.
      rewrite (built_nth rnd b old ps cells (threeToOneD k2 dims) Hbuilt) by now apply threeToOneD_range.
      reflexivity.
    Qed.

    Lemma same_particle x y i j : In x (parts (cell i)) -> In y (parts (cell j)) -> pid x = pid y -> x = y /\ i = j.
    Proof.
      intros Hx Hy E. apply in_cell in Hx as [Hx Cx]. apply in_cell in Hy as [Hy Cy].
      assert (x = y) by (apply (ids_inj pid ps); auto). subst y. split; [reflexivity|]. eapply inCell_unique; eauto.
    Qed.

    Lemma other_cells : samePair ia ic (i1, i2) = false -> received pid (calls1 call) a c = 0%nat.
    Proof.
      intros Hs. unfold received. apply occ_zero. intros f Hf. rewrite call_unfold in Hf.
      destruct (contributes pid (pid a) (pid c) f) eqn:E; [exfalso|reflexivity].
      assert (Hs' : ~ ((i1 = ia /\ i2 = ic) \/ (i1 = ic /\ i2 = ia))).
      { intros H. assert (samePair ia ic (i1, i2) = true) by (apply samePair_true; exact H). congruence. }
      unfold contributes in E. rewrite orb_true_iff, !andb_true_iff, !Z.eqb_eq in E.
      assert (Hcase : (In (fstP f) (parts (cell i1)) /\ In (sndP f) (parts (cell i2))) \/
                      (In (fstP f) (parts (cell i2)) /\ In (sndP f) (parts (cell i1)))).
      { destruct (Z.eqb_spec i1 i2) as [E12|N12].
        - apply (processCell_sub pid) in Hf; [|intros x; apply view_in|apply view_ids, cell_ids|apply cell_ids]. rewrite <- E12. tauto.
        - apply (processCellPair_sub pid _ isHalo) in Hf; [tauto|]. intros ? x _. apply view_in. }
      assert (Hd : forall x y i j, In x (parts (cell i)) -> In y (parts (cell j)) -> pid x = pid a -> pid y = pid c -> i = ia /\ j = ic).
      { intros x y i j Hx Hy Ex Ey. split; [exact (proj2 (same_particle _ _ _ _ Hx Ia Ex))|exact (proj2 (same_particle _ _ _ _ Hy Ic Ey))]. }
      destruct E as [[E1 E2]|[[_ E1] E2]]; destruct Hcase as [[H1 H2]|[H1 H2]].
      - destruct (Hd _ _ _ _ H1 H2 E1 E2). tauto.
      - destruct (Hd _ _ _ _ H1 H2 E1 E2). tauto.
      - destruct (Hd _ _ _ _ H2 H1 E2 E1). tauto.
      - destruct (Hd _ _ _ _ H2 H1 E2 E1). tauto.
    Qed.

    Lemma own_a : mayOwn (cell ia) = negb (isHalo a).
    Proof. now apply cell_own. Qed.
    Lemma own_c : mayOwn (cell ic) = negb (isHalo c).
    Proof. now apply cell_own. Qed.

    Lemma geo_cell k : inGrid dims k ->
      Forall (fun p => inClosedBox (cellLo origin len k) (cellHi origin len k) (old p)) (parts (cell (threeToOneD k dims))).
    Proof. intros Hk. apply Forall_forall. intros x Hx. apply in_cell in Hx as [Hx Hc]. now apply Hgeo. Qed.

    Lemma drift_cells i j : Forall (fun p => (dist3 (pos p) (old p) <= skin / 2)%R) (parts (cell i) ++ parts (cell j)).
    Proof.
      apply Forall_forall. intros x Hx. rewrite Forall_forall in Hdrift. apply Hdrift.
      apply in_app_iff in Hx as [Hx|Hx]; now apply in_cell in Hx.
    Qed.

    (** Both directions are handled when the pair is processed. *)
    Hypothesis Hboth : useNewton3 cf || bidirectional cf = true.

    Lemma matching_le : samePair ia ic (i1, i2) = true -> (received pid (calls1 call) a c <= 1)%nat.
    Proof.
      intros Hs. apply samePair_true in Hs. cbn [fst snd] in Hs. rewrite call_unfold.
      destruct (Z.eqb_spec i1 i2) as [E12|N12].
      - assert (Ea : ia = i1) by lia. assert (Ec : ic = i1) by lia.
        destruct (mayOwn (cell i1)) eqn:Ho.
        + destruct (processCell_received pid (farAlong pos sc (normalize len)) isHalo (view (normalize len)) cf (cell i1) a c) as [H _]; auto.
          * apply view_perm.
          * apply cell_ids.
          * rewrite <- Ea. exact Ia.
          * rewrite <- Ec. exact Ic.
          * eapply Nat.le_trans; [exact H|]. unfold expectedSame. destruct (layout cf), (useNewton3 cf || negb (isHalo a)); auto.
        + unfold processCell. destruct (parts (cell i1)); [apply Nat.le_0_l|]. rewrite Ho. cbn [negb]. apply Nat.le_0_l.
      - set (d := sortingDirection len dir).
        destruct (mayOwn (cell i1) || mayOwn (cell i2)) eqn:Ho.
        + assert (Hrel : pairRelevant cf (cell i1) (cell i2)).
          { unfold pairRelevant. apply orb_true_iff in Ho, Hboth. tauto. }
          destruct Hs as [[E1 E2]|[E1 E2]].
          * destruct (processCellPair_received pid (farAlong pos sc d) (view d) cf true (cell i1) (cell i2) a c) as (H & _); auto.
            -- intros; apply view_perm.
            -- now apply cell_ids2.
            -- rewrite E1. exact Ia.
            -- rewrite E2. exact Ic.
          * destruct (processCellPair_received pid (farAlong pos sc d) (view d) cf true (cell i1) (cell i2) c a) as (_ & H & _); auto.
            -- intros; apply view_perm.
            -- now apply cell_ids2.
            -- rewrite E1. exact Ic.
            -- rewrite E2. exact Ia.
            -- rewrite Hboth in H. exact H.
        + apply orb_false_iff in Ho as [Ho1 Ho2]. unfold processCellPair.
          destruct (parts (cell i1)); [apply Nat.le_0_l|]. destruct (parts (cell i2)); [apply Nat.le_0_l|].
          rewrite Ho1, Ho2. cbn [negb andb]. rewrite orb_true_r. apply Nat.le_0_l.
    Qed.

    Lemma matching_eq : samePair ia ic (i1, i2) = true -> isHalo a = false \/ isHalo c = false ->
      (dist3 (pos a) (pos c) <= sc)%R -> (dist3 (pos c) (pos a) <= sc)%R -> received pid (calls1 call) a c = 1%nat.
    Proof.
      intros Hs Hown Hd1 Hd2. apply samePair_true in Hs. cbn [fst snd] in Hs. rewrite call_unfold.
      destruct (Z.eqb_spec i1 i2) as [E12|N12].
      - assert (Ea : ia = i1) by lia. assert (Ec : ic = i1) by lia.
        assert (Hoa : isHalo a = false).
        { pose proof own_a as A. pose proof own_c as C. rewrite Ea in A. rewrite Ec in C. rewrite A in C.
          destruct Hown as [H|H]; [exact H|]. rewrite H in C. cbn in C. now apply negb_true_iff in C. }
        rewrite (sorted_cell_complete pid isHalo pos cf sc (normalize len) (view (normalize len)) (cell i1) a c); auto.
        + unfold expectedSame. rewrite Hoa. cbn [negb]. rewrite orb_true_r. now destruct (layout cf).
        + apply normalize_le_1.
        + apply cell_ids.
        + rewrite <- Ea, own_a, Hoa. reflexivity.
        + rewrite <- Ea. exact Ia.
        + rewrite <- Ec. exact Ic.
      - assert (Hk : k1 <> k2) by (intros ->; now apply N12). rewrite (Hdir Hk).
        set (d := sortingDirection len (i3sub k2 k1)).
        assert (Hrel : pairRelevant cf (cell i1) (cell i2)).
        { assert (Ho : mayOwn (cell i1) = true \/ mayOwn (cell i2) = true).
          { pose proof own_a as A. pose proof own_c as C. destruct Hs as [[-> ->]|[-> ->]]; rewrite A, C;
            destruct Hown as [-> | ->]; auto. }
          unfold pairRelevant. apply orb_true_iff in Hboth. tauto. }
        destruct Hs as [[E1 E2]|[E1 E2]].
        + destruct (sorted_pair_complete pid pos cf sc d (view d) old skin
            (cellLo origin len k1) (cellHi origin len k1) (cellLo origin len k2) (cellHi origin len k2) (cell i1) (cell i2) a c) as [H _]; auto.
          * apply normalize_le_1.
          * now apply cell_ids2.
          * now apply sortingDirection_points.
          * now apply geo_cell.
          * now apply geo_cell.
          * apply drift_cells.
          * rewrite E1. exact Ia.
          * rewrite E2. exact Ic.
        + destruct (sorted_pair_complete pid pos cf sc d (view d) old skin
            (cellLo origin len k1) (cellHi origin len k1) (cellLo origin len k2) (cellHi origin len k2) (cell i1) (cell i2) c a) as [_ H]; auto.
          * apply normalize_le_1.
          * now apply cell_ids2.
          * now apply sortingDirection_points.
          * now apply geo_cell.
          * now apply geo_cell.
          * apply drift_cells.
          * rewrite E1. exact Ic.
          * rewrite E2. exact Ia.
          * rewrite Hboth in H. exact H.
    Qed.
  End Call.

  Section Ordered.
    Variables (k1 k2 dir : I3) (a c : P) (ka kc : I3).
    Hypothesis G1 : inGrid dims k1.
    Hypothesis G2 : inGrid dims k2.
    Hypothesis Hdir : k1 <> k2 -> dir = i3sub k2 k1.
    Hypothesis Ga : inGrid dims ka.
    Hypothesis Gc : inGrid dims kc.
    Hypothesis Ia : In a (parts (cell (threeToOneD ka dims))).
    Hypothesis Ic : In c (parts (cell (threeToOneD kc dims))).
    Hypothesis Hne : a <> c.
    Hypothesis Hn3 : useNewton3 cf = false.
    Hypothesis Hbi : bidirectional cf = false.
    Hypothesis Hown : isHalo a = false.
    Hypothesis Hd1 : (dist3 (pos a) (pos c) <= sc)%R.
    Hypothesis Hd2 : (dist3 (pos c) (pos a) <= sc)%R.
    Let ia := threeToOneD ka dims.
    Let ic := threeToOneD kc dims.
    Let i1 := threeToOneD k1 dims.
    Let i2 := threeToOneD k2 dims.

    Lemma ordered_eq : received pid (calls1 (i1, i2, dir)) a c = if orderedPair ia ic (i1, i2) then 1%nat else 0%nat.
    Proof.
      pose proof (cell_own ia a Ia) as Hoa. rewrite Hown in Hoa. cbn [negb] in Hoa.
      unfold orderedPair. cbn [fst snd]. destruct ((i1 =? ia) && (i2 =? ic)) eqn:E.
      - apply andb_true_iff in E as [E1 E2]. apply Z.eqb_eq in E1, E2.
        unfold i1, i2. rewrite call_unfold by assumption. fold i1 i2. destruct (Z.eqb_spec i1 i2) as [E12|N12].
        + rewrite (sorted_cell_complete pid isHalo pos cf sc (normalize len) (view (normalize len)) (cell i1) a c); auto.
          * unfold expectedSame. rewrite Hown. cbn [negb]. rewrite orb_true_r. now destruct (layout cf).
          * apply normalize_le_1.
          * apply cell_ids.
          * now rewrite E1.
          * rewrite E1. exact Ia.
          * rewrite E12, E2. exact Ic.
        + assert (Hk : k1 <> k2) by (intros ->; now apply N12). rewrite (Hdir Hk).
          set (d := sortingDirection len (i3sub k2 k1)).
          destruct (sorted_pair_complete pid pos cf sc d (view d) old skin
            (cellLo origin len k1) (cellHi origin len k1) (cellLo origin len k2) (cellHi origin len k2) (cell i1) (cell i2) a c) as [H _]; auto.
          * apply normalize_le_1.
          * now apply cell_ids2.
          * left. now rewrite E1.
          * now apply sortingDirection_points.
          * now apply geo_cell.
          * now apply geo_cell.
          * apply drift_cells.
          * rewrite E1. exact Ia.
          * rewrite E2. exact Ic.
      - destruct (samePair ia ic (i1, i2)) eqn:Es; [|now apply other_cells with ka kc].
        apply samePair_true in Es. cbn [fst snd] in Es.
        assert (Hr : i1 = ic /\ i2 = ia).
        { destruct Es as [[E1 E2]|H]; [|exact H]. rewrite E1, E2, !Z.eqb_refl in E. discriminate. }
        destruct Hr as [E1 E2].
        assert (Hne12 : i1 <> i2).
        { intros E12. rewrite E1, E2 in E. assert (ic = ia) by congruence. rewrite H, !Z.eqb_refl in E. discriminate. }
        unfold i1, i2. rewrite call_unfold by assumption. fold i1 i2. destruct (Z.eqb_spec i1 i2) as [?|_]; [contradiction|].
        set (d := sortingDirection len dir).
        destruct (mayOwn (cell i1)) eqn:Ho.
        + destruct (processCellPair_received pid (farAlong pos sc d) (view d) cf true (cell i1) (cell i2) c a) as (_ & H & _).
          * intros; apply view_perm.
          * now apply cell_ids2.
          * now left.
          * rewrite E1. exact Ic.
          * rewrite E2. exact Ia.
          * rewrite Hn3, Hbi in H. cbn [orb] in H. lia.
        + unfold processCellPair. destruct (parts (cell i1)); [reflexivity|]. destruct (parts (cell i2)); [reflexivity|].
          rewrite Ho, Hn3, Hbi. reflexivity.
    Qed.
  End Ordered.

  (** ** Whole traversals *)
  Variable calls : list (Z * Z * I3).
  Hypothesis Hcalls : directed dims calls.
  Variables (a c : P) (ka kc : I3).
  Hypothesis Ga : inGrid dims ka.
  Hypothesis Gc : inGrid dims kc.
  Hypothesis Ia : In a ps.
  Hypothesis Ic : In c ps.
  Hypothesis Ca : inCell rnd b old (threeToOneD ka dims) a = true.
  Hypothesis Cc : inCell rnd b old (threeToOneD kc dims) c = true.
  Hypothesis Hne : a <> c.

  Lemma traversal_le : useNewton3 cf || bidirectional cf = true ->
    (received pid (lcInteract isHalo view pos cf sc len cells calls) a c <= timesProcessed dims (map fst calls) ka kc)%nat.
  Proof.
    intros Hboth. unfold received, lcInteract, timesProcessed. rewrite occ_map. apply occ_flat_map_le.
    intros [[c1 c2] dir] Hin. destruct (Hcalls c1 c2 dir Hin) as (k1 & k2 & G1 & G2 & -> & -> & Hdir). cbn [fst].
    assert (Ia' : In a (parts (cell (threeToOneD ka dims)))) by (apply in_cell; auto).
    assert (Ic' : In c (parts (cell (threeToOneD kc dims)))) by (apply in_cell; auto).
    change (occ _ _) with (received pid (calls1 (threeToOneD k1 dims, threeToOneD k2 dims, dir)) a c).
    destruct (samePair _ _ _) eqn:E.
    - now apply matching_le with ka kc.
    - now rewrite (other_cells k1 k2 dir a c ka kc) by assumption.
  Qed.

  Lemma traversal_eq : useNewton3 cf || bidirectional cf = true -> isHalo a = false \/ isHalo c = false ->
    (dist3 (pos a) (pos c) <= sc)%R -> (dist3 (pos c) (pos a) <= sc)%R ->
    received pid (lcInteract isHalo view pos cf sc len cells calls) a c = timesProcessed dims (map fst calls) ka kc.
  Proof.
    intros Hboth Hown Hd1 Hd2. unfold received, lcInteract, timesProcessed. rewrite occ_map. apply occ_flat_map_eq.
    intros [[c1 c2] dir] Hin. destruct (Hcalls c1 c2 dir Hin) as (k1 & k2 & G1 & G2 & -> & -> & Hdir). cbn [fst].
    assert (Ia' : In a (parts (cell (threeToOneD ka dims)))) by (apply in_cell; auto).
    assert (Ic' : In c (parts (cell (threeToOneD kc dims)))) by (apply in_cell; auto).
    change (occ _ _) with (received pid (calls1 (threeToOneD k1 dims, threeToOneD k2 dims, dir)) a c).
    destruct (samePair _ _ _) eqn:E.
    - now apply matching_eq with ka kc.
    - now apply other_cells with ka kc.
  Qed.

  Lemma traversal_ordered : useNewton3 cf = false -> bidirectional cf = false -> isHalo a = false ->
    (dist3 (pos a) (pos c) <= sc)%R -> (dist3 (pos c) (pos a) <= sc)%R ->
    received pid (lcInteract isHalo view pos cf sc len cells calls) a c =
    occ (orderedPair (threeToOneD ka dims) (threeToOneD kc dims)) (map fst calls).
  Proof.
    intros Hn3 Hbi Hown Hd1 Hd2. unfold received, lcInteract. rewrite occ_map. apply occ_flat_map_eq.
    intros [[c1 c2] dir] Hin. destruct (Hcalls c1 c2 dir Hin) as (k1 & k2 & G1 & G2 & -> & -> & Hdir). cbn [fst].
    assert (Ia' : In a (parts (cell (threeToOneD ka dims)))) by (apply in_cell; auto).
    assert (Ic' : In c (parts (cell (threeToOneD kc dims)))) by (apply in_cell; auto).
    apply (ordered_eq k1 k2 dir a c ka kc); assumption.
  Qed.
End Count.
