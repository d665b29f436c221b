(** The walk of the octree iterator over the leaves. *)
From Coq Require Import Reals.
From Verif.Base Require Import ZRange Lists.
From Verif.Functor Require Import SortModel.
From Verif.Container Require Import IteratorModel IteratorContainers IteratorLemmas IteratorGenericModel IteratorPadded.
From Verif.Octree Require Import DirectionModel OctreeModel OctreeIteratorModel.
Local Open Scope Z_scope.

Section Leaves.
  Context {P : Type}.
  Notation Tree := (Tree P).
  Notation Trees := (Trees P).

  (** The leaves in the order of the walk. *)
  Fixpoint leafList (t : Tree) (idx : CellIdx) : list (CellIdx * list P) :=
    match t with
    | Leaf _ _ ps => [(idx, ps)]
    | Inner _ _ cs =>
        (fix go (cs : list Tree) (i : nat) : list (CellIdx * list P) :=
           match cs with [] => [] | c :: r => leafList c (i :: idx) ++ go r (S i) end) cs O
    end.
  Fixpoint childLists (idx : CellIdx) (cs : list Tree) (i : nat) : list (CellIdx * list P) :=
    match cs with [] => [] | c :: r => leafList c (i :: idx) ++ childLists idx r (S i) end.
  Lemma leafList_inner lo hi cs idx : leafList (Inner lo hi cs) idx = childLists idx cs 0.
  Proof. cbn [leafList]. generalize 0%nat. induction cs as [|c cs IH]; intros i; cbn; [reflexivity|]. now rewrite IH. Qed.

  (** Eight children everywhere. *)
  Inductive full : Tree -> Prop :=
  | fullLeaf lo hi ps : full (Leaf lo hi ps)
  | fullInner lo hi cs : length cs = 8%nat -> (forall c, In c cs -> full c) -> full (Inner lo hi cs).

  Lemma childLists_app idx a b i : childLists idx (a ++ b) i = childLists idx a i ++ childLists idx b (i + length a).
  Proof.
    revert i. induction a as [|c a IH]; intros i; cbn; [now rewrite Nat.add_0_r|]. rewrite IH, app_assoc. do 2 f_equal. lia.
  Qed.
  Lemma childLists_split idx cs i c : nth_error cs i = Some c ->
    childLists idx cs 0 = childLists idx (firstn i cs) 0 ++ leafList c (i :: idx) ++ childLists idx (skipn (S i) cs) (S i).
  Proof.
    intros E. destruct (setAt_split cs i c c E) as [E1 _]. rewrite E1 at 1. rewrite childLists_app. f_equal.
    rewrite firstn_length_le by (assert (i < length cs)%nat by (apply nth_error_Some; congruence); lia). reflexivity.
  Qed.

  Lemma full_nonempty t idx : full t -> leafList t idx <> [].
  Proof.
    intros F. revert idx. induction F as [l0 h0 ps0|lo hi cs L F IH]; intros idx; [discriminate|]. rewrite leafList_inner.
    destruct cs as [|c cs]; [discriminate|]. cbn [childLists]. intros E. apply app_eq_nil in E. now apply (IH c (or_introl eq_refl) (0%nat :: idx)).
  Qed.

  Lemma leafList_collect t idx : full t -> concat (map snd (leafList t idx)) = collectAllParticles t.
  Proof.
    intros F. revert idx. induction F as [l0 h0 ps0|lo hi cs L F IH]; intros idx; [apply app_nil_r|]. rewrite leafList_inner. cbn [collectAllParticles].
    clear L. assert (G : forall i, concat (map snd (childLists idx cs i)) = flat_map collectAllParticles cs); [|apply G].
    induction cs as [|c cs IHc]; intros i; [reflexivity|]. cbn [childLists flat_map]. rewrite map_app, concat_app, IH by now left.
    f_equal. apply IHc; intros d D; [apply F|apply IH]; now right.
  Qed.

  Lemma nodeSize_collect t : full t -> nodeSize t = Z.of_nat (length (collectAllParticles t)).
  Proof.
    induction 1 as [|lo hi cs L F IH]; [reflexivity|]. cbn [nodeSize collectAllParticles]. clear L.
    induction cs as [|c cs IHc]; [reflexivity|]. cbn [fold_right flat_map]. rewrite app_length, IH by now left.
    rewrite IHc; [lia| |]; intros d D; [apply F|apply IH]; now right.
  Qed.

  Lemma countLeaves_list t idx : full t -> countLeaves t = length (leafList t idx).
  Proof.
    intros F. revert idx. induction F as [l0 h0 ps0|lo hi cs L F IH]; intros idx; [reflexivity|]. rewrite leafList_inner. cbn [countLeaves].
    clear L. assert (G : forall i, fold_right (fun c n => (countLeaves c + n)%nat) 0%nat cs = length (childLists idx cs i)); [|apply G].
    induction cs as [|c cs IHc]; intros i; [reflexivity|]. cbn [childLists fold_right]. rewrite app_length, (IH c (or_introl eq_refl) (i :: idx)).
    f_equal. apply IHc; intros d D; [apply F|apply IH]; now right.
  Qed.

  (** ** Paths of leaves *)
  Lemma leafList_paths t idx : full t -> forall q ps, In (q, ps) (leafList t idx) ->
    exists ds, q = rev ds ++ idx /\ Forall (fun d => (d < 8)%nat) ds.
  Proof.
    intros F. revert idx. induction F as [l0 h0 ps0|lo hi cs L F IH]; intros idx q ps H.
    - cbn in H. destruct H as [[= <- <-]|[]]. exists []. now split.
    - rewrite leafList_inner in H. assert (G : forall i, (i + length cs <= 8)%nat -> In (q, ps) (childLists idx cs i) ->
        exists ds, q = rev ds ++ idx /\ Forall (fun d => (d < 8)%nat) ds); [|apply (G 0%nat); [lia|exact H]].
      clear L H. induction cs as [|c cs IHc]; intros i Hi H; [destruct H|]. cbn [childLists length] in *. apply in_app_or in H. destruct H as [H|H].
      + destruct (IH c (or_introl eq_refl) _ _ _ H) as (ds & -> & D). exists (i :: ds). cbn [rev]. rewrite <- app_assoc. split; [reflexivity|].
        constructor; [lia|exact D].
      + apply (IHc ltac:(intros d D; apply F; now right) ltac:(intros d D; apply IH; now right) (S i)); [lia|exact H].
  Qed.

  Lemma tail_inj {A} (a b : list A) x y r : a ++ x :: r = b ++ y :: r -> x = y.
  Proof.
    intros E. assert (L : length a = length b) by (apply (f_equal (@length A)) in E; rewrite !app_length in E; cbn in E; lia).
    revert b L E. induction a as [|u a IH]; intros [|v b] L E; try discriminate L; cbn in *; [congruence|]. injection E as _ E. injection L as L. exact (IH b L E).
  Qed.

  Lemma childLists_paths idx cs i q ps : (forall c, In c cs -> full c) -> In (q, ps) (childLists idx cs i) ->
    exists m j, (i <= j)%nat /\ q = m ++ j :: idx.
  Proof.
    revert i. induction cs as [|c cs IH]; intros i F H; [destruct H|]. cbn [childLists] in H. apply in_app_or in H. destruct H as [H|H].
    - destruct (leafList_paths _ _ (F c (or_introl eq_refl)) _ _ H) as (ds & -> & _). eauto.
    - destruct (IH (S i) ltac:(intros; apply F; now right) H) as (m & j & L & ->). exists m, j. split; [lia|reflexivity].
  Qed.

  Lemma leafList_NoDup t idx : full t -> NoDup (map fst (leafList t idx)).
  Proof.
    intros F. revert idx. induction F as [l0 h0 ps0|lo hi cs L F IH]; intros idx; [repeat constructor; intros []|]. rewrite leafList_inner. clear L.
    generalize 0%nat. induction cs as [|c cs IHc]; intros i; [constructor|]. cbn [childLists]. rewrite map_app. apply NoDup_app_intro.
    - apply IH. now left.
    - apply IHc; intros d D; [apply F|apply IH]; now right.
    - intros q H1 H2. apply in_map_iff in H1, H2. destruct H1 as ((q1 & ps1) & <- & H1), H2 as ((q2 & ps2) & E & H2). cbn [fst] in *. subst q2.
      destruct (leafList_paths _ _ (F c (or_introl eq_refl)) _ _ H1) as (ds & -> & _).
      assert (F2 : forall d, In d cs -> full d) by (intros d D; apply F; now right).
      destruct (childLists_paths _ _ _ _ _ F2 H2) as (m & j & Lj & E). apply tail_inj in E. lia.
  Qed.

  Section Two.
    Variable ts : Trees.
    Hypothesis full1 : full (fst ts).
    Hypothesis full2 : full (snd ts).
    Variable halo : bool.

    (** All leaves the walk can come to. *)
    Definition visible : list (CellIdx * list P) := leafList (fst ts) [0%nat] ++ (if halo then leafList (snd ts) [1%nat] else []).
    Definition allLeaves : list (CellIdx * list P) := leafList (fst ts) [0%nat] ++ leafList (snd ts) [1%nat].

    (** The leaves after the ones below a node. *)
    Fixpoint after (idx : CellIdx) : list (CellIdx * list P) :=
      match idx with
      | [] => []
      | i :: parent =>
          match parent with
          | [] => match i with O => if halo then leafList (snd ts) [1%nat] else [] | _ => [] end
          | _ => match nodeOf ts parent with
                 | Some (Inner _ _ cs) => childLists parent (skipn (S i) cs) (S i)
                 | _ => []
                 end ++ after parent
          end
      end.

    Definition reach (idx : CellIdx) : Prop := last idx 0%nat = 0%nat \/ halo = true.
    Lemma reach_cons i idx : idx <> [] -> reach (i :: idx) <-> reach idx.
    Proof. intros H. unfold reach. destruct idx; [congruence|]. reflexivity. Qed.

    Lemma nodeOf_cons i idx : idx <> [] -> nodeOf ts (i :: idx) = match nodeOf ts idx with Some n => getChild n i | None => None end.
    Proof. intros H. destruct idx; [congruence|]. reflexivity. Qed.
    Lemma after_cons i idx lo hi cs : idx <> [] -> nodeOf ts idx = Some (Inner lo hi cs) ->
      after (i :: idx) = childLists idx (skipn (S i) cs) (S i) ++ after idx.
    Proof. intros H E. cbn [after]. rewrite E. destruct idx; [congruence|]. reflexivity. Qed.

    Lemma node_full idx n : nodeOf ts idx = Some n -> full n.
    Proof.
      revert n. induction idx as [|i idx IH]; intros n E; [discriminate|]. destruct idx as [|j idx].
      - destruct i as [|[|i]]; cbn in E; [injection E as <-; assumption|injection E as <-; assumption|discriminate].
      - rewrite nodeOf_cons in E by discriminate. destruct (nodeOf ts (j :: idx)) as [m|]; [|discriminate]. specialize (IH m eq_refl).
        destruct IH as [|lo hi cs L F]; [discriminate|]. cbn in E. apply F. now apply nth_error_In in E.
    Qed.

    Lemma node_split idx n : nodeOf ts idx = Some n -> reach idx -> exists before, visible = before ++ leafList n idx ++ after idx.
    Proof.
      revert n. induction idx as [|i idx IH]; intros n E Re; [discriminate|]. destruct idx as [|j idx].
      - destruct i as [|[|i]]; cbn in E; [| |discriminate]; injection E as <-.
        + exists []. reflexivity.
        + exists (leafList (fst ts) [0%nat]). destruct Re as [Re|Re]; [discriminate|]. unfold visible. rewrite Re. cbn [after]. now rewrite app_nil_r.
      - rewrite nodeOf_cons in E by discriminate. destruct (nodeOf ts (j :: idx)) as [m|] eqn:Em; [|discriminate].
        destruct m as [lo hi ps|lo hi cs]; [discriminate|]. cbn [getChild] in E.
        destruct (IH _ eq_refl) as (before & ->); [now apply (reach_cons i) in Re|].
        rewrite (after_cons i (j :: idx) lo hi cs) by (congruence || discriminate). rewrite leafList_inner, (childLists_split _ _ _ _ E).
        exists (before ++ childLists (j :: idx) (firstn i cs) 0). now rewrite <- !app_assoc.
    Qed.

    Lemma leaf_node t idx : nodeOf ts idx = Some t -> forall q ps, In (q, ps) (leafList t idx) ->
      (exists lo hi, nodeOf ts q = Some (Leaf lo hi ps)) /\ (reach idx -> reach q).
    Proof.
      intros E. pose proof (node_full _ _ E) as F. revert idx E. induction F as [lo hi qs|lo hi cs L F IH]; intros idx E q ps H.
      - cbn in H. destruct H as [[= <- <-]|[]]. eauto.
      - rewrite leafList_inner in H.
        assert (N : idx <> []) by (intros ->; discriminate).
        assert (G : forall a b, cs = a ++ b -> In (q, ps) (childLists idx b (length a)) ->
          (exists lo hi, nodeOf ts q = Some (Leaf lo hi ps)) /\ (reach idx -> reach q)); [|apply (G [] cs); [reflexivity|exact H]].
        intros a b. revert a. induction b as [|c b IHb]; intros a Ea Hb; [destruct Hb|]. cbn [childLists] in Hb. apply in_app_or in Hb. destruct Hb as [Hb|Hb].
        + assert (En : nodeOf ts (length a :: idx) = Some c).
          { rewrite nodeOf_cons, E by exact N. cbn. subst cs. rewrite nth_error_app2, Nat.sub_diag by lia. reflexivity. }
          assert (Ic : In c cs) by (subst cs; apply in_or_app; right; now left).
          destruct (IH c Ic _ En q ps Hb) as [A B]. split; [exact A|]. intros Re. apply B. now apply reach_cons.
        + apply (IHb (a ++ [c])); [now rewrite <- app_assoc|]. rewrite app_length. cbn. now rewrite Nat.add_1_r.
    Qed.

    Lemma visible_node q ps : In (q, ps) visible -> (exists lo hi, nodeOf ts q = Some (Leaf lo hi ps)) /\ reach q.
    Proof.
      intros H. apply in_app_or in H. destruct H as [H|H].
      - destruct (leaf_node (fst ts) [0%nat] eq_refl q ps H) as [A B]. split; [exact A|]. apply B. now left.
      - destruct halo eqn:Hh; [|destruct H]. destruct (leaf_node (snd ts) [1%nat] eq_refl q ps H) as [A _]. split; [exact A|]. now right.
    Qed.

    Lemma visible_NoDup : NoDup (map fst visible).
    Proof.
      unfold visible. rewrite map_app. apply NoDup_app_intro.
      - now apply leafList_NoDup.
      - destruct halo; [now apply leafList_NoDup|constructor].
      - intros q H1 H2. apply in_map_iff in H1. destruct H1 as ((q1 & ps1) & <- & H1). destruct halo; [|destruct H2].
        apply in_map_iff in H2. destruct H2 as ((q2 & ps2) & E & H2). cbn [fst] in *. subst q2.
        destruct (leafList_paths _ _ full1 _ _ H1) as (ds & -> & _). destruct (leafList_paths _ _ full2 _ _ H2) as (ds' & E & _).
        apply tail_inj in E. discriminate.
    Qed.

    Lemma after_leaf i q ps : nth_error visible i = Some (q, ps) -> after q = skipn (S i) visible.
    Proof.
      intros E. destruct (visible_node q ps) as [(lo & hi & En) Re]; [now apply nth_error_In in E|].
      destruct (node_split q _ En Re) as (before & S). cbn [leafList app] in S.
      assert (L : length before = i).
      { apply (NoDup_nth_error (map fst visible)).
        - apply visible_NoDup.
        - rewrite map_length. rewrite S, app_length. cbn. lia.
        - rewrite !nth_error_map, E. rewrite S, nth_error_app2, Nat.sub_diag by lia. reflexivity. }
      subst i. rewrite S. rewrite skipn_app, skipn_all2 by lia. replace (Datatypes.S (length before) - length before)%nat with 1%nat by lia. reflexivity.
    Qed.

    (** ** The search *)
    Variable behavior : Z.
    Hypothesis Hhalo : hasFlag behavior bhHalo = halo.
    Variable rel : Tree -> bool.
    Variable fulfilling : P -> bool.

    Definition noFul (l : list (CellIdx * list P)) : Prop := forall q ps x, In (q, ps) l -> In x ps -> fulfilling x = false.

    (** Nodes that are not relevant hold nothing, and a relevant inner node has a
        relevant child. *)
    Inductive good : Tree -> Prop :=
    | goodLeaf lo hi ps : (forall x, In x ps -> fulfilling x = true -> rel (Leaf lo hi ps) = true) -> good (Leaf lo hi ps)
    | goodInner lo hi cs : length cs = 8%nat ->
        (forall x, In x (flat_map collectAllParticles cs) -> fulfilling x = true -> rel (Inner lo hi cs) = true) ->
        (rel (Inner lo hi cs) = true -> exists c, In c cs /\ rel c = true) ->
        (forall c, In c cs -> good c) -> good (Inner lo hi cs).
    Hypothesis good1 : good (fst ts).
    Hypothesis good2 : good (snd ts).

    Lemma node_good idx n : nodeOf ts idx = Some n -> good n.
    Proof.
      revert n. induction idx as [|i idx IH]; intros n E; [discriminate|]. destruct idx as [|j idx].
      - destruct i as [|[|i]]; cbn in E; [injection E as <-; assumption|injection E as <-; assumption|discriminate].
      - rewrite nodeOf_cons in E by discriminate. destruct (nodeOf ts (j :: idx)) as [m|]; [|discriminate]. specialize (IH m eq_refl).
        destruct IH as [|lo hi cs L _ _ F]; [discriminate|]. cbn in E. apply F. now apply nth_error_In in E.
    Qed.

    Lemma irrelevant_empty n idx : good n -> full n -> rel n = false -> noFul (leafList n idx).
    Proof.
      intros G F N q ps x H X. destruct (fulfilling x) eqn:E; [|reflexivity]. exfalso.
      assert (C : In x (collectAllParticles n)).
      { rewrite <- (leafList_collect n idx F). apply in_concat. exists ps. split; [|exact X]. apply in_map_iff. now exists (q, ps). }
      destruct G as [lo hi qs H1|lo hi cs L H1 _ _]; specialize (H1 x C E); congruence.
    Qed.

    Lemma noFul_app a b : noFul a -> noFul b -> noFul (a ++ b).
    Proof. intros A B q ps x H. apply in_app_or in H. destruct H; [now apply (A q)|now apply (B q)]. Qed.

    Lemma descend_spec n : good n -> forall idx, nodeOf ts idx = Some n -> reach idx -> rel n = true ->
      exists q ps skipped post lo hi, descend rel n idx = Some q /\ leafList n idx = skipped ++ (q, ps) :: post /\
        after q = post ++ after idx /\ noFul skipped /\ nodeOf ts q = Some (Leaf lo hi ps) /\ reach q.
    Proof.
      induction 1 as [lo hi ps H|lo hi cs L H HR F IH]; intros idx E Re Rn.
      - exists idx, ps, [], [], lo, hi. repeat split; auto. intros q qs x [].
      - assert (N : idx <> []) by (intros ->; discriminate).
        pose proof (node_full _ _ E) as Fn. inversion Fn as [|? ? ? _ Ff]; subst.
        rewrite leafList_inner. cbn [descend].
        assert (G : forall a b, cs = a ++ b -> (exists c, In c b /\ rel c = true) ->
          exists q ps skipped post lo hi,
            (fix go (cs : list Tree) (i : nat) : option CellIdx :=
               match cs with [] => None | c :: r => if rel c then descend rel c (i :: idx) else go r (S i) end) b (length a) = Some q /\
            childLists idx b (length a) = skipped ++ (q, ps) :: post /\
            after q = post ++ after idx /\ noFul skipped /\ nodeOf ts q = Some (Leaf lo hi ps) /\ reach q).
        { intros a b. revert a. induction b as [|c b IHb]; intros a Ea [d [D Rd]]; [destruct D|].
          assert (En : nodeOf ts (length a :: idx) = Some c).
          { rewrite nodeOf_cons, E by exact N. cbn. rewrite Ea, nth_error_app2, Nat.sub_diag by lia. reflexivity. }
          assert (Ic : In c cs) by (rewrite Ea; apply in_or_app; right; now left).
          cbn [childLists]. destruct (rel c) eqn:Rc.
          - destruct (IH c Ic (length a :: idx) En) as (q & ps & sk & post & l & h & D1 & D2 & D3 & D4 & D5 & D6); auto; [now apply reach_cons|].
            rewrite (after_cons _ _ _ _ _ N E) in D3. exists q, ps, sk, (post ++ childLists idx b (S (length a))), l, h.
            rewrite D2, D3, <- !app_assoc. repeat split; auto. f_equal. f_equal. rewrite Ea.
            replace (S (length a)) with (length (a ++ [c])) at 1 by (rewrite app_length; cbn; lia).
            replace (a ++ c :: b) with ((a ++ [c]) ++ b) by now rewrite <- app_assoc.
            rewrite skipn_app, skipn_all, Nat.sub_diag. reflexivity.
          - destruct (IHb (a ++ [c])) as (q & ps & sk & post & l & h & D1 & D2 & D3 & D4 & D5 & D6).
            + now rewrite <- app_assoc.
            + exists d. destruct D as [->|D]; [congruence|]. now split.
            + rewrite app_length in D1, D2. cbn [length] in D1, D2. rewrite Nat.add_1_r in D1, D2.
              exists q, ps, (leafList c (length a :: idx) ++ sk), post, l, h. rewrite D2, <- app_assoc. repeat split; auto.
              apply noFul_app; [|exact D4]. apply irrelevant_empty; auto. }
        apply (G [] cs); auto.
    Qed.

    Lemma pop_spec idx n : nodeOf ts idx = Some n -> reach idx ->
      exists d r n', popSevens idx = d :: r /\ nodeOf ts (d :: r) = Some n' /\ reach (d :: r) /\ after (d :: r) = after idx /\ d <> 7%nat.
    Proof.
      revert n. induction idx as [|i idx IH]; intros n E Re; [discriminate|]. cbn [popSevens].
      destruct (Nat.eqb_spec i 7) as [->|Ne]; [|now exists i, idx, n].
      destruct idx as [|j idx]; [discriminate|]. assert (E' := E). rewrite nodeOf_cons in E by discriminate.
      destruct (nodeOf ts (j :: idx)) as [m|] eqn:Em; [|discriminate]. destruct m as [lo hi ps|lo hi cs]; [discriminate|].
      destruct (IH _ eq_refl) as (d & r & n' & H1 & H2 & H3 & H4 & H5); [now apply reach_cons in Re|].
      exists d, r, n'. repeat split; auto. rewrite H4. rewrite (after_cons 7 (j :: idx) lo hi cs) by (congruence || discriminate).
      pose proof (node_full _ _ Em) as F. inversion F as [|? ? ? L _]; subst. rewrite skipn_all2 by lia. reflexivity.
    Qed.

    Lemma next_spec idx n : nodeOf ts idx = Some n -> reach idx ->
      match nextNode behavior idx with
      | None => after idx = []
      | Some idx' => exists n', nodeOf ts idx' = Some n' /\ reach idx' /\ after idx = leafList n' idx' ++ after idx'
      end.
    Proof.
      intros E Re. destruct (pop_spec idx n E Re) as (d & r & m & Ep & Em & Rm & <- & N7). unfold nextNode. rewrite Ep. clear Ep E Re n idx.
      destruct r as [|j r].
      - destruct d as [|[|d]]; cbn in Em; [| |discriminate].
        + cbn [Nat.ltb Nat.leb]. rewrite Hhalo. destruct halo eqn:Hh.
          * exists (snd ts). split; [reflexivity|]. split; [now right|]. cbn [after]. rewrite Hh. now rewrite app_nil_r.
          * cbn [after]. now rewrite Hh.
        + reflexivity.
      - assert (Hd := Em). rewrite nodeOf_cons in Hd by discriminate. destruct (nodeOf ts (j :: r)) as [k|] eqn:Ek; [|discriminate].
        destruct k as [lo hi ps|lo hi cs]; [discriminate|]. cbn [getChild] in Hd.
        pose proof (node_full _ _ Ek) as F. inversion F as [|? ? ? L _]; subst.
        assert (Hl : (d < length cs)%nat) by (apply nth_error_Some; congruence).
        destruct (nth_error cs (S d)) as [c|] eqn:Ec; [|apply nth_error_None in Ec; lia].
        exists c. split; [rewrite nodeOf_cons, Ek by discriminate; exact Ec|]. split; [now apply reach_cons in Rm; [apply reach_cons|]|].
        rewrite (after_cons d (j :: r) lo hi cs), (after_cons (S d) (j :: r) lo hi cs) by (congruence || discriminate).
        rewrite app_assoc. f_equal. destruct (setAt_split cs (S d) c c Ec) as [Es _].
        rewrite Es at 1. rewrite skipn_app, skipn_all2 by (rewrite firstn_length; lia).
        rewrite firstn_length_le by (apply Nat.lt_le_incl, nth_error_Some; congruence). rewrite Nat.sub_diag. reflexivity.
    Qed.

    Lemma find_spec fuel : forall force idx p n, nodeOf ts idx = Some n -> reach idx -> (length (after idx) < fuel)%nat ->
      (nodeSize n <=? p) || force = true ->
      (findLeaf behavior rel fuel ts force idx p = Some None /\ noFul (after idx)) \/
      (exists q ps skipped lo hi, findLeaf behavior rel fuel ts force idx p = Some (Some (q, 0)) /\
         after idx = skipped ++ (q, ps) :: after q /\ noFul skipped /\ ps <> [] /\ nodeOf ts q = Some (Leaf lo hi ps) /\ reach q).
    Proof.
      induction fuel as [|f IH]; intros force idx p n E Re Hf Hx; [lia|]. cbn [findLeaf]. rewrite E, Hx.
      pose proof (next_spec idx n E Re) as N. destruct (nextNode behavior idx) as [idx'|].
      - destruct N as (n' & E' & Re' & A). rewrite E'. pose proof (node_full _ _ E') as F'. pose proof (node_good _ _ E') as G'.
        assert (Ln : (0 < length (leafList n' idx'))%nat).
        { pose proof (full_nonempty n' idx' F'). destruct (leafList n' idx'); [congruence|cbn; lia]. }
        assert (La : (length (after idx) = length (leafList n' idx') + length (after idx'))%nat) by (rewrite A; apply app_length).
        destruct (rel n') eqn:Rn.
        + destruct (descend_spec n' G' idx' E' Re' Rn) as (q & ps & sk & post & lo & hi & -> & D2 & D3 & D4 & D5 & D6).
          assert (Lq : (length (after q) < length (after idx))%nat).
          { rewrite D3, La, D2, !app_length. cbn. lia. }
          assert (Aq : after idx = sk ++ (q, ps) :: after q) by (rewrite A, D2, D3, <- !app_assoc; reflexivity).
          destruct ps as [|x ps].
          * destruct (IH false q 0 _ D5 D6) as [[E1 E2]|(q' & ps' & sk' & lo' & hi' & E1 & E2 & E3 & E4 & E5 & E6)]; [lia|reflexivity| |].
            -- left. split; [exact E1|]. rewrite Aq. apply noFul_app; [exact D4|].
               intros r rs x [[= <- <-]|H] X; [destruct X|]. now apply (E2 r rs).
            -- right. exists q', ps', (sk ++ (q, []) :: sk'), lo', hi'. rewrite Aq, E2, <- app_assoc. repeat split; auto.
               apply noFul_app; [exact D4|]. intros r rs x [[= <- <-]|H] X; [destruct X|]. now apply (E3 r rs).
          * right. exists q, (x :: ps), sk, lo, hi. repeat split; auto; [|discriminate].
            destruct f as [|f]; [lia|]. cbn [findLeaf]. rewrite D5. cbn [nodeSize orb].
            replace (size (x :: ps) <=? 0) with false by (unfold size; cbn [length]; symmetry; apply Z.leb_gt; lia). reflexivity.
        + assert (Z0 : noFul (leafList n' idx')) by now apply irrelevant_empty.
          destruct (IH true idx' p n' E' Re') as [[E1 E2]|(q' & ps' & sk' & lo' & hi' & E1 & E2 & E3 & E4 & E5 & E6)]; [lia|apply orb_true_r| |].
          * left. split; [exact E1|]. rewrite A. now apply noFul_app.
          * right. exists q', ps', (leafList n' idx' ++ sk'), lo', hi'. rewrite A, E2, <- app_assoc. repeat split; auto. now apply noFul_app.
      - left. split; [reflexivity|]. rewrite N. intros q ps x [].
    Qed.

    (** The first fulfilling particle from position [p] of the first leaf on. *)
    Fixpoint searchLeaves (ls : list (CellIdx * list P)) (p : Z) : option (CellIdx * Z * P) :=
      match ls with
      | [] => None
      | (q, ps) :: r => match firstFul fulfilling (skipn (Z.to_nat p) ps) p with Some (p', x) => Some (q, p', x) | None => searchLeaves r 0 end
      end.

    Lemma firstFul_none l p : (forall x, In x l -> fulfilling x = false) -> firstFul fulfilling l p = None.
    Proof. revert p. induction l as [|x l IH]; intros p H; [reflexivity|]. cbn. rewrite H by now left. apply IH. intros; apply H; now right. Qed.
    Lemma search_none ls : noFul ls -> searchLeaves ls 0 = None.
    Proof.
      induction ls as [|[q ps] ls IH]; intros H; [reflexivity|]. cbn [searchLeaves Z.to_nat skipn].
      rewrite firstFul_none by (intros x X; apply (H q ps); [now left|exact X]). apply IH. intros r rs x R X. apply (H r rs); [now right|exact X].
    Qed.
    Lemma search_skip a b : noFul a -> searchLeaves (a ++ b) 0 = searchLeaves b 0.
    Proof.
      induction a as [|[q ps] ls IH]; intros H; [reflexivity|]. cbn [searchLeaves app Z.to_nat skipn].
      rewrite firstFul_none by (intros x X; apply (H q ps); [now left|exact X]). apply IH. intros r rs x R X. apply (H r rs); [now right|exact X].
    Qed.
    Lemma search_hit q ps r p x : at_ ps p = Some x -> searchLeaves ((q, ps) :: r) p = if fulfilling x then Some (q, p, x) else searchLeaves ((q, ps) :: r) (p + 1).
    Proof.
      intros H. cbn [searchLeaves]. rewrite (skipn_at ps p x H). cbn [firstFul]. destruct (fulfilling x); reflexivity.
    Qed.
    Lemma search_past q ps r p : size ps <= p -> searchLeaves ((q, ps) :: r) p = searchLeaves r 0.
    Proof. intros H. cbn [searchLeaves]. rewrite skipn_all_Z by exact H. reflexivity. Qed.

    (** Particles that are left. *)
    Definition remaining (q : CellIdx) (ps : list P) (p : Z) : nat := (length (skipn (Z.to_nat p) ps) + length (concat (map snd (after q))))%nat.

    Hypothesis small : forall q ps, In (q, ps) visible -> size ps < sizeMax.

    Lemma incr_small p : 0 <= p < sizeMax -> incr p = p + 1.
    Proof. intros H. unfold incr. apply Z.mod_small. unfold sizeMax in H. lia. Qed.

    Lemma fuel_enough idx : nodeOf ts idx <> None -> reach idx -> (length (after idx) < treesFuel ts)%nat.
    Proof.
      intros E Re. destruct (nodeOf ts idx) as [n|] eqn:En; [|congruence]. destruct (node_split idx n En Re) as (before & S).
      unfold treesFuel. rewrite (countLeaves_list _ [0%nat] full1), (countLeaves_list _ [1%nat] full2).
      apply (f_equal (@length _)) in S. unfold visible in S. rewrite !app_length in S. destruct halo; cbn [length] in S; lia.
    Qed.

    Lemma reached_visible q lo hi ps : nodeOf ts q = Some (Leaf lo hi ps) -> reach q -> In (q, ps) visible.
    Proof.
      intros E Re. destruct (node_split q _ E Re) as (before & ->). apply in_or_app. right. now left.
    Qed.

    Lemma advance_spec fuel : forall idx p lo hi ps, nodeOf ts idx = Some (Leaf lo hi ps) -> reach idx -> 0 <= incr p ->
      (remaining idx ps (incr p) < fuel)%nat ->
      otAdvance behavior rel fulfilling fuel ts idx p = Some (searchLeaves ((idx, ps) :: after idx) (incr p)).
    Proof.
      induction fuel as [|f IH]; intros idx p lo hi ps E Re Hp Hf; [lia|]. cbn [otAdvance].
      assert (Fe : (length (after idx) < treesFuel ts)%nat) by (apply fuel_enough; congruence).
      destruct (Z.leb_spec (size ps) (incr p)) as [Hs|Hs].
      - destruct (find_spec (treesFuel ts) false idx (incr p) _ E Re Fe) as [[-> H2]|(q & qs & sk & l & h & -> & H2 & H3 & H4 & H5 & H6)].
        + cbn [nodeSize]. apply orb_true_intro. left. now apply Z.leb_le.
        + rewrite search_past, search_none; auto.
        + rewrite H5. destruct qs as [|x qs]; [congruence|]. cbn [at_ Z.ltb nth_error Z.to_nat].
          rewrite search_past by exact Hs. rewrite H2, search_skip by exact H3. rewrite (search_hit q (x :: qs) (after q) 0 x) by reflexivity.
          change (at_ (x :: qs) 0) with (Some x). cbv iota. destruct (fulfilling x); [reflexivity|].
          rewrite (IH q 0 l h (x :: qs) H5 H6); [reflexivity|vm_compute; discriminate|].
          unfold remaining in *. rewrite H2, map_app, concat_app, app_length in Hf. cbn [map concat snd] in Hf. rewrite app_length in Hf.
          change (Z.to_nat (incr 0)) with 1%nat. cbn [skipn length] in *. lia.
      - assert (F : findLeaf behavior rel (treesFuel ts) ts false idx (incr p) = Some (Some (idx, incr p))).
        { unfold treesFuel. cbn [findLeaf]. rewrite E. cbn [nodeSize orb]. destruct (Z.leb_spec (size ps) (incr p)); [lia|]. reflexivity. }
        rewrite F, E. destruct (at_lt ps (incr p)) as [x Hx]; [lia|]. rewrite Hx, (search_hit _ _ _ _ x Hx). destruct (fulfilling x); [reflexivity|].
        assert (Hm : size ps < sizeMax) by (apply (small idx ps), (reached_visible idx lo hi); assumption).
        rewrite (IH idx (incr p) lo hi ps E Re).
        + now rewrite (incr_small (incr p)) by lia.
        + rewrite (incr_small (incr p)) by lia. lia.
        + rewrite (incr_small (incr p)) by lia. unfold remaining in *. rewrite (skipn_at _ _ _ Hx) in Hf. cbn [length] in Hf. lia.
    Qed.
  End Two.
End Leaves.
