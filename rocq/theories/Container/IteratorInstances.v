(** Iteration over linked cells and direct sum containers. *)
From Verif.Base Require Import ZRange Lists.
From Verif.Grid Require Import IndexModel IndexSpec CellBlockModel.
From Verif.Container Require Import IteratorModel IteratorContainers IteratorSpec IteratorLemmas IteratorSearch IteratorSteps IteratorParallel.

Lemma flat_map_seq {A B} (f : list A -> list B) (l : list (list A)) :
  flat_map f l = flat_map (fun b => f (nth b l [])) (seq 0 (length l)).
Proof.
  rewrite !flat_map_concat_map. f_equal.
  assert (G : forall n (l' : list (list A)), (forall k, (k < length l')%nat -> nth (n + k) l [] = nth k l' []) ->
    map f l' = map (fun b => f (nth b l [])) (seq n (length l'))).
  { intros n l'. revert n. induction l' as [|a l' IH]; intros n H; [reflexivity|]. cbn [map length seq]. f_equal.
    - specialize (H O ltac:(cbn; lia)). rewrite Nat.add_0_r in H. now rewrite H.
    - apply IH. intros k Hk. specialize (H (S k) ltac:(cbn; lia)). now replace (S n + k)%nat with (n + S k)%nat by lia. }
  apply G. reflexivity.
Qed.

Lemma filter_app_ext {A} (f g : A -> bool) l : (forall x, In x l -> f x = g x) -> filter f l = filter g l.
Proof. intros H. now apply filter_ext_in. Qed.

Lemma filter_all {A} (f : A -> bool) l : (forall x, In x l -> f x = true) -> filter f l = l.
Proof.
  induction l as [|a l IH]; intros H; [reflexivity|]. cbn. rewrite (H a) by now left. f_equal. apply IH.
  intros; apply H; now right.
Qed.

Lemma filter_length_le {A} (f : A -> bool) l : (length (filter f l) <= length l)%nat.
Proof. induction l as [|a l IH]; cbn; [lia|]. destruct (f a); cbn; lia. Qed.

Section Instances.
  Context {P : Type}.
  Variable ownership : P -> Z.

  Definition goodBehavior (behavior : Z) : Prop := plainBehavior behavior \/ sequentialBehavior behavior.

  Lemma fulfills_wanted behavior o r : goodBehavior behavior -> validState o ->
    fulfills behavior r o = r && wantedb behavior o.
  Proof. destruct r; [|reflexivity]. intros [[->|[->|[->| ->]]]|[->|[->|[->| ->]]]] [->|[->| ->]]; reflexivity. Qed.

  Lemma gather_sub behavior nOwned (st : Store P) b : (nOwned <= length (buffers st))%nat ->
    In b (gather behavior nOwned st) -> (b < length (buffers st))%nat.
  Proof.
    intros Hn H. unfold gather in H. apply filter_In in H. destruct H as [H _]. apply in_app_or in H.
    destruct H as [H|H]; destruct (hasFlag _ _); try contradiction; apply in_seq in H; lia.
  Qed.

  Lemma gather_NoDup behavior nOwned (st : Store P) : NoDup (gather behavior nOwned st).
  Proof.
    unfold gather. apply NoDup_filter. apply NoDup_app_intro.
    - destruct (hasFlag _ _); [apply seq_NoDup|constructor].
    - destruct (hasFlag _ _); [apply seq_NoDup|constructor].
    - intros b H1 H2. destruct (hasFlag _ _); [|contradiction]. destruct (hasFlag _ _); [|contradiction].
      apply in_seq in H1, H2. lia.
  Qed.

  Lemma gather_contents behavior nOwned (st : Store P) (f : P -> bool) : goodBehavior behavior ->
    validBuffers ownership nOwned (buffers st) ->
    (forall x, validState (ownership x) -> f x = true -> wantedb behavior (ownership x) = true) ->
    Permutation (flat_map (fun b => filter f (nth b (buffers st) [])) (gather behavior nOwned st)) (filter f (concat (buffers st))).
  Proof.
    intros Hb (V1 & V2 & V3 & V4) Hf. rewrite filter_concat, flat_map_seq.
    rewrite (flat_map_filter _ (fun b => existsb (Nat.eqb b) (gather behavior nOwned st)) (seq 0 (length (buffers st)))).
    - apply perm_flat_map_list. apply NoDup_Permutation; [apply gather_NoDup|apply NoDup_filter, seq_NoDup|].
      intros b. rewrite filter_In, in_seq. split.
      + intros H. split; [pose proof (gather_sub behavior nOwned st b V1 H); lia|]. apply existsb_exists. exists b.
        split; [exact H|]. apply Nat.eqb_refl.
      + intros [_ H]. apply existsb_exists in H. destruct H as (b' & H & E). apply Nat.eqb_eq in E. now subst.
    - intros b Hb' Hk. apply in_seq in Hb'. apply filter_nil. intros x Hx. destruct (f x) eqn:F; [|reflexivity].
      exfalso. destruct (nth_error (buffers st) b) as [l|] eqn:El; [|apply nth_error_None in El; lia].
      rewrite (nth_error_nth _ _ [] El) in Hx. destruct (V4 b l x El Hx) as (W1 & W2 & W3).
      assert (Hin : In b (gather behavior nOwned st)).
      { unfold gather. apply filter_In. split.
        - specialize (Hf x W1 F). destruct (Nat.lt_ge_cases b nOwned) as [Hlt|Hge].
          + specialize (W2 Hlt). apply in_or_app. left.
            assert (hasFlag behavior bhOwned = true).
            { destruct Hb as [[->|[->|[->| ->]]]|[->|[->|[->| ->]]]]; try reflexivity;
              destruct W1 as [E|[E|E]]; rewrite E in *; try discriminate; now destruct W2. }
            rewrite H. apply in_seq. lia.
          + specialize (W3 Hge). apply in_or_app. right.
            assert (hasFlag behavior bhHalo = true).
            { destruct Hb as [[->|[->|[->| ->]]]|[->|[->|[->| ->]]]]; try reflexivity;
              destruct W1 as [E|[E|E]]; rewrite E in *; try discriminate; now destruct W3. }
            rewrite H. apply in_seq. lia.
        - rewrite El. destruct l; [destruct Hx|reflexivity]. }
      assert (E : existsb (Nat.eqb b) (gather behavior nOwned st) = true); [|congruence].
      apply existsb_exists. exists b. split; [exact Hin|apply Nat.eqb_refl].
  Qed.

  Lemma gather_good behavior nOwned (st : Store P) : validBuffers ownership nOwned (buffers st) ->
    goodVecs (buffers st) (gather behavior nOwned st).
  Proof.
    intros (V1 & V2 & V3 & V4). split; [|split; [|exact V3]].
    - assert (size (gather behavior nOwned st) <= size (buffers st)); [|lia].
      unfold size. apply inj_le. rewrite <- (seq_length (length (buffers st)) 0).
      apply NoDup_incl_length; [apply gather_NoDup|]. intros b Hb. apply in_seq. pose proof (gather_sub _ _ _ _ V1 Hb). lia.
    - intros b Hb. exact (gather_sub _ _ _ _ V1 Hb).
  Qed.

  Lemma iterate_by gatherNow (cf : Conf P) T behavior region decide st schedule :
    (0 < T)%nat -> goodBehavior behavior -> stride cf = Z.of_nat T -> 0 <= startCell cf -> goodCells cf (cells st) ->
    (forall x, In x (contents st) -> validState (ownership x)) ->
    goodVecs (buffers st) (gatherNow st) -> NoDup (gatherNow st) ->
    Permutation (flat_map (fun b => filter (ful cf) (nth b (buffers st) [])) (gatherNow st)) (filter (ful cf) (concat (buffers st))) ->
    (forall x, ful cf x = fulfills behavior (region x) (ownership x)) ->
    (forall m, marking cf = Some m -> forall x, ownership (m x) = 0) ->
    (gatherNow st <> [] \/ forall t seen x, decide t seen x = false) ->
    allowedSchedule decide T schedule \/ stableGather gatherNow ->
    iterationCorrectBy gatherNow ownership behavior T region (fun t => withThread cf t) (marking cf) decide st schedule.
  Proof.
    intros HT Hb Hs Hst Gc Hval Gv Gn Hgather Hful Hmark Hvs Hall.
    set (asked := fun x => region x && wantedb behavior (ownership x)).
    assert (Hask : forall x, validState (ownership x) -> ful cf x = asked x).
    { intros x Hx. rewrite Hful. unfold asked. now apply fulfills_wanted. }
    assert (G0 : goodStore cf st (gatherNow st)) by (split; [exact Gc|split; assumption]).
    destruct (parallel_iteration cf T HT Hs Hst decide gatherNow st G0 Hvs schedule Hall)
      as (st' & ths & E & L & Hsame & Hfin & Hvis & (ghosts & Hg & Hperm) & Hseen).
    assert (Hshare : Permutation (flat_map (share cf gatherNow st) (seq 0 T)) (filter asked (contents st))).
    { rewrite (shares cf T HT Hs Hst gatherNow st G0). unfold contents. rewrite filter_app.
      rewrite Hgather, <- filter_app. change (concat (cells st) ++ concat (buffers st)) with (contents st).
      rewrite <- filter_app. change (concat (cells st) ++ concat (buffers st)) with (contents st).
      rewrite (filter_ext_in (ful cf) asked); [reflexivity|]. intros x Hx. apply Hask. now apply Hval. }
    exists st', ths. split; [exact E|]. split; [|split; [|split; [exact Hsame|]]].
    - intros Hf. apply Hfin. intros t Ht. specialize (Hf t Ht).
      apply Permutation_length in Hshare. rewrite Hshare.
      pose proof (filter_length_le asked (contents st)). lia.
    - intros Hf. rewrite (Hvis Hf). exact Hshare.
    - destruct (marking cf) as [m|] eqn:Em.
      + split.
        { exists ghosts. split; [|exact Hperm]. apply Forall_forall. intros x Hx. destruct (Hg x Hx) as (m' & y & E1 & ->).
          injection E1 as <-. now exists y. }
        intros Hn7.
        assert (Hv' : forall x, In x (contents st') -> validState (ownership x)).
        { intros x Hx. assert (Hin : In x (ghosts ++ contents st)).
          { apply (Permutation_in _ (Permutation_sym Hperm)), in_or_app. now right. }
          apply in_app_or in Hin. destruct Hin as [Hin|Hin]; [|now apply Hval].
          destruct (Hg x Hin) as (m' & y & E1 & ->). left. injection E1 as <-. now apply Hmark. }
        assert (Hgn : filter asked ghosts = []).
        { apply filter_nil. intros x Hx. destruct (Hg x Hx) as (m' & y & E1 & ->). injection E1 as <-.
          unfold asked. rewrite Hmark by reflexivity.
          destruct Hb as [[->|[->|[->| ->]]]|[->|[->|[->| ->]]]]; try (now rewrite andb_false_r); now destruct Hn7. }
        assert (Hd : filter asked (deletedParticles decide T ths) = deletedParticles decide T ths).
        { apply filter_all. intros x Hx.
          assert (Hseen' : exists t, In x (visitedBy ths t)).
          { unfold deletedParticles in Hx. apply in_flat_map in Hx. destruct Hx as (t & _ & Hx). exists t.
            unfold deletedBy, chosen in Hx. revert Hx. generalize (@nil P), (visitedBy ths t). clear.
            intros before l; revert before. induction l as [|y l IH]; intros before Hx; [exact Hx|]. cbn [chosenFrom] in Hx.
            apply in_app_or in Hx. destruct Hx as [Hx|Hx]; [|right; now apply (IH (before ++ [y]))].
            destruct (decide _ _ _); [|destruct Hx]. destruct Hx as [->|[]]. now left. }
          destruct Hseen' as [t Ht]. specialize (Hseen t x Ht).
          assert (Hin : In x (ghosts ++ contents st)).
          { apply (Permutation_in _ (Permutation_sym Hperm)), in_or_app. now left. }
          rewrite <- Hask; [exact Hseen|]. apply in_app_or in Hin. destruct Hin as [Hin|Hin]; [|now apply Hval].
          destruct (Hg x Hin) as (m' & y & E1 & ->). left. injection E1 as <-. now apply Hmark. }
        apply (filter_perm asked) in Hperm. rewrite !filter_app, Hgn, Hd in Hperm. exact Hperm.
      + destruct ghosts as [|g gs]; [exact Hperm|]. destruct (Hg g) as (m & y & E1 & _); [now left|discriminate].
  Qed.

  Lemma iterate_general (cf : Conf P) T behavior nOwned region decide st schedule :
    (0 < T)%nat -> goodBehavior behavior -> stride cf = Z.of_nat T -> 0 <= startCell cf -> goodCells cf (cells st) ->
    (forall x, In x (concat (cells st)) -> validState (ownership x)) -> validBuffers ownership nOwned (buffers st) ->
    (forall x, ful cf x = fulfills behavior (region x) (ownership x)) ->
    (forall m, marking cf = Some m -> forall x, ownership (m x) = 0) ->
    (gather behavior nOwned st <> [] \/ forall t seen x, decide t seen x = false) ->
    allowedSchedule decide T schedule ->
    iterationCorrect ownership behavior nOwned T region (fun t => withThread cf t) (marking cf) decide st schedule.
  Proof.
    intros HT Hb Hs Hst Gc Hvc Vb Hful Hmark Hvs Hall.
    apply (iterate_by (gather behavior nOwned)); auto.
    - intros x Hx. unfold contents in Hx. apply in_app_or in Hx. destruct Hx as [Hx|Hx]; [now apply Hvc|].
      apply in_concat in Hx. destruct Hx as (l & Hl & Hx). apply In_nth_error in Hl. destruct Hl as [b El].
      destruct Vb as (_ & _ & _ & V4). now destruct (V4 b l x El Hx).
    - now apply gather_good.
    - apply gather_NoDup.
    - apply gather_contents; auto. intros x Hx F. rewrite Hful, fulfills_wanted in F by assumption. apply andb_prop in F. tauto.
  Qed.

  Lemma loop_good behavior numThreads T : loopThreads behavior numThreads T -> goodBehavior behavior.
  Proof. intros [_ [[H _]|[H _]]]; [now left|now right]. Qed.

  Lemma loop_stride behavior numThreads T : loopThreads behavior numThreads T -> itStride behavior numThreads = Z.of_nat T.
  Proof.
    intros [_ [[H ->]|[H ->]]]; unfold itStride.
    - destruct H as [->|[->|[->| ->]]]; reflexivity.
    - destruct H as [->|[->|[->| ->]]]; reflexivity.
  Qed.

  Lemma loop_thread behavior numThreads T t : loopThreads behavior numThreads T -> (t < T)%nat ->
    itThread behavior (Z.of_nat t) = Z.of_nat t.
  Proof.
    intros [_ [[H ->]|[H ->]]] Ht; unfold itThread.
    - destruct H as [->|[->|[->| ->]]]; reflexivity.
    - replace t with O by lia. destruct (hasFlag _ _); reflexivity.
  Qed.

  (** The configurations of the containers in the form used above. *)
  Lemma run_conf behavior numThreads T gatherNow (conf : Z -> Conf P) decide st schedule :
    loopThreads behavior numThreads T -> (forall t, conf t = withThread (conf 0) (itThread behavior t)) ->
    runParallel conf gatherNow decide schedule st (repeat NotStarted T) =
    runParallel (fun t => withThread (conf 0) t) gatherNow decide schedule st (repeat NotStarted T).
  Proof.
    intros HL Hc. assert (Hlen : length (repeat (@NotStarted P) T) = T) by apply repeat_length. revert Hlen.
    generalize (repeat (@NotStarted P) T). revert st. induction schedule as [|u r IH]; intros st1 l Hl; [reflexivity|].
    cbn [runParallel]. destruct (nth_error l u) as [th|] eqn:En; [|now apply IH].
    assert (Hu : (u < T)%nat) by (rewrite <- Hl; apply nth_error_Some; congruence).
    assert (Es : threadStep conf gatherNow decide u st1 th =
                 threadStep (fun t => withThread (conf 0) t) gatherNow decide u st1 th).
    { unfold threadStep. now rewrite (Hc (Z.of_nat u)), (loop_thread behavior numThreads T u HL Hu). }
    rewrite Es. destruct (threadStep (fun t => withThread (conf 0) t) gatherNow decide u st1 th) as [[st2 th2]|]; [|reflexivity].
    apply IH. now rewrite setAt_length.
  Qed.

  Lemma run_withThread_by gatherNow behavior numThreads T region (conf : Z -> Conf P) marks decide st schedule :
    loopThreads behavior numThreads T -> (forall t, conf t = withThread (conf 0) (itThread behavior t)) ->
    iterationCorrectBy gatherNow ownership behavior T region (fun t => withThread (conf 0) t) marks decide st schedule ->
    iterationCorrectBy gatherNow ownership behavior T region conf marks decide st schedule.
  Proof.
    intros HL Hc (st' & ths & E & R). exists st', ths. split; [|exact R]. rewrite <- E. now apply (run_conf behavior numThreads).
  Qed.

  Lemma run_withThread behavior numThreads nOwned T region (conf : Z -> Conf P) marks decide st schedule :
    loopThreads behavior numThreads T -> (forall t, conf t = withThread (conf 0) (itThread behavior t)) ->
    iterationCorrect ownership behavior nOwned T region (fun t => withThread (conf 0) t) marks decide st schedule ->
    iterationCorrect ownership behavior nOwned T region conf marks decide st schedule.
  Proof. apply run_withThread_by. Qed.

  (** ** Linked cells *)
  Section LC.
    Variable b : Block.
    Hypothesis Hh : 0 <= dHalo (bX b).
    Hypothesis Hd : 0 <= ix (blockDims b) /\ 0 <= iy (blockDims b).

    Lemma first_nonneg : 0 <= firstOwnedCellIndex b.
    Proof. unfold firstOwnedCellIndex. destruct Hd. repeat apply Z.add_nonneg_nonneg; repeat apply Z.mul_nonneg_nonneg; assumption. Qed.

    Lemma owned_range c : cellCanContainOwnedParticles b c = true -> firstOwnedCellIndex b <= c <= lastOwnedCellIndex b.
    Proof.
      unfold cellCanContainOwnedParticles, cellCanContainHaloParticles.
      destruct ((c <? firstOwnedCellIndex b) || (lastOwnedCellIndex b <? c)) eqn:E; [discriminate|]. lia.
    Qed.

    Lemma lc_relevant behavior c o : goodBehavior behavior -> validState o ->
      (o = 1 -> cellCanContainOwnedParticles b c = true) -> (o = 2 -> cellCanContainHaloParticles b c = true) ->
      wantedb behavior o = true -> lcRelevant behavior b c = true.
    Proof.
      intros Hb Ho H1 H2 Hw. unfold lcRelevant. unfold cellCanContainOwnedParticles in *.
      destruct Hb as [[->|[->|[->| ->]]]|[->|[->|[->| ->]]]]; destruct Ho as [->|[->| ->]]; try discriminate Hw;
        cbn [hasFlag bhOwned bhHalo Z.land Pos.land Z.of_N Z.eqb negb andb]; try specialize (H1 eq_refl); try specialize (H2 eq_refl);
        destruct (cellCanContainHaloParticles b c); try reflexivity; try discriminate.
    Qed.

    Lemma lc_good behavior T marks t st : goodBehavior behavior -> lcPlaced ownership b (cells st) -> cells st <> [] ->
      goodCells (lcConf ownership behavior T b (size (cells st)) marks t) (cells st).
    Proof.
      intros Hb (L1 & L2 & L3) Hne. pose proof first_nonneg as Hf.
      assert (Hs : 0 < size (cells st)) by (destruct (cells st); [congruence|unfold size; cbn [length]; lia]).
      split; [|split; [exact L2|]].
      - unfold lcConf. cbn [endCell lastCell]. destruct (hasFlag behavior bhHalo); [lia|]. unfold lastOwnedCellIndex. lia.
      - intros c l El. destruct (L3 c l El) as [S1 S2]. split; [exact S1|]. intros x Hx F.
        destruct (S2 x Hx) as (V & V1 & V2). unfold lcConf in F. cbn [ful] in F.
        rewrite (fulfills_wanted behavior _ true Hb V), andb_true_l in F.
        pose proof (lc_relevant behavior c _ Hb V V1 V2 F) as Hr. unfold lcConf. cbn [relevant startCell endCell].
        split; [exact Hr|]. apply at_some in El. destruct (hasFlag behavior bhHalo) eqn:Eh; [lia|].
        apply owned_range. apply V1.
        destruct Hb as [[->|[->|[->| ->]]]|[->|[->|[->| ->]]]]; try discriminate Eh; destruct V as [E|[E|E]]; rewrite E in F; try discriminate; exact E.
    Qed.

    Theorem lc_iterate behavior numThreads nOwned T marks decide st schedule :
      loopThreads behavior numThreads T -> lcPlaced ownership b (cells st) -> cells st <> [] ->
      validBuffers ownership nOwned (buffers st) -> (forall m, marks = Some m -> forall x, ownership (m x) = 0) ->
      (gather behavior nOwned st <> [] \/ forall t seen x, decide t seen x = false) ->
      allowedSchedule decide T schedule ->
      iterationCorrect ownership behavior nOwned T (fun _ => true)
        (lcConf ownership behavior numThreads b (size (cells st)) marks) marks decide st schedule.
    Proof.
      intros HL Hl Hne Vb Hm Hvs Hall. pose proof (proj1 HL) as HT. pose proof (loop_good _ _ _ HL) as Hb.
      pose proof (iterate_general (lcConf ownership behavior numThreads b (size (cells st)) marks 0) T behavior nOwned
        (fun _ => true) decide st schedule HT Hb) as H.
      apply (run_withThread behavior numThreads nOwned T (fun _ => true) (lcConf ownership behavior numThreads b (size (cells st)) marks)); auto.
      apply H; auto.
      - now apply loop_stride.
      - unfold lcConf. cbn [startCell]. destruct (hasFlag _ _); [lia|apply first_nonneg].
      - apply lc_good; auto.
      - intros x Hx. apply in_concat in Hx. destruct Hx as (l & Hin & Hx). apply In_nth_error in Hin. destruct Hin as [k Ek].
        destruct Hl as (_ & _ & L3). destruct (L3 (Z.of_nat k) l) as [_ S]; [|now destruct (S x Hx)].
        unfold at_. destruct (Z.ltb_spec (Z.of_nat k) 0); [lia|]. now rewrite Nat2Z.id.
    Qed.
  End LC.

  (** ** Direct sum *)
  Lemma ds_good behavior T t (f : P -> bool) st : goodBehavior behavior -> dsPlaced ownership (cells st) ->
    (forall x, validState (ownership x) -> f x = true -> wantedb behavior (ownership x) = true) ->
    goodCells (mkConf (fun _ => true) (dsStart behavior) (dsEnd behavior (size (cells st))) (size (cells st) - 1)
      (itStride behavior T) (itThread behavior t) f None) (cells st).
  Proof.
    intros Hb (L1 & L3) Hf. split; [|split].
    - cbn [endCell lastCell]. unfold dsEnd. destruct (hasFlag _ _); lia.
    - rewrite L1. reflexivity.
    - intros c l El. destruct (L3 c l El) as [S1 S2]. split; [exact S1|]. intros x Hx F. cbn [relevant startCell endCell ful] in *.
      split; [reflexivity|]. destruct (S2 x Hx) as (V & V1 & V2). specialize (Hf x V F). apply at_some in El. destruct El as [R _].
      rewrite L1 in *. unfold dsStart, dsEnd.
      destruct Hb as [[->|[->|[->| ->]]]|[->|[->|[->| ->]]]];
        destruct V as [E|[E|E]]; rewrite E in *; try discriminate; destruct (Z.eq_dec c 0); try lia;
        try (now destruct V1); try (now destruct V2);
        unfold hasFlag, bhHalo, bhOwned; cbn [Z.land Pos.land Z.of_N Z.eqb negb Pos.Nsucc_double Pos.Ndouble N.succ_double N.double]; lia.
  Qed.

  Theorem ds_iterate behavior numThreads nOwned T (region : P -> bool) (conf : Z -> Conf P) decide st schedule :
    (forall t, conf t = mkConf (fun _ => true) (dsStart behavior) (dsEnd behavior (size (cells st))) (size (cells st) - 1)
      (itStride behavior numThreads) (itThread behavior t) (fun x => fulfills behavior (region x) (ownership x)) None) ->
    loopThreads behavior numThreads T -> dsPlaced ownership (cells st) ->
    validBuffers ownership nOwned (buffers st) ->
    (gather behavior nOwned st <> [] \/ forall t seen x, decide t seen x = false) ->
    allowedSchedule decide T schedule ->
    iterationCorrect ownership behavior nOwned T region conf None decide st schedule.
  Proof.
    intros Hc HL Hl Vb Hvs Hall. pose proof (proj1 HL) as HT. pose proof (loop_good _ _ _ HL) as Hb.
    pose proof (iterate_general (conf 0) T behavior nOwned region decide st schedule HT Hb) as H.
    assert (Em : marking (conf 0) = None) by now rewrite Hc.
    apply (run_withThread behavior numThreads nOwned T region conf); auto.
    { intros t. rewrite (Hc t), (Hc 0). reflexivity. }
    rewrite <- Em. apply H; auto.
    - rewrite Hc. cbn [stride]. now apply loop_stride.
    - rewrite Hc. cbn [startCell]. unfold dsStart. destruct (hasFlag _ _); [destruct (hasFlag _ _)|]; lia.
    - rewrite Hc. apply ds_good; auto. intros x V F. rewrite (fulfills_wanted behavior) in F by auto.
      apply andb_prop in F. tauto.
    - intros x Hx. apply in_concat in Hx. destruct Hx as (l & Hin & Hx). apply In_nth_error in Hin. destruct Hin as [k Ek].
      destruct Hl as (_ & L3). destruct (L3 (Z.of_nat k) l) as [_ S]; [|now destruct (S x Hx)].
      unfold at_. destruct (Z.ltb_spec (Z.of_nat k) 0); [lia|]. now rewrite Nat2Z.id.
    - intros x. rewrite Hc. reflexivity.
    - rewrite Em. discriminate.
  Qed.
End Instances.
