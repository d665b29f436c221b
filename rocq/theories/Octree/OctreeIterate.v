(** Iteration over an octree is iteration over its leaves. *)
From Coq Require Import Reals Lra.
From Verif.Base Require Import ZRange Lists.
From Verif.Functor Require Import SortModel SortSpec.
From Verif.Grid Require Import CellBlockModel CellBlockSpec.
From Verif.Container Require Import IteratorModel IteratorContainers IteratorSpec IteratorLemmas IteratorSearch IteratorSteps IteratorParallel IteratorInstances IteratorRegion
  IteratorRestart IteratorGenericModel IteratorGeneric IteratorPadded.
From Verif.Cluster Require Import ClusterIterate.
From Verif.Octree Require Import DirectionModel OctreeModel OctreeSpec OctreeBase OctreeInsert OctreeTouch OctreeIteratorModel OctreeIterateSpec OctreeWalk OctreeNumbers.
Local Open Scope Z_scope.

Section Transfer.
  Context {P : Type}.
  Variable behavior numThreads : Z.
  Variable T : nat.
  Hypothesis HL : loopThreads behavior numThreads T.
  Variable rel : Tree P -> bool.
  Variable fulfilling : P -> bool.
  Variable Inv : Trees P -> Prop.
  Hypothesis Hgood : forall ts, Inv ts -> good rel fulfilling (fst ts) /\ good rel fulfilling (snd ts).
  Hypothesis Hkeep : forall ts ts', Inv ts -> changedTrees ts ts' -> Inv ts'.

  Variable ts0 : Trees P.
  Hypothesis F0 : fullTrees ts0.
  Hypothesis D0 : depthOk ts0.
  Hypothesis I0 : Inv ts0.
  Hypothesis small0 : forall q ps, In (q, ps) (allLeaves ts0) -> size ps < sizeMax.
  Hypothesis max0 : Z.of_nat T * Z.of_nat (length (allLeaves ts0)) < sizeMax.

  Notation first := (startLeaf behavior ts0).
  Notation past := (endLeaf behavior ts0).
  Notation cell i := (Z.of_nat T * Z.of_nat i).

  Definition flatConf (t : Z) : Conf P :=
    mkConf (fun _ => true) (cell first) (cell past - 1) (cell past - 1) (itStride behavior numThreads) (itThread behavior t) fulfilling None.
  Definition realConf (t : Z) : Conf P :=
    mkConf (fun _ => true) 0 0 0 (itStride behavior numThreads) (itThread behavior t) fulfilling None.
  Definition realAccess (t : Z) : Access P (Trees P) := mkAccess (otGetParticle behavior rel fulfilling t) otDelete.
  Definition flatCells (ts : Trees P) : list (list P) := pad T (map snd (allLeaves ts)).

  Lemma T_pos : (0 < T)%nat.
  Proof. exact (proj1 HL). Qed.
  Lemma stride_T : itStride behavior numThreads = Z.of_nat T.
  Proof. now apply (loop_stride behavior numThreads T). Qed.

  Lemma first_past : (first < past)%nat.
  Proof.
    assert (L : forall t idx, full t -> (0 < length (leafList (P := P) t idx))%nat).
    { intros t idx F. pose proof (full_nonempty t idx F). destruct (leafList t idx); [congruence|cbn; lia]. }
    destruct F0 as [F1 F2]. pose proof (L (fst ts0) [0%nat] F1). pose proof (L (snd ts0) [1%nat] F2).
    assert (Hb : hasFlag behavior bhOwned = true \/ hasFlag behavior bhHalo = true).
    { destruct (loop_good _ _ _ HL) as [[->|[->|[->| ->]]]|[->|[->|[->| ->]]]]; cbn; auto. }
    unfold startLeaf, endLeaf, allLeaves. rewrite app_length. destruct Hb as [-> | ->]; [destruct (hasFlag behavior bhHalo)|destruct (hasFlag behavior bhOwned)]; lia.
  Qed.
  Lemma past_all : (past <= length (allLeaves ts0))%nat.
  Proof. unfold endLeaf, allLeaves. rewrite app_length. destruct (hasFlag _ _); lia. Qed.

  Definition Rel (ts : Trees P) (cs : list (list P)) : Prop :=
    cs = flatCells ts /\ fullTrees ts /\ depthOk ts /\ Inv ts /\ map fst (allLeaves ts) = map fst (allLeaves ts0) /\
    length (leafList (fst ts) [0%nat]) = length (leafList (fst ts0) [0%nat]) /\
    (forall q ps, In (q, ps) (allLeaves ts) -> size ps < sizeMax).
  Definition AtLeaf (bound t k c p : Z) : Prop :=
    itThread behavior t = 0 /\ 0 <= t /\ exists i q, nth_error (map fst (allLeaves ts0)) i = Some q /\ (first <= i < past)%nat /\
      k = encode q /\ c = cell i /\ 0 <= p < bound.
  Definition AtP (t k c p : Z) : Prop := AtLeaf (sizeMax - 1) t k c p.
  Definition PosP (t k c p : Z) : Prop := (k = 0 /\ c = 0 /\ p = 0) \/ AtLeaf sizeMax t k c p.

  Lemma rel_len ts cs : Rel ts cs -> length (allLeaves ts) = length (allLeaves ts0) /\ startLeaf behavior ts = first /\ endLeaf behavior ts = past.
  Proof.
    intros (_ & _ & _ & _ & E & E1 & _). apply (f_equal (@length _)) in E. rewrite !map_length in E.
    split; [exact E|]. unfold startLeaf, endLeaf. now rewrite E, E1.
  Qed.

  Lemma start_same (cf : Conf P) cs : threadNum cf = 0 -> getParticle cf cs 0 0 = getParticle cf cs (startCell cf) 0.
  Proof.
    intros H. unfold getParticle. cbn [Z.eqb andb]. rewrite H, Z.add_0_r. destruct (Z.eqb_spec (startCell cf) 0) as [E|E]; reflexivity.
  Qed.

  Lemma get_sim' t a b i j p x j' p' : (t < T)%nat -> Rel a b -> PosP (Z.of_nat t) i j p ->
    acGet (flatAccess (flatConf (Z.of_nat t))) b j p = Some (x, j', p') ->
    exists i', acGet (realAccess (Z.of_nat t)) a i p = Some (x, i', p') /\
      match x with Some _ => AtP (Z.of_nat t) i' j' p' | None => i' = 0 /\ j' = 0 /\ p' = 0 end.
  Proof.
    intros Ht HR HP E. destruct (rel_len a b HR) as (Ln & Ls & Le). destruct HR as (-> & Fa & Da & Ia & Pa & Oa & Sa).
    cbn [flatAccess acGet realAccess] in *. destruct (Hgood a Ia) as [G1 G2]. pose proof first_past as FP. pose proof past_all as PA.
    assert (Hmax : size (pad T (map snd (allLeaves a))) < sizeMax).
    { unfold size. rewrite pad_length, map_length by exact T_pos. rewrite Ln. nia. }
    assert (Hsmall : forall l, In l (map snd (allLeaves a)) -> size l < sizeMax).
    { intros l L. apply in_map_iff in L. destruct L as ((q & ps) & <- & L). exact (Sa q ps L). }
    assert (Hn : (past <= length (map snd (allLeaves a)))%nat) by (rewrite map_length; lia).
    (* a result of the search *)
    assert (Fin : forall k r q0, (first <= k < past)%nat -> 0 <= q0 -> itThread behavior (Z.of_nat t) = 0 ->
      searchIdx fulfilling (skipn k (firstn past (map snd (allLeaves a)))) k q0 = r ->
      Some (x, j', p') = Some (match r with Some (j, q, x) => (Some x, cell j, q) | None => (None, 0, 0) end) ->
      exists i', Some (result a r) = Some (x, i', p') /\ match x with Some _ => AtP (Z.of_nat t) i' j' p' | None => i' = 0 /\ j' = 0 /\ p' = 0 end).
    { intros k r q0 Hk Hq Hth Er Ex. destruct r as [[[j1 q1] x1]|].
      - injection Ex as -> -> ->. apply searchIdx_some in Er; [|exact Hq]. destruct Er as (A & l & B & C & _).
        rewrite nth_error_skipn in B. replace (k + (j1 - k))%nat with j1 in B by lia.
        assert (Hj : (j1 < past)%nat).
        { assert (j1 < length (firstn past (map snd (allLeaves a))))%nat by (apply nth_error_Some; congruence). rewrite firstn_length in *. lia. }
        rewrite firstn_map, nth_error_map in B. destruct (nth_error (firstn past (allLeaves a)) j1) as [[q ps]|] eqn:Q; [|discriminate]. injection B as ->.
        assert (Q' : nth_error (allLeaves a) j1 = Some (q, l)).
        { rewrite <- (firstn_skipn past (allLeaves a)). rewrite nth_error_app1; [exact Q|]. apply nth_error_Some. congruence. }
        cbn [result]. rewrite Q'. eexists. split; [reflexivity|]. split; [exact Hth|]. split; [lia|]. exists j1, q.
        split; [rewrite <- Pa, nth_error_map, Q'; reflexivity|]. split; [lia|]. split; [reflexivity|]. split; [reflexivity|].
        apply at_some in C. pose proof (Sa q l ltac:(now apply nth_error_In in Q')). lia.
      - injection Ex as -> -> ->. exists 0. split; [reflexivity|]. auto. }
    assert (Ith := loop_thread behavior numThreads T t HL Ht).
    destruct HP as [(-> & -> & ->)|(Hth & Ht0 & k & q & Eq & Hk & -> & -> & Hp)].
    - destruct (Nat.eq_dec t 0) as [->|Nt].
      + rewrite (start_same (flatConf (Z.of_nat 0))) in E by exact Ith. cbn [flatConf startCell] in E. fold (flatConf (Z.of_nat 0)) in E.
        unfold flatCells in E. rewrite (get_pad T T_pos (map snd (allLeaves a)) (flatConf (Z.of_nat 0)) first past) in E; auto.
        * rewrite get_begin; auto; try lia. rewrite Ls, Le. apply (Fin first _ 0); auto; lia.
        * exact stride_T.
        * pose proof sizeMax_pos. lia.
        * intros [-> _]. reflexivity.
      + unfold flatCells in E. rewrite (get_pad_other T T_pos (map snd (allLeaves a)) (flatConf (Z.of_nat t)) first past Hn) with (u := t) in E; auto; try lia; [|exact stride_T].
        injection E as <- <- <-. rewrite get_other by lia. exists 0. auto.
    - unfold flatCells in E.
      assert (Eq' : exists ps, nth_error (allLeaves a) k = Some (q, ps)).
      { rewrite <- Pa, nth_error_map in Eq. destruct (nth_error (allLeaves a) k) as [[q' ps]|]; [|discriminate]. injection Eq as ->. eauto. }
      destruct Eq' as (ps & Eq').
      rewrite (get_pad T T_pos (map snd (allLeaves a)) (flatConf (Z.of_nat t)) first past) in E; auto; try lia; [|exact stride_T].
      rewrite (get_leaf behavior rel fulfilling a Fa Da G1 G2 Sa (Z.of_nat t) k q ps p); auto; [|lia].
      rewrite Le. apply (Fin k _ p); auto; lia.
  Qed.

  Lemma swapDelete_incl (l : list P) i : incl (swapDelete l i) l.
  Proof.
    destruct (nth_error l i) as [x|] eqn:E.
    - intros y Y. eapply Permutation_in; [symmetry; apply (swapDelete_perm l i x E)|]. now right.
    - unfold swapDelete. destruct (rev l) as [|b r] eqn:Er; [apply incl_refl|].
      assert (S : setAt l i b = l).
      { clear Er. revert i E. induction l as [|y l IH]; intros [|i] E; cbn in *; try reflexivity; [discriminate|]. now rewrite IH. }
      rewrite S. intros y Y. destruct l as [|z l]; [destruct Y|]. rewrite (app_removelast_last z) by discriminate. apply in_or_app. now left.
  Qed.
  Lemma swapDelete_size (l : list P) i : size (swapDelete l i) <= size l.
  Proof.
    unfold size, swapDelete. destruct (rev l) as [|b r]; [lia|]. rewrite <- (setAt_length l i b).
    generalize (setAt l i b). intros m. destruct m as [|z m]; [reflexivity|].
    assert (E : length (z :: m) = length (removelast (z :: m) ++ [last (z :: m) z])) by (rewrite <- app_removelast_last; [reflexivity|discriminate]).
    rewrite app_length in E. lia.
  Qed.

  Lemma delete_sim' t a b i j p b' now valid : (t < T)%nat -> Rel a b -> AtP (Z.of_nat t) i j p ->
    acDelete (flatAccess (flatConf (Z.of_nat t))) b j p = Some (b', now, valid) ->
    exists a', acDelete (realAccess (Z.of_nat t)) a i p = Some (a', now, valid) /\ Rel a' b'.
  Proof.
    intros Ht (-> & Fa & Da & Ia & Pa & Oa & Sa) (Hth & Ht0 & k & q & Eq & Hk & -> & -> & Hp) E.
    cbn [flatAccess acDelete realAccess flatCells] in *. unfold flatCells in E. rewrite pad_at in E by exact T_pos.
    assert (Eq' : exists ps, nth_error (allLeaves a) k = Some (q, ps)).
    { rewrite <- Pa, nth_error_map in Eq. destruct (nth_error (allLeaves a) k) as [[q' ps]|]; [|discriminate]. injection Eq as ->. eauto. }
    destruct Eq' as (ps & Eq'). rewrite nth_error_map, Eq' in E. cbn [option_map snd deleteFrom flatConf marking] in E. injection E as <- <- <-.
    destruct (number_leaf a k q ps Fa Da Eq') as (_ & Gl & Ch). unfold otDelete. rewrite Gl.
    destruct (Ch (swapDelete ps (Z.to_nat p)) (swapDelete_incl ps _)) as (a' & Ec & El & Ct & Lo). rewrite Ec.
    eexists. split; [reflexivity|].
    assert (Lk : (k < length (allLeaves a))%nat) by (apply nth_error_Some; congruence).
    assert (Fst : map fst (allLeaves a') = map fst (allLeaves a)).
    { rewrite El. destruct (setAt_split (allLeaves a) k (q, swapDelete ps (Z.to_nat p)) _ Eq') as [E1 E2]. rewrite E2. rewrite E1 at 3. rewrite !map_app. reflexivity. }
    split; [|split; [|split; [|split; [|split; [|split]]]]].
    - unfold flatCells. rewrite El. replace (Z.to_nat (cell k)) with (T * k)%nat by nia. rewrite pad_setAt by exact T_pos. f_equal.
      destruct (setAt_split (allLeaves a) k (q, swapDelete ps (Z.to_nat p)) _ Eq') as [E1 E2].
      assert (Em : nth_error (map snd (allLeaves a)) k = Some ps) by (rewrite nth_error_map, Eq'; reflexivity).
      destruct (setAt_split (map snd (allLeaves a)) k (swapDelete ps (Z.to_nat p)) _ Em) as [_ E3].
      rewrite E3, E2, map_app. cbn [map snd]. now rewrite firstn_map, skipn_map.
    - destruct Fa as [Fa1 Fa2]. destruct Ct as [[C1 C2]|[C1 C2]]; split.
      + now apply (changed_full (fst a)).
      + now rewrite C2.
      + now rewrite C1.
      + now apply (changed_full (snd a)).
    - intros r rs Hr. assert (In r (map fst (allLeaves a))) as Hm by (rewrite <- Fst; apply in_map_iff; now exists (r, rs)).
      apply in_map_iff in Hm. destruct Hm as ((r' & rs') & <- & Hm). now apply (Da r' rs').
    - now apply (Hkeep a).
    - congruence.
    - congruence.
    - intros r rs Hr. rewrite El in Hr. apply setAt_in in Hr. destruct Hr as [Hr|Hr]; [|now apply (Sa r)].
      injection Hr as -> ->. pose proof (swapDelete_size ps (Z.to_nat p)). pose proof (Sa q ps ltac:(now apply nth_error_In in Eq')). lia.
  Qed.

  Lemma at_next' t i j p : AtP t i j p -> PosP t i j (incr p) /\ PosP t i j p /\ incr (decr p) = p.
  Proof.
    intros (A & B & k & q & C & D & E & F & G). assert (S := sizeMax_pos). split; [|split].
    - right. split; [exact A|]. split; [exact B|]. exists k, q. rewrite incr_small by lia. repeat split; auto; lia.
    - right. split; [exact A|]. split; [exact B|]. exists k, q. repeat split; auto; lia.
    - apply incr_decr. unfold sizeMax in *. lia.
  Qed.

  Variable nOwned : nat.
  Notation gat := (gatherBuffers behavior nOwned).
  Definition flatStore (st : GStore P (Trees P)) : Store P := mkStore (flatCells (gContainer st)) (gBuffers st).

  Lemma flat_contents (st : GStore P (Trees P)) : fullTrees (gContainer st) -> contents (flatStore st) = otContents st.
  Proof.
    intros [F1 F2]. unfold contents, flatStore, flatCells, otContents. cbn [cells buffers]. rewrite pad_concat. unfold allLeaves.
    rewrite map_app, concat_app, (leafList_collect _ _ F1), (leafList_collect _ _ F2). now rewrite <- app_assoc.
  Qed.

  Theorem transfer decide schedule bufs st' ths' :
    runParallel flatConf (gather behavior nOwned) decide schedule (flatStore (mkGStore ts0 bufs)) (repeat NotStarted T) = Some (st', ths') ->
    exists st1 ths1, gRunParallel realAccess realConf gat decide schedule (mkGStore ts0 bufs) (repeat NotStarted T) = Some (st1, ths1) /\
      otContents st1 = contents st' /\ (Forall finished ths1 <-> Forall finished ths') /\
      (forall t, visitedBy ths1 t = visitedBy ths' t).
  Proof.
    intros E. change (flatStore (mkGStore ts0 bufs)) with (toFlat (mkGStore (flatCells ts0) bufs)) in E.
    change (gather behavior nOwned) with (fun st : Store P => gat (buffers st)) in E. rewrite <- flat_run in E.
    destruct (gRunParallel (fun t => flatAccess (flatConf t)) flatConf gat decide schedule (mkGStore (flatCells ts0) bufs) (repeat NotStarted T))
      as [[g2 ths2]|] eqn:G; [|discriminate]. injection E as <- <-.
    destruct (run_sim realAccess (fun t => flatAccess (flatConf t)) realConf flatConf (fun t => eq_refl) (fun t => eq_refl) (fun t => eq_refl) T Rel PosP AtP
      (fun t => or_introl (conj eq_refl (conj eq_refl eq_refl))) at_next' get_sim' delete_sim' gat decide schedule
      (mkGStore ts0 bufs) (mkGStore (flatCells ts0) bufs) (repeat NotStarted T) (repeat NotStarted T) g2 ths2) as (st1 & ths1 & R1 & (Rc & Rb) & (L1 & L2 & Th)).
    - split; [|reflexivity]. cbn [gContainer]. repeat split; auto; apply F0.
    - apply start_sim.
    - exact G.
    - exists st1, ths1. split; [exact R1|]. split; [|split].
      + destruct Rc as (Ec & Fc & _). rewrite <- (flat_contents st1 Fc). unfold contents, flatStore, toFlat. cbn [cells buffers]. now rewrite Ec, Rb.
      + rewrite !Forall_forall. split; intros H th Hth; apply In_nth_error in Hth; destruct Hth as [t Et].
        * destruct (nth_error ths1 t) as [th1|] eqn:E1; [|apply nth_error_None in E1; assert (t < length ths2)%nat by (apply nth_error_Some; congruence); lia].
          pose proof (Th t th1 th E1 Et) as S. specialize (H th1 ltac:(now apply nth_error_In in E1)).
          destruct th1, th; try contradiction. destruct S as (_ & _ & S & _). cbn in *. congruence.
        * destruct (nth_error ths2 t) as [th2|] eqn:E2; [|apply nth_error_None in E2; assert (t < length ths1)%nat by (apply nth_error_Some; congruence); lia].
          pose proof (Th t th th2 Et E2) as S. specialize (H th2 ltac:(now apply nth_error_In in E2)).
          destruct th2, th; try contradiction. destruct S as (_ & _ & S & _). cbn in *. congruence.
      + intros t. unfold visitedBy. destruct (nth_error ths1 t) as [th1|] eqn:E1.
        * destruct (nth_error ths2 t) as [th2|] eqn:E2; [|apply nth_error_None in E2; assert (t < length ths1)%nat by (apply nth_error_Some; congruence); lia].
          pose proof (Th t th1 th2 E1 E2) as S. destruct th2, th1; try contradiction; [reflexivity|]. now destruct S as (-> & _).
        * apply nth_error_None in E1. assert (E2 : nth_error ths2 t = None) by (apply nth_error_None; lia). now rewrite E2.
  Qed.

  Lemma nothing_deleted decide schedule : (forall t seen x, decide t seen x = false) -> forall (st : GStore P (Trees P)) ths st' ths',
    gRunParallel realAccess realConf gat decide schedule st ths = Some (st', ths') -> st' = st.
  Proof.
    intros H. induction schedule as [|t r IH]; intros st ths st' ths' E; cbn [gRunParallel] in E; [now injection E as -> _|].
    destruct (nth_error ths t) as [th|]; [|now apply IH in E].
    destruct (gThreadStep _ _ _ _ _ _ _) as [[s h]|] eqn:St; [|discriminate]. assert (s = st); [|subst s; now apply IH in E].
    unfold gThreadStep in St. destruct th as [|it seen].
    - destruct (gBegin _ _ _ _); [|discriminate]. now injection St as <- _.
    - destruct (current it); [|now injection St as <- _]. unfold gLoopStep in St. rewrite H in St.
      destruct (gNext _ _ _ _); [|discriminate]. now injection St as <- _.
  Qed.

  Lemma visited_same (ths1 ths2 : list (Thread P)) : (forall t, visitedBy ths1 t = visitedBy ths2 t) -> visited T ths1 = visited T ths2.
  Proof. intros H. unfold visited. now apply flat_map_ext. Qed.
  Lemma deleted_same decide (ths1 ths2 : list (Thread P)) : (forall t, visitedBy ths1 t = visitedBy ths2 t) -> deletedParticles decide T ths1 = deletedParticles decide T ths2.
  Proof. intros H. unfold deletedParticles, deletedBy. apply flat_map_ext. intros t. now rewrite H. Qed.

  (** ** The theorems for the cells *)
  Variable ownership : P -> Z.
  Variable region : P -> bool.
  Hypothesis Hful : forall x, fulfilling x = fulfills behavior (region x) (ownership x).
  Hypothesis Pl0 : otPlaced ownership ts0.

  Lemma flat_good : goodCells (flatConf 0) (flatCells ts0).
  Proof.
    pose proof T_pos as TP. pose proof past_all as PA. pose proof first_past as FP. destruct F0 as [F1 F2]. destruct Pl0 as [P1 P2].
    assert (Hsz : size (flatCells ts0) = cell (length (allLeaves ts0))) by (unfold size, flatCells; rewrite pad_length, map_length by exact TP; nia).
    split; [|split].
    - cbn [flatConf endCell lastCell]. rewrite Hsz. nia.
    - rewrite Hsz. exact max0.
    - intros c l E. apply at_some in E. destruct E as [Hc E]. unfold flatCells in E.
      assert (Hdiv := Nat.div_mod (Z.to_nat c) T ltac:(lia)). set (i := (Z.to_nat c / T)%nat) in *. assert (Hu := Nat.mod_upper_bound (Z.to_nat c) T ltac:(lia)).
      set (u := (Z.to_nat c mod T)%nat) in *. rewrite Hdiv in E. destruct (Nat.eq_dec u 0) as [U|U].
      + rewrite U, Nat.add_0_r, pad_nth, nth_error_map in E by exact TP. destruct (nth_error (allLeaves ts0) i) as [[q ps]|] eqn:Ei; [|discriminate]. injection E as ->.
        split; [apply (small0 q); now apply nth_error_In in Ei|]. intros x X Fx. cbn [flatConf ful relevant startCell endCell] in *. split; [reflexivity|].
        assert (Hi : (first <= i < past)%nat).
        { rewrite Hful in Fx. unfold allLeaves in Ei. destruct (Nat.lt_ge_cases i (length (leafList (fst ts0) [0%nat]))) as [K|K].
          - rewrite nth_error_app1 in Ei by exact K.
            assert (Ic : In x (collectAllParticles (fst ts0))).
            { rewrite <- (leafList_collect _ [0%nat] F1). apply in_concat. exists l. split; [|exact X]. apply in_map_iff. exists (q, l). split; [reflexivity|now apply nth_error_In in Ei]. }
            destruct (P1 x Ic) as [V N2]. rewrite fulfills_wanted in Fx by (now apply (loop_good _ numThreads T) || assumption). apply andb_prop in Fx. destruct Fx as [_ Fx].
            unfold startLeaf, endLeaf, allLeaves. rewrite app_length. destruct (hasFlag behavior bhOwned) eqn:O; [repeat match goal with |- context [if ?b then _ else _] => destruct b end; lia|]. exfalso.
            destruct (loop_good _ _ _ HL) as [[->|[->|[->| ->]]]|[->|[->|[->| ->]]]]; try discriminate O; unfold wantedb in Fx; cbn in Fx; lia.
          - rewrite nth_error_app2 in Ei by exact K.
            assert (Ic : In x (collectAllParticles (snd ts0))).
            { rewrite <- (leafList_collect _ [1%nat] F2). apply in_concat. exists l. split; [|exact X]. apply in_map_iff. exists (q, l). split; [reflexivity|now apply nth_error_In in Ei]. }
            destruct (P2 x Ic) as [V N2]. rewrite fulfills_wanted in Fx by (now apply (loop_good _ numThreads T) || assumption). apply andb_prop in Fx. destruct Fx as [_ Fx].
            assert (i - length (leafList (fst ts0) [0%nat]) < length (leafList (snd ts0) [1%nat]))%nat by (apply nth_error_Some; congruence).
            unfold startLeaf, endLeaf, allLeaves. rewrite app_length. destruct (hasFlag behavior bhHalo) eqn:O; [repeat match goal with |- context [if ?b then _ else _] => destruct b end; lia|]. exfalso.
            destruct (loop_good _ _ _ HL) as [[->|[->|[->| ->]]]|[->|[->|[->| ->]]]]; try discriminate O; unfold wantedb in Fx; cbn in Fx; lia. }
        assert (c = cell i) by nia. nia.
      + apply pad_gap in E; [|exact TP|lia]. subst l. split; [reflexivity|]. intros x [].
  Qed.

  Lemma flat_valid bufs : validBuffers ownership nOwned bufs -> forall x, In x (contents (flatStore (mkGStore ts0 bufs))) -> validState (ownership x).
  Proof.
    intros Vb x Hx. rewrite flat_contents in Hx by exact F0. unfold otContents in Hx. cbn [gContainer gBuffers] in Hx. destruct Pl0 as [P1 P2].
    apply in_app_or in Hx. destruct Hx as [Hx|Hx]; [now apply P1|]. apply in_app_or in Hx. destruct Hx as [Hx|Hx]; [now apply P2|].
    apply in_concat in Hx. destruct Hx as (l & Hl & Hx). apply In_nth_error in Hl. destruct Hl as [b El]. destruct Vb as (_ & _ & _ & V4). now destruct (V4 b l x El Hx).
  Qed.

  Lemma flat_run_conf decide schedule st : runParallel flatConf (gather behavior nOwned) decide schedule st (repeat NotStarted T) =
    runParallel (fun t => withThread (flatConf 0) t) (gather behavior nOwned) decide schedule st (repeat NotStarted T).
  Proof. apply (run_conf behavior numThreads); auto. Qed.

  Theorem ot_iterate decide bufs schedule : validBuffers ownership nOwned bufs ->
    (gat bufs <> [] \/ forall t seen x, decide t seen x = false) -> allowedSchedule decide T schedule ->
    otIterationCorrect ownership behavior nOwned T region realAccess realConf decide (mkGStore ts0 bufs) schedule.
  Proof.
    intros Vb Hg Ha.
    assert (R : iterationCorrect ownership behavior nOwned T region (fun t => withThread (flatConf 0) t) None decide (flatStore (mkGStore ts0 bufs)) schedule).
    { change (@None (P -> P)) with (marking (flatConf 0)). apply (iterate_by ownership (gather behavior nOwned)); auto.
      - exact T_pos.
      - now apply (loop_good _ numThreads T).
      - exact stride_T.
      - cbn. lia.
      - exact flat_good.
      - now apply flat_valid.
      - now apply (gather_good ownership).
      - apply gather_NoDup.
      - apply (gather_contents ownership); auto; [now apply (loop_good _ numThreads T)|]. intros x Hx F. cbn [flatConf ful] in F.
        rewrite Hful, fulfills_wanted in F by (assumption || now apply (loop_good _ numThreads T)). apply andb_prop in F. tauto.
      - discriminate. }
    destruct R as (st' & ths & E & R1 & R2 & _ & R4). rewrite <- flat_run_conf in E. apply transfer in E. destruct E as (st1 & ths1 & E & C & Fi & V).
    exists st1, ths1. cbv zeta. split; [exact E|]. rewrite <- (flat_contents (mkGStore ts0 bufs) F0), C, (visited_same _ _ V), (deleted_same _ _ _ V), Fi.
    split; [exact R1|]. split; [exact R2|]. split; [|exact R4]. intros H. now apply (nothing_deleted decide schedule H) in E.
  Qed.

  Theorem ot_restart d bufs schedule : validBuffers ownership nOwned bufs -> gat bufs = [] ->
    otIterationOrRestart ownership behavior nOwned T region realAccess realConf d (mkGStore ts0 bufs) schedule.
  Proof.
    intros Vb Hg. assert (Hb := loop_good _ _ _ HL).
    assert (R : iterationOrRestart ownership behavior nOwned T region (fun t => withThread (flatConf 0) t) None d (flatStore (mkGStore ts0 bufs)) schedule).
    { change (@None (P -> P)) with (marking (flatConf 0)). apply (restart_by ownership (gather behavior nOwned)); auto.
      - exact T_pos.
      - exact stride_T.
      - cbn. lia.
      - exact flat_good.
      - now apply flat_valid.
      - now destruct Vb as (_ & _ & V & _).
      - assert (Q : Permutation [] (filter (ful (flatConf 0)) (concat bufs))).
        { rewrite <- (gather_contents ownership behavior nOwned (flatStore (mkGStore ts0 bufs)) (ful (flatConf 0)) Hb Vb).
          - change (gather behavior nOwned (flatStore (mkGStore ts0 bufs))) with (gat bufs). now rewrite Hg.
          - intros x Hx F. cbn [flatConf ful] in F. rewrite Hful, fulfills_wanted in F by assumption. apply andb_prop in F. tauto. }
        now apply Permutation_nil in Q.
      - discriminate.
      - intros s Es. apply (gather_empty behavior nOwned (flatStore (mkGStore ts0 bufs)) s Es). exact Hg. }
    destruct R as (st' & ths & E & R1 & R2). rewrite <- flat_run_conf in E. apply transfer in E. destruct E as (st1 & ths1 & E & C & Fi & V).
    exists st1, ths1. cbv zeta. split; [exact E|]. rewrite <- (flat_contents (mkGStore ts0 bufs) F0), C, (visited_same _ _ V), Fi.
    split; [exact R1|]. exact R2.
  Qed.
End Transfer.
