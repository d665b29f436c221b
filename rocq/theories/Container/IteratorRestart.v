(** Deletion while iterating if all buffers are empty: a thread that deletes the
    last particle it visits starts again and visits the survivors a second time. *)
From Verif.Base Require Import ZRange Lists.
From Verif.Grid Require Import IndexModel IndexSpec CellBlockModel.
From Verif.Container Require Import IteratorModel IteratorContainers IteratorSpec IteratorLemmas IteratorSearch IteratorSteps IteratorParallel IteratorInstances.

Section Restart.
  Context {P : Type}.
  Variable cf : Conf P.
  Variable T : nat.
  Hypothesis HT : (0 < T)%nat.
  Hypothesis Hstride : stride cf = Z.of_nat T.
  Hypothesis Hstart : 0 <= startCell cf.
  Variable d : P -> bool.
  Variable gatherNow : Store P -> list nat.
  Variable st0 : Store P.
  Hypothesis Hgather : forall st, buffers st = buffers st0 -> gatherNow st = [].
  Hypothesis G0 : goodStore cf st0 [].
  Hypothesis Hmark : forall m, marking cf = Some m -> forall x, ful cf (m x) = false.

  Let decide : Z -> list P -> P -> bool := fun _ _ x => d x.
  Let nov : Store P -> list nat := fun _ => [].
  Let cft (t : nat) := withThread cf (Z.of_nat t).
  Let keep (x : P) := negb (d x).
  Let all (st : Store P) (t : nat) : list P := share cf nov st t.

  Lemma all_steps st t : goodStore cf st [] ->
    all st t = flat_map (matches cf (cells st)) (zsteps (startCell cf + Z.of_nat t) (endCell cf + 1) (stride cf)).
  Proof.
    intros ((G1 & G2 & G3) & _ & _). pose proof (spos cf T HT Hstride) as Hsp.
    unfold all, share, pendingAt, vecsAll, nov. rewrite vrest_no_vectors, app_nil_r.
    unfold rest. cbn [withThread ful endCell stride].
    destruct (Z.ltb_spec (startCell cf + Z.of_nat t) (endCell cf + 1)).
    - rewrite (zsteps_cons (startCell cf + Z.of_nat t) (endCell cf + 1)) by assumption. reflexivity.
    - rewrite !zsteps_nil by lia. cbn [flat_map]. rewrite app_nil_r. apply filter_nil.
      intros x Hx. cbn [Z.to_nat skipn] in Hx. unfold cellAt in Hx.
      destruct (at_ (cells st) (startCell cf + Z.of_nat t)) as [l|] eqn:El; [|destruct Hx].
      destruct (ful cf x) eqn:F; [|reflexivity]. destruct (G3 _ _ El) as [_ Gx]. destruct (Gx x Hx F). lia.
  Qed.

  Lemma step_own t c : In c (zsteps (startCell cf + Z.of_nat t) (endCell cf + 1) (stride cf)) <->
    own cf (startCell cf + Z.of_nat t) c /\ c <= endCell cf.
  Proof.
    pose proof (spos cf T HT Hstride) as Hsp. rewrite in_zsteps by assumption. unfold own. split; intros H; repeat split; lia || tauto.
  Qed.

  Lemma all_other st st' x t t' : (t < T)%nat -> (t' < T)%nat -> t <> t' -> goodStore cf st [] ->
    deleted (cft t) [] x st st' -> all st' t' = all st t'.
  Proof.
    intros H1 H2 Hn G Hd. rewrite !all_steps; [|exact G|exact (deleted_good (cft t) st st' [] x G Hd)].
    rewrite !flat_map_concat_map. f_equal. apply map_ext_in. intros c Hc. apply step_own in Hc. unfold matches, cellAt.
    now rewrite (own_cells cf T HT Hstride decide nov st0 t t' st st' x c H1 H2 Hn Hd (proj1 Hc)).
  Qed.

  Lemma all_own st st' x t : goodStore cf st [] -> ful cf x = true -> deleted (cft t) [] x st st' ->
    Permutation (all st t) (x :: all st' t).
  Proof.
    intros G F Hd. rewrite !all_steps; [|exact (deleted_good (cft t) st st' [] x G Hd)|exact G].
    pose proof (spos cf T HT Hstride) as Hsp.
    destruct Hd as [c l l' Ho Hr Hrel E Hs Hm|v b l l' Ho A E Hp]; [|apply at_some in A; unfold size in A; cbn in A; lia].
    cbn [cells]. assert (Hin : In c (zsteps (startCell cf + Z.of_nat t) (endCell cf + 1) (stride cf))).
    { apply step_own. split; [exact Ho|]. cbn [cft withThread endCell] in Hr. lia. }
    pose proof (NoDup_zsteps (startCell cf + Z.of_nat t) (endCell cf + 1) (stride cf) ltac:(lia)) as Nd.
    apply in_split in Hin. destruct Hin as (a & e & Hsplit). rewrite Hsplit in *. clear Hsplit.
    rewrite !flat_map_app. cbn [flat_map].
    pose proof (at_some _ _ _ E) as [Hcr _].
    assert (Hne : forall L, (forall k, In k L -> k <> c) -> flat_map (matches cf (setAt (cells st) (Z.to_nat c) l')) L =
      flat_map (matches cf (cells st)) L).
    { intros L HL. rewrite !flat_map_concat_map. f_equal. apply map_ext_in. intros k Hk. unfold matches, cellAt.
      rewrite (at_setAt_other cf) by (try lia; now apply HL). reflexivity. }
    apply NoDup_remove_2 in Nd. rewrite !Hne.
    2: { intros k Hk ->. apply Nd, in_or_app. now right. }
    2: { intros k Hk ->. apply Nd, in_or_app. now left. }
    assert (Hmat : Permutation (matches cf (cells st) c) (x :: matches cf (setAt (cells st) (Z.to_nat c) l') c)).
    { unfold matches, cellAt. rewrite E, (at_setAt_same cf) by lia. cbn [cft withThread marking] in Hm.
      destruct (marking cf) as [m|] eqn:Em.
      - apply (filter_perm (ful cf)) in Hm. cbn [filter] in Hm. rewrite (Hmark m eq_refl), F in Hm. exact Hm.
      - apply (filter_perm (ful cf)) in Hm. cbn [filter] in Hm. now rewrite F in Hm. }
    rewrite Hmat. cbn [app]. symmetry. apply Permutation_middle.
  Qed.

  Definition restartThread (st : Store P) (t : nat) (th : Thread P) : Prop :=
    match th with
    | NotStarted => all st t = all st0 t
    | Running it seen => vectors it = [] /\ goodIter (cft t) st it /\
        ((Permutation (seen ++ pending (cft t) st it) (all st0 t) /\
          Permutation (all st t) (filter keep seen ++ pending (cft t) st it)) \/
         (exists again, Permutation seen (all st0 t ++ again) /\
            Permutation (again ++ pending (cft t) st it) (filter keep (all st0 t))))
    end.
  Definition restarts (st : Store P) (ths : list (Thread P)) : Prop :=
    length ths = T /\ goodStore cf st [] /\ buffers st = buffers st0 /\
    (forall t th, nth_error ths t = Some th -> restartThread st t th) /\
    (exists ghosts, (forall g, In g ghosts -> exists m y, marking cf = Some m /\ g = m y) /\
       Permutation (ghosts ++ contents st0) (deletedParticles decide T ths ++ contents st)).

  Lemma current_pending st t it x : goodStore cf st (vectors it) -> goodIter (cft t) st it -> current it = Some x -> ful cf x = true.
  Proof.
    intros _ Gi Ec. unfold goodIter in Gi. rewrite Ec in Gi. destruct (inVectors it).
    - destruct Gi as (b & _ & _ & _ & F & _). exact F.
    - destruct Gi as (l & _ & _ & F & _). exact F.
  Qed.

  Lemma step_restarts st ths t th : restarts st ths -> nth_error ths t = Some th ->
    exists st' th', threadStep (fun t => withThread cf t) gatherNow decide t st th = Some (st', th') /\
      restarts st' (setAt ths t th') /\
      (finished th' \/ progress (setAt ths t th') t = S (progress ths t)).
  Proof.
    intros (Hl & G & Hbuf & Ht & Hc) En.
    assert (HtT : (t < T)%nat) by (rewrite <- Hl; apply nth_error_Some; congruence).
    pose proof (spos cf T HT Hstride) as Hsp.
    pose proof (Ht t th En) as Hth. destruct th as [|it seen].
    - cbn [restartThread] in Hth.
      destruct (begin_spec (cft t) Hsp Hstart ltac:(cbn; lia) st [] G) as (it & Eb & Gi & Ev & Ep).
      exists st, (Running it []). cbn [threadStep]. rewrite (Hgather st Hbuf). unfold cft in Eb. rewrite Eb. split; [reflexivity|].
      assert (Epe : pending (cft t) st it = all st t) by (rewrite Ep; reflexivity).
      split; [|right; unfold progress; rewrite setAt_same, En by lia; reflexivity].
      split; [now rewrite setAt_length|]. split; [exact G|]. split; [exact Hbuf|]. split.
      + intros t' th' E'. destruct (Nat.eq_dec t t') as [<-|Hn].
        * rewrite setAt_same in E' by lia. injection E' as <-. cbn [restartThread]. split; [exact Ev|].
          split; [exact Gi|]. left. cbn [app filter]. rewrite Epe, Hth. auto.
        * rewrite setAt_other in E' by exact Hn. now apply Ht.
      + destruct Hc as (gh & Hg & Hperm). exists gh. split; [exact Hg|]. rewrite Hperm. apply Permutation_app_tail.
        replace (deletedParticles decide T (setAt ths t (Running it []))) with (deletedParticles decide T ths); [reflexivity|].
        unfold deletedParticles. rewrite !flat_map_concat_map. f_equal. apply map_ext. intros t'.
        unfold deletedBy, visitedBy. destruct (Nat.eq_dec t t') as [<-|Hn].
        -- rewrite setAt_same, En by lia. reflexivity.
        -- now rewrite setAt_other by exact Hn.
    - destruct Hth as (Ev & Gi & Hp). unfold threadStep. destruct (current it) as [x|] eqn:Ec.
      + pose proof G as G1. rewrite <- Ev in G1.
        pose proof (current_pending st t it x G1 Gi Ec) as Fx.
        destruct (loopStep_general (cft t) Hsp Hstart ltac:(cbn; lia) st it x (d x))
          as (st' & it' & El & G' & Gi' & Ev' & Ha & Hd); auto.
        unfold decide at 1. unfold cft in El. rewrite El. exists st', (Running it' (seen ++ [x])). split; [reflexivity|].
        rewrite Ev in Hd, Ha. rewrite Ev', Ev in G'.
        assert (Hcontents : exists ghosts, (forall g, In g ghosts -> exists m y, marking cf = Some m /\ g = m y) /\
          Permutation (ghosts ++ contents st) ((if d x then [x] else []) ++ contents st')).
        { destruct (d x).
          - exact (deleted_contents cf nov st0 t st st' x Hd).
          - exists []. split; [intros g []|]. subst st'. reflexivity. }
        assert (Hbuf' : buffers st' = buffers st).
        { destruct (d x); [|now subst]. destruct Hd as [|v b l l' Ho A E' Hp']; [reflexivity|]. apply at_some in A. unfold size in A; cbn in A; lia. }
        split; [|right; unfold progress; rewrite setAt_same, En by lia; rewrite app_length; cbn; lia].
        split; [now rewrite setAt_length|]. split; [exact G'|]. split; [congruence|]. split.
        * intros t' th' E'. destruct (Nat.eq_dec t t') as [<-|Hn].
          -- rewrite setAt_same in E' by lia. injection E' as <-. cbn [restartThread]. split; [congruence|].
             split; [exact Gi'|].
             assert (Hall : Permutation (all st t) ((if d x then [x] else []) ++ all st' t)).
             { destruct (d x); [now apply all_own|]. now subst st'. }
             destruct Hp as [[Hp1 Hp2]|(again & Hp1 & Hp2)].
             ++ assert (Hp3 : forall rest_, Permutation (pending (cft t) st it) (x :: rest_) ->
                   Permutation (all st' t) (filter keep (seen ++ [x]) ++ rest_)).
                { intros rest_ Hr. rewrite Hall, Hr in Hp2. rewrite filter_app. cbn [filter]. unfold keep at 2.
                  destruct (d x); cbn [negb app] in *.
                  - rewrite app_nil_r. apply Permutation_cons_inv with x. rewrite Hp2. symmetry. apply Permutation_middle.
                  - rewrite Hp2, <- app_assoc. reflexivity. }
                destruct Ha as [Ha|(_ & Ha & Hr)].
                ** left. split; [|now apply Hp3]. rewrite <- app_assoc. cbn [app]. now rewrite <- Ha.
                ** right. exists []. cbn [app]. rewrite app_nil_r.
                   assert (Hseen : Permutation (seen ++ [x]) (all st0 t)) by (rewrite <- Hp1; now rewrite Ha).
                   split; [exact Hseen|]. rewrite Hr. change (pendingAt (cft t) st' [] false (startCell (cft t) + threadNum (cft t)) 0) with (all st' t).
                   rewrite (Hp3 [] Ha), app_nil_r. now apply filter_perm.
             ++ assert (Hdx : d x = false).
                { assert (Hin : In x (filter keep (all st0 t))).
                  { apply (Permutation_in _ Hp2), in_or_app. right. destruct Ha as [Ha|(_ & Ha & _)].
                    - apply (Permutation_in _ (Permutation_sym Ha)). now left.
                    - apply (Permutation_in _ (Permutation_sym Ha)). now left. }
                  apply filter_In in Hin. destruct Hin as [_ Hk]. unfold keep in Hk. now destruct (d x). }
                rewrite Hdx in *. subst st'.
                destruct (next_spec (cft t) Hsp Hstart ltac:(cbn; lia) st it x G1 Gi Ec) as (it2 & E2 & _ & _ & Ep2).
                unfold cft, loopStep in El. unfold cft in E2. rewrite E2 in El. injection El as <-.
                right. exists (again ++ [x]). split.
                ** rewrite app_assoc. now apply Permutation_app_tail.
                ** rewrite <- app_assoc. cbn [app]. rewrite <- Hp2, Ep2. reflexivity.
          -- rewrite setAt_other in E' by exact Hn. specialize (Ht t' th' E').
             assert (Ht' : (t' < T)%nat) by (rewrite <- Hl; apply nth_error_Some; congruence).
             destruct (d x); [|now subst st'].
             pose proof (all_other st st' x t t' HtT Ht' Hn G Hd) as Hao.
             destruct th' as [|it1 seen1].
             ++ cbn [restartThread] in *. congruence.
             ++ destruct Ht as (Ev1 & Gi1 & Hp1). cbn [restartThread]. split; [exact Ev1|].
                destruct (pending_frame cf T HT Hstride Hstart decide nov st0 t t' st st' x it1 HtT Ht' Hn (NoDup_nil _) Ev1 Hd Gi1) as [Q1 Q2].
                unfold cft. rewrite Q2, Hao. split; [exact Q1|exact Hp1].
        * destruct Hc as (gh & Hg & Hperm). destruct Hcontents as (gh' & Hg' & Hperm').
          exists (gh' ++ gh). split; [intros g Hin; apply in_app_or in Hin; destruct Hin; auto|].
          assert (Hdel : Permutation (deletedParticles decide T (setAt ths t (Running it' (seen ++ [x]))))
            (deletedParticles decide T ths ++ (if d x then [x] else []))).
          { unfold deletedParticles. apply perm_flat_map_update with (t := t).
            - apply seq_NoDup.
            - apply in_seq. lia.
            - intros t' _ Hn. unfold deletedBy, visitedBy. now rewrite setAt_other by congruence.
            - unfold deletedBy, visitedBy. rewrite setAt_same, En by lia. unfold chosen.
              rewrite chosenFrom_snoc. reflexivity. }
          rewrite Hdel, <- app_assoc, Hperm, <- (app_assoc (deletedParticles decide T ths)), <- Hperm'.
          rewrite !app_assoc. apply Permutation_app_tail, Permutation_app_comm.
      + exists st, (Running it seen). split; [reflexivity|]. rewrite (setAt_id ths t _ En).
        split; [|left; exact Ec].
        split; [exact Hl|]. split; [exact G|]. split; [exact Hbuf|]. split; [exact Ht|exact Hc].
  Qed.

  Lemma finished_stays_r t : forall sch st ths st' ths' th, restarts st ths ->
    nth_error ths t = Some th -> finished th ->
    runParallel (fun t => withThread cf t) gatherNow decide sch st ths = Some (st', ths') ->
    exists th', nth_error ths' t = Some th' /\ finished th'.
  Proof.
    induction sch as [|u sch IH]; intros st ths st' ths' th R E F Er.
    - cbn in Er. injection Er as <- <-. eauto.
    - cbn [runParallel] in Er. destruct (nth_error ths u) as [thu|] eqn:Eu; [|eapply IH; eauto].
      destruct (step_restarts st ths u thu R Eu) as (st2 & th2 & E2 & R2 & _). rewrite E2 in Er.
      destruct (Nat.eq_dec u t) as [->|Hne].
      + rewrite E in Eu. injection Eu as <-. destruct th as [|it seen]; [destruct F|].
        unfold threadStep in E2. unfold finished in F. rewrite F in E2. injection E2 as <- <-.
        eapply (IH st _ st' ths' (Running it seen) R2); [|exact F|exact Er].
        apply setAt_same, nth_error_Some. congruence.
      + eapply (IH st2 _ st' ths' th R2); [|exact F|exact Er]. rewrite setAt_other by exact Hne. exact E.
  Qed.

  Lemma run_restarts : forall schedule st ths, restarts st ths ->
    exists st' ths', runParallel (fun t => withThread cf t) gatherNow decide schedule st ths = Some (st', ths') /\
      restarts st' ths' /\
      forall t, (t < T)%nat -> (exists th, nth_error ths' t = Some th /\ finished th) \/
        progress ths' t = (progress ths t + count_occ Nat.eq_dec schedule t)%nat.
  Proof.
    induction schedule as [|t r IH]; intros st ths R.
    - exists st, ths. split; [reflexivity|]. split; [exact R|]. intros t _. right. cbn. lia.
    - cbn [runParallel]. destruct (nth_error ths t) as [th|] eqn:En.
      + destruct (step_restarts st ths t th R En) as (st1 & th1 & E1 & R1 & F1). rewrite E1.
        destruct (IH st1 (setAt ths t th1) R1) as (st' & ths' & E' & R' & F').
        exists st', ths'. split; [exact E'|]. split; [exact R'|].
        assert (HtT : (t < T)%nat) by (destruct R as (Hl & _); rewrite <- Hl; apply nth_error_Some; congruence).
        intros t' Ht'. destruct (F' t' Ht') as [Hf|Hn]; [now left|]. cbn [count_occ].
        destruct (Nat.eq_dec t t') as [<-|Hne].
        * destruct F1 as [F1|F1]; [|right; lia]. left.
          eapply (finished_stays_r t r st1 _ st' ths' th1 R1); [|exact F1|exact E'].
          apply setAt_same. destruct R as (Hl & _). lia.
        * right. rewrite Hn. unfold progress. rewrite setAt_other by exact Hne. reflexivity.
      + destruct (IH st ths R) as (st' & ths' & E' & R' & F'). exists st', ths'.
        split; [exact E'|]. split; [exact R'|].
        intros t' Ht'. destruct (F' t' Ht') as [Hf|Hn]; [now left|]. right. cbn [count_occ].
        destruct (Nat.eq_dec t t') as [<-|]; [|exact Hn].
        destruct R as (Hl & _). apply nth_error_None in En. lia.
  Qed.

  Lemma chosen_pure : forall seen before, chosenFrom (decide 0) before seen = filter d seen.
  Proof. induction seen as [|x l IH]; intros before; [reflexivity|]. cbn [chosenFrom filter]. rewrite IH. unfold decide. now destruct (d x). Qed.

  Lemma filter_filter_not l : filter d (filter keep l) = [].
  Proof. apply filter_nil. intros x Hx. apply filter_In in Hx. destruct Hx as [_ Hx]. unfold keep in Hx. now destruct (d x). Qed.

  Lemma filter_flat_map {A B} (f : B -> bool) (g : A -> list B) l : filter f (flat_map g l) = flat_map (fun a => filter f (g a)) l.
  Proof. induction l as [|a l IH]; [reflexivity|]. cbn. now rewrite filter_app, IH. Qed.

  (** Every thread visits its particles once, and possibly the survivors again. *)
  Theorem restart_iteration schedule :
    exists st' ths', runParallel (fun t => withThread cf t) gatherNow decide schedule st0 (repeat NotStarted T) = Some (st', ths') /\
      buffers st' = buffers st0 /\
      ((forall t, (t < T)%nat -> (2 * length (filter (ful cf) (concat (cells st0))) + 1 < count_occ Nat.eq_dec schedule t)%nat) -> Forall finished ths') /\
      (Forall finished ths' ->
        (exists again, Permutation (visited T ths') (filter (ful cf) (concat (cells st0)) ++ again) /\
           exists never, Permutation (again ++ never) (filter keep (filter (ful cf) (concat (cells st0))))) /\
        exists ghosts, (forall g, In g ghosts -> exists m y, marking cf = Some m /\ g = m y) /\
         Permutation (ghosts ++ contents st0) (filter d (filter (ful cf) (concat (cells st0))) ++ contents st')).
  Proof.
    destruct (run_restarts schedule st0 (repeat NotStarted T)) as (st' & ths' & E' & R' & F').
    { split; [apply repeat_length|]. split; [exact G0|]. split; [reflexivity|]. split.
      - intros t th E. apply nth_error_In, repeat_spec in E. subst th. reflexivity.
      - exists []. split; [intros g []|]. cbn [app].
        replace (deletedParticles decide T (repeat NotStarted T)) with (@nil P); [reflexivity|].
        symmetry. unfold deletedParticles. generalize (seq 0 T). induction l as [|a l IH]; [reflexivity|]. cbn [flat_map]. rewrite IH, app_nil_r.
        unfold deletedBy, visitedBy. destruct (nth_error (repeat NotStarted T) a) as [th|] eqn:E; [|reflexivity].
        apply nth_error_In, repeat_spec in E. now subst th. }
    exists st', ths'. split; [exact E'|]. destruct R' as (L' & G' & B' & T' & C'). split; [exact B'|].
    assert (Hshares : Permutation (flat_map (all st0) (seq 0 T)) (filter (ful cf) (concat (cells st0)))).
    { unfold all. rewrite (shares cf T HT Hstride Hstart nov st0 G0). unfold nov. cbn [flat_map]. rewrite app_nil_r. reflexivity. }
    assert (Hle : forall t, (t < T)%nat -> (length (all st0 t) <= length (filter (ful cf) (concat (cells st0))))%nat).
    { intros t Ht. rewrite <- (Permutation_length Hshares). assert (Hin : In t (seq 0 T)) by (apply in_seq; lia).
      revert Hin. generalize (seq 0 T). induction l as [|a l IH]; intros Hin; [destruct Hin|]. cbn [flat_map]. rewrite app_length.
      destruct Hin as [->|Hin]; [lia|]. specialize (IH Hin). lia. }
    split.
    - intros Hcnt. apply Forall_forall. intros th Hin. apply In_nth_error in Hin. destruct Hin as [t En].
      assert (Ht : (t < T)%nat) by (rewrite <- L'; apply nth_error_Some; congruence).
      destruct (F' t Ht) as [(th' & En' & Hf)|Hn]; [congruence|exfalso].
      specialize (Hcnt t Ht). specialize (T' t th En). unfold progress in Hn. rewrite En, nth_error_repeat in Hn by exact Ht.
      pose proof (Hle t Ht). destruct th as [|it seen]; [lia|]. destruct T' as (_ & _ & Hp).
      destruct Hp as [[Hp _]|(again & Hp1 & Hp2)].
      + apply Permutation_length in Hp. rewrite app_length in Hp. lia.
      + apply Permutation_length in Hp1, Hp2. rewrite app_length in Hp1, Hp2.
        pose proof (filter_length_le keep (all st0 t)). lia.
    - intros Hf. rewrite Forall_forall in Hf.
      assert (H : forall t, In t (seq 0 T) -> exists again never,
        Permutation (visitedBy ths' t) (all st0 t ++ again) /\ Permutation (again ++ never) (filter keep (all st0 t))).
      { intros t Ht. apply in_seq in Ht. destruct (nth_error ths' t) as [th|] eqn:En; [|apply nth_error_None in En; lia].
        specialize (T' t th En). specialize (Hf th (nth_error_In _ _ En)). unfold visitedBy. rewrite En.
        destruct th as [|it seen]; [destruct Hf|]. destruct T' as (_ & _ & Hp). cbn in Hf. unfold pending in Hp. rewrite Hf in Hp.
        rewrite app_nil_r in Hp. destruct Hp as [[Hp _]|(again & Hp1 & Hp2)].
        - exists [], (filter keep (all st0 t)). rewrite app_nil_r. auto.
        - exists again, []. auto. }
      assert (H2 : exists again never, Permutation (visited T ths') (flat_map (all st0) (seq 0 T) ++ again) /\
          Permutation (again ++ never) (filter keep (flat_map (all st0) (seq 0 T)))).
      { unfold visited. revert H. generalize (seq 0 T). induction l as [|t l IH]; intros H; [exists [], []; split; reflexivity|].
        destruct (H t) as (a1 & n1 & P1 & Q1); [now left|]. destruct IH as (a2 & n2 & P2 & Q2); [intros; apply H; now right|].
        exists (a1 ++ a2), (n1 ++ n2). cbn [flat_map]. rewrite filter_app. split.
        - rewrite P1, P2. rewrite <- !app_assoc. apply Permutation_app_head. rewrite !app_assoc. apply Permutation_app_tail, Permutation_app_comm.
        - rewrite <- Q1, <- Q2. rewrite <- !app_assoc. apply Permutation_app_head. rewrite !app_assoc. apply Permutation_app_tail, Permutation_app_comm. }
      destruct H2 as (again & never & P1 & Q1). split.
      + exists again. split; [rewrite P1; now apply Permutation_app_tail|]. exists never. rewrite Q1. exact (filter_perm keep _ _ Hshares).
      + destruct C' as (gh & Hg & Hperm). exists gh. split; [exact Hg|]. rewrite Hperm. apply Permutation_app_tail.
        assert (Hd : deletedParticles decide T ths' = filter d (visited T ths')).
        { unfold deletedParticles, visited. rewrite filter_flat_map. rewrite !flat_map_concat_map. f_equal. apply map_ext. intros t.
          unfold deletedBy, chosen. apply chosen_pure. }
        rewrite Hd, (filter_perm d _ _ P1), filter_app, (filter_perm d _ _ Hshares).
        replace (filter d again) with (@nil P); [now rewrite app_nil_r|]. symmetry. apply filter_nil. intros x Hx.
        assert (Hk : In x (filter keep (flat_map (all st0) (seq 0 T)))) by (apply (Permutation_in _ Q1), in_or_app; now left).
        apply filter_In in Hk. destruct Hk as [_ Hk]. unfold keep in Hk. now destruct (d x).
  Qed.
End Restart.

Section Instances.
  Context {P : Type}.
  Variable ownership : P -> Z.

  Lemma gather_empty behavior nOwned (st st' : Store P) : buffers st' = buffers st ->
    gather behavior nOwned st = [] -> gather behavior nOwned st' = [].
  Proof. intros E. unfold gather. now rewrite E. Qed.

  Lemma restart_by gatherNow (cf : Conf P) T behavior region d st schedule :
    (0 < T)%nat -> goodBehavior behavior -> stride cf = Z.of_nat T -> 0 <= startCell cf -> goodCells cf (cells st) ->
    (forall x, In x (contents st) -> validState (ownership x)) ->
    (forall l, In l (buffers st) -> size l < sizeMax) ->
    filter (ful cf) (concat (buffers st)) = [] ->
    (forall x, ful cf x = fulfills behavior (region x) (ownership x)) ->
    (forall m, marking cf = Some m -> (behavior <> 7 /\ behavior <> 15) /\ forall x, ownership (m x) = 0) ->
    (forall st', buffers st' = buffers st -> gatherNow st' = []) ->
    iterationOrRestartBy gatherNow ownership behavior T region (fun t => withThread cf t) (marking cf) d st schedule.
  Proof.
    intros HT Hb Hs Hst Gc Hval Hbuf0 Hnb Hful Hmark Hvs.
    set (asked := fun x => region x && wantedb behavior (ownership x)).
    assert (Hask : forall x, validState (ownership x) -> ful cf x = asked x).
    { intros x Hx. rewrite Hful. unfold asked. now apply fulfills_wanted. }
    assert (Hm0 : forall m, marking cf = Some m -> forall x, asked (m x) = false /\ ful cf (m x) = false).
    { intros m Em x. destruct (Hmark m Em) as [(N7 & N15) H0]. assert (Ea : asked (m x) = false).
      { unfold asked. rewrite H0. destruct Hb as [[->|[->|[->| ->]]]|[->|[->|[->| ->]]]]; try (now rewrite andb_false_r); congruence. }
      split; [exact Ea|]. rewrite Hask; [exact Ea|]. left. apply H0. }
    assert (G0 : goodStore cf st []).
    { split; [exact Gc|]. split; [|constructor]. split; [reflexivity|]. split; [intros b []|exact Hbuf0]. }
    assert (Hall : filter (ful cf) (concat (cells st)) = filter asked (contents st)).
    { rewrite <- (app_nil_r (filter (ful cf) (concat (cells st)))), <- Hnb, <- filter_app.
      apply filter_ext_in. intros x Hx. apply Hask. now apply Hval. }
    destruct (restart_iteration cf T HT Hs Hst d gatherNow st) with (schedule := schedule)
      as (st' & ths & E & Hbuf & Hfin & Hres).
    { exact Hvs. }
    { exact G0. }
    { intros m Em x. now apply (Hm0 m Em). }
    exists st', ths. split; [exact E|]. rewrite Hall in *. split.
    - intros Hf. apply Hfin. intros t Ht. specialize (Hf t Ht). pose proof (filter_length_le asked (contents st)). lia.
    - intros Hf. destruct (Hres Hf) as ((again & P1 & never & Q1) & (gh & Hg & Hperm)). split.
      + exists again, never. split; assumption.
      + destruct (marking cf) as [m|] eqn:Em.
        * split.
          { exists gh. split; [|exact Hperm]. apply Forall_forall. intros x Hx. destruct (Hg x Hx) as (m' & y & E1 & ->).
            injection E1 as <-. now exists y. }
          apply (filter_perm asked) in Hperm. rewrite !filter_app in Hperm.
          replace (filter asked gh) with (@nil P) in Hperm.
          2: { symmetry. apply filter_nil. intros g Hgin. destruct (Hg g Hgin) as (m' & y & E1 & ->). injection E1 as <-. now apply Hm0. }
          replace (filter asked (filter d (filter asked (contents st)))) with (filter d (filter asked (contents st))) in Hperm; [exact Hperm|].
          symmetry. apply filter_all. intros x Hx. apply filter_In in Hx. destruct Hx as [Hx _]. apply filter_In in Hx. tauto.
        * destruct gh as [|g gs]; [exact Hperm|]. destruct (Hg g) as (m & y & E1 & _); [now left|discriminate].
  Qed.

  Lemma restart_general (cf : Conf P) T behavior nOwned region d st schedule :
    (0 < T)%nat -> goodBehavior behavior -> stride cf = Z.of_nat T -> 0 <= startCell cf -> goodCells cf (cells st) ->
    (forall x, In x (concat (cells st)) -> validState (ownership x)) -> validBuffers ownership nOwned (buffers st) ->
    (forall x, ful cf x = fulfills behavior (region x) (ownership x)) ->
    (forall m, marking cf = Some m -> (behavior <> 7 /\ behavior <> 15) /\ forall x, ownership (m x) = 0) ->
    gather behavior nOwned st = [] ->
    iterationOrRestart ownership behavior nOwned T region (fun t => withThread cf t) (marking cf) d st schedule.
  Proof.
    intros HT Hb Hs Hst Gc Hvc Vb Hful Hmark Hvs.
    apply (restart_by (gather behavior nOwned)); auto.
    - intros x Hx. unfold contents in Hx. apply in_app_or in Hx. destruct Hx as [Hx|Hx]; [now apply Hvc|].
      apply in_concat in Hx. destruct Hx as (l & Hl & Hx). apply In_nth_error in Hl. destruct Hl as [b El].
      destruct Vb as (_ & _ & _ & V4). now destruct (V4 b l x El Hx).
    - now destruct Vb as (_ & _ & V3 & _).
    - pose proof (gather_contents ownership behavior nOwned st (ful cf) Hb Vb) as H. rewrite Hvs in H.
      assert (Hq : Permutation [] (filter (ful cf) (concat (buffers st)))).
      { apply H. intros x Hx F. rewrite Hful, (fulfills_wanted behavior) in F by assumption. apply andb_prop in F. tauto. }
      now apply Permutation_nil in Hq.
    - intros st1 E1. now apply (gather_empty behavior nOwned st).
  Qed.

  Theorem lc_restart (b : Block) behavior numThreads nOwned T marks d st schedule :
    0 <= dHalo (bX b) -> 0 <= ix (blockDims b) /\ 0 <= iy (blockDims b) ->
    loopThreads behavior numThreads T -> lcPlaced ownership b (cells st) -> cells st <> [] ->
    validBuffers ownership nOwned (buffers st) ->
    (forall m, marks = Some m -> (behavior <> 7 /\ behavior <> 15) /\ forall x, ownership (m x) = 0) ->
    gather behavior nOwned st = [] ->
    iterationOrRestart ownership behavior nOwned T (fun _ => true)
      (lcConf ownership behavior numThreads b (size (cells st)) marks) marks d st schedule.
  Proof.
    intros Hh Hd HL Hl Hne Vb Hm Hvs. pose proof (proj1 HL) as HT. pose proof (loop_good _ _ _ HL) as Hb.
    pose proof (restart_general (lcConf ownership behavior numThreads b (size (cells st)) marks 0) T behavior nOwned
      (fun _ => true) d st schedule HT Hb) as H.
    assert (R : iterationOrRestart ownership behavior nOwned T (fun _ => true)
      (fun t => withThread (lcConf ownership behavior numThreads b (size (cells st)) marks 0) t) marks d st schedule).
    { apply H; auto.
      - now apply loop_stride.
      - unfold lcConf. cbn [startCell]. destruct (hasFlag _ _); [lia|now apply first_nonneg].
      - apply lc_good; auto.
      - intros x Hx. apply in_concat in Hx. destruct Hx as (l & Hin & Hx). apply In_nth_error in Hin. destruct Hin as [k Ek].
        destruct Hl as (_ & _ & L3). destruct (L3 (Z.of_nat k) l) as [_ S]; [|now destruct (S x Hx)].
        unfold at_. destruct (Z.ltb_spec (Z.of_nat k) 0); [lia|]. now rewrite Nat2Z.id. }
    destruct R as (st' & ths & E & R). exists st', ths. split; [|exact R]. rewrite <- E.
    apply (run_conf behavior numThreads T (gather behavior nOwned) (lcConf ownership behavior numThreads b (size (cells st)) marks)); auto.
  Qed.

  Theorem ds_restart behavior numThreads nOwned T (region : P -> bool) (conf : Z -> Conf P) d st schedule :
    (forall t, conf t = mkConf (fun _ => true) (dsStart behavior) (dsEnd behavior (size (cells st))) (size (cells st) - 1)
      (itStride behavior numThreads) (itThread behavior t) (fun x => fulfills behavior (region x) (ownership x)) None) ->
    loopThreads behavior numThreads T -> dsPlaced ownership (cells st) ->
    validBuffers ownership nOwned (buffers st) -> gather behavior nOwned st = [] ->
    iterationOrRestart ownership behavior nOwned T region conf None d st schedule.
  Proof.
    intros Hc HL Hl Vb Hvs. pose proof (proj1 HL) as HT. pose proof (loop_good _ _ _ HL) as Hb.
    pose proof (restart_general (conf 0) T behavior nOwned region d st schedule HT Hb) as H.
    assert (Em : marking (conf 0) = None) by now rewrite Hc. rewrite Em in H.
    assert (R : iterationOrRestart ownership behavior nOwned T region (fun t => withThread (conf 0) t) None d st schedule).
    { apply H; auto.
      - rewrite Hc. cbn [stride]. now apply loop_stride.
      - rewrite Hc. cbn [startCell]. unfold dsStart. destruct (hasFlag _ _); [destruct (hasFlag _ _)|]; lia.
      - rewrite Hc. apply (ds_good ownership); auto. intros x V F. rewrite (fulfills_wanted behavior) in F by auto.
        apply andb_prop in F. tauto.
      - intros x Hx. apply in_concat in Hx. destruct Hx as (l & Hin & Hx). apply In_nth_error in Hin. destruct Hin as [k Ek].
        destruct Hl as (_ & L3). destruct (L3 (Z.of_nat k) l) as [_ S]; [|now destruct (S x Hx)].
        unfold at_. destruct (Z.ltb_spec (Z.of_nat k) 0); [lia|]. now rewrite Nat2Z.id.
      - intros x. rewrite Hc. reflexivity.
      - discriminate. }
    destruct R as (st' & ths & E & R). exists st', ths. split; [|exact R]. rewrite <- E.
    apply (run_conf behavior numThreads T (gather behavior nOwned) conf); auto.
    intros t. rewrite (Hc t), (Hc 0). reflexivity.
  Qed.
End Instances.
