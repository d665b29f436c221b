(** Runs of iterators over containers that behave alike. *)
From Verif.Base Require Import ZRange.
From Verif.Container Require Import IteratorModel IteratorLemmas IteratorGenericModel.

(** ** [IteratorModel] is an instance *)
Section Flat.
  Context {P : Type}.
  Definition toFlat (st : GStore P (list (list P))) : Store P := mkStore (gContainer st) (gBuffers st).

  Lemma flat_fetch (cf : Conf P) st it : gFetch (flatAccess cf) cf st it = fetch cf (toFlat st) it.
  Proof.
    unfold gFetch, fetch, gFetchVectors, fetchVectors, toFlat. cbn [flatAccess acGet buffers cells].
    destruct (inVectors it); [reflexivity|]. destruct (getParticle _ _ _ _) as [[[[x|] c] p]|]; reflexivity.
  Qed.
  Lemma flat_next (cf : Conf P) st it : gNext (flatAccess cf) cf st it = next cf (toFlat st) it.
  Proof. apply flat_fetch. Qed.

  Lemma flat_delete (cf : Conf P) st it :
    match gDeleteCurrent (flatAccess cf) cf st it with Some (st', it') => Some (toFlat st', it') | None => None end = deleteCurrent cf (toFlat st) it.
  Proof.
    unfold gDeleteCurrent, deleteCurrent. destruct (current it) as [x|]; [|reflexivity]. cbn [toFlat cells buffers flatAccess acDelete].
    destruct (inVectors it) eqn:V.
    - destruct (at_ _ _) as [b|]; [|reflexivity]. destruct (nth_error (gBuffers st) b) as [l|]; [|reflexivity]. cbv zeta.
      rewrite flat_next. unfold toFlat. cbn [gContainer gBuffers]. destruct (_ || _); [|reflexivity]. destruct (next _ _ _); reflexivity.
    - destruct (at_ (gContainer st) (vecIdx it)) as [l|]; [|reflexivity]. destruct (deleteFrom _ _ _) as [l' valid]. cbv zeta.
      rewrite flat_next. unfold toFlat. cbn [gContainer gBuffers].
      destruct (nth_error l' _) as [y|]; [destruct valid|]; try (destruct (ful cf y)); try reflexivity; destruct (next _ _ _); reflexivity.
  Qed.

  Lemma flat_run (conf : Z -> Conf P) (gatherNow : list (list P) -> list nat) decide schedule st ths :
    match gRunParallel (fun t => flatAccess (conf t)) conf gatherNow decide schedule st ths with
    | Some (st', ths') => Some (toFlat st', ths') | None => None
    end = runParallel conf (fun st => gatherNow (buffers st)) decide schedule (toFlat st) ths.
  Proof.
    revert st ths. induction schedule as [|t r IH]; intros st ths; [reflexivity|]. cbn [gRunParallel runParallel].
    destruct (nth_error ths t) as [th|]; [|apply IH].
    assert (E : match gThreadStep (fun t => flatAccess (conf t)) conf gatherNow decide t st th with
                | Some (st', th') => Some (toFlat st', th') | None => None end =
                threadStep conf (fun st => gatherNow (buffers st)) decide t (toFlat st) th).
    { unfold gThreadStep, threadStep, gBegin, begin_. destruct th as [|it seen].
      - rewrite flat_fetch. cbn [toFlat buffers]. destruct (fetch _ _ _); reflexivity.
      - destruct (current it) as [x|]; [|reflexivity]. unfold gLoopStep, loopStep. destruct (decide _ _ _).
        + rewrite <- flat_delete. destruct (gDeleteCurrent _ _ _ _) as [[st' it']|]; [|reflexivity]. rewrite flat_next.
          destruct (next _ _ _); reflexivity.
        + rewrite flat_next. destruct (next _ _ _); reflexivity. }
    rewrite <- E. destruct (gThreadStep _ _ _ _ _ _ _) as [[st' th']|]; [apply IH|reflexivity].
  Qed.
End Flat.

(** ** Simulation *)
Section Simulation.
  Context {P C1 C2 : Type}.
  Variables (ac1 : Z -> Access P C1) (ac2 : Z -> Access P C2) (cf1 cf2 : Z -> Conf P).
  Hypothesis Hful : forall t, ful (cf1 t) = ful (cf2 t).
  Hypothesis Hstride : forall t, stride (cf1 t) = stride (cf2 t).
  Hypothesis Hthread : forall t, threadNum (cf1 t) = threadNum (cf2 t).
  Variable T : nat.

  (** Containers that correspond, indices from which a thread searches, and indices of
      particles that were found. *)
  Variable R : C1 -> C2 -> Prop.
  Variable Pos At : Z -> Z -> Z -> Z -> Prop.
  Hypothesis pos0 : forall t, Pos t 0 0 0.
  Hypothesis at_next : forall t i j p, At t i j p -> Pos t i j (incr p) /\ Pos t i j p /\ incr (decr p) = p.
  Hypothesis get_sim : forall t a b i j p x j' p', (t < T)%nat -> R a b -> Pos (Z.of_nat t) i j p ->
    acGet (ac2 (Z.of_nat t)) b j p = Some (x, j', p') ->
    exists i', acGet (ac1 (Z.of_nat t)) a i p = Some (x, i', p') /\
      match x with Some _ => At (Z.of_nat t) i' j' p' | None => i' = 0 /\ j' = 0 /\ p' = 0 end.
  Hypothesis delete_sim : forall t a b i j p b' now valid, (t < T)%nat -> R a b -> At (Z.of_nat t) i j p ->
    acDelete (ac2 (Z.of_nat t)) b j p = Some (b', now, valid) ->
    exists a', acDelete (ac1 (Z.of_nat t)) a i p = Some (a', now, valid) /\ R a' b'.

  (** Iterators between two rounds of the loop. *)
  Definition iterSim (t : Z) (it1 it2 : Iter P) : Prop :=
    partIdx it1 = partIdx it2 /\ current it1 = current it2 /\ vectors it1 = vectors it2 /\ inVectors it1 = inVectors it2 /\
    (if inVectors it1 then vecIdx it1 = vecIdx it2
     else match current it1 with
          | Some _ => At t (vecIdx it1) (vecIdx it2) (partIdx it1)
          | None => vecIdx it1 = 0 /\ vecIdx it2 = 0 /\ partIdx it1 = 0
          end).
  (** Iterators before a search. *)
  Definition readySim (t : Z) (it1 it2 : Iter P) : Prop :=
    partIdx it1 = partIdx it2 /\ current it1 = current it2 /\ vectors it1 = vectors it2 /\ inVectors it1 = inVectors it2 /\
    (if inVectors it1 then vecIdx it1 = vecIdx it2 else Pos t (vecIdx it1) (vecIdx it2) (partIdx it1)).
  Definition storeSim (st1 : GStore P C1) (st2 : GStore P C2) : Prop :=
    R (gContainer st1) (gContainer st2) /\ gBuffers st1 = gBuffers st2.

  Lemma scan_sim t fuel bufs vs v i : scanVectors (cf1 t) fuel bufs vs v i = scanVectors (cf2 t) fuel bufs vs v i.
  Proof.
    assert (F : forall l i, firstMatch (cf1 t) l i = firstMatch (cf2 t) l i).
    { induction l as [|x l IH]; intros j; cbn [firstMatch]; [reflexivity|]. now rewrite Hful, IH. }
    revert v i. induction fuel as [|f IH]; intros v i; [reflexivity|]. cbn [scanVectors]. destruct (v <? size vs); [|reflexivity].
    destruct (at_ vs v); [|reflexivity]. destruct (nth_error bufs n); [|reflexivity]. rewrite F, Hstride, IH. reflexivity.
  Qed.

  Lemma vectors_sim t st1 st2 vs v i it2 : storeSim st1 st2 -> gFetchVectors (cf2 t) st2 vs v i = Some it2 ->
    gFetchVectors (cf1 t) st1 vs v i = Some it2 /\ iterSim t it2 it2.
  Proof.
    intros [_ B] E. unfold gFetchVectors in *. rewrite scan_sim, B.
    destruct (scanVectors _ _ _ _ _ _) as [[[[v' i'] x]|]|]; [| |discriminate]; injection E as <-; (split; [reflexivity|]); repeat split.
  Qed.

  Lemma fetch_sim (t : nat) st1 st2 it1 it2 it2' : (t < T)%nat -> storeSim st1 st2 -> readySim (Z.of_nat t) it1 it2 ->
    gFetch (ac2 (Z.of_nat t)) (cf2 (Z.of_nat t)) st2 it2 = Some it2' ->
    exists it1', gFetch (ac1 (Z.of_nat t)) (cf1 (Z.of_nat t)) st1 it1 = Some it1' /\ iterSim (Z.of_nat t) it1' it2'.
  Proof.
    intros Ht S (Ep & Ec & Ev & Ei & Hp) E. unfold gFetch in *. rewrite Ei in *. rewrite Ev, Ep. destruct (inVectors it2).
    - rewrite Hp. destruct (vectors_sim _ _ _ _ _ _ _ S E) as [E1 I]. eauto.
    - destruct (acGet (ac2 _) _ _ _) as [[[x j'] p']|] eqn:G; [|discriminate].
      destruct S as [SR SB]. rewrite Ep in Hp. destruct (get_sim t _ _ _ _ _ _ _ _ Ht SR Hp G) as (i' & -> & A). destruct x as [x|].
      + injection E as <-. eexists. split; [reflexivity|]. repeat split. exact A.
      + destruct A as (-> & -> & ->). destruct (vectors it2) as [|b vs] eqn:V.
        * injection E as <-. eexists. split; [reflexivity|]. repeat split.
        * rewrite Hthread. destruct (vectors_sim _ _ _ _ _ _ _ (conj SR SB) E) as [E1 I]. eauto.
  Qed.

  Lemma next_sim (t : nat) st1 st2 it1 it2 it2' : (t < T)%nat -> storeSim st1 st2 -> iterSim (Z.of_nat t) it1 it2 -> current it2 <> None ->
    gNext (ac2 (Z.of_nat t)) (cf2 (Z.of_nat t)) st2 it2 = Some it2' ->
    exists it1', gNext (ac1 (Z.of_nat t)) (cf1 (Z.of_nat t)) st1 it1 = Some it1' /\ iterSim (Z.of_nat t) it1' it2'.
  Proof.
    intros Ht S (Ep & Ec & Ev & Ei & Hp) N E.
    apply (fetch_sim t st1 st2 (mkIter (vecIdx it1) (incr (partIdx it1)) (current it1) (vectors it1) (inVectors it1)) _ it2' Ht S) in E; [exact E|].
    split; [|split; [|split; [|split]]]; cbn; auto.
    - now rewrite Ep.
    - destruct (inVectors it1); [exact Hp|]. rewrite Ec in Hp. destruct (current it2); [|congruence]. now destruct (at_next _ _ _ _ Hp).
  Qed.

  (** What deleteCurrentParticle leaves behind can be incremented. *)
  Definition backSim (t : Z) (it1 it2 : Iter P) : Prop :=
    readySim t (mkIter (vecIdx it1) (incr (partIdx it1)) (current it1) (vectors it1) (inVectors it1))
               (mkIter (vecIdx it2) (incr (partIdx it2)) (current it2) (vectors it2) (inVectors it2)).
  Definition stepBack (it : Iter P) : Iter P := mkIter (vecIdx it) (decr (partIdx it)) (current it) (vectors it) (inVectors it).

  Lemma back_sim t it1 it2 : iterSim t it1 it2 -> backSim t (stepBack it1) (stepBack it2).
  Proof.
    intros (Ep & Ec & Ev & Ei & Hp). unfold backSim, readySim, stepBack. cbn. rewrite Ep. repeat split; auto.
    destruct (inVectors it1); [exact Hp|]. rewrite <- Ep. destruct (current it1).
    - destruct (at_next _ _ _ _ Hp) as (_ & H & ->). exact H.
    - destruct Hp as (-> & -> & ->). apply pos0.
  Qed.

  Lemma delete_current_sim (t : nat) st1 st2 it1 it2 st2' it2' : (t < T)%nat -> storeSim st1 st2 -> iterSim (Z.of_nat t) it1 it2 ->
    gDeleteCurrent (ac2 (Z.of_nat t)) (cf2 (Z.of_nat t)) st2 it2 = Some (st2', it2') ->
    exists st1' it1', gDeleteCurrent (ac1 (Z.of_nat t)) (cf1 (Z.of_nat t)) st1 it1 = Some (st1', it1') /\
      storeSim st1' st2' /\ backSim (Z.of_nat t) it1' it2'.
  Proof.
    intros Ht S I E. pose proof I as (Ep & Ec & Ev & Ei & Hp). unfold gDeleteCurrent in *. rewrite Ec in *.
    destruct (current it2) as [x|] eqn:Cx; [|discriminate]. cbv zeta in *. rewrite Ei, Ev, Ep, Hful in *.
    assert (Adv : forall s1 s2, storeSim s1 s2 ->
      match gNext (ac2 (Z.of_nat t)) (cf2 (Z.of_nat t)) s2 it2 with Some it' => Some (s2, stepBack it') | None => None end = Some (st2', it2') ->
      exists st1' it1', match gNext (ac1 (Z.of_nat t)) (cf1 (Z.of_nat t)) s1 it1 with Some it' => Some (s1, stepBack it') | None => None end = Some (st1', it1') /\
        storeSim st1' st2' /\ backSim (Z.of_nat t) it1' it2').
    { intros s1 s2 S' E'. destruct (gNext (ac2 _) _ s2 it2) as [n2|] eqn:N2; [|discriminate]. injection E' as <- <-.
      destruct (next_sim t s1 s2 it1 it2 n2 Ht S' I ltac:(congruence) N2) as (n1 & -> & In1). eexists _, _. split; [reflexivity|].
      split; [exact S'|]. now apply back_sim. }
    destruct S as [SR SB]. destruct (inVectors it2) eqn:Iv.
    - rewrite Hp. destruct (at_ (vectors it2) (vecIdx it2)) as [b|]; [|discriminate]. rewrite SB.
      destruct (nth_error (gBuffers st2) b) as [l|] eqn:L; [|discriminate].
      assert (S' : storeSim (mkGStore (gContainer st1) (setAt (gBuffers st2) b (swapDelete l (Z.to_nat (partIdx it2)))))
                            (mkGStore (gContainer st2) (setAt (gBuffers st2) b (swapDelete l (Z.to_nat (partIdx it2)))))) by (split; [exact SR|reflexivity]).
      destruct (_ || _).
      + now apply (Adv _ _ S').
      + injection E as <- <-. eexists _, _. split; [reflexivity|]. split; [exact S'|]. unfold backSim, readySim. cbn. repeat split.
    - destruct (acDelete (ac2 _) _ _ _) as [[[c2' now] valid]|] eqn:D; [|discriminate].
      destruct (delete_sim t _ _ _ _ _ _ _ _ Ht SR Hp D) as (c1' & -> & SR').
      assert (S' : storeSim (mkGStore c1' (gBuffers st1)) (mkGStore c2' (gBuffers st2))) by (split; [exact SR'|exact SB]).
      destruct now as [y|]; [|now apply (Adv _ _ S')]. destruct valid; [|now apply (Adv _ _ S')].
      destruct (ful (cf2 _) y); [|now apply (Adv _ _ S')]. injection E as <- <-. eexists _, _. split; [reflexivity|]. split; [exact S'|].
      unfold backSim, readySim. cbn. repeat split. destruct (at_next _ _ _ _ Hp) as (_ & H & ->). exact H.
  Qed.

  Definition threadSim (t : nat) (th1 th2 : Thread P) : Prop :=
    match th1, th2 with
    | NotStarted, NotStarted => True
    | Running it1 seen1, Running it2 seen2 => seen1 = seen2 /\ iterSim (Z.of_nat t) it1 it2
    | _, _ => False
    end.
  Definition threadsSim (ths1 ths2 : list (Thread P)) : Prop :=
    length ths1 = T /\ length ths2 = T /\
    forall t th1 th2, nth_error ths1 t = Some th1 -> nth_error ths2 t = Some th2 -> threadSim t th1 th2.

  Variable gatherNow : list (list P) -> list nat.
  Variable decide : Z -> list P -> P -> bool.

  Lemma step_sim (t : nat) st1 st2 th1 th2 st2' th2' : (t < T)%nat -> storeSim st1 st2 -> threadSim t th1 th2 ->
    gThreadStep ac2 cf2 gatherNow decide t st2 th2 = Some (st2', th2') ->
    exists st1' th1', gThreadStep ac1 cf1 gatherNow decide t st1 th1 = Some (st1', th1') /\ storeSim st1' st2' /\ threadSim t th1' th2'.
  Proof.
    intros Ht S H E. unfold gThreadStep in *. cbv zeta in *. destruct th1 as [|it1 seen1], th2 as [|it2 seen2]; try contradiction H.
    - unfold gBegin in *. destruct (gFetch (ac2 _) _ _ _) as [it2|] eqn:F; [|discriminate]. injection E as <- <-.
      rewrite (proj2 S). apply (fetch_sim t st1 st2 (mkIter 0 0 None (gatherNow (gBuffers st2)) false)) in F; auto.
      + destruct F as (it1 & -> & I). eexists _, _. split; [reflexivity|]. split; [exact S|]. now split.
      + repeat split. apply pos0.
    - destruct H as [-> I]. pose proof I as (_ & Ec & _). rewrite Ec. destruct (current it2) as [x|] eqn:Cx.
      + unfold gLoopStep in *. destruct (decide _ _ _).
        * destruct (gDeleteCurrent (ac2 _) _ _ _) as [[s2 i2]|] eqn:D; [|discriminate].
          destruct (delete_current_sim t _ _ _ _ _ _ Ht S I D) as (s1 & i1 & -> & S' & B).
          destruct (gNext (ac2 _) _ s2 i2) as [n2|] eqn:N; [|discriminate]. injection E as <- <-.
          apply (fetch_sim t s1 s2 _ _ n2 Ht S' B) in N as N'. clear N. rename N' into N. destruct N as (n1 & N & In1). fold (gNext (ac1 (Z.of_nat t)) (cf1 (Z.of_nat t)) s1 i1) in N.
          rewrite N. eexists _, _. split; [reflexivity|]. split; [exact S'|]. now split.
        * destruct (gNext (ac2 _) _ st2 it2) as [n2|] eqn:N; [|discriminate]. injection E as <- <-.
          destruct (next_sim t st1 st2 it1 it2 n2 Ht S I ltac:(congruence) N) as (n1 & -> & In1).
          eexists _, _. split; [reflexivity|]. split; [exact S|]. now split.
      + injection E as <- <-. eexists _, _. split; [reflexivity|]. split; [exact S|]. split; [reflexivity|exact I].
  Qed.

  Theorem run_sim schedule : forall st1 st2 ths1 ths2 st2' ths2', storeSim st1 st2 -> threadsSim ths1 ths2 ->
    gRunParallel ac2 cf2 gatherNow decide schedule st2 ths2 = Some (st2', ths2') ->
    exists st1' ths1', gRunParallel ac1 cf1 gatherNow decide schedule st1 ths1 = Some (st1', ths1') /\ storeSim st1' st2' /\ threadsSim ths1' ths2'.
  Proof.
    induction schedule as [|t r IH]; intros st1 st2 ths1 ths2 st2' ths2' S TS E; cbn [gRunParallel] in *.
    - injection E as <- <-. eauto.
    - destruct TS as (L1 & L2 & H). destruct (nth_error ths2 t) as [th2|] eqn:E2.
      + assert (Ht : (t < T)%nat) by (rewrite <- L2; apply nth_error_Some; congruence).
        destruct (nth_error ths1 t) as [th1|] eqn:E1; [|apply nth_error_None in E1; lia].
        destruct (gThreadStep ac2 _ _ _ _ _ _) as [[s2 h2]|] eqn:St; [|discriminate].
        destruct (step_sim t st1 st2 th1 th2 s2 h2 Ht S (H _ _ _ E1 E2) St) as (s1 & h1 & -> & S' & Hh).
        apply (IH s1 s2 (setAt ths1 t h1) (setAt ths2 t h2) _ _ S'); [|exact E]. repeat split; try now rewrite setAt_length.
        intros u a b A B. destruct (Nat.eq_dec t u) as [->|N].
        * rewrite setAt_same in A, B by lia. now injection A as <-; injection B as <-.
        * rewrite setAt_other in A, B by lia. eauto.
      + assert (E1 : nth_error ths1 t = None) by (apply nth_error_None in E2; apply nth_error_None; lia). rewrite E1.
        apply (IH st1 st2 ths1 ths2); auto. now split.
  Qed.

  Lemma start_sim : threadsSim (repeat NotStarted T) (repeat NotStarted T).
  Proof.
    split; [apply repeat_length|]. split; [apply repeat_length|]. intros t a b A B.
    apply nth_error_In, repeat_spec in A. apply nth_error_In, repeat_spec in B. now subst.
  Qed.
End Simulation.
