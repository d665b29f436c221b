(** Proofs about the time integration of md-flexible: the invariant of the main loop. *)
From Coq Require Import Reals List Bool Arith Lra Lia.
From Verif.Functor Require Import SortModel SortSpec.
From Verif.MD Require Import LJModel.
From Verif.Flex Require Import IntegrateModel IntegrateSpec.
Import ListNotations.
Local Open Scope R_scope.

Lemma r3eq : forall a b : R3, rx a = rx b -> ry a = ry b -> rz a = rz b -> a = b.
Proof. intros [a1 a2 a3] [b1 b2 b3]; cbn; intros; subst; reflexivity. Qed.
Ltac r3 := apply r3eq; cbn; try (ring || lra).

Definition mol0 : Mol := mkMol rzero rzero rzero rzero 1.

Lemma vec_ext : forall l l', length l = length l' ->
  (forall i, (i < length l)%nat -> vec l i = vec l' i) -> l = l'.
Proof. intros l l' HL H. apply (nth_ext l l' rzero rzero HL). exact H. Qed.

Lemma mapi_length : forall A B (f : nat -> A -> B) l i, length (mapi f i l) = length l.
Proof. induction l; intros i; cbn; [reflexivity | now rewrite IHl]. Qed.

Lemma mapi_nth : forall A B (f : nat -> A -> B) da db l s i, (i < length l)%nat ->
  nth i (mapi f s l) db = f (s + i)%nat (nth i l da).
Proof.
  induction l as [| a t IH]; intros s i Hi; cbn in *; [lia |].
  destruct i as [| i]; [now rewrite Nat.add_0_r |].
  rewrite IH by lia. now rewrite Nat.add_succ_r.
Qed.

Lemma map_nth_in : forall A B (f : A -> B) da db l i, (i < length l)%nat ->
  nth i (map f l) db = f (nth i l da).
Proof. intros. rewrite (nth_indep _ db (f da)) by (rewrite map_length; lia). apply map_nth. Qed.

Lemma vecPos : forall ms i, vec (map mPos ms) i = mPos (nth i ms mol0).
Proof. intros. unfold vec. exact (map_nth mPos ms mol0 i). Qed.
Lemma vecVel : forall ms i, vec (map mVel ms) i = mVel (nth i ms mol0).
Proof. intros. unfold vec. exact (map_nth mVel ms mol0 i). Qed.
Lemma vecForce : forall ms i, vec (map mForce ms) i = mForce (nth i ms mol0).
Proof. intros. unfold vec. exact (map_nth mForce ms mol0 i). Qed.
Lemma vecOldF : forall ms i, vec (map mOldF ms) i = mOldF (nth i ms mol0).
Proof. intros. unfold vec. exact (map_nth mOldF ms mol0 i). Qed.

Section Integrate.
  Variables (dt : R) (g : R3) (skin : R) (throws pause : bool) (iterations tuningPhases : nat).
  Variables (relocate : R3 -> R3) (boundaryForce : nat -> R3 -> R3) (interaction : list R3 -> nat -> R3).
  Variable tuning : nat -> bool.
  Hypothesis Hdt : dt <> 0.

  Let moveP := movePosition dt g skin throws.
  Let calcP := calculatePositionsAndResetForces dt g skin throws.
  Let exch := exchange relocate boundaryForce.
  Let addI := addInteractions interaction.
  Let upd := updateInteractionForces interaction tuning.
  Let pass' := pass dt g skin throws pause relocate boundaryForce interaction tuning.
  Let run' := run dt g skin throws pause iterations tuningPhases relocate boundaryForce interaction tuning.

  Definition totalForce (xs : list R3) (i : nat) : R3 :=
    radd (radd g (boundaryForce i (vec xs i))) (interaction xs i).

  Lemma movePosition_spec : forall m,
    fst (moveP m) =
    mkMol (radd (mPos m) (radd (rscale (mVel m) dt) (rscale (mForce m) (dt * dt / (2 * mMass m)))))
          (mVel m) g (mForce m) (mMass m).
  Proof. reflexivity. Qed.

  Lemma calcP_nth : forall ms ms', calcP ms = Some ms' ->
    length ms' = length ms /\
    forall i, (i < length ms)%nat -> nth i ms' mol0 = fst (moveP (nth i ms mol0)).
  Proof.
    intros ms ms' H. unfold calcP, calculatePositionsAndResetForces in H.
    destruct (existsb snd _); [discriminate |]. injection H as <-.
    rewrite map_map. split; [now rewrite map_length |].
    intros i Hi. exact (map_nth_in _ _ (fun m => fst (moveP m)) mol0 mol0 ms i Hi).
  Qed.

  Lemma exchange_nth : forall ms, length (exch ms) = length ms /\
    forall i, (i < length ms)%nat ->
      nth i (exch ms) mol0 =
      let m := nth i ms mol0 in
      mkMol (relocate (mPos m)) (mVel m) (radd (mForce m) (boundaryForce i (relocate (mPos m)))) (mOldF m) (mMass m).
  Proof.
    intros ms. unfold exch, exchange. split; [now rewrite mapi_length, map_length |].
    intros i Hi. rewrite (mapi_nth _ _ _ mol0 mol0) by (now rewrite map_length).
    rewrite (map_nth_in _ _ _ mol0 mol0) by exact Hi. reflexivity.
  Qed.

  Lemma addInteractions_nth : forall ms, length (addI ms) = length ms /\
    forall i, (i < length ms)%nat ->
      nth i (addI ms) mol0 =
      let m := nth i ms mol0 in
      mkMol (mPos m) (mVel m) (radd (mForce m) (interaction (map mPos ms) i)) (mOldF m) (mMass m).
  Proof.
    intros ms. unfold addI, addInteractions. split; [now rewrite mapi_length |].
    intros i Hi. rewrite (mapi_nth _ _ _ mol0 mol0) by exact Hi. reflexivity.
  Qed.

  Section Trajectory.
    Variables (ms0 : list Mol) (x v f : nat -> list R3).
    Let num := length ms0.
    Let mass := fun i => mMass (nth i ms0 mol0).
    Hypothesis Hsv : stoermerVerlet num dt mass relocate totalForce x v f.

    (** Molecules at given positions and velocities; forces now and of the last step. *)
    Definition atXV (ms : list Mol) (X V : list R3) : Prop :=
      length ms = num /\
      forall i, (i < num)%nat -> mPos (nth i ms mol0) = vec X i /\ mVel (nth i ms mol0) = vec V i /\
                                 mMass (nth i ms mol0) = mass i.
    Definition atF (ms : list Mol) (F : list R3) : Prop :=
      forall i, (i < num)%nat -> mForce (nth i ms mol0) = vec F i.
    Definition atOldF (ms : list Mol) (F : list R3) : Prop :=
      forall i, (i < num)%nat -> mOldF (nth i ms mol0) = vec F i.

    Lemma atXV_pos : forall ms n k, atXV ms (x n) (v k) -> map mPos ms = x n.
    Proof.
      intros ms n k [HL H]. destruct (Hsv n) as [Hx _]. apply vec_ext; [now rewrite map_length, HL |].
      intros i Hi. rewrite map_length, HL in Hi. rewrite vecPos. now apply H.
    Qed.
    Lemma atXV_vel : forall ms n k, atXV ms (x n) (v k) -> map mVel ms = v k.
    Proof.
      intros ms n k [HL H]. destruct (Hsv k) as [_ [Hx _]]. apply vec_ext; [now rewrite map_length, HL |].
      intros i Hi. rewrite map_length, HL in Hi. rewrite vecVel. now apply H.
    Qed.
    Lemma atF_force : forall ms n, length ms = num -> atF ms (f n) -> map mForce ms = f n.
    Proof.
      intros ms n HL H. destruct (Hsv n) as [_ [_ [Hx _]]]. apply vec_ext; [now rewrite map_length, HL |].
      intros i Hi. rewrite map_length, HL in Hi. rewrite vecForce. now apply H.
    Qed.

    (** Positions after the position update and the exchange. *)
    Lemma positions_step : forall ms ms' n,
      atXV ms (x n) (v n) -> atF ms (f n) -> calcP ms = Some ms' ->
      atXV (exch ms') (x (S n)) (v n) /\ atOldF (exch ms') (f n) /\
      (forall i, (i < num)%nat ->
         mForce (nth i (exch ms') mol0) = radd g (boundaryForce i (vec (x (S n)) i))).
    Proof.
      intros ms ms' n [HL H] HF HP.
      destruct (calcP_nth _ _ HP) as [HL' HN]. destruct (exchange_nth ms') as [HL2 HE].
      rewrite HL', HL in *. destruct (Hsv n) as [_ [_ [_ S]]].
      assert (G : forall i, (i < num)%nat ->
        nth i (exch ms') mol0 =
        mkMol (vec (x (Datatypes.S n)) i) (vec (v n) i)
              (radd g (boundaryForce i (vec (x (Datatypes.S n)) i))) (vec (f n) i) (mass i)).
      { intros i Hi. rewrite (HE i Hi), (HN i Hi), movePosition_spec. cbn.
        destruct (H i Hi) as [E1 [E2 E3]]. rewrite E1, E2, E3, (HF i Hi).
        destruct (S i Hi) as [E4 _]. rewrite E4. reflexivity. }
      split; [| split].
      - split; [exact HL2 |]. intros i Hi. rewrite (G i Hi). cbn. auto.
      - intros i Hi. now rewrite (G i Hi).
      - intros i Hi. now rewrite (G i Hi).
    Qed.

    Lemma interactions_step : forall ms n, atXV ms (x (S n)) (v n) -> atOldF ms (f n) ->
      atXV (addI ms) (x (S n)) (v n) /\ atOldF (addI ms) (f n) /\
      ((forall i, (i < num)%nat ->
          mForce (nth i ms mol0) = radd g (boundaryForce i (vec (x (S n)) i))) ->
       atF (addI ms) (f (S n))).
    Proof.
      intros ms n HX HO. pose proof (atXV_pos _ _ _ HX) as EP. destruct HX as [HL H].
      destruct (addInteractions_nth ms) as [HL2 HN]. rewrite HL in *.
      split; [| split].
      - split; [exact HL2 |]. intros i Hi. rewrite (HN i Hi). cbn. now apply H.
      - intros i Hi. rewrite (HN i Hi). cbn. now apply HO.
      - intros HF i Hi. rewrite (HN i Hi). cbn. rewrite (HF i Hi), EP.
        destruct (Hsv n) as [_ [_ [_ S]]]. destruct (S i Hi) as [_ [E _]]. rewrite E. reflexivity.
    Qed.

    Lemma velocities_step : forall ms n, atXV ms (x (S n)) (v n) -> atOldF ms (f n) -> atF ms (f (S n)) ->
      atXV (calculateVelocities dt ms) (x (S n)) (v (S n)) /\ atF (calculateVelocities dt ms) (f (S n)).
    Proof.
      intros ms n [HL H] HO HF.
      assert (G : forall i, (i < num)%nat -> nth i (calculateVelocities dt ms) mol0 = changeVelocity dt (nth i ms mol0)).
      { intros i Hi. unfold calculateVelocities. apply map_nth_in. lia. }
      destruct (Hsv n) as [_ [_ [_ S]]].
      split.
      - split; [unfold calculateVelocities; now rewrite map_length |].
        intros i Hi. rewrite (G i Hi). unfold changeVelocity. cbn. destruct (H i Hi) as [E1 [E2 E3]].
        destruct (S i Hi) as [_ [_ E]]. rewrite E1, E3, E2, (HO i Hi), (HF i Hi), E.
        split; [reflexivity | split; [| reflexivity]]. r3.
      - intros i Hi. rewrite (G i Hi). cbn. now apply HF.
    Qed.

    (** Invariant of the loop. *)
    Definition loopInv (s : Sim) : Prop :=
      if sPaused s
      then pause = true /\ sCurrent s = true /\
           atXV (sMols s) (x (S (sIter s))) (v (sIter s)) /\ atOldF (sMols s) (f (sIter s))
      else atXV (sMols s) (x (sIter s)) (v (sIter s)) /\ atF (sMols s) (f (sIter s)).

    Hypothesis Hnob : pause = true -> forall i p, boundaryForce i p = rzero.

    Lemma setF_step : forall ms n, pause = true -> atXV ms (x (S n)) (v n) -> atOldF ms (f n) ->
      atXV (map (setF g) ms) (x (S n)) (v n) /\ atOldF (map (setF g) ms) (f n) /\
      (forall i, (i < num)%nat ->
         mForce (nth i (map (setF g) ms) mol0) = radd g (boundaryForce i (vec (x (S n)) i))).
    Proof.
      intros ms n Hp [HL H] HO.
      assert (G : forall i, (i < num)%nat -> nth i (map (setF g) ms) mol0 = setF g (nth i ms mol0)).
      { intros i Hi. apply map_nth_in. lia. }
      split; [| split].
      - split; [now rewrite map_length |]. intros i Hi. rewrite (G i Hi). cbn. now apply H.
      - intros i Hi. rewrite (G i Hi). cbn. now apply HO.
      - intros i Hi. rewrite (G i Hi). cbn. rewrite (Hnob Hp). r3.
    Qed.

    (** What follows the force computation of one pass, from a state in the middle of step
        [sIter s]: the forces are known to be complete unless the pass was paused. *)
    Definition midInv (fresh : bool) (s : Sim) : Prop :=
      atXV (sMols s) (x (S (sIter s))) (v (sIter s)) /\ atOldF (sMols s) (f (sIter s)) /\
      (fresh = true -> atF (sMols s) (f (S (sIter s)))).

    Lemma pauseAtStart_prev : forall s, sPrevious (pauseAtStart s) = sPrevious s.
    Proof. intros s. unfold pauseAtStart. now destruct (sCurrent s && negb (sPrevious s)). Qed.
    Lemma pauseAtStart_cur : forall s, sCurrent (pauseAtStart s) = sCurrent s.
    Proof. intros s. unfold pauseAtStart. now destruct (sCurrent s && negb (sPrevious s)). Qed.
    Lemma moves_true : forall s, sPaused s = false -> moves dt s = true.
    Proof. intros s H. unfold moves. rewrite H. destruct (Req_EM_T dt 0); [contradiction | reflexivity]. Qed.
    Lemma moves_false : forall s, sPaused s = true -> moves dt s = false.
    Proof. intros s H. unfold moves. rewrite H. now rewrite andb_false_r. Qed.

    Lemma finish_unpaused : forall s, sPaused s = false -> midInv true s ->
      loopInv (passCount (passVelocities dt s)) /\ sPaused (passCount (passVelocities dt s)) = false /\
      sIter (passCount (passVelocities dt s)) = S (sIter s).
    Proof.
      intros s Hp [HX [HO HF]]. unfold passVelocities. rewrite (moves_true s Hp).
      unfold passCount. cbn. rewrite Hp. cbn. unfold loopInv. cbn.
      split; [| auto]. apply velocities_step; auto.
    Qed.
    Lemma finish_paused : forall s, sPaused s = true -> pause = true -> sCurrent s = true -> midInv false s ->
      loopInv (passCount (passVelocities dt s)) /\ sPaused (passCount (passVelocities dt s)) = true /\
      sIter (passCount (passVelocities dt s)) = sIter s.
    Proof.
      intros s Hp Hpa Hc [HX [HO _]]. unfold passVelocities. rewrite (moves_false s Hp).
      unfold passCount. rewrite Hp. cbn. unfold loopInv. rewrite Hp. auto.
    Qed.

    (** The pass from the force computation on. *)
    Definition tail (s1 : Sim) : Sim := passCount (passVelocities dt (passPause g pause interaction tuning (upd s1))).

    Lemma tail_inv : forall s1 fresh,
      atXV (sMols s1) (x (S (sIter s1))) (v (sIter s1)) -> atOldF (sMols s1) (f (sIter s1)) ->
      (if sPaused s1 then fresh = false /\ pause = true /\ sCurrent s1 = true
       else fresh = true /\
            (forall i, (i < num)%nat ->
               mForce (nth i (sMols s1) mol0) = radd g (boundaryForce i (vec (x (S (sIter s1))) i)))) ->
      loopInv (tail s1).
    Proof.
      intros s1 fresh HX HO HP. unfold tail.
      destruct (interactions_step _ _ HX HO) as [HX2 [HO2 HF2]].
      assert (M : midInv fresh (upd s1)).
      { split; [exact HX2 | split; [exact HO2 |]]. intros ->. cbn. apply HF2.
        destruct (sPaused s1); [destruct HP as [E _]; discriminate | exact (proj2 HP)]. }
      unfold passPause. destruct (bool_dec pause true) as [Hpause | Hpause]; [rewrite Hpause |].
      2:{ apply not_true_is_false in Hpause. rewrite Hpause.
          assert (E : sPaused s1 = false)
            by (destruct (sPaused s1); [destruct HP as [_ [E _]]; congruence | reflexivity]).
          rewrite E in HP. destruct HP as [-> _]. apply finish_unpaused; [exact E | exact M]. }
      unfold updateSimulationPauseState.
      destruct (sPrevious (upd s1) && negb (sCurrent (upd s1))) eqn:Eend.
      - (* the tuning phase is over: forces are computed again *)
        apply andb_prop in Eend as [Ep Ec]. apply negb_true_iff in Ec.
        assert (Es : pauseAtStart (upd s1) = upd s1) by (unfold pauseAtStart; now rewrite Ec).
        rewrite Es. unfold resumeAtEnd. rewrite Ep, Ec. cbn [andb negb].
        apply finish_unpaused; [reflexivity |].
        destruct M as [MX [MO _]].
        destruct (setF_step _ _ Hpause MX MO) as [SX [SO SF]].
        destruct (interactions_step _ _ SX SO) as [TX [TO TF]].
        split; [exact TX | split; [exact TO |]]. intros _. apply TF. exact SF.
      - assert (Er : resumeAtEnd g interaction tuning (pauseAtStart (upd s1)) = pauseAtStart (upd s1)).
        { unfold resumeAtEnd. rewrite pauseAtStart_prev, pauseAtStart_cur.
          now rewrite Eend. }
        rewrite Er. unfold pauseAtStart.
        destruct (sCurrent (upd s1) && negb (sPrevious (upd s1))) eqn:Est.
        + apply andb_prop in Est as [Ec _].
          apply finish_paused; [reflexivity | exact Hpause | exact Ec |].
          destruct M as [MX [MO _]]. split; [exact MX | split; [exact MO | discriminate]].
        + destruct (sPaused s1) eqn:Epa.
          * destruct HP as [-> [_ Hc]].
            assert (Ec : sCurrent (upd s1) = true).
            { change (sPrevious (upd s1)) with (sCurrent s1) in Eend. rewrite Hc in Eend.
              destruct (sCurrent (upd s1)); [reflexivity | discriminate]. }
            apply finish_paused; [exact Epa | exact Hpause | exact Ec | exact M].
          * destruct HP as [-> _]. apply finish_unpaused; [exact Epa | exact M].
    Qed.

    Lemma pass_tail : forall s s', pass' s = Some s' ->
      exists s1, passPositions dt g skin throws relocate boundaryForce s = Some s1 /\ s' = tail s1.
    Proof.
      intros s s' H. unfold pass', pass in H.
      destruct (passPositions _ _ _ _ _ _ s) as [s1 |]; [| discriminate]. injection H as <-. now exists s1.
    Qed.

    Lemma pass_inv : forall s s', loopInv s -> pass' s = Some s' -> loopInv s'.
    Proof.
      intros s s' HI H. destruct (pass_tail _ _ H) as [s1 [H1 ->]]. unfold passPositions in H1.
      unfold loopInv in HI. destruct (sPaused s) eqn:Ep.
      - rewrite (moves_false s Ep) in H1. injection H1 as <-.
        apply (tail_inv s false); [tauto | tauto |]. rewrite Ep. tauto.
      - rewrite (moves_true s Ep) in H1.
        destruct (calculatePositionsAndResetForces dt g skin throws (sMols s)) as [ms |] eqn:EC; [| discriminate].
        injection H1 as <-. destruct HI as [HX HF].
        destruct (positions_step _ _ _ HX HF EC) as [A [B C]].
        apply (tail_inv _ true); [exact A | exact B |]. cbn. try rewrite Ep. split; [reflexivity | exact C].
    Qed.

    Lemma run_inv : forall k s s', loopInv s -> run' k s = Some s' -> loopInv s'.
    Proof.
      induction k as [| k IH]; intros s s' HI H; cbn in H.
      - injection H as <-. exact HI.
      - destruct (needsMoreIterations iterations tuningPhases s); [| injection H as <-; exact HI].
        destruct (pass _ _ _ _ _ _ _ _ _ s) as [s1 |] eqn:E; [| discriminate].
        exact (IH s1 s' (pass_inv _ _ HI E) H).
    Qed.

    Lemma init_inv : x 0%nat = map mPos ms0 -> v 0%nat = map mVel ms0 -> f 0%nat = map mForce ms0 ->
      loopInv (initSim ms0).
    Proof.
      intros Ex Ev Ef. unfold loopInv. cbn. rewrite Ex, Ev, Ef. split; [split; [reflexivity |] |].
      - intros i Hi. now rewrite vecPos, vecVel.
      - intros i Hi. now rewrite vecForce.
    Qed.

    Theorem trajectory : forall k s,
      x 0%nat = map mPos ms0 -> v 0%nat = map mVel ms0 -> f 0%nat = map mForce ms0 ->
      run' k (initSim ms0) = Some s ->
      map mVel (sMols s) = v (sIter s) /\
      if sPaused s then map mPos (sMols s) = x (S (sIter s))
      else map mPos (sMols s) = x (sIter s) /\ map mForce (sMols s) = f (sIter s).
    Proof.
      intros k s Ex Ev Ef H. pose proof (run_inv _ _ _ (init_inv Ex Ev Ef) H) as HI.
      unfold loopInv in HI. destruct (sPaused s).
      - destruct HI as [_ [_ [HX _]]]. split; [exact (atXV_vel _ _ _ HX) | exact (atXV_pos _ _ _ HX)].
      - destruct HI as [HX HF]. split; [exact (atXV_vel _ _ _ HX) | split; [exact (atXV_pos _ _ _ HX) |]].
        exact (atF_force _ _ (proj1 HX) HF).
    Qed.
  End Trajectory.
End Integrate.
