(** Consequences of the loop invariant of md-flexible: existence of the trajectory, end of the
    simulation, time reversal, momentum, displacement bound. *)
From Coq Require Import Reals List Bool Arith Lra Lia.
From Verif.Functor Require Import SortModel SortSpec.
From Verif.MD Require Import LJModel.
From Verif.Flex Require Import IntegrateModel IntegrateSpec IntegrateProofs.
Import ListNotations.
Local Open Scope R_scope.

(** * The trajectory exists *)
Lemma vec_seq : forall h num i, (i < num)%nat -> vec (map h (seq 0 num)) i = h i.
Proof.
  intros h num i Hi. unfold vec. rewrite (map_nth_in _ _ h 0%nat rzero) by (now rewrite seq_length).
  now rewrite seq_nth.
Qed.

Section Exists.
  Variables (num : nat) (dt : R) (mass : nat -> R) (reenter : R3 -> R3) (total : list R3 -> nat -> R3).
  Definition svStep (s : list R3 * list R3 * list R3) : list R3 * list R3 * list R3 :=
    let '(x, v, f) := s in
    let x' := map (fun i => reenter (radd (vec x i) (radd (rscale (vec v i) dt)
                                    (rscale (vec f i) (dt * dt / (2 * mass i)))))) (seq 0 num) in
    let f' := map (total x') (seq 0 num) in
    let v' := map (fun i => radd (vec v i) (rscale (radd (vec f i) (vec f' i)) (dt / (2 * mass i)))) (seq 0 num) in
    (x', v', f').
  Fixpoint svSeq (s : list R3 * list R3 * list R3) (n : nat) :=
    match n with O => s | S k => svStep (svSeq s k) end.
  Lemma sv_exists : forall x0 v0 f0, length x0 = num -> length v0 = num -> length f0 = num ->
    exists x v f, stoermerVerlet num dt mass reenter total x v f /\ x 0%nat = x0 /\ v 0%nat = v0 /\ f 0%nat = f0.
  Proof.
    intros x0 v0 f0 H1 H2 H3.
    exists (fun n => fst (fst (svSeq (x0, v0, f0) n))), (fun n => snd (fst (svSeq (x0, v0, f0) n))),
           (fun n => snd (svSeq (x0, v0, f0) n)).
    split; [| auto]. intros n.
    assert (L : length (fst (fst (svSeq (x0, v0, f0) n))) = num /\ length (snd (fst (svSeq (x0, v0, f0) n))) = num /\
                length (snd (svSeq (x0, v0, f0) n)) = num).
    { destruct n; [auto |]. cbn [svSeq]. destruct (svSeq (x0, v0, f0) n) as [[x v] f].
      cbn. rewrite !map_length, !seq_length. auto. }
    destruct L as [L1 [L2 L3]]. repeat (split; [assumption |]). intros i Hi.
    cbn [svSeq]. destruct (svSeq (x0, v0, f0) n) as [[x v] f]. cbn [svStep fst snd].
    rewrite !vec_seq by exact Hi. auto.
  Qed.
End Exists.

(** * Control flow of the loop *)
Section Control.
  Variables (dt : R) (g : R3) (skin : R) (throws pause : bool) (iterations tuningPhases : nat).
  Variables (relocate : R3 -> R3) (boundaryForce : nat -> R3 -> R3) (interaction : list R3 -> nat -> R3).
  Variable tuning : nat -> bool.
  Local Notation pass' := (pass dt g skin throws pause relocate boundaryForce interaction tuning).
  Local Notation run' := (run dt g skin throws pause iterations tuningPhases relocate boundaryForce interaction tuning).
  Local Notation more := (needsMoreIterations iterations tuningPhases).

  Definition pausedOk (s : Sim) : Prop := sPaused s = true -> pause = true /\ sCurrent s = true.

  Lemma passPositions_control : forall s s1, passPositions dt g skin throws relocate boundaryForce s = Some s1 ->
    sIter s1 = sIter s /\ sPaused s1 = sPaused s /\ sCurrent s1 = sCurrent s /\ sPrevious s1 = sPrevious s /\
    sPhases s1 = sPhases s /\ sCalls s1 = sCalls s.
  Proof.
    intros s s1 H. unfold passPositions in H. destruct (moves dt s); [| injection H as <-; auto 6].
    destruct (calculatePositionsAndResetForces dt g skin throws (sMols s)); [| discriminate].
    injection H as <-. cbn. auto 6.
  Qed.

  Lemma passVelocities_control : forall s,
    sIter (passVelocities dt s) = sIter s /\ sPaused (passVelocities dt s) = sPaused s /\
    sCurrent (passVelocities dt s) = sCurrent s /\ sPhases (passVelocities dt s) = sPhases s /\
    sCalls (passVelocities dt s) = sCalls s.
  Proof. intros s. unfold passVelocities. destruct (moves dt s); cbn; auto 6. Qed.

  Lemma pass_control : forall s s', pausedOk s -> pass' s = Some s' ->
    (sPaused s' = false /\ sIter s' = S (sIter s)) \/
    (sPaused s' = true /\ sIter s' = sIter s /\ sPhases s' = sPhases s /\ sCurrent s' = true /\ pause = true /\
     sCalls s' = S (sCalls s) /\ tuning (sCalls s) = true).
  Proof.
    intros s s' HP H. unfold pass in H.
    destruct (passPositions _ _ _ _ _ _ s) as [s1 |] eqn:E; [| discriminate].
    destruct (passPositions_control _ _ E) as [E1 [E2 [E3 [E4 [E5 E6]]]]]. injection H as <-.
    unfold passCount.
    destruct (passVelocities_control (passPause g pause interaction tuning (updateInteractionForces interaction tuning s1)))
      as [V1 [V2 [V3 [V4 V5]]]].
    set (t := passVelocities dt _) in *. clearbody t.
    set (p := passPause g pause interaction tuning (updateInteractionForces interaction tuning s1)) in *.
    assert (C : (sPaused p = false /\ sIter p = sIter s) \/
                (sPaused p = true /\ sIter p = sIter s /\ sPhases p = sPhases s /\ sCurrent p = true /\ pause = true /\
                 sCalls p = S (sCalls s) /\ tuning (sCalls s) = true)).
    { unfold p, passPause, pausedOk in *. rewrite <- E2 in HP. rewrite <- E1, <- E5, <- E6. rewrite <- E3 in HP.
      destruct pause.
      - unfold updateSimulationPauseState, pauseAtStart, updateInteractionForces. cbn.
        destruct (tuning (sCalls s1)) eqn:Et, (sCurrent s1) eqn:Ec; cbn; unfold resumeAtEnd; cbn.
        + destruct (sPaused s1) eqn:Ep; [right | left]; auto 10.
        + right. auto 10.
        + left. auto.
        + destruct (sPaused s1) eqn:Ep; [| left; auto].
          destruct (HP eq_refl) as [_ X]. discriminate.
      - cbn. destruct (sPaused s1) eqn:Ep; [| left; auto].
        destruct (HP eq_refl) as [X _]. discriminate. }
    destruct C as [[C1 C2] | [C1 [C2 [C3 [C4 [C5 [C6 C7]]]]]]].
    - left. rewrite V2, C1. cbn. rewrite V1, C2. auto.
    - right. rewrite V2, C1. cbn. rewrite V1, V2, V3, V4, V5. auto 10.
  Qed.

  Lemma pass_pausedOk : forall s s', pausedOk s -> pass' s = Some s' -> pausedOk s'.
  Proof.
    intros s s' HP H. destruct (pass_control _ _ HP H) as [[A _] | [_ [_ [_ [A [B _]]]]]]; intros C; [congruence | auto].
  Qed.

  Lemma run_finished : forall k s s', pausedOk s -> (more s = false -> sPaused s = false) ->
    run' k s = Some s' -> more s' = false -> sPaused s' = false.
  Proof.
    induction k as [| k IH]; intros s s' HP HS H HM; cbn in H.
    - injection H as <-. auto.
    - destruct (more s) eqn:E; [| injection H as <-; auto].
      destruct (pass' s) as [s1 |] eqn:EP; [| discriminate].
      apply (IH s1 s' (pass_pausedOk _ _ HP EP)); [| exact H | exact HM].
      intros HM1. destruct (pass_control _ _ HP EP) as [[A _] | [_ [B [C _]]]]; [exact A |].
      unfold needsMoreIterations in *. rewrite B, C in HM1. congruence.
  Qed.

  Lemma run_iter_le : forall k s s', tuningPhases = 0%nat -> pausedOk s -> (sIter s <= iterations)%nat ->
    run' k s = Some s' -> (sIter s' <= iterations)%nat.
  Proof.
    induction k as [| k IH]; intros s s' H0 HP HL H; cbn in H.
    - injection H as <-. exact HL.
    - destruct (more s) eqn:E; [| injection H as <-; exact HL].
      destruct (pass' s) as [s1 |] eqn:EP; [| discriminate].
      apply (IH s1 s' H0 (pass_pausedOk _ _ HP EP)); [| exact H].
      unfold needsMoreIterations in E. rewrite H0 in E. cbn in E. rewrite orb_false_r in E.
      apply Nat.ltb_lt in E.
      destruct (pass_control _ _ HP EP) as [[_ A] | [_ [A _]]]; lia.
  Qed.

  Lemma run_compose : forall k1 k2 s s1 s2, run' k1 s = Some s1 -> run' k2 s1 = Some s2 ->
    run' (k1 + k2) s = Some s2.
  Proof.
    induction k1 as [| k IH]; intros k2 s s1 s2 H1 H2; cbn in *.
    - injection H1 as <-. exact H2.
    - destruct (more s) eqn:E.
      + destruct (pass' s) as [s' |]; [| discriminate]. exact (IH k2 s' s1 s2 H1 H2).
      + injection H1 as <-. destruct k2; cbn in H2; [exact H2 | rewrite E in H2; exact H2].
  Qed.

  Lemma calcP_nothrow : throws = false -> forall ms,
    calculatePositionsAndResetForces dt g skin throws ms = Some (map (fun m => fst (movePosition dt g skin throws m)) ms).
  Proof.
    intros Ht ms. unfold calculatePositionsAndResetForces. rewrite map_map.
    replace (existsb snd _) with false; [reflexivity |]. symmetry.
    induction ms as [| m t IH]; [reflexivity |]. cbn [map existsb]. rewrite IH, orb_false_r.
    unfold movePosition. cbn [snd]. rewrite Ht. apply andb_false_r.
  Qed.
  Lemma pass_nothrow : throws = false -> forall s, exists s', pass' s = Some s'.
  Proof.
    intros Ht s. unfold pass, passPositions. rewrite (calcP_nothrow Ht).
    destruct (moves dt s); eexists; reflexivity.
  Qed.

  Hypothesis Hthrow : throws = false.
  Hypothesis Hends : forall c, exists d, (c <= d)%nat /\ tuning d = false.
  Hypothesis Hphases : tuningPhases = 0%nat.

  Lemma more_iter : forall s s', sIter s' = sIter s -> more s' = more s.
  Proof. intros s s' E. unfold needsMoreIterations. now rewrite E, Hphases. Qed.

  Lemma paused_ends : forall n s d, (d - sCalls s = n)%nat -> (sCalls s <= d)%nat -> tuning d = false ->
    pausedOk s -> sPaused s = true -> more s = true ->
    exists k s', run' k s = Some s' /\ pausedOk s' /\ sIter s' = S (sIter s).
  Proof.
    induction n as [| n IH]; intros s d En Hd Ht HP Hp HM; destruct (pass_nothrow Hthrow s) as [s1 E1].
    - assert (sCalls s = d) as Ed by lia.
      destruct (pass_control _ _ HP E1) as [[A B] | A].
      + exists 1%nat, s1. cbn. rewrite HM, E1. split; [reflexivity |]. split; [exact (pass_pausedOk _ _ HP E1) | exact B].
      + destruct A as [_ [_ [_ [_ [_ [_ A]]]]]]. congruence.
    - destruct (pass_control _ _ HP E1) as [[A B] | [A [B [C [D [F [G H]]]]]]].
      + exists 1%nat, s1. cbn. rewrite HM, E1. split; [reflexivity |]. split; [exact (pass_pausedOk _ _ HP E1) | exact B].
      + assert (sCalls s <> d) by congruence.
        destruct (IH s1 d) as [k [s' [K1 [K2 K3]]]]; try lia; try assumption.
        * exact (pass_pausedOk _ _ HP E1).
        * now rewrite (more_iter s s1 B).
        * exists (S k), s'. cbn. rewrite HM, E1. split; [exact K1 |]. split; [exact K2 |]. congruence.
  Qed.

  Lemma step_ends : forall s, pausedOk s -> more s = true ->
    exists k s', run' k s = Some s' /\ pausedOk s' /\ sIter s' = S (sIter s).
  Proof.
    intros s HP HM. destruct (pass_nothrow Hthrow s) as [s1 E1].
    destruct (pass_control _ _ HP E1) as [[A B] | [A [B [C [D [F [G H]]]]]]].
    - exists 1%nat, s1. cbn. rewrite HM, E1. split; [reflexivity |]. split; [exact (pass_pausedOk _ _ HP E1) | exact B].
    - destruct (Hends (sCalls s1)) as [d [Hd Ht]].
      destruct (paused_ends (d - sCalls s1)%nat s1 d eq_refl Hd Ht (pass_pausedOk _ _ HP E1) A) as [k [s' [K1 [K2 K3]]]].
      { now rewrite (more_iter s s1 B). }
      exists (S k), s'. cbn. rewrite HM, E1. split; [exact K1 |]. split; [exact K2 |]. congruence.
  Qed.

  Lemma run_ends : forall n s, (iterations - sIter s = n)%nat -> pausedOk s ->
    exists k s', run' k s = Some s' /\ more s' = false.
  Proof.
    induction n as [| n IH]; intros s En HP.
    - exists 0%nat, s. split; [reflexivity |]. unfold needsMoreIterations. rewrite Hphases. cbn.
      rewrite orb_false_r. apply Nat.ltb_ge. lia.
    - assert (HM : more s = true).
      { unfold needsMoreIterations. replace (sIter s <? iterations)%nat with true; [reflexivity |].
        symmetry. apply Nat.ltb_lt. lia. }
      destruct (step_ends s HP HM) as [k1 [s1 [A [B C]]]].
      destruct (IH s1) as [k2 [s2 [D E]]]; [lia | exact B |].
      exists (k1 + k2)%nat, s2. split; [exact (run_compose _ _ _ _ _ A D) | exact E].
  Qed.
End Control.

(** * Time reversal *)
Lemma reversal : forall num dt mass total x v f x' v' f' n,
  stoermerVerlet num dt mass (fun p => p) total x v f ->
  stoermerVerlet num dt mass (fun p => p) total x' v' f' ->
  (forall i, (i < num)%nat -> vec (f 0%nat) i = total (x 0%nat) i) ->
  x' 0%nat = x n -> v' 0%nat = map rneg (v n) -> f' 0%nat = f n ->
  forall k, (k <= n)%nat -> x' k = x (n - k)%nat /\ v' k = map rneg (v (n - k)%nat) /\ f' k = f (n - k)%nat.
Proof.
  intros num dt mass total x v f x' v' f' n H H' H0 Ex Ev Ef.
  assert (FT : forall m i, (i < num)%nat -> vec (f m) i = total (x m) i).
  { intros [| m] i Hi; [now apply H0 |]. destruct (H m) as [_ [_ [_ S]]]. now apply S. }
  assert (VN : forall l i, (i < length l)%nat -> vec (map rneg l) i = rneg (vec l i)).
  { intros l i Hi. unfold vec. now apply map_nth_in. }
  induction k as [| k IH]; intros Hk.
  - rewrite Nat.sub_0_r. auto.
  - destruct (IH ltac:(lia)) as [I1 [I2 I3]]. clear IH.
    assert (exists m, n - k = S m /\ n - S k = m)%nat as [m [Em Em']] by (exists (n - S k)%nat; lia).
    rewrite Em in *. rewrite Em'. clear Em Em' Hk.
    destruct (H m) as [L1 [L2 [L3 S]]]. destruct (H (Datatypes.S m)) as [L4 [L5 [L6 _]]].
    destruct (H' k) as [_ [_ [_ S']]]. destruct (H' (Datatypes.S k)) as [M1 [M2 [M3 _]]].
    assert (EX : x' (Datatypes.S k) = x m).
    { apply vec_ext; [congruence |]. intros i Hi. rewrite M1 in Hi.
      destruct (S' i Hi) as [A _]. destruct (S i Hi) as [B [_ D]].
      rewrite A, I1, I2, I3, VN by congruence. rewrite B, D. unfold Rdiv. r3. }
    assert (EF : f' (Datatypes.S k) = f m).
    { apply vec_ext; [congruence |]. intros i Hi. rewrite M3 in Hi.
      destruct (S' i Hi) as [_ [A _]]. rewrite A, EX. symmetry. now apply FT. }
    split; [exact EX | split; [| exact EF]].
    apply vec_ext; [rewrite map_length; congruence |]. intros i Hi. rewrite M2 in Hi.
    destruct (S' i Hi) as [_ [_ A]]. destruct (S i Hi) as [_ [_ D]].
    rewrite A, EF, I2, I3, !VN by congruence. rewrite D. unfold Rdiv. r3.
Qed.

(** * Momentum *)
Lemma vsum_S : forall num h, vsum (S num) h = radd (vsum num h) (h num).
Proof.
  intros num h. unfold vsum. rewrite seq_S, map_app, fold_right_app. cbn.
  generalize (seq 0 num). intros l. induction l as [| a t IH]; cbn; [r3 |]. rewrite IH. r3.
Qed.
Lemma vsum_ext : forall num h h', (forall i, (i < num)%nat -> h i = h' i) -> vsum num h = vsum num h'.
Proof. induction num; intros h h' H; [reflexivity |]. rewrite !vsum_S, (IHnum h h'), (H num) by auto. reflexivity. Qed.
Lemma vsum_add : forall num h h', vsum num (fun i => radd (h i) (h' i)) = radd (vsum num h) (vsum num h').
Proof. induction num; intros h h'; [r3 |]. rewrite !vsum_S, IHnum. r3. Qed.
Lemma vsum_scale : forall num h c, vsum num (fun i => rscale (h i) c) = rscale (vsum num h) c.
Proof. induction num; intros h c; [r3 |]. rewrite !vsum_S, IHnum. r3. Qed.
Lemma vsum_const : forall num c, vsum num (fun _ => c) = rscale c (INR num).
Proof. induction num; intros c; [r3 |]. rewrite vsum_S, IHnum, S_INR. r3. Qed.

Lemma momentum_seq : forall num dt mass reenter total x v f g,
  stoermerVerlet num dt mass reenter total x v f ->
  (forall i, (i < num)%nat -> mass i <> 0) ->
  (forall xs, vsum num (total xs) = rscale g (INR num)) ->
  vsum num (vec (f 0%nat)) = rscale g (INR num) ->
  forall n, momentum mass num (v n) = radd (momentum mass num (v 0%nat)) (rscale g (INR n * dt * INR num)).
Proof.
  intros num dt mass reenter total x v f g H Hm Ht H0.
  assert (FS : forall n, vsum num (vec (f n)) = rscale g (INR num)).
  { intros [| n]; [exact H0 |]. rewrite <- (Ht (x (S n))). apply vsum_ext. intros i Hi.
    destruct (H n) as [_ [_ [_ S]]]. now apply S. }
  induction n as [| n IH]; [r3 |].
  unfold momentum in *.
  rewrite (vsum_ext _ _ (fun i => radd (rscale (vec (v n) i) (mass i))
                                  (rscale (radd (vec (f n) i) (vec (f (S n)) i)) (dt / 2)))).
  - rewrite vsum_add, IH, vsum_scale, vsum_add, !FS, S_INR. r3.
  - intros i Hi. destruct (H n) as [_ [_ [_ S]]]. destruct (S i Hi) as [_ [_ E]]. rewrite E.
    apply r3eq; cbn; field; now apply Hm.
Qed.

(** * Bound of the displacement *)
Section Slow.
  Variables (dt : R) (g : R3) (skin : R) (pause : bool) (iterations tuningPhases : nat).
  Variables (relocate : R3 -> R3) (boundaryForce : nat -> R3 -> R3) (interaction : list R3 -> nat -> R3).
  Variable tuning : nat -> bool.
  Hypothesis Hdt : dt <> 0.
  Variables (ms0 : list Mol) (x v f : nat -> list R3).
  Local Notation num := (length ms0).
  Local Notation mass := (fun i => mMass (nth i ms0 mol0)).
  Hypothesis Hsv : stoermerVerlet num dt mass relocate (totalForce g boundaryForce interaction) x v f.
  Hypothesis Hnob : pause = true -> forall i p, boundaryForce i p = rzero.
  Hypothesis Hskin : 0 < skin.
  Hypothesis Hbig : / 1000000000000 < (skin / 2) * (skin / 2).
  Local Notation pass' := (pass dt g skin true pause relocate boundaryForce interaction tuning).
  Local Notation run' := (run dt g skin true pause iterations tuningPhases relocate boundaryForce interaction tuning).

  Definition displacement (n i : nat) : R3 :=
    radd (rscale (vec (v n) i) dt) (rscale (vec (f n) i) (dt * dt / (2 * mMass (nth i ms0 mol0)))).
  Definition slow (n : nat) : Prop := forall i, (i < num)%nat -> l2Norm (displacement n i) < skin / 2.
  Definition done (s : Sim) : nat := (sIter s + if sPaused s then 1 else 0)%nat.

  Lemma calcP_slow : forall ms ms' n, atXV ms0 ms (x n) (v n) -> atF ms0 ms (f n) ->
    calculatePositionsAndResetForces dt g skin true ms = Some ms' -> slow n.
  Proof.
    intros ms ms' n [HL HX] HF HP i Hi. unfold calculatePositionsAndResetForces in HP.
    destruct (existsb snd (map (movePosition dt g skin true) ms)) eqn:E; [discriminate |]. clear HP.
    assert (Q : snd (movePosition dt g skin true (nth i ms mol0)) = false).
    { destruct (snd (movePosition dt g skin true (nth i ms mol0))) eqn:Q; [| reflexivity].
      exfalso. assert (existsb snd (map (movePosition dt g skin true) ms) = true); [| congruence].
      apply existsb_exists. exists (movePosition dt g skin true (nth i ms mol0)). split; [| exact Q].
      apply in_map, nth_In. lia. }
    destruct (HX i Hi) as [E1 [E2 E3]]. pose proof (HF i Hi) as E4.
    unfold movePosition, addRDistanceCheck, setRDistanceCheck in Q. cbn [snd mPos mMass mForce mVel] in Q.
    rewrite E2, E3, E4, andb_true_r in Q. fold (displacement n i) in Q.
    replace (rsub (radd (mPos (nth i ms mol0)) (displacement n i)) (mPos (nth i ms mol0))) with (displacement n i) in Q by r3.
    unfold maxAllowedDistanceMovedSquared, maxAllowedDistanceMoved in Q.
    destruct (Rlt_dec 0 (skin / 2 * (skin / 2))) as [_ | N]; [| exfalso; apply N; lra].
    rewrite andb_true_r in Q. apply negb_false_iff in Q. apply orb_prop in Q as [Q | Q].
    - destruct (Rlt_dec (dot (displacement n i) (displacement n i)) (skin / 2 * (skin / 2))) as [L | L]; [| discriminate].
      unfold l2Norm. rewrite <- (sqrt_square (skin / 2)) by lra. apply sqrt_lt_1_alt. split; [| exact L].
      unfold dot. pose proof (Rle_0_sqr (rx (displacement n i))). pose proof (Rle_0_sqr (ry (displacement n i))).
      pose proof (Rle_0_sqr (rz (displacement n i))). unfold Rsqr in *. lra.
    - unfold isNearAbs in Q. destruct (Rle_dec _ _) as [L | L]; [| discriminate].
      rewrite Rminus_0_r, Rabs_pos_eq in L by lra. lra.
  Qed.

  Lemma pass_slow : forall s s', loopInv pause ms0 x v f s -> pausedOk pause s -> (forall n, (n < done s)%nat -> slow n) ->
    pass' s = Some s' -> forall n, (n < done s')%nat -> slow n.
  Proof.
    intros s s' HI HP HS H n Hn.
    assert (D : done s' = S (sIter s)).
    { destruct (pass_control _ _ _ _ _ _ _ _ _ _ _ HP H) as [[A B] | [A [B _]]]; unfold done; rewrite A, B; lia. }
    rewrite D in Hn. destruct (Nat.lt_ge_cases n (done s)) as [L | L]; [now apply HS |].
    unfold done in L. unfold loopInv in HI. destruct (sPaused s) eqn:Ep; [lia |].
    assert (n = sIter s) by lia. subst n.
    unfold pass, passPositions in H. rewrite (moves_true dt Hdt s Ep) in H.
    destruct (calculatePositionsAndResetForces dt g skin true (sMols s)) as [ms |] eqn:E; [| discriminate].
    exact (calcP_slow _ _ _ (proj1 HI) (proj2 HI) E).
  Qed.

  Lemma run_slow : forall k s s', loopInv pause ms0 x v f s -> pausedOk pause s -> (forall n, (n < done s)%nat -> slow n) ->
    run' k s = Some s' -> forall n, (n < done s')%nat -> slow n.
  Proof.
    induction k as [| k IH]; intros s s' HI HP HS H; cbn in H.
    - injection H as <-. exact HS.
    - destruct (needsMoreIterations iterations tuningPhases s); [| injection H as <-; exact HS].
      destruct (pass' s) as [s1 |] eqn:E; [| discriminate].
      apply (IH s1 s'); [| exact (pass_pausedOk _ _ _ _ _ _ _ _ _ _ _ HP E) | exact (pass_slow _ _ HI HP HS E) | exact H].
      eapply pass_inv; eassumption.
  Qed.
End Slow.
