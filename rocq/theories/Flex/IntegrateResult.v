(** The theorems about md-flexible's main loop in the form the property file states them. *)
From Coq Require Import Reals List Bool Arith Lra Lia.
From Verif.Functor Require Import SortModel SortSpec.
From Verif.MD Require Import LJModel.
From Verif.Flex Require Import IntegrateModel IntegrateSpec IntegrateProofs IntegrateTheorem IntegrateExample.
Import ListNotations.
Local Open Scope R_scope.

Lemma sv_mass : forall num dt mass mass' reenter total x v f,
  (forall i, (i < num)%nat -> mass i = mass' i) ->
  stoermerVerlet num dt mass reenter total x v f -> stoermerVerlet num dt mass' reenter total x v f.
Proof.
  intros num dt mass mass' reenter total x v f E H n. destruct (H n) as [A [B [C D]]].
  repeat (split; [assumption |]). intros i Hi. rewrite <- (E i Hi). now apply D.
Qed.
Lemma mass_nth : forall ms i, nth i (map mMass ms) 1 = mMass (nth i ms mol0).
Proof. intros. exact (map_nth mMass ms mol0 i). Qed.

Lemma trajectory_any : forall dt g relocate boundaryForce interaction ms, dt <> 0 ->
  exists x v f,
    stoermerVerlet (length ms) dt (fun i => nth i (map mMass ms) 1) relocate
      (fun xs i => radd (radd g (boundaryForce i (vec xs i))) (interaction xs i)) x v f /\
    x 0%nat = map mPos ms /\ v 0%nat = map mVel ms /\ f 0%nat = map mForce ms /\
    forall skin throws pause iterations tuningPhases tuning k s,
      (pause = true -> forall i p, boundaryForce i p = rzero) ->
      run dt g skin throws pause iterations tuningPhases relocate boundaryForce interaction tuning k (initSim ms) = Some s ->
      map mVel (sMols s) = v (sIter s) /\
      (sPaused s = false -> map mPos (sMols s) = x (sIter s) /\ map mForce (sMols s) = f (sIter s)) /\
      (sPaused s = true -> map mPos (sMols s) = x (S (sIter s))).
Proof.
  intros dt g relocate bF inter ms Hdt.
  destruct (sv_exists (length ms) dt (fun i => nth i (map mMass ms) 1) relocate
              (fun xs i => radd (radd g (bF i (vec xs i))) (inter xs i)) (map mPos ms) (map mVel ms) (map mForce ms))
    as [x [v [f [H [E1 [E2 E3]]]]]]; try apply map_length.
  exists x, v, f. repeat (split; [assumption |]).
  intros skin throws pause its phases tuning k s Hb HR.
  assert (H' : stoermerVerlet (length ms) dt (fun i => mMass (nth i ms mol0)) relocate (totalForce g bF inter) x v f).
  { apply (sv_mass _ _ (fun i => nth i (map mMass ms) 1)); [| exact H]. intros i _. apply mass_nth. }
  destruct (trajectory dt g skin throws pause its phases relocate bF inter tuning Hdt ms x v f H' Hb k s E1 E2 E3 HR)
    as [A B].
  split; [exact A |]. destruct (sPaused s); split; intros C; try discriminate; exact B.
Qed.

Lemma ends : forall dt g skin throws pause iterations tuningPhases relocate boundaryForce interaction tuning k s ms,
  run dt g skin throws pause iterations tuningPhases relocate boundaryForce interaction tuning k (initSim ms) = Some s ->
  needsMoreIterations iterations tuningPhases s = false ->
  sPaused s = false /\ (tuningPhases = 0%nat -> sIter s = iterations).
Proof.
  intros dt g skin throws pause its phases relocate bF inter tuning k s ms HR HM.
  assert (P0 : pausedOk pause (initSim ms)) by (intros C; discriminate).
  split.
  - eapply run_finished; try eassumption. reflexivity.
  - intros H0. assert (sIter s <= its)%nat.
    { eapply (run_iter_le _ _ _ _ _ _ _ _ _ _ _ _ (initSim ms)); try eassumption. cbn. lia. }
    unfold needsMoreIterations in HM. apply orb_false_iff in HM as [A _]. apply Nat.ltb_ge in A. lia.
Qed.

Lemma terminates : forall dt g skin pause iterations relocate boundaryForce interaction tuning ms,
  (forall c, exists d, (c <= d)%nat /\ tuning d = false) ->
  exists k s, run dt g skin false pause iterations 0 relocate boundaryForce interaction tuning k (initSim ms) = Some s /\
              sIter s = iterations /\ sPaused s = false.
Proof.
  intros dt g skin pause its relocate bF inter tuning ms Ht.
  destruct (run_ends dt g skin false pause its 0 relocate bF inter tuning eq_refl Ht eq_refl its (initSim ms))
    as [k [s [A B]]]; [cbn; lia | intros C; discriminate |].
  exists k, s. destruct (ends _ _ _ _ _ _ _ _ _ _ _ _ _ _ A B) as [C D]. auto.
Qed.

Section Final.
  Variables (dt : R) (g : R3) (boundaryForce : nat -> R3 -> R3) (interaction : list R3 -> nat -> R3) (ms : list Mol).
  Hypothesis Hdt : dt <> 0.
  Local Notation total := (totalForce g boundaryForce interaction).

  (** The molecules of an unpaused simulation. *)
  Lemma run_state : forall skin throws pause its phases relocate tuning k s x v f,
    (pause = true -> forall i p, boundaryForce i p = rzero) ->
    stoermerVerlet (length ms) dt (fun i => mMass (nth i ms mol0)) relocate total x v f ->
    x 0%nat = map mPos ms -> v 0%nat = map mVel ms -> f 0%nat = map mForce ms ->
    run dt g skin throws pause its phases relocate boundaryForce interaction tuning k (initSim ms) = Some s ->
    sPaused s = false ->
    length (sMols s) = length ms /\ map mPos (sMols s) = x (sIter s) /\ map mVel (sMols s) = v (sIter s) /\
    map mForce (sMols s) = f (sIter s) /\
    forall i, (i < length ms)%nat -> mMass (nth i (sMols s) mol0) = mMass (nth i ms mol0).
  Proof.
    intros skin throws pause its phases relocate tuning k s x v f Hb H E1 E2 E3 HR Hp.
    assert (HI : loopInv pause ms x v f s).
    { eapply run_inv; try eassumption. apply init_inv; assumption. }
    unfold loopInv in HI. rewrite Hp in HI. destruct HI as [HX HF].
    pose proof (atXV_pos _ _ _ _ _ _ _ _ _ H _ _ _ HX) as A.
    pose proof (atXV_vel _ _ _ _ _ _ _ _ _ H _ _ _ HX) as B.
    pose proof (atF_force _ _ _ _ _ _ _ _ _ H _ _ (proj1 HX) HF) as C.
    destruct HX as [HL HX]. repeat (split; [assumption |]). intros i Hi. now apply HX.
  Qed.

  Lemma reversible : forall skin throws pause its phases tuning k s skin' throws' pause' its' phases' tuning' k' s',
    (pause = true \/ pause' = true -> forall i p, boundaryForce i p = rzero) ->
    (forall i, (i < length ms)%nat -> mForce (nth i ms mol0) = total (map mPos ms) i) ->
    run dt g skin throws pause its phases (fun p => p) boundaryForce interaction tuning k (initSim ms) = Some s ->
    sPaused s = false ->
    run dt g skin' throws' pause' its' phases' (fun p => p) boundaryForce interaction tuning' k'
        (initSim (map flip (sMols s))) = Some s' ->
    sPaused s' = false -> sIter s' = sIter s ->
    map mPos (sMols s') = map mPos ms /\ map mVel (sMols s') = map rneg (map mVel ms) /\
    map mForce (sMols s') = map mForce ms.
  Proof.
    intros skin throws pause its phases tuning k s skin' throws' pause' its' phases' tuning' k' s' Hb H0 HR Hp HR' Hp' Ei.
    destruct (sv_exists (length ms) dt (fun i => mMass (nth i ms mol0)) (fun p => p) total
                (map mPos ms) (map mVel ms) (map mForce ms)) as [x [v [f [H [E1 [E2 E3]]]]]]; try apply map_length.
    destruct (run_state _ _ _ _ _ _ _ _ _ x v f (fun e => Hb (or_introl e)) H E1 E2 E3 HR Hp) as [L [A [B [C D]]]].
    set (ms1 := map flip (sMols s)) in *.
    assert (L1 : length ms1 = length ms) by (unfold ms1; now rewrite map_length).
    destruct (sv_exists (length ms1) dt (fun i => mMass (nth i ms1 mol0)) (fun p => p) total
                (map mPos ms1) (map mVel ms1) (map mForce ms1)) as [x' [v' [f' [H' [E1' [E2' E3']]]]]]; try apply map_length.
    assert (R' : length (sMols s') = length ms1 /\ map mPos (sMols s') = x' (sIter s') /\
                 map mVel (sMols s') = v' (sIter s') /\ map mForce (sMols s') = f' (sIter s')).
    { assert (HI : loopInv pause' ms1 x' v' f' s').
      { eapply run_inv; try eassumption; [exact (fun e => Hb (or_intror e)) |]. apply init_inv; assumption. }
      unfold loopInv in HI. rewrite Hp' in HI. destruct HI as [HX HF].
      pose proof (atXV_pos _ _ _ _ _ _ _ _ _ H' _ _ _ HX) as A'.
      pose proof (atXV_vel _ _ _ _ _ _ _ _ _ H' _ _ _ HX) as B'.
      pose proof (atF_force _ _ _ _ _ _ _ _ _ H' _ _ (proj1 HX) HF) as C'.
      destruct HX as [HL _]. auto. }
    destruct R' as [L' [A' [B' C']]].
    assert (H'' : stoermerVerlet (length ms) dt (fun i => mMass (nth i ms mol0)) (fun p => p) total x' v' f').
    { rewrite <- L1. apply (sv_mass _ _ (fun i => mMass (nth i ms1 mol0))); [| exact H'].
      intros i Hi. rewrite L1 in Hi. rewrite <- (D i Hi). unfold ms1.
      rewrite (map_nth_in _ _ flip mol0 mol0) by lia. reflexivity. }
    destruct (reversal (length ms) dt (fun i => mMass (nth i ms mol0)) total x v f x' v' f' (sIter s) H H'') with (k := sIter s)
      as [R1 [R2 R3]]; try lia.
    - intros i Hi. rewrite E1, E3, vecForce. now apply H0.
    - rewrite E1', <- A. unfold ms1. rewrite map_map. reflexivity.
    - rewrite E2', <- B. unfold ms1. rewrite !map_map. reflexivity.
    - rewrite E3', <- C. unfold ms1. rewrite map_map. reflexivity.
    - rewrite Nat.sub_diag in *. rewrite A', B', C', Ei, R1, R2, R3, E1, E2, E3. auto.
  Qed.

  Lemma momentum_run : forall skin throws pause its phases relocate tuning k s,
    (pause = true -> forall i p, boundaryForce i p = rzero) ->
    (forall i, (i < length ms)%nat -> mMass (nth i ms mol0) <> 0) ->
    (forall xs, vsum (length ms) (total xs) = rscale g (INR (length ms))) ->
    vsum (length ms) (vec (map mForce ms)) = rscale g (INR (length ms)) ->
    run dt g skin throws pause its phases relocate boundaryForce interaction tuning k (initSim ms) = Some s ->
    sPaused s = false ->
    momentum (fun i => nth i (map mMass ms) 1) (length ms) (map mVel (sMols s)) =
    radd (momentum (fun i => nth i (map mMass ms) 1) (length ms) (map mVel ms))
         (rscale g (INR (sIter s) * dt * INR (length ms))).
  Proof.
    intros skin throws pause its phases relocate tuning k s Hb Hm Ht H0 HR Hp.
    destruct (sv_exists (length ms) dt (fun i => nth i (map mMass ms) 1) relocate total
                (map mPos ms) (map mVel ms) (map mForce ms)) as [x [v [f [H [E1 [E2 E3]]]]]]; try apply map_length.
    assert (H' : stoermerVerlet (length ms) dt (fun i => mMass (nth i ms mol0)) relocate total x v f).
    { apply (sv_mass _ _ (fun i => nth i (map mMass ms) 1)); [| exact H]. intros i _. apply mass_nth. }
    destruct (run_state _ _ _ _ _ _ _ _ _ x v f Hb H' E1 E2 E3 HR Hp) as [_ [_ [B _]]].
    rewrite B, <- E2. eapply momentum_seq; try eassumption.
    - intros i Hi. rewrite mass_nth. now apply Hm.
    - now rewrite E3.
  Qed.
End Final.

Lemma displacement_bound : forall dt g skin pause its phases relocate boundaryForce interaction tuning ms k s x v f,
  dt <> 0 -> (pause = true -> forall i p, boundaryForce i p = rzero) ->
  0 < skin -> / 1000000000000 < (skin / 2) * (skin / 2) ->
  stoermerVerlet (length ms) dt (fun i => nth i (map mMass ms) 1) relocate
    (fun xs i => radd (radd g (boundaryForce i (vec xs i))) (interaction xs i)) x v f ->
  x 0%nat = map mPos ms -> v 0%nat = map mVel ms -> f 0%nat = map mForce ms ->
  run dt g skin true pause its phases relocate boundaryForce interaction tuning k (initSim ms) = Some s ->
  forall n i, (n < sIter s + if sPaused s then 1 else 0)%nat -> (i < length ms)%nat ->
    l2Norm (radd (rscale (vec (v n) i) dt) (rscale (vec (f n) i) (dt * dt / (2 * nth i (map mMass ms) 1)))) < skin / 2.
Proof.
  intros dt g skin pause its phases relocate bF inter tuning ms k s x v f Hdt Hb Hs Hbig H E1 E2 E3 HR n i Hn Hi.
  assert (H' : stoermerVerlet (length ms) dt (fun i => mMass (nth i ms mol0)) relocate (totalForce g bF inter) x v f).
  { apply (sv_mass _ _ (fun i => nth i (map mMass ms) 1)); [| exact H]. intros j _. apply mass_nth. }
  rewrite mass_nth.
  refine (run_slow dt g skin pause its phases relocate bF inter tuning Hdt ms x v f H' Hb Hs Hbig k (initSim ms) s _ _ _ HR n Hn i Hi).
  - apply init_inv; assumption.
  - intros C; discriminate.
  - cbn. intros m Hm. lia.
Qed.
