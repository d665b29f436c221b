(** Rotations and the rotational time integration: proofs. *)
From Coq Require Import Reals List Lra Lia Psatz.
From Verif.Functor Require Import SortModel.
From Verif.MD Require Import LJModel.
From Verif.Flex Require Import QuatModel QuatSpec IntegrateProofs.
Import ListNotations.
Local Open Scope R_scope.

Lemma qeq : forall a b : quat, qw a = qw b -> qx a = qx b -> qy a = qy b -> qz a = qz b -> a = b.
Proof. intros [a1 a2 a3 a4] [b1 b2 b3 b4]; cbn; intros; subst; reflexivity. Qed.
Ltac q4 := apply qeq; cbn; try (ring || lra).

Lemma rotate_sandwich : forall q v,
  qMul (qMul q (qOfVec v)) (qConjugate q) = qOfVec (rotatePosition q v).
Proof. intros [w x y z] [a b c]. q4. Qed.

Lemma rotate_converts : forall q v,
  convertQuaternionTo3DVec (qMul (qMulVec q v) (qConjugate q)) = Some (rotatePosition q v).
Proof.
  intros q v. unfold qMulVec. rewrite rotate_sandwich. unfold convertQuaternionTo3DVec; cbn [qOfVec qw].
  rewrite Rabs_R0. destruct (Rle_dec 0 _) as [_|N]; [reflexivity|exfalso; apply N; lra].
Qed.

Lemma rotate_dot : forall q a b, dot (rotatePosition q a) (rotatePosition q b) = norm2 q * norm2 q * dot a b.
Proof. intros [w x y z] [a1 a2 a3] [b1 b2 b3]. unfold dot, norm2; cbn. ring. Qed.

Lemma rotate_cross : forall q a b,
  cross (rotatePosition q a) (rotatePosition q b) = rscale (rotatePosition q (cross a b)) (norm2 q).
Proof. intros [w x y z] [a1 a2 a3] [b1 b2 b3]. unfold norm2. r3. Qed.

Lemma rotate_back : forall q v, rotatePositionBackwards q (rotatePosition q v) = rscale v (norm2 q * norm2 q).
Proof. intros [w x y z] [a b c]. unfold norm2. r3. Qed.

Lemma rotate_forth : forall q v, rotatePosition q (rotatePositionBackwards q v) = rscale v (norm2 q * norm2 q).
Proof. intros [w x y z] [a b c]. unfold norm2. r3. Qed.

Lemma rotate_compose : forall p q v, rotatePosition (qMul p q) v = rotatePosition p (rotatePosition q v).
Proof. intros [w x y z] [a b c d] [e f g]. r3. Qed.

Lemma rotate_mirror : forall q d v q', qMirror q d = Some q' ->
  rotatePosition q' (mirrored d v) = mirrored d (rotatePosition q v).
Proof.
  intros [w x y z] d [a b c] q' H. destruct d as [|[|[|d]]]; cbn in H; try discriminate; injection H as <-; r3.
Qed.

Lemma rotate_sub : forall q a b, rotatePosition q (rsub a b) = rsub (rotatePosition q a) (rotatePosition q b).
Proof. intros [w x y z] [a1 a2 a3] [b1 b2 b3]. r3. Qed.

Lemma norm2_mul : forall p q, norm2 (qMul p q) = norm2 p * norm2 q.
Proof. intros [w x y z] [a b c d]. unfold norm2; cbn. ring. Qed.

Lemma norm2_scale : forall q s, norm2 (qScale q s) = norm2 q * (s * s).
Proof. intros [w x y z] s. unfold norm2; cbn. ring. Qed.

Lemma norm2_pos : forall q, 0 <= norm2 q.
Proof. intros [w x y z]. unfold norm2; cbn. nra. Qed.

Lemma qDot_norm2 : forall q, qDot q q = norm2 q.
Proof. intros. unfold qDot, norm2. ring. Qed.

Lemma normalize_dir : forall a u, qNormalize a = Some u -> direction a u.
Proof.
  intros a u H. unfold qNormalize in H. rewrite qDot_norm2 in H.
  destruct (Req_EM_T _ _) as [|N]; [discriminate|]. injection H as <-.
  pose proof (sqrt_pos (norm2 a)) as S. assert (S' : 0 < sqrt (norm2 a)) by lra.
  pose proof (sqrt_sqrt _ (norm2_pos a)) as E.
  split.
  - unfold unit. rewrite norm2_scale. rewrite <- E at 1. field. lra.
  - exists (sqrt (norm2 a)). split; auto. destruct a; apply qeq; cbn; field; lra.
Qed.

Lemma normalize_some : forall a, 0 < norm2 a -> exists u, qNormalize a = Some u.
Proof.
  intros a H. unfold qNormalize. rewrite qDot_norm2. destruct (Req_EM_T _ _) as [E|]; eauto.
  apply sqrt_lt_R0 in H. lra.
Qed.

Lemma spin_unit : forall q w, unit q ->
  qScale (qMulVec q (rotatePositionBackwards q w)) (/ 2) = spin w q.
Proof.
  intros q w U. unfold spin. f_equal. unfold qMulVec.
  assert (E : qMul q (qOfVec (rotatePositionBackwards q w)) = qScale (qMul (qOfVec w) q) (norm2 q)).
  { destruct q as [a b c d], w as [x y z]. unfold norm2. q4. }
  rewrite E, U. destruct q, w; q4.
Qed.

(** The loop ends with the midpoint rule satisfied; it is passed at least once. *)
Section Loop.
  Variables (dt tol : R) (q : quat) (w : R3).

  Definition step1 (p : quat) : quat := qAdd q (qScale (spin w p) (dt / 2)).

  Lemma loop_S : forall fuel d p' p,
    halfStepLoop dt tol (S fuel) q w d p' p =
    if Rlt_dec (tol * tol) (norm2 (qSub p' p)) then
      match qNormalize (qAdd q (qScale (qScale (qMulVec p' (rotatePositionBackwards p' w)) (/ 2)) (halfDt dt))) with
      | None => None
      | Some p'' => halfStepLoop dt tol fuel q w (qScale (qMulVec p' (rotatePositionBackwards p' w)) (/ 2)) p'' p'
      end
    else Some d.
  Proof. intros. cbn [halfStepLoop]. rewrite qDot_norm2. reflexivity. Qed.

  Lemma halfDt_eq : halfDt dt = dt / 2. Proof. unfold halfDt. field. Qed.

  Lemma loop_result : forall fuel d p' p r, unit p' ->
    (norm2 (qSub p' p) <= tol * tol -> unit p /\ d = spin w p /\ direction (step1 p) p') ->
    halfStepLoop dt tol fuel q w d p' p = Some r ->
    exists o o', unit o /\ r = spin w o /\ direction (step1 o) o' /\ norm2 (qSub o' o) <= tol * tol.
  Proof.
    induction fuel as [|fuel IH]; intros d p' p r U H E; [discriminate|].
    cbn [halfStepLoop] in E. rewrite qDot_norm2 in E. destruct (Rlt_dec _ _) as [L|L].
    - rewrite (spin_unit _ _ U), halfDt_eq in E.
      destruct (qNormalize _) as [p''|] eqn:N; [|discriminate].
      pose proof (normalize_dir _ _ N) as D.
      apply IH in E; [exact E| apply D |]. intros _. split; [exact U|]. split; [reflexivity|exact D].
    - injection E as <-. destruct H as (U' & -> & D); [lra|]. exists p, p'. repeat split; auto; try apply D. lra.
  Qed.
End Loop.

Lemma first_pass : forall tol u, 0 < tol ->
  ~ norm2 (qSub u (mkQ (qw u + 2 * tol) (qx u) (qy u) (qz u))) <= tol * tol.
Proof. intros tol [a b c d] H. unfold norm2; cbn. intros N. nra. Qed.

Lemma rotateStep_spec : forall dt tol fuel g m m', 0 < tol ->
  rotateStep dt tol fuel g m = Some m' ->
  rAngVel m' = radd (rAngVel m) (rscale (angularAcceleration (rInertia m) (rQuat m) (rTorque m)) (dt / 2)) /\
  midpoint dt tol (rAngVel m') (rQuat m) (rQuat m') /\ unit (rQuat m') /\
  rInertia m' = rInertia m /\ rSites m' = rSites m /\
  rTorque m' = globalTorque (rQuat m') (rSites m) g.
Proof.
  intros dt tol fuel g m m' T H. unfold rotateStep in H.
  destruct (qNormalize _) as [qh|] eqn:N1; [|discriminate].
  destruct (halfStepLoop _ _ _ _ _ _ _ _) as [r|] eqn:E; [|discriminate].
  destruct (qNormalize (qAdd (rQuat m) (qScale r dt))) as [qf|] eqn:N2; [|discriminate].
  injection H as <-. cbn [rAngVel rQuat rInertia rSites rTorque].
  pose proof (normalize_dir _ _ N1) as [U1 _]. pose proof (normalize_dir _ _ N2) as D2.
  apply loop_result in E; [|exact U1|intros C; exfalso; revert C; apply first_pass; exact T].
  destruct E as (o & o' & Uo & -> & Do & Dist).
  split; [rewrite <- halfDt_eq; reflexivity|]. split; [|split; [apply D2|auto]].
  exists o, o'. auto.
Qed.

Lemma rotorStep_spec : forall dt tol fuel g t m m', 0 < tol ->
  rotorStep dt tol fuel g t m = Some m' ->
  exists w, w = radd (rAngVel m) (rscale (angularAcceleration (rInertia m) (rQuat m) (rTorque m)) (dt / 2)) /\
  midpoint dt tol w (rQuat m) (rQuat m') /\ unit (rQuat m') /\
  rTorque m' = radd (globalTorque (rQuat m') (rSites m) g) t /\
  rAngVel m' = radd w (rscale (angularAcceleration (rInertia m) (rQuat m') (rTorque m')) (dt / 2)) /\
  rInertia m' = rInertia m /\ rSites m' = rSites m.
Proof.
  intros dt tol fuel g t m m' T H. unfold rotorStep in H.
  destruct (rotateStep _ _ _ _ _) as [m1|] eqn:E; [|discriminate]. injection H as <-.
  apply rotateStep_spec in E as (E1 & E2 & E3 & E4 & E5 & E6); auto.
  exists (rAngVel m1). unfold updateAngVel; cbn [rQuat rAngVel rTorque rInertia rSites].
  split; [exact E1|]. split; [exact E2|]. split; [exact E3|]. split; [rewrite E6; reflexivity|].
  split; [|auto]. rewrite E4. unfold angularAcceleration. r3; field.
Qed.

Lemma run_rigid : forall dt tol fuel g ts m m', 0 < tol -> unit (rQuat m) ->
  rotorRun dt tol fuel g ts m = Some m' ->
  unit (rQuat m') /\ rInertia m' = rInertia m /\ rSites m' = rSites m.
Proof.
  induction ts as [|t ts IH]; intros m m' T U H.
  - injection H as <-. auto.
  - cbn [rotorRun] in H. destruct (rotorStep _ _ _ _ _ _) as [m1|] eqn:E; [|discriminate].
    apply rotorStep_spec in E as (w & _ & _ & U1 & _ & _ & I1 & S1); auto.
    apply IH in H as (U2 & I2 & S2); auto. rewrite I2, S2. auto.
Qed.

Lemma dot_sub_unit : forall q a b, unit q ->
  dot (rsub (rotatePosition q a) (rotatePosition q b)) (rsub (rotatePosition q a) (rotatePosition q b))
  = dot (rsub a b) (rsub a b).
Proof. intros q a b U. rewrite <- rotate_sub, rotate_dot, U. ring. Qed.

Lemma accel_zero : forall I q, angularAcceleration I q rzero = rzero.
Proof.
  intros I q. unfold angularAcceleration.
  replace (rotatePositionBackwards q rzero) with rzero by (destruct q; r3).
  replace (rdiv rzero I) with rzero by (unfold rdiv, rzero, Rdiv; cbn; rewrite !Rmult_0_l; reflexivity).
  destruct q; r3.
Qed.

Lemma globalTorque_zero : forall q sites, globalTorque q sites rzero = rzero.
Proof.
  intros q sites. unfold globalTorque. generalize (rotateVectorOfPositions q sites) as l.
  assert (G : forall l acc, fold_left (fun t s => radd t (cross s rzero)) l acc = acc).
  { induction l as [|s l IH]; intros acc; cbn [fold_left]; auto. rewrite IH. destruct acc, s; r3. }
  intros l. apply G.
Qed.

Lemma free_run : forall dt tol fuel n m m', 0 < tol -> rTorque m = rzero ->
  rotorRun dt tol fuel rzero (repeat rzero n) m = Some m' -> rAngVel m' = rAngVel m /\ rTorque m' = rzero.
Proof.
  intros dt tol fuel. induction n as [|n IH]; intros m m' T Z H.
  - injection H as <-. auto.
  - cbn [repeat rotorRun] in H. destruct (rotorStep _ _ _ _ _ _) as [m1|] eqn:E; [|discriminate].
    apply rotorStep_spec in E as (w & Ew & _ & _ & Et & Ea & _); auto.
    rewrite globalTorque_zero in Et. assert (Et' : rTorque m1 = rzero) by (rewrite Et; r3).
    apply IH in H as [H1 H2]; auto. split; auto. rewrite H1, Ea, Et', Ew, Z, !accel_zero.
    destruct (rAngVel m); r3.
Qed.

(** ** The loop ends *)

Lemma unit_bound : forall a b, unit a -> unit b -> qDot a b <= 1.
Proof.
  intros [a1 a2 a3 a4] [b1 b2 b3 b4] A B. unfold unit, norm2, qDot in *; cbn in *.
  assert (0 <= (a1-b1)*(a1-b1) + (a2-b2)*(a2-b2) + (a3-b3)*(a3-b3) + (a4-b4)*(a4-b4))
    by (repeat apply Rplus_le_le_0_compat; apply Rle_0_sqr). lra.
Qed.

Lemma norm2_sub_unit : forall a b, unit a -> unit b -> norm2 (qSub a b) = 2 - 2 * qDot a b.
Proof.
  intros [a1 a2 a3 a4] [b1 b2 b3 b4] A B. unfold unit, norm2, qDot in *; cbn in *. lra.
Qed.

(** Directions are closer than the vectors, relative to their lengths. *)
Lemma direction_close : forall a b u v ca cb, unit u -> unit v -> 0 < ca -> 0 < cb ->
  a = qScale u ca -> b = qScale v cb -> norm2 (qSub u v) * (ca * cb) <= norm2 (qSub a b).
Proof.
  intros a b u v ca cb U V A B -> ->. rewrite (norm2_sub_unit u v U V).
  assert (E : norm2 (qSub (qScale u ca) (qScale v cb)) = ca * ca + cb * cb - 2 * (ca * cb) * qDot u v).
  { destruct u as [u1 u2 u3 u4], v as [v1 v2 v3 v4]. unfold unit, norm2, qDot in *; cbn in *.
    transitivity (ca * ca * (u1*u1+u2*u2+u3*u3+u4*u4) + cb*cb*(v1*v1+v2*v2+v3*v3+v4*v4)
                  - 2 * (ca * cb) * (u1*v1+u2*v2+u3*v3+u4*v4)); [ring|].
    rewrite U, V. ring. }
  rewrite E. pose proof (Rle_0_sqr (ca - cb)) as S. unfold Rsqr in S. lra.
Qed.

Section Long.
  Variables (dt : R) (q : quat) (w : R3) (k : R).
  Hypothesis Uq : unit q.
  Hypothesis Hk : 0 <= k <= 1.
  Hypothesis Hw : dt * dt * dot w w <= 16 * (k * k).

  Lemma norm2_vec : forall v, norm2 (qOfVec v) = dot v v.
  Proof. intros [x y z]. unfold norm2, dot; cbn. ring. Qed.

  (** The vector that is normalised is at least 1 - k long. *)
  Lemma step1_long : forall p, unit p -> (1 - k) * (1 - k) <= norm2 (step1 dt q w p).
  Proof.
    intros p Up.
    set (e := qScale (qMul (qOfVec w) p) (dt / 4)).
    assert (Ee : step1 dt q w p = qAdd q e).
    { unfold step1, e, spin. destruct q, w, p. apply qeq; cbn; field. }
    assert (Ne : norm2 e <= k * k).
    { unfold e. rewrite norm2_scale, norm2_mul, norm2_vec, Up.
      replace (dot w w * 1 * (dt / 4 * (dt / 4))) with (dt * dt * dot w w / 16) by field. lra. }
    rewrite Ee. clearbody e. clear Ee.
    assert (X : norm2 (qAdd q e) = 1 + 2 * qDot q e + norm2 e).
    { destruct q as [q1 q2 q3 q4], e as [e1 e2 e3 e4]. unfold unit, norm2, qDot in *; cbn in *.
      transitivity ((q1*q1+q2*q2+q3*q3+q4*q4) + 2*(q1*e1+q2*e2+q3*e3+q4*e4) + (e1*e1+e2*e2+e3*e3+e4*e4)); [ring|].
      rewrite Uq. ring. }
    (* Cauchy-Schwarz *)
    assert (CS : qDot q e * qDot q e <= norm2 q * norm2 e).
    { destruct q as [q1 q2 q3 q4], e as [e1 e2 e3 e4]. unfold norm2, qDot; cbn.
      assert (H0 : 0 <= (q1*e2-q2*e1)*(q1*e2-q2*e1) + (q1*e3-q3*e1)*(q1*e3-q3*e1) + (q1*e4-q4*e1)*(q1*e4-q4*e1)
             + (q2*e3-q3*e2)*(q2*e3-q3*e2) + (q2*e4-q4*e2)*(q2*e4-q4*e2) + (q3*e4-q4*e3)*(q3*e4-q4*e3)).
      { repeat apply Rplus_le_le_0_compat; apply Rle_0_sqr. }
      lra. }
    rewrite Uq in CS. rewrite X.
    set (n := sqrt (norm2 e)). assert (n0 : 0 <= n) by apply sqrt_pos.
    assert (nn : n * n = norm2 e) by (apply sqrt_sqrt, norm2_pos).
    assert (Dn : - n <= qDot q e).
    { destruct (Rle_or_lt (- n) (qDot q e)); auto. exfalso. nra. }
    assert (nk : n <= k). { destruct (Rle_or_lt n k); auto. exfalso. nra. }
    rewrite <- nn. nra.
  Qed.

End Long.

Section Converge.
  Variables (dt tol : R) (q : quat) (w : R3).
  Hypothesis Uq : unit q.
  Hypothesis Ht : 0 < tol.
  (** a quarter of the angle per time step *)
  Variable k : R.
  Hypothesis Hk : 0 <= k < / 2.
  Hypothesis Hw : dt * dt * dot w w <= 16 * (k * k).

  Lemma step1_sub : forall p p', qSub (step1 dt q w p) (step1 dt q w p')
    = qScale (qMul (qOfVec w) (qSub p p')) (dt / 4).
  Proof. intros [a b c d] [e f g h]. destruct q as [q1 q2 q3 q4], w as [x y z]. unfold step1, spin. apply qeq; cbn; field. Qed.

  Lemma step1_close : forall p p',
    norm2 (qSub (step1 dt q w p) (step1 dt q w p')) <= k * k * norm2 (qSub p p').
  Proof.
    intros p p'. rewrite step1_sub, norm2_scale, norm2_mul, norm2_vec.
    pose proof (norm2_pos (qSub p p')) as P. set (N := norm2 (qSub p p')) in *.
    replace (dot w w * N * (dt / 4 * (dt / 4))) with (dt * dt * dot w w / 16 * N) by field.
    apply Rmult_le_compat_r; auto. lra.
  Qed.

  Lemma step1_some : forall p, unit p -> exists p', qNormalize (step1 dt q w p) = Some p' /\ unit p'.
  Proof.
    intros p Up. assert (L : (1 - k) * (1 - k) <= norm2 (step1 dt q w p)) by (apply step1_long; auto; lra).
    destruct (normalize_some (step1 dt q w p)) as (u & E); [nra|].
    exists u. split; auto. apply (normalize_dir _ _ E).
  Qed.

  Lemma dir_length : forall a u c, unit u -> a = qScale u c -> norm2 a = c * c.
  Proof. intros a u c U ->. rewrite norm2_scale, U. ring. Qed.

  (** Each pass reduces the distance by k / (1 - k). *)
  Lemma contraction : forall p p' u u', unit p -> unit p' ->
    qNormalize (step1 dt q w p) = Some u -> qNormalize (step1 dt q w p') = Some u' ->
    norm2 (qSub u u') <= (k * k / ((1 - k) * (1 - k))) * norm2 (qSub p p').
  Proof.
    intros p p' u u' Up Up' Eu Eu'.
    destruct (normalize_dir _ _ Eu) as (Uu & c & Hc & Ec).
    destruct (normalize_dir _ _ Eu') as (Uu' & c' & Hc' & Ec').
    assert (L : (1 - k) * (1 - k) <= norm2 (step1 dt q w p)) by (apply step1_long; auto; lra). assert (L' : (1 - k) * (1 - k) <= norm2 (step1 dt q w p')) by (apply step1_long; auto; lra).
    rewrite (dir_length _ _ _ Uu Ec) in L. rewrite (dir_length _ _ _ Uu' Ec') in L'.
    assert (1 - k <= c) by nra. assert (1 - k <= c') by nra.
    pose proof (direction_close _ _ _ _ _ _ Uu Uu' Hc Hc' Ec Ec') as D.
    pose proof (step1_close p p') as C. pose proof (norm2_pos (qSub u u')) as P.
    assert (HH : 0 < (1 - k) * (1 - k)) by nra.
    apply Rmult_le_reg_r with ((1 - k) * (1 - k)); auto.
    replace (k * k / ((1 - k) * (1 - k)) * norm2 (qSub p p') * ((1 - k) * (1 - k)))
      with (k * k * norm2 (qSub p p')) by (field; lra).
    apply Rle_trans with (norm2 (qSub u u') * (c * c')); [|lra].
    apply Rmult_le_compat_l; auto. nra.
  Qed.

  Let rate := k * k / ((1 - k) * (1 - k)).
  Lemma rate_bound : 0 <= rate < 1.
  Proof.
    unfold rate. split.
    - apply Rmult_le_pos; [nra|]. left. apply Rinv_0_lt_compat. nra.
    - apply Rmult_lt_reg_r with ((1 - k) * (1 - k)); [nra|].
      replace (k * k / ((1 - k) * (1 - k)) * ((1 - k) * (1 - k))) with (k * k) by (field; lra). nra.
  Qed.

  (** With enough fuel for the remaining distance the loop gives a result. *)
  Lemma loop_ends : forall n d p' p, unit p -> unit p' -> qNormalize (step1 dt q w p) = Some p' ->
    rate ^ n * norm2 (qSub p' p) <= tol * tol -> exists r, halfStepLoop dt tol (S n) q w d p' p = Some r.
  Proof.
    induction n as [|n IH]; intros d p' p Up Up' E D; rewrite loop_S.
    - cbn in D. destruct (Rlt_dec _ _); [lra|eauto].
    - destruct (Rlt_dec _ _) as [L|L]; [|eauto].
      rewrite (spin_unit _ _ Up'), halfDt_eq. fold (step1 dt q w p').
      destruct (step1_some p' Up') as (u & Eu & Uu). rewrite Eu.
      apply (IH (spin w p') u p' Up' Uu Eu).
      pose proof (contraction _ _ _ _ Up' Up Eu E) as C. fold rate in C.
      apply Rle_trans with (rate ^ n * (rate * norm2 (qSub p' p))).
      + apply Rmult_le_compat_l; auto. apply pow_le, rate_bound.
      + cbn in D. lra.
  Qed.

  Lemma loop_some : forall d p', unit p' ->
    exists fuel0, forall fuel, (fuel0 <= fuel)%nat -> forall x, exists r, halfStepLoop dt tol fuel q w d p' x = Some r.
  Proof.
    intros d p' Up'.
    destruct (step1_some p' Up') as (u & Eu & Uu).
    set (D := norm2 (qSub u p') + 1).
    assert (HD : 0 < D) by (unfold D; pose proof (norm2_pos (qSub u p')); lra).
    destruct (pow_lt_1_zero rate) with (y := tol * tol / D) as (n & Hn).
    { rewrite Rabs_right; [apply rate_bound|apply Rle_ge, rate_bound]. }
    { apply Rdiv_lt_0_compat; nra. }
    assert (HF : forall j, (n <= j)%nat -> rate ^ j * norm2 (qSub u p') <= tol * tol).
    { intros j Hj. specialize (Hn j Hj). rewrite Rabs_right in Hn by (apply Rle_ge, pow_le, rate_bound).
      assert (0 <= rate ^ j) by apply pow_le, rate_bound. 
      assert (rate ^ j * D <= tol * tol).
      { apply Rmult_le_reg_r with (/ D); [apply Rinv_0_lt_compat; auto|].
        rewrite Rmult_assoc, Rinv_r by lra. unfold Rdiv in Hn. lra. }
      unfold D in *. nra. }
    exists (S (S n)). intros fuel Hf x. destruct fuel as [|fuel]; [lia|].
    rewrite loop_S. destruct (Rlt_dec _ _); [|eauto].
    rewrite (spin_unit _ _ Up'), halfDt_eq. fold (step1 dt q w p'). rewrite Eu.
    destruct fuel as [|fuel]; [lia|]. apply loop_ends; auto. apply HF. lia.
  Qed.
End Converge.

Lemma norm2_add_orth : forall q v s, norm2 (qAdd q (qScale (qMulVec q v) s)) = norm2 q * (1 + s * s * dot v v).
Proof. intros [a b c d] [x y z] s. unfold norm2, dot; cbn. ring. Qed.

Lemma loop_unit : forall dt tol fuel q w d p' p r, 0 < tol -> unit p' -> ~ norm2 (qSub p' p) <= tol * tol ->
  halfStepLoop dt tol fuel q w d p' p = Some r -> exists o, unit o /\ r = spin w o.
Proof.
  intros dt tol fuel q w d p' p r T U N E. apply loop_result in E; auto.
  - destruct E as (o & _ & Uo & -> & _). eauto.
  - intros C. contradiction.
Qed.

Lemma rotateStep_ends : forall dt tol g m k, 0 < tol -> unit (rQuat m) -> 0 <= k < / 2 ->
  let w := radd (rAngVel m) (rscale (angularAcceleration (rInertia m) (rQuat m) (rTorque m)) (dt / 2)) in
  dt * dt * dot w w <= 16 * (k * k) ->
  exists fuel0, forall fuel, (fuel0 <= fuel)%nat -> exists m', rotateStep dt tol fuel g m = Some m'.
Proof.
  intros dt tol g m k T U Hk w Hw. unfold w in *. clear w.
  unfold rotateStep, angularAcceleration in *. rewrite !halfDt_eq.
  set (w := radd (rAngVel m) _) in *.
  set (d := qScale (qMulVec _ _) (/ 2)).
  destruct (normalize_some (qAdd (rQuat m) (qScale d (dt / 2)))) as (qh & Eh).
  { unfold d. set (v := rdiv _ _).
    replace (qScale (qScale (qMulVec (rQuat m) v) (/ 2)) (dt / 2)) with (qScale (qMulVec (rQuat m) v) (dt / 4))
      by (destruct (rQuat m), v; apply qeq; cbn; field).
    rewrite norm2_add_orth, U. assert (0 <= dot v v) by (unfold dot; nra). nra. }
  rewrite Eh. destruct (normalize_dir _ _ Eh) as [Uh _].
  destruct (loop_some dt tol (rQuat m) w U T k Hk Hw d qh Uh) as (f0 & Hf).
  exists f0. intros fuel Hfuel.
  destruct (Hf fuel Hfuel (mkQ (qw qh + 2 * tol) (qx qh) (qy qh) (qz qh))) as (r & Er). rewrite Er.
  apply loop_unit in Er as (o & Uo & ->); auto; [|apply first_pass; auto].
  destruct (normalize_some (qAdd (rQuat m) (qScale (spin w o) dt))) as (qf & Ef).
  { assert (L : (1 - 2 * k) * (1 - 2 * k) <= norm2 (step1 (2 * dt) (rQuat m) w o)).
    { apply step1_long; auto; try lra. }
    unfold step1 in L. replace (2 * dt / 2) with dt in L by field. nra. }
  rewrite Ef. eauto.
Qed.

Lemma rotorStep_ends : forall dt tol g t m k, 0 < tol -> unit (rQuat m) -> 0 <= k < / 2 ->
  let w := radd (rAngVel m) (rscale (angularAcceleration (rInertia m) (rQuat m) (rTorque m)) (dt / 2)) in
  dt * dt * dot w w <= 16 * (k * k) ->
  exists fuel0, forall fuel, (fuel0 <= fuel)%nat -> exists m', rotorStep dt tol fuel g t m = Some m'.
Proof.
  intros dt tol g t m k T U Hk w Hw. destruct (rotateStep_ends dt tol g m k T U Hk Hw) as (f0 & H).
  exists f0. intros fuel Hf. destruct (H fuel Hf) as (m' & E). unfold rotorStep. rewrite E. eauto.
Qed.
