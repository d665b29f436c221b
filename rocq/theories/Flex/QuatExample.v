(** A free molecule whose angular momentum changes. *)
From Coq Require Import Reals List Lra Lia Psatz.
From Verif.Functor Require Import SortModel.
From Verif.MD Require Import LJModel.
From Verif.Flex Require Import QuatModel QuatSpec IntegrateProofs QuatProofs.
Import ListNotations.
Local Open Scope R_scope.

Definition tol13 : R := / 10000000000000.
Definition top : rotor := mkRotor (mkQ 1 0 0 0) (mkR3 1 1 0) rzero (mkR3 1 2 3) [].

Lemma mulb : forall x y a b c d, a <= x <= b -> c <= y <= d -> 0 <= a -> 0 <= c -> a * c <= x * y <= b * d.
Proof. intros x y a b c d [H1 H2] [H3 H4] Ha Hc. split; apply Rmult_le_compat; lra. Qed.

Lemma mulabs : forall x y a b, - a <= x <= a -> - b <= y <= b -> - (a * b) <= x * y <= a * b.
Proof.
  intros x y a b H1 H2. apply Rabs_le in H1. apply Rabs_le in H2.
  assert (H : Rabs (x * y) <= a * b) by (rewrite Rabs_mult; apply Rmult_le_compat; auto using Rabs_pos).
  revert H. unfold Rabs. destruct (Rcase_abs _); lra.
Qed.

(** The third component of the angular momentum for an orientation near the one reached. *)
Lemma lz_positive : forall W X Y Z,
  9940 / 10000 <= W <= 10060 / 10000 -> 490 / 10000 <= X <= 510 / 10000 -> 490 / 10000 <= Y <= 510 / 10000 ->
  - (5 / 10000) <= X - Y <= 5 / 10000 -> - (60 / 10000) <= Z <= 60 / 10000 ->
  0 < rz (rotatePosition (mkQ W X Y Z) (rmul (mkR3 1 2 3) (rotatePositionBackwards (mkQ W X Y Z) (mkR3 1 1 0)))).
Proof.
  intros W X Y Z HW HX HY HD HZ.
  assert (WW := mulb W W _ _ _ _ HW HW ltac:(lra) ltac:(lra)).
  assert (XX := mulb X X _ _ _ _ HX HX ltac:(lra) ltac:(lra)).
  assert (YY := mulb Y Y _ _ _ _ HY HY ltac:(lra) ltac:(lra)).
  assert (XY := mulb X Y _ _ _ _ HX HY ltac:(lra) ltac:(lra)).
  assert (WX := mulb W X _ _ _ _ HW HX ltac:(lra) ltac:(lra)).
  assert (WY := mulb W Y _ _ _ _ HW HY ltac:(lra) ltac:(lra)).
  assert (HW' : - (11 / 10) <= W <= 11 / 10) by lra.
  assert (HX' : - (6 / 100) <= X <= 6 / 100) by lra.
  assert (HY' : - (6 / 100) <= Y <= 6 / 100) by lra.
  assert (ZZ := mulabs Z Z _ _ HZ HZ).
  assert (WZ := mulabs W Z _ _ HW' HZ).
  assert (XZ := mulabs X Z _ _ HX' HZ).
  assert (YZ := mulabs Y Z _ _ HY' HZ).
  assert (WD := mulabs W (X - Y) _ _ HW' HD).
  set (r20 := 2 * (X * Z - W * Y)). set (r21 := 2 * (Y * Z + W * X)). set (r22 := W * W - X * X - Y * Y + Z * Z).
  set (u0 := (W * W + X * X - Y * Y - Z * Z) + 2 * (X * Y + W * Z)).
  set (u1 := 2 * (X * Y - W * Z) + (W * W - X * X + Y * Y - Z * Z)).
  set (u2 := 2 * (X * Z + Y * Z - W * (X - Y))).
  assert (B20 : 96 / 1000 <= - r20 <= 104 / 1000) by (unfold r20; lra).
  assert (B21 : 96 / 1000 <= r21 <= 104 / 1000) by (unfold r21; lra).
  assert (B22 : - (11 / 10) <= r22 <= 11 / 10) by (unfold r22; lra).
  assert (C0 : 95 / 100 <= u0 <= 105 / 100) by (unfold u0; lra).
  assert (C1 : 95 / 100 <= u1 <= 105 / 100) by (unfold u1; lra).
  assert (C2 : - (4 / 1000) <= u2 <= 4 / 1000) by (unfold u2; lra).
  assert (P0 := mulb _ _ _ _ _ _ B20 C0 ltac:(lra) ltac:(lra)).
  assert (P1 := mulb _ _ _ _ _ _ B21 C1 ltac:(lra) ltac:(lra)).
  assert (P2 := mulabs _ _ _ _ B22 C2).
  replace (rz _) with (- (- r20 * u0) + 2 * (r21 * u1) + 3 * (r22 * u2)); [lra|].
  unfold r20, r21, r22, u0, u1, u2; cbn. ring.
Qed.

Lemma rotate_scale : forall q v c, rotatePosition (qScale q c) v = rscale (rotatePosition q v) (c * c).
Proof. intros [a b e d] [x y z] c. r3. Qed.
Lemma back_scale : forall q v c, rotatePositionBackwards (qScale q c) v = rscale (rotatePositionBackwards q v) (c * c).
Proof. intros [a b e d] [x y z] c. r3. Qed.

Lemma unit_comp : forall p, unit p ->
  -1 <= qw p <= 1 /\ -1 <= qx p <= 1 /\ -1 <= qy p <= 1 /\ -1 <= qz p <= 1.
Proof. intros [a b c d] U. unfold unit, norm2 in U; cbn in *. repeat split; nra. Qed.

Lemma small_comp : forall p t, 0 < t -> norm2 p <= t * t ->
  - t <= qw p <= t /\ - t <= qx p <= t /\ - t <= qy p <= t /\ - t <= qz p <= t.
Proof. intros [a b c d] t T U. unfold norm2 in U; cbn in *. repeat split; nra. Qed.

Lemma quotb : forall w c n N, 95 / 100 <= c -> w * c = n -> - N <= n <= N -> - (100 / 95 * N) <= w <= 100 / 95 * N.
Proof.
  intros w c n N Hc E [H1 H2]. split.
  - destruct (Rle_or_lt (- (100 / 95 * N)) w) as [H|H]; auto. exfalso.
    assert (w * c <= w * (95 / 100)) by (apply Rmult_le_compat_neg_l; lra). lra.
  - destruct (Rle_or_lt w (100 / 95 * N)) as [H|H]; auto. exfalso.
    assert (w * (95 / 100) <= w * c) by (apply Rmult_le_compat_l; lra). lra.
Qed.

Lemma unit_scalar : forall a b c d, 0 < a -> a * a + b * b + c * c + d * d = 1 ->
  - (54 / 1000) <= b <= 54 / 1000 -> - (54 / 1000) <= c <= 54 / 1000 -> - (3 / 1000) <= d <= 3 / 1000 ->
  995 / 1000 <= a.
Proof.
  intros a b c d A E B C D.
  assert (B' := mulabs _ _ _ _ B B). assert (C' := mulabs _ _ _ _ C C). assert (D' := mulabs _ _ _ _ D D).
  destruct (Rle_or_lt (995 / 1000) a) as [H|H]; auto. exfalso.
  assert (a * a <= 995 / 1000 * (995 / 1000)) by (apply Rmult_le_compat; lra). lra.
Qed.

Lemma top_orientation : forall q', midpoint (1 / 10) tol13 (mkR3 1 1 0) (mkQ 1 0 0 0) q' ->
  exists W X Y Z c, 0 < c /\ mkQ W X Y Z = qScale q' c /\
  9940 / 10000 <= W <= 10060 / 10000 /\ 490 / 10000 <= X <= 510 / 10000 /\ 490 / 10000 <= Y <= 510 / 10000 /\
  - (5 / 10000) <= X - Y <= 5 / 10000 /\ - (60 / 10000) <= Z <= 60 / 10000.
Proof.
  intros q' (p & p' & Up & (Up' & c1 & Hc1 & E1) & D & (Uq & c & Hc & E2)).
  pose proof (unit_comp _ Up) as B.
  assert (T : 0 < tol13) by (unfold tol13; lra).
  apply small_comp in D; auto.
  assert (L : (1 - 1 / 20) * (1 - 1 / 20) <= norm2 (step1 (1 / 10) (mkQ 1 0 0 0) (mkR3 1 1 0) p)).
  { apply step1_long; auto; try lra; [unfold unit, norm2; cbn; ring|unfold dot; cbn; lra]. }
  unfold step1 in L. rewrite E1, norm2_scale, Up' in L.
  assert (Lc : 95 / 100 <= c1) by (destruct (Rle_or_lt (95 / 100) c1) as [X|X]; auto; exfalso;
    assert (c1 * c1 < 95 / 100 * (95 / 100)) by (apply Rmult_le_0_lt_compat; lra); lra). clear L.
  destruct p as [a v1 v2 v3], p' as [a' w1 w2 w3], q' as [b x y z].
  unfold spin, qAdd, qScale, qMul, qSub in *; cbn [qw qx qy qz rx ry rz] in *.
  injection E1 as F0 F1 F2 F3.
  unfold tol13 in *.
  assert (G1 : w1 * c1 = (a + v3) / 40) by lra.
  assert (G2 : w2 * c1 = (a - v3) / 40) by lra.
  assert (G3 : w3 * c1 = (v2 - v1) / 40) by lra.
  assert (K1 : - (54 / 1000) <= w1 <= 54 / 1000) by (pose proof (quotb _ _ _ (2 / 40) Lc G1 ltac:(lra)); lra).
  assert (K2 : - (54 / 1000) <= w2 <= 54 / 1000) by (pose proof (quotb _ _ _ (2 / 40) Lc G2 ltac:(lra)); lra).
  assert (J3 : - (3 / 1000) <= w3 <= 3 / 1000) by (pose proof (quotb _ _ _ (109 / 40000) Lc G3 ltac:(lra)); lra).
  assert (Ka : 0 < a').
  { destruct (Rle_or_lt a' 0) as [H|H]; auto. exfalso.
    assert (a' * c1 <= 0) by (rewrite <- (Rmult_0_l c1); apply Rmult_le_compat_r; lra). lra. }
  assert (Ka' : 995 / 1000 <= a') by (apply (unit_scalar a' w1 w2 w3); auto; exact Up').
  exists (1 - (v1 + v2) / 20), ((a + v3) / 20), ((a - v3) / 20), ((v2 - v1) / 20), c.
  split; [exact Hc|]. split.
  - injection E2 as H0 H1 H2 H3. cbn in *. f_equal; lra.
  - repeat split; lra.
Qed.

Lemma momentum_refuted : exists m m' fuel dt, 0 < dt /\ unit (rQuat m) /\ rTorque m = rzero /\
  0 < rx (rInertia m) /\ 0 < ry (rInertia m) /\ 0 < rz (rInertia m) /\
  rotorStep dt tol13 fuel rzero rzero m = Some m' /\ rTorque m' = rzero /\
  angularMomentum m' <> angularMomentum m.
Proof.
  assert (T : 0 < tol13) by (unfold tol13; lra).
  assert (U : unit (rQuat top)) by (unfold unit, norm2; cbn; ring).
  assert (Ew : radd (rAngVel top) (rscale (angularAcceleration (rInertia top) (rQuat top) (rTorque top)) (1 / 10 / 2))
               = mkR3 1 1 0) by (cbn [rTorque top]; rewrite accel_zero; r3).
  destruct (rotorStep_ends (1 / 10) tol13 rzero rzero top (/ 20)) as (f & Hf); auto; try lra.
  { cbv zeta. rewrite Ew. unfold dot; cbn; lra. }
  destruct (Hf f (le_n f)) as (m' & E). exists top, m', f, (1 / 10).
  apply rotorStep_spec in E as E'; auto. destruct E' as (w & -> & M & U' & Et & Ea & Ei & _).
  rewrite Ew in M, Ea. rewrite globalTorque_zero in Et.
  assert (Et' : rTorque m' = rzero) by (rewrite Et; r3).
  rewrite Et', accel_zero in Ea.
  split; [lra|]. split; [exact U|]. split; [reflexivity|]. cbn [rInertia top rx ry rz].
  split; [lra|]. split; [lra|]. split; [lra|]. split; [exact E|]. split; [exact Et'|].
  intros C. apply (f_equal rz) in C.
  destruct (top_orientation (rQuat m')) as (W & X & Y & Z & c & Hc & EQ & B1 & B2 & B3 & B4 & B5); [exact M|].
  pose proof (lz_positive W X Y Z B1 B2 B3 B4 B5) as P. rewrite EQ, rotate_scale, back_scale in P.
  unfold angularMomentum in C. rewrite Ea, Ei in C. cbn [rInertia top rAngVel rQuat] in C.
  replace (radd (mkR3 1 1 0) (rscale rzero (1 / 10 / 2))) with (mkR3 1 1 0) in C by r3.
  set (q := rQuat m') in *. clearbody q. clear - C P.
  revert C P. generalize (rotatePositionBackwards q (mkR3 1 1 0)) as u. intros u C P.
  assert (E0 : rz (rotatePosition (mkQ 1 0 0 0) (rmul (mkR3 1 2 3) (rotatePositionBackwards (mkQ 1 0 0 0) (mkR3 1 1 0)))) = 0)
    by (cbn; ring).
  rewrite E0 in C.
  replace (rz (rscale (rotatePosition q (rmul (mkR3 1 2 3) (rscale u (c * c)))) (c * c)))
    with (rz (rotatePosition q (rmul (mkR3 1 2 3) u)) * (c * c * (c * c))) in P by (destruct q, u; cbn; ring).
  rewrite C in P. lra.
Qed.

(** A non-trivial run: a rotating water-like molecule, two time steps with torques. *)
Definition water : rotor :=
  mkRotor (mkQ (3 / 5) 0 (4 / 5) 0) (mkR3 (1 / 2) 1 0) (mkR3 0 0 1) (mkR3 1 2 3) [mkR3 1 0 0; mkR3 0 1 0; mkR3 (-1) 0 1].

Lemma run_distances : forall dt tol fuel g ts m m' i j a b a' b', 0 < tol -> unit (rQuat m) ->
  rotorRun dt tol fuel g ts m = Some m' ->
  nth_error (sitePositions m) i = Some a -> nth_error (sitePositions m) j = Some b ->
  nth_error (sitePositions m') i = Some a' -> nth_error (sitePositions m') j = Some b' ->
  dot (rsub a' b') (rsub a' b') = dot (rsub a b) (rsub a b) /\ dot a' a' = dot a a.
Proof.
  intros dt tol fuel g ts m m' i j a b a' b' T U H A B A' B'.
  apply run_rigid in H as (U' & _ & ES); auto. unfold sitePositions in *. rewrite ES in A', B'.
  rewrite nth_error_map in A, B, A', B'.
  destruct (nth_error (rSites m) i) as [x|]; [|discriminate].
  destruct (nth_error (rSites m) j) as [y|]; [|discriminate].
  injection A as <-. injection B as <-. injection A' as <-. injection B' as <-.
  rewrite !dot_sub_unit, !rotate_dot, U, U' by auto. split; ring.
Qed.

Lemma sphere_momentum : forall m i, unit (rQuat m) -> rInertia m = mkR3 i i i ->
  angularMomentum m = rscale (rAngVel m) i.
Proof.
  intros m i U E. unfold angularMomentum. rewrite E.
  replace (rmul (mkR3 i i i) (rotatePositionBackwards (rQuat m) (rAngVel m)))
    with (rscale (rotatePositionBackwards (rQuat m) (rAngVel m)) i) by r3.
  replace (rotatePosition (rQuat m) (rscale (rotatePositionBackwards (rQuat m) (rAngVel m)) i))
    with (rscale (rotatePosition (rQuat m) (rotatePositionBackwards (rQuat m) (rAngVel m))) i)
    by (destruct (rQuat m), (rAngVel m); r3).
  rewrite rotate_forth, U. destruct (rAngVel m); r3.
Qed.

Lemma sphere_run : forall dt tol fuel n m m' i, 0 < tol -> unit (rQuat m) -> rInertia m = mkR3 i i i ->
  rTorque m = rzero -> rotorRun dt tol fuel rzero (repeat rzero n) m = Some m' ->
  angularMomentum m' = angularMomentum m.
Proof.
  intros dt tol fuel n m m' i T U E Z H.
  destruct (run_rigid _ _ _ _ _ _ _ T U H) as (U' & E' & _).
  destruct (free_run _ _ _ _ _ _ T Z H) as (A & _).
  rewrite (sphere_momentum m i U E), (sphere_momentum m' i U'), A by congruence. reflexivity.
Qed.

Lemma water_step : unit (rQuat water) /\
  exists fuel m', rotorStep (1 / 10) tol13 fuel (mkR3 0 0 (-1)) (mkR3 1 1 1) water = Some m'.
Proof.
  assert (T : 0 < tol13) by (unfold tol13; lra).
  assert (U : unit (rQuat water)) by (unfold unit, norm2; cbn; field).
  split; auto.
  destruct (rotorStep_ends (1 / 10) tol13 (mkR3 0 0 (-1)) (mkR3 1 1 1) water (/ 4)) as (f & Hf); auto; try lra.
  { unfold angularAcceleration, dot; cbn. lra. }
  destruct (Hf f (le_n f)) as (m' & E). eauto.
Qed.

Lemma globalTorque_sum : forall q sites g, globalTorque q sites g = torqueOnSites q sites g.
Proof.
  intros q sites g. unfold globalTorque, torqueOnSites, rotateVectorOfPositions.
  assert (G : forall l acc, fold_left (fun t s => radd t (cross s g)) (map (rotatePosition q) l) acc
    = radd acc (fold_right (fun s t => radd (vectorProduct (rotatePosition q s) g) t) rzero l)).
  { induction l as [|s l IH]; intros acc; cbn [map fold_left fold_right].
    - destruct acc; r3.
    - rewrite IH. unfold cross, vectorProduct. destruct acc; r3. }
  rewrite G. destruct (fold_right _ _ _); r3.
Qed.

Lemma step_sum : forall dt tol fuel g t m m', 0 < tol -> rotorStep dt tol fuel g t m = Some m' ->
  exists w, w = radd (rAngVel m) (rscale (angularAcceleration (rInertia m) (rQuat m) (rTorque m)) (dt / 2)) /\
  midpoint dt tol w (rQuat m) (rQuat m') /\ unit (rQuat m') /\
  rTorque m' = radd (torqueOnSites (rQuat m') (rSites m) g) t /\
  rAngVel m' = radd w (rscale (angularAcceleration (rInertia m) (rQuat m') (rTorque m')) (dt / 2)) /\
  rInertia m' = rInertia m /\ rSites m' = rSites m.
Proof.
  intros dt tol fuel g t m m' T E. apply rotorStep_spec in E; auto.
  destruct E as (w & H). exists w. rewrite <- globalTorque_sum. exact H.
Qed.
