(** The Axilrod-Teller kernel computes the negative gradient of the potential. *)
From Coq Require Import Reals Lra List ZArith.
From Coquelicot Require Import Coquelicot.
From Verif.Functor Require Import SortModel.
From Verif.MD Require Import MixingModel LJModel LJSpec LJProofs LJPhysics LJGradient ATModel ATSpec.
Local Open Scope R_scope.

(** The potential in terms of P, the product of the squared distances, and D, that of the
    dot products of the circular displacements. *)
Definition powerForm (nu P D : R) : R := nu * (P - 3 * D) / (P * P * sqrt P).

Lemma distance_pos a b : a <> b -> 0 < distance a b.
Proof.
  intros N. destruct (distance_nonneg a b) as [H|H]; [exact H|]. exfalso. apply N, dot_zero. rewrite <- distance_sq, <- H. ring.
Qed.

Lemma potential_power nu a b c : a <> b -> b <> c -> a <> c ->
  let dIJ := rsub b a in let dJK := rsub c b in let dKI := rsub a c in
  atPotential nu a b c = powerForm nu (dot dIJ dIJ * dot dJK dJK * dot dKI dKI) (dot dIJ dKI * dot dIJ dJK * dot dJK dKI).
Proof.
  intros N1 N2 N3 dIJ dJK dKI.
  assert (P1 := distance_pos a b N1). assert (P2 := distance_pos b c N2). assert (P3 := distance_pos a c N3).
  assert (E1 : dot dIJ dIJ = distance a b * distance a b) by (rewrite (distance_sym a b), distance_sq; reflexivity).
  assert (E2 : dot dJK dJK = distance b c * distance b c) by (rewrite (distance_sym b c), distance_sq; reflexivity).
  assert (E3 : dot dKI dKI = distance a c * distance a c) by (rewrite distance_sq; reflexivity).
  assert (Q : sqrt (dot dIJ dIJ * dot dJK dJK * dot dKI dKI) = distance a b * distance b c * distance a c).
  { rewrite E1, E2, E3. replace (distance a b * distance a b * (distance b c * distance b c) * (distance a c * distance a c))
      with ((distance a b * distance b c * distance a c) * (distance a b * distance b c * distance a c)) by ring.
    apply sqrt_square. repeat apply Rmult_le_pos; lra. }
  unfold powerForm. rewrite Q. unfold atPotential, cosAt. rewrite (distance_sym b a), (distance_sym c a), (distance_sym c b).
  replace (dot (rsub b a) (rsub c a)) with (- dot dIJ dKI) by (unfold dIJ, dKI, dot, rsub; cbn; ring).
  replace (dot (rsub a b) (rsub c b)) with (- dot dIJ dJK) by (unfold dIJ, dJK, dot, rsub; cbn; ring).
  replace (dot (rsub a c) (rsub b c)) with (- dot dJK dKI) by (unfold dJK, dKI, dot, rsub; cbn; ring).
  rewrite E1, E2, E3. field. repeat split; apply Rgt_not_eq; assumption.
Qed.

Lemma power_derive nu (P D : R -> R) x P' D' : is_derive P x P' -> is_derive D x D' -> 0 < P x ->
  is_derive (fun x => powerForm nu (P x) (D x)) x
    (- (3 * nu / (P x * P x * sqrt (P x)) * (P' / 2 + D' - 5 * D x * P' / (2 * P x)))).
Proof.
  intros HP HD Pos. unfold powerForm.
  assert (S : 0 < sqrt (P x)) by now apply sqrt_lt_R0.
  assert (S2 : sqrt (P x) * sqrt (P x) = P x) by (apply sqrt_sqrt; lra).
  assert (E1 : ex_derive P x) by (eexists; exact HP). assert (E2 : ex_derive D x) by (eexists; exact HD).
  assert (V1 : Derive (fun x => P x) x = P') by (apply is_derive_unique; exact HP). assert (V2 : Derive (fun x => D x) x = D') by (apply is_derive_unique; exact HD).
  auto_derive.
  - repeat split; try assumption. apply Rgt_not_eq. repeat apply Rmult_lt_0_compat; assumption.
  - rewrite V1, V2. set (r := sqrt (P x)) in *. set (d := D x) in *. clearbody r d. rewrite <- S2. field. lra.
Qed.

(** The kernel's force on the first particle, for displacements in which only one
    coordinate varies.  [cij], [cki], [sjk]: parts of the squared distances, [k1], [k2],
    [k3]: parts of the dot products that do not depend on it. *)
Lemma coordinate nu b c cij cki sjk k1 k2 k3 x :
  let sIJ := (b - x) * (b - x) + cij in let sKI := (x - c) * (x - c) + cki in
  let d1 := (b - x) * (x - c) + k1 in let d2 := (b - x) * (c - b) + k2 in let d3 := (c - b) * (x - c) + k3 in
  0 < sIJ -> 0 < sjk -> 0 < sKI ->
  is_derive (fun x => powerForm nu (((b - x) * (b - x) + cij) * sjk * ((x - c) * (x - c) + cki))
                        (((b - x) * (x - c) + k1) * ((b - x) * (c - b) + k2) * ((c - b) * (x - c) + k3))) x
    (- (((c - b) * d1 * (d2 - d3) + (b - x) * (d2 * d3 - sjk * sKI + 5 * (d1 * d2 * d3) / sIJ) +
         (x - c) * (- d2 * d3 + sIJ * sjk - 5 * (d1 * d2 * d3) / sKI)) *
        (3 * nu / (sIJ * sjk * sKI * (sIJ * sjk * sKI) * sqrt (sIJ * sjk * sKI))))).
Proof.
  intros sIJ sKI d1 d2 d3 H1 H2 H3.
  assert (DP : is_derive (fun x => ((b - x) * (b - x) + cij) * sjk * ((x - c) * (x - c) + cki)) x
    (- 2 * (b - x) * sjk * sKI + sIJ * sjk * (2 * (x - c)))).
  { auto_derive; [exact I|]. unfold sIJ, sKI. ring. }
  assert (DD : is_derive (fun x => ((b - x) * (x - c) + k1) * ((b - x) * (c - b) + k2) * ((c - b) * (x - c) + k3)) x
    (((b - x) - (x - c)) * d2 * d3 + d1 * (- (c - b)) * d3 + d1 * d2 * (c - b))).
  { auto_derive; [exact I|]. unfold d1, d2, d3. ring. }
  assert (Pos : 0 < sIJ * sjk * sKI) by (repeat apply Rmult_lt_0_compat; assumption).
  assert (X := power_derive nu _ _ x _ _ DP DD Pos). cbv beta in X.
  replace (- (((c - b) * d1 * (d2 - d3) + (b - x) * (d2 * d3 - sjk * sKI + 5 * (d1 * d2 * d3) / sIJ) +
         (x - c) * (- d2 * d3 + sIJ * sjk - 5 * (d1 * d2 * d3) / sKI)) *
        (3 * nu / (sIJ * sjk * sKI * (sIJ * sjk * sKI) * sqrt (sIJ * sjk * sKI)))))
    with (- (3 * nu / (sIJ * sjk * sKI * (sIJ * sjk * sKI) * sqrt (sIJ * sjk * sKI)) *
       ((- 2 * (b - x) * sjk * sKI + sIJ * sjk * (2 * (x - c))) / 2 + (((b - x) - (x - c)) * d2 * d3 + d1 * (- (c - b)) * d3 + d1 * d2 * (c - b)) -
        5 * (d1 * d2 * d3) * (- 2 * (b - x) * sjk * sKI + sIJ * sjk * (2 * (x - c))) / (2 * (sIJ * sjk * sKI))))); [exact X|].
  assert (S : 0 < sqrt (sIJ * sjk * sKI)) by now apply sqrt_lt_R0.
  clear X DP DD. generalize dependent (sqrt (sIJ * sjk * sKI)). intros r S. clearbody d1 d2 d3 sIJ sKI. field. lra.
Qed.

Lemma distance_same a b : a = b -> distance a b = 0.
Proof. intros <-. unfold distance. rewrite <- sqrt_0. f_equal. ring. Qed.
Lemma dot_same a b : a = b -> dot (rsub a b) (rsub a b) = 0.
Proof. intros <-. unfold dot, rsub. cbn. ring. Qed.
Lemma potential_total nu a b c :
  let dIJ := rsub b a in let dJK := rsub c b in let dKI := rsub a c in
  atPotential nu a b c = powerForm nu (dot dIJ dIJ * dot dJK dJK * dot dKI dKI) (dot dIJ dKI * dot dIJ dJK * dot dJK dKI).
Proof.
  assert (Dec : forall u v : R3, u = v \/ u <> v).
  { intros u v. destruct (Req_dec (dot (rsub u v) (rsub u v)) 0) as [Z|Z]; [left; apply dot_zero, Z|right; intros E; apply Z, dot_same, E]. }
  intros dIJ dJK dKI.
  assert (Zero : a = b \/ b = c \/ a = c -> atPotential nu a b c = powerForm nu (dot dIJ dIJ * dot dJK dJK * dot dKI dKI) (dot dIJ dKI * dot dIJ dJK * dot dJK dKI)).
  { intros H. assert (Z1 : distance a b * distance b c * distance c a = 0).
    { destruct H as [H|[H|H]]; [rewrite (distance_same a b H)|rewrite (distance_same b c H)|rewrite (distance_same c a (eq_sym H))]; ring. }
    assert (Z2 : dot dIJ dIJ * dot dJK dJK * dot dKI dKI = 0).
    { unfold dIJ, dJK, dKI. destruct H as [H|[H|H]]; [rewrite (dot_same b a (eq_sym H))|rewrite (dot_same c b (eq_sym H))|rewrite (dot_same a c H)]; ring. }
    unfold atPotential, powerForm, Rdiv. rewrite Z1, Z2. replace (0 ^ 3) with 0 by ring. replace (0 * 0 * sqrt 0) with 0 by ring. rewrite Rinv_0. ring. }
  destruct (Dec a b) as [E|N1]; [auto|]. destruct (Dec b c) as [E|N2]; [auto|]. destruct (Dec a c) as [E|N3]; [auto|].
  apply potential_power; assumption.
Qed.

Definition first (nu : R) (a b c : R3) : R3 := forceI (atKernel nu (rsub b a) (rsub c b) (rsub a c)).

(** The same with names for the squared distances and the dot products. *)
Lemma coordinate_named nu b c cij cki k1 k2 k3 x sIJ sjk sKI d1 d2 d3 (U : R -> R) :
  sIJ = (b - x) * (b - x) + cij -> sKI = (x - c) * (x - c) + cki ->
  d1 = (b - x) * (x - c) + k1 -> d2 = (b - x) * (c - b) + k2 -> d3 = (c - b) * (x - c) + k3 ->
  0 < sIJ -> 0 < sjk -> 0 < sKI ->
  (forall t, powerForm nu (((b - t) * (b - t) + cij) * sjk * ((t - c) * (t - c) + cki))
               (((b - t) * (t - c) + k1) * ((b - t) * (c - b) + k2) * ((c - b) * (t - c) + k3)) = U t) ->
  is_derive U x
    (- (((c - b) * d1 * (d2 - d3) + (b - x) * (d2 * d3 - sjk * sKI + 5 * (d1 * d2 * d3) / sIJ) +
         (x - c) * (- d2 * d3 + sIJ * sjk - 5 * (d1 * d2 * d3) / sKI)) *
        (3 * nu / (sIJ * sjk * sKI * (sIJ * sjk * sKI) * sqrt (sIJ * sjk * sKI))))).
Proof.
  intros -> -> -> -> -> H1 H2 H3 E. refine (is_derive_ext _ _ _ _ E _). apply coordinate; assumption.
Qed.

Section Gradient.
  Variables (nu : R) (a b c : R3).
  Hypotheses (N1 : a <> b) (N2 : b <> c) (N3 : a <> c).
  Let sq (u v : R3) : u <> v -> 0 < dot (rsub v u) (rsub v u).
  Proof. intros N. assert (X := distance_pos u v N). rewrite <- (distance_sq v u), distance_sym. apply Rmult_lt_0_compat; assumption. Qed.
  Lemma gradient3_x : is_derive (fun t => atPotential nu (mkR3 t (ry a) (rz a)) b c) (rx a) (- rx (first nu a b c)).
  Proof.
    assert (S1 := sq a b N1). assert (S2 := sq b c N2). assert (S3 := sq c a (not_eq_sym N3)).
    apply (coordinate_named nu (rx b) (rx c) ((ry b - ry a) * (ry b - ry a) + (rz b - rz a) * (rz b - rz a)) ((ry a - ry c) * (ry a - ry c) + (rz a - rz c) * (rz a - rz c))
      ((ry b - ry a) * (ry a - ry c) + (rz b - rz a) * (rz a - rz c)) ((ry b - ry a) * (ry c - ry b) + (rz b - rz a) * (rz c - rz b)) ((ry c - ry b) * (ry a - ry c) + (rz c - rz b) * (rz a - rz c))
      (rx a) (dot (rsub b a) (rsub b a)) (dot (rsub c b) (rsub c b)) (dot (rsub a c) (rsub a c))
      (dot (rsub b a) (rsub a c)) (dot (rsub b a) (rsub c b)) (dot (rsub c b) (rsub a c))); try assumption;
      try (unfold dot, rsub; cbn [rx ry rz]; ring).
    intros t. rewrite potential_total. f_equal; unfold dot, rsub; cbn [rx ry rz]; ring.
  Qed.
  Lemma gradient3_y : is_derive (fun t => atPotential nu (mkR3 (rx a) t (rz a)) b c) (ry a) (- ry (first nu a b c)).
  Proof.
    assert (S1 := sq a b N1). assert (S2 := sq b c N2). assert (S3 := sq c a (not_eq_sym N3)).
    apply (coordinate_named nu (ry b) (ry c) ((rx b - rx a) * (rx b - rx a) + (rz b - rz a) * (rz b - rz a)) ((rx a - rx c) * (rx a - rx c) + (rz a - rz c) * (rz a - rz c))
      ((rx b - rx a) * (rx a - rx c) + (rz b - rz a) * (rz a - rz c)) ((rx b - rx a) * (rx c - rx b) + (rz b - rz a) * (rz c - rz b)) ((rx c - rx b) * (rx a - rx c) + (rz c - rz b) * (rz a - rz c))
      (ry a) (dot (rsub b a) (rsub b a)) (dot (rsub c b) (rsub c b)) (dot (rsub a c) (rsub a c))
      (dot (rsub b a) (rsub a c)) (dot (rsub b a) (rsub c b)) (dot (rsub c b) (rsub a c))); try assumption;
      try (unfold dot, rsub; cbn [rx ry rz]; ring).
    intros t. rewrite potential_total. f_equal; unfold dot, rsub; cbn [rx ry rz]; ring.
  Qed.
  Lemma gradient3_z : is_derive (fun t => atPotential nu (mkR3 (rx a) (ry a) t) b c) (rz a) (- rz (first nu a b c)).
  Proof.
    assert (S1 := sq a b N1). assert (S2 := sq b c N2). assert (S3 := sq c a (not_eq_sym N3)).
    apply (coordinate_named nu (rz b) (rz c) ((rx b - rx a) * (rx b - rx a) + (ry b - ry a) * (ry b - ry a)) ((rx a - rx c) * (rx a - rx c) + (ry a - ry c) * (ry a - ry c))
      ((rx b - rx a) * (rx a - rx c) + (ry b - ry a) * (ry a - ry c)) ((rx b - rx a) * (rx c - rx b) + (ry b - ry a) * (ry c - ry b)) ((rx c - rx b) * (rx a - rx c) + (ry c - ry b) * (ry a - ry c))
      (rz a) (dot (rsub b a) (rsub b a)) (dot (rsub c b) (rsub c b)) (dot (rsub a c) (rsub a c))
      (dot (rsub b a) (rsub a c)) (dot (rsub b a) (rsub c b)) (dot (rsub c b) (rsub a c))); try assumption;
      try (unfold dot, rsub; cbn [rx ry rz]; ring).
    intros t. rewrite potential_total. f_equal; unfold dot, rsub; cbn [rx ry rz]; ring.
  Qed.

  Lemma force_first : atForce nu a b c = first nu a b c.
  Proof.
    unfold atForce. erewrite (is_derive_unique _ (rx a)) by apply gradient3_x. erewrite (is_derive_unique _ (ry a)) by apply gradient3_y.
    erewrite (is_derive_unique _ (rz a)) by apply gradient3_z. rewrite !Ropp_involutive.
    destruct (first nu a b c); reflexivity.
  Qed.
  Lemma potential_kernel : potential3 (atKernel nu (rsub b a) (rsub c b) (rsub a c)) = 3 * atPotential nu a b c.
  Proof. rewrite potential_total. unfold atKernel, powerForm. cbn [potential3]. unfold Rdiv. ring. Qed.
End Gradient.

(** The kernel is cyclic; the forces add up to zero. *)
Lemma dot_comm u v : dot u v = dot v u.
Proof. unfold dot. ring. Qed.
Lemma kernel_second nu a b c : forceJ (atKernel nu (rsub b a) (rsub c b) (rsub a c)) = first nu b c a.
Proof.
  unfold first, atKernel. cbn [forceI forceJ].
  set (u := rsub b a). set (v := rsub c b). set (w := rsub a c). rewrite (dot_comm v u), (dot_comm w u), (dot_comm v w).
  set (su := dot u u). set (sv := dot v v). set (sw := dot w w).
  replace (sv * sw * su) with (su * sv * sw) by ring. generalize (3 * nu / (su * sv * sw * (su * sv * sw) * sqrt (su * sv * sw))). intros f.
  rewrite (dot_comm w v). set (x := dot u w). set (y := dot u v). set (z := dot v w). replace (y * z * x) with (x * y * z) by ring.
  unfold Rdiv. apply R3_eq; cbn [rx ry rz rscale radd]; ring.
Qed.
Lemma first_sum nu a b c : radd (radd (first nu a b c) (first nu b c a)) (first nu c a b) = rzero.
Proof.
  unfold first, atKernel. cbn [forceI].
  set (u := rsub b a). set (v := rsub c b). set (w := rsub a c). rewrite (dot_comm v u), (dot_comm w u), (dot_comm w v).
  set (su := dot u u). set (sv := dot v v). set (sw := dot w w).
  replace (sv * sw * su) with (su * sv * sw) by ring. replace (sw * su * sv) with (su * sv * sw) by ring.
  generalize (3 * nu / (su * sv * sw * (su * sv * sw) * sqrt (su * sv * sw))). intros f.
  set (x := dot u w). set (y := dot u v). set (z := dot v w). replace (y * z * x) with (x * y * z) by ring. replace (z * x * y) with (x * y * z) by ring.
  unfold Rdiv. apply R3_eq; cbn [rx ry rz rscale radd rzero]; ring.
Qed.
Lemma kernel_third nu a b c : forceK (atKernel nu (rsub b a) (rsub c b) (rsub a c)) = first nu c a b.
Proof.
  assert (E : forceK (atKernel nu (rsub b a) (rsub c b) (rsub a c)) =
    rscale (radd (first nu a b c) (forceJ (atKernel nu (rsub b a) (rsub c b) (rsub a c)))) (- 1)) by reflexivity.
  rewrite E, kernel_second. assert (S := first_sum nu a b c). set (p := first nu a b c) in *. set (q := first nu b c a) in *. set (r := first nu c a b) in *.
  clearbody p q r. unfold radd, rzero in S. injection S as S1 S2 S3. apply R3_eq; cbn [rx ry rz rscale radd]; lra.
Qed.

(** Permutations of the particles. *)
Lemma potential_swap nu a b c : atPotential nu a c b = atPotential nu a b c.
Proof.
  rewrite !potential_total. f_equal; unfold dot, rsub; cbn [rx ry rz]; ring.
Qed.
Lemma potential_cycle nu a b c : atPotential nu b c a = atPotential nu a b c.
Proof. rewrite !potential_total. f_equal; unfold dot, rsub; cbn [rx ry rz]; ring. Qed.
Lemma force_swap nu a b c : atForce nu a c b = atForce nu a b c.
Proof. unfold atForce. f_equal; f_equal; apply Derive_ext; intros t; apply potential_swap. Qed.
