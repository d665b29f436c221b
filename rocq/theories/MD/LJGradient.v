(** The force is the negative gradient of the potential. *)
From Coq Require Import Reals Lra.
From Coquelicot Require Import Coquelicot.
From Verif.Functor Require Import SortModel.
From Verif.MD Require Import LJModel LJSpec.
Local Open Scope R_scope.

Lemma sumsq_pos (x y z : R) : x <> 0 \/ y <> 0 \/ z <> 0 -> 0 < x * x + y * y + z * z.
Proof.
  intros H. pose proof (Rle_0_sqr x). pose proof (Rle_0_sqr y). pose proof (Rle_0_sqr z). unfold Rsqr in *.
  destruct H as [H|[H|H]]; pose proof (Rsqr_pos_lt _ H); unfold Rsqr in *; lra.
Qed.

Lemma differ (a b : R3) : a <> b -> rx a - rx b <> 0 \/ ry a - ry b <> 0 \/ rz a - rz b <> 0.
Proof.
  intros H. destruct (Req_dec (rx a) (rx b)), (Req_dec (ry a) (ry b)), (Req_dec (rz a) (rz b)); try (right; right; lra); try (right; left; lra); try (left; lra).
  exfalso. apply H. destruct a, b; cbn in *; congruence.
Qed.

(** Derivative along one coordinate; [c]: the part of the squared distance that does not
    change. *)
Lemma derivative (epsilon sigma b c x : R) : 0 < (x - b) * (x - b) + c ->
  is_derive (fun x => ljPotential epsilon sigma (sqrt ((x - b) * (x - b) + c))) x
    (- ((x - b) * (24 * epsilon * (2 * (sigma / sqrt ((x - b) * (x - b) + c)) ^ 12 - (sigma / sqrt ((x - b) * (x - b) + c)) ^ 6)
                   / (sqrt ((x - b) * (x - b) + c) * sqrt ((x - b) * (x - b) + c))))).
Proof.
  intros H. unfold ljPotential.
  assert (S : 0 < sqrt ((x - b) * (x - b) + c)) by now apply sqrt_lt_R0.
  auto_derive.
  - repeat split; try assumption; try (apply Rgt_not_eq; assumption).
  - change (x + - b) with (x - b). set (r := sqrt ((x - b) * (x - b) + c)) in *. field. lra.
Qed.

Lemma gradient_x epsilon sigma (a b : R3) : a <> b ->
  derivable_pt_lim (fun x => ljPotential epsilon sigma (distance (mkR3 x (ry a) (rz a)) b)) (rx a) (- rx (ljForce epsilon sigma a b)).
Proof.
  intros N. apply is_derive_Reals.
  pose proof (sumsq_pos _ _ _ (differ a b N)) as P.
  set (c := (ry a - ry b) * (ry a - ry b) + (rz a - rz b) * (rz a - rz b)).
  assert (E : forall x, distance (mkR3 x (ry a) (rz a)) b = sqrt ((x - rx b) * (x - rx b) + c))
    by (intros x; unfold distance, c; cbn; f_equal; ring).
  apply (is_derive_ext (fun x => ljPotential epsilon sigma (sqrt ((x - rx b) * (x - rx b) + c)))); [intros t; now rewrite E|].
  unfold ljForce. cbn. replace (distance a b) with (sqrt ((rx a - rx b) * (rx a - rx b) + c))
    by (unfold distance, c; f_equal; ring).
  apply derivative. unfold c. lra.
Qed.
Lemma gradient_y epsilon sigma (a b : R3) : a <> b ->
  derivable_pt_lim (fun y => ljPotential epsilon sigma (distance (mkR3 (rx a) y (rz a)) b)) (ry a) (- ry (ljForce epsilon sigma a b)).
Proof.
  intros N. apply is_derive_Reals.
  pose proof (sumsq_pos _ _ _ (differ a b N)) as P.
  set (c := (rx a - rx b) * (rx a - rx b) + (rz a - rz b) * (rz a - rz b)).
  assert (E : forall y, distance (mkR3 (rx a) y (rz a)) b = sqrt ((y - ry b) * (y - ry b) + c))
    by (intros y; unfold distance, c; cbn; f_equal; ring).
  apply (is_derive_ext (fun y => ljPotential epsilon sigma (sqrt ((y - ry b) * (y - ry b) + c)))); [intros t; now rewrite E|].
  unfold ljForce. cbn. replace (distance a b) with (sqrt ((ry a - ry b) * (ry a - ry b) + c))
    by (unfold distance, c; f_equal; ring).
  apply derivative. unfold c. lra.
Qed.
Lemma gradient_z epsilon sigma (a b : R3) : a <> b ->
  derivable_pt_lim (fun z => ljPotential epsilon sigma (distance (mkR3 (rx a) (ry a) z) b)) (rz a) (- rz (ljForce epsilon sigma a b)).
Proof.
  intros N. apply is_derive_Reals.
  pose proof (sumsq_pos _ _ _ (differ a b N)) as P.
  set (c := (rx a - rx b) * (rx a - rx b) + (ry a - ry b) * (ry a - ry b)).
  assert (E : forall z, distance (mkR3 (rx a) (ry a) z) b = sqrt ((z - rz b) * (z - rz b) + c))
    by (intros z; unfold distance, c; cbn; f_equal; ring).
  apply (is_derive_ext (fun z => ljPotential epsilon sigma (sqrt ((z - rz b) * (z - rz b) + c)))); [intros t; now rewrite E|].
  unfold ljForce. cbn. replace (distance a b) with (sqrt ((rz a - rz b) * (rz a - rz b) + c))
    by (unfold distance, c; f_equal; ring).
  apply derivative. unfold c. lra.
Qed.
