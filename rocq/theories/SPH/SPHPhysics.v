(** Proofs about the hydrodynamic force: conservation laws, Newton's third law. *)
From Coq Require Import Reals List ZArith Bool Lra FunctionalExtensionality.
From Verif.Functor Require Import SortModel.
From Verif.Container Require Import IteratorModel ParticleModel.
From Verif.MD Require Import LJModel LJSpec.
From Verif.Flex Require Import IntegrateProofs.
From Verif.SPH Require Import SPHModel SPHSpec SPHLayout SPHKernel.
Import ListNotations.
Local Open Scope R_scope.

Lemma norm_opp p q : l2Norm (rsub p q) = l2Norm (rsub q p).
Proof. unfold l2Norm. f_equal. unfold dot, rsub. cbn. ring. Qed.
Lemma dot_opp p q : dot (rsub p q) (rsub p q) = dot (rsub q p) (rsub q p).
Proof. unfold dot, rsub. cbn. ring. Qed.
Lemma grad_opp p q h : kernelGradW (rsub p q) h = rsub rzero (kernelGradW (rsub q p) h).
Proof. unfold kernelGradW. rewrite (norm_opp p q). r3. Qed.
Lemma norm_distance p q : l2Norm (rsub p q) = distance p q.
Proof. reflexivity. Qed.

Section SPH.
  Context {A : Type}.
  Variable same : A -> A -> bool.
  Variable part : A -> Particle.
  Variable vel : A -> R3.
  Variables mass smth dens pres snds : A -> R.
  Notation hAoS := (hydroAoS same part vel mass smth dens pres snds).

  Lemma hydro_others n3 i j s x : same x i = false -> (n3 = true -> same x j = false) ->
    hAcc (hAoS n3 i j s) x = hAcc s x /\ hEng (hAoS n3 i j s) x = hEng s x /\ hVsig (hAoS n3 i j s) x = hVsig s x.
  Proof.
    intros Hi Hj. rewrite hydroAoS_aos. unfold aos. destruct (hContrib _ _ _ _ _ _ _ i j) as [[e f]|]; [|auto].
    destruct n3; cbn; unfold incr3, incr, checkMax; rewrite ?Hi, ?(Hj eq_refl); auto.
  Qed.

  Hypothesis sameEq : forall x y, same x y = true <-> x = y.
  Lemma hydro_conserves i j s : i <> j ->
    let s' := hAoS true i j s in
    radd (rscale (hAcc s' i) (mass i)) (rscale (hAcc s' j) (mass j)) = radd (rscale (hAcc s i) (mass i)) (rscale (hAcc s j) (mass j)) /\
    mass i * (hEng s' i + dot (vel i) (hAcc s' i)) + mass j * (hEng s' j + dot (vel j) (hAcc s' j)) =
    mass i * (hEng s i + dot (vel i) (hAcc s i)) + mass j * (hEng s j + dot (vel j) (hAcc s j)).
  Proof.
    intros N. cbv zeta. rewrite hydroAoS_aos. unfold aos. destruct (hContrib _ _ _ _ _ _ _ i j) as [[e f]|] eqn:C; [|auto].
    assert (Rii : same i i = true) by (apply sameEq; reflexivity). assert (Rjj : same j j = true) by (apply sameEq; reflexivity).
    assert (Rij : same i j = false) by (destruct (same i j) eqn:X; [apply sameEq in X; contradiction|reflexivity]).
    assert (Rji : same j i = false) by (destruct (same j i) eqn:X; [apply sameEq in X; congruence|reflexivity]).
    unfold hContrib in C. destruct (isDummy (part i) || isDummy (part j)); [discriminate|].
    destruct (Rle_dec _ _); [discriminate|]. cbv zeta in C.
    set (g := rscale (radd _ _) (1 / 2)) in C. clearbody g.
    set (w := if Rlt_dec _ _ then _ else _) in C. clearbody w. set (AV := _ / (1 / 2 * (dens i + dens j))) in C. clearbody AV.
    injection C as <- <-. cbn. unfold incr3, incr. rewrite Rii, Rjj, Rij, Rji.
    set (a := pres i / (dens i * dens i)). set (b := pres j / (dens j * dens j)). clearbody a b.
    split; [r3|]. unfold dot, rsub, rscale, radd, rzero. cbn. field.
  Qed.

  Definition within (i j : A) : Prop := distance (ppos (part i)) (ppos (part j)) < support (smth i).
  Lemma cut_within i j : 0 < smth i -> (smth i * kernelSupportRadius * (smth i * kernelSupportRadius) <= dot (rsub (ppos (part i)) (ppos (part j))) (rsub (ppos (part i)) (ppos (part j)))) <-> ~ within i j.
  Proof.
    intros Hp. unfold within. rewrite <- norm_distance, <- norm_sqr. pose proof (norm_nonneg (rsub (ppos (part i)) (ppos (part j)))) as N.
    replace (smth i * kernelSupportRadius) with (support (smth i)) by (unfold support, kernelSupportRadius; ring).
    assert (0 < support (smth i)) by (unfold support; lra).
    set (r := l2Norm _) in *. clearbody r. set (H' := support (smth i)) in *. clearbody H'. split.
    - intros L C. apply (Rlt_not_le _ _ (Rmult_le_0_lt_compat r H' r H' N N C C)). exact L.
    - intros C. apply Rnot_lt_le in C. apply Rmult_le_compat; lra.
  Qed.

  Lemma hydro_newton3 i j s : 0 < smth i -> 0 < smth j -> (within i j <-> within j i) ->
    hAoS false j i (hAoS false i j s) = hAoS true i j s.
  Proof.
    intros Hi Hj W. rewrite !hydroAoS_aos. unfold aos.
    assert (E : hContrib part vel mass smth dens pres snds j i =
      match hContrib part vel mass smth dens pres snds i j with None => None | Some (e, f) => Some (f, e) end).
    { unfold hContrib. rewrite (orb_comm (isDummy (part j))). destruct (isDummy (part i) || isDummy (part j)); [reflexivity|].
      pose proof (cut_within i j Hi) as C1. pose proof (cut_within j i Hj) as C2.
      destruct (Rle_dec _ _) as [L|L], (Rle_dec _ _) as [M|M]; try reflexivity; try tauto. cbv zeta.
      rewrite !(grad_opp (ppos (part j)) (ppos (part i))). rewrite (norm_opp (ppos (part j))).
      replace (dot (rsub (vel j) (vel i)) (rsub (ppos (part j)) (ppos (part i)))) with (dot (rsub (vel i) (vel j)) (rsub (ppos (part i)) (ppos (part j))))
        by (unfold dot, rsub; cbn; ring).
      set (w := if Rlt_dec _ _ then _ else _). clearbody w. rewrite (Rplus_comm (snds j)), (Rplus_comm (dens j)).
      set (AV := _ / (1 / 2 * (dens i + dens j))). clearbody AV.
      set (g1 := kernelGradW _ (smth i)). set (g2 := kernelGradW _ (smth j)). clearbody g1 g2.
      set (a := pres i / (dens i * dens i)). set (b := pres j / (dens j * dens j)). clearbody a b.
      f_equal. f_equal; f_equal; try r3; unfold dot, rsub, rscale, radd, rzero; cbn; field. }
    rewrite E. destruct (hContrib part vel mass smth dens pres snds i j) as [[e f]|]; reflexivity.
  Qed.
End SPH.

(** ** Two particles of different smoothing lengths *)
Definition xPart (b : bool) : Particle := mkParticle 0 (if b then mkR3 1 0 0 else rzero) stOwned 0.
Definition xSmth (b : bool) : R := if b then 1 / 5 else 1.
Definition xNull : @Hydro bool := mkHydro (fun _ => rzero) (fun _ => 0) (fun _ => 0).
Definition xCall : bool -> bool -> bool -> Hydro -> Hydro :=
  hydroAoS Bool.eqb xPart (fun _ => rzero) (fun _ => 1) xSmth (fun _ => 1) (fun _ => 1) (fun _ => 1).

Lemma xDistance : l2Norm (rsub rzero (mkR3 1 0 0)) = 1.
Proof. unfold l2Norm. replace (dot _ _) with 1 by (unfold dot, rsub, rzero; cbn; ring). apply sqrt_1. Qed.
(** The particle of the small support ignores the other. *)
Lemma xBack n3 s : xCall n3 true false s = s.
Proof.
  unfold xCall, hydroAoS. cbn [isDummy xPart pown]. destruct (_ || _); [reflexivity|].
  destruct (Rle_dec _ _) as [L|L]; [reflexivity|]. exfalso. apply L. unfold kernelSupportRadius, xSmth, dot, rsub, rzero. cbn. lra.
Qed.
(** The other is accelerated. *)
Definition xG : R := rx (rscale (radd (kernelGradW (rsub rzero (mkR3 1 0 0)) 1) (kernelGradW (rsub rzero (mkR3 1 0 0)) (1 / 5))) (1 / 2)).
Lemma xG_pos : 0 < xG.
Proof.
  unfold xG. rewrite !grad_slope by lra. rewrite xDistance. unfold cubicSplineSlope, support. cbv zeta.
  replace (1 / (5 / 2 * 1)) with (2 / 5) by field. replace (1 / (5 / 2 * (1 / 5))) with 2 by field.
  destruct (Rle_dec (2 / 5) (1 / 2)) as [L|L]; [|lra]. destruct (Rle_dec 2 (1 / 2)) as [M|M]; [lra|]. destruct (Rle_dec 2 1) as [K|K]; [lra|].
  cbn. pose proof PI_RGT_0.
  match goal with |- 0 < ?e => replace e with (1 / PI * (196608 / 1000000 * (2500000 / 2500001))) by (field; lra) end.
  apply Rmult_lt_0_compat; [apply Rdiv_lt_0_compat; lra|lra].
Qed.
Lemma xForth : rx (hAcc (xCall false false true xNull) false) = - (2 * xG) /\ rx (hAcc (xCall false false true xNull) true) = 0 /\
  rx (hAcc (xCall true false true xNull) true) = 2 * xG.
Proof.
  assert (E : exists e f, hContrib xPart (fun _ => rzero) (fun _ => 1) xSmth (fun _ => 1) (fun _ => 1) (fun _ => 1) false true = Some (e, f)
    /\ rx (lAcc e) = - (2 * xG) /\ rx (lAcc f) = 2 * xG).
  { unfold hContrib. change (isDummy (xPart false) || isDummy (xPart true)) with false. cbv iota.
    destruct (Rle_dec _ _) as [L|L].
    - exfalso. revert L. unfold kernelSupportRadius, xSmth, dot, rsub, rzero. cbn. lra.
    - destruct (Rlt_dec _ _) as [M|M]; [exfalso; revert M; unfold dot, rsub, rzero; cbn; lra|].
      do 2 eexists. split; [reflexivity|]. cbn [lAcc xPart ppos xSmth].
      change (rx (rsub rzero ?v)) with (0 - rx v). change (rx (rscale ?v ?c)) with (rx v * c). fold xG.
      unfold xG. cbn [rscale rx]. split; field. }
  destruct E as [e [f [E [P Q]]]]. unfold xCall. rewrite !hydroAoS_aos. unfold aos. rewrite E.
  cbn [bumpH hAcc]. unfold incr3. cbn [Bool.eqb xNull hAcc radd rx rzero]. rewrite P, Q. repeat split; ring.
Qed.
