(** The functor computes the Lennard-Jones interaction. *)
From Coq Require Import Reals List ZArith Bool Arith Lra Lia.
From Verif.Base Require Import ZRange OptionM.
From Verif.Functor Require Import CellFunctorModel SortModel.
From Verif.Container Require Import IteratorModel ParticleModel.
From Verif.Logic Require Import ComputeModel.
From Verif.MD Require Import MixingModel MixingSpec MixingProofs LJModel LJSpec LJProofs.
Import ListNotations.
Local Open Scope R_scope.

Lemma sq_nonneg3 x y z : 0 <= x * x + y * y + z * z.
Proof. pose proof (Rle_0_sqr x). pose proof (Rle_0_sqr y). pose proof (Rle_0_sqr z). unfold Rsqr in *. lra. Qed.

Lemma distance_sq a b : distance a b * distance a b = dot (rsub a b) (rsub a b).
Proof. unfold distance, dot, rsub. cbn. apply sqrt_sqrt, sq_nonneg3. Qed.
Lemma distance_nonneg a b : 0 <= distance a b.
Proof. apply sqrt_pos. Qed.
Lemma distance_sym a b : distance a b = distance b a.
Proof. unfold distance. f_equal. ring. Qed.

Lemma distance_le a b c : 0 <= c -> distance a b <= c <-> dot (rsub a b) (rsub a b) <= c * c.
Proof.
  intros Hc. rewrite <- distance_sq. pose proof (distance_nonneg a b). split; intros L; [apply Rmult_le_compat; lra|].
  destruct (Rle_or_lt (distance a b) c) as [|G]; [assumption|].
  assert (c * c < distance a b * distance a b) by (apply Rmult_le_0_lt_compat; lra). lra.
Qed.

Lemma dot_zero (a b : R3) : dot (rsub a b) (rsub a b) = 0 -> a = b.
Proof.
  unfold dot, rsub. cbn. intros E.
  pose proof (Rle_0_sqr (rx a - rx b)). pose proof (Rle_0_sqr (ry a - ry b)). pose proof (Rle_0_sqr (rz a - rz b)).
  unfold Rsqr in *.
  assert (Z : forall x, x * x = 0 -> x = 0) by (intros x Hx; destruct (Rmult_integral _ _ Hx); assumption).
  apply R3_eq; apply Rminus_diag_uniq, Z; lra.
Qed.

(** The kernel in terms of the potential. *)
Lemma kernel_force eps sigma sh a b : a <> b ->
  fst (ljKernel 1 (mkLJ (24 * eps) (sigma * sigma) sh) (rsub a b) (dot (rsub a b) (rsub a b))) = ljForce eps sigma a b.
Proof.
  intros N. unfold ljKernel, ljForce. cbn [fst epsilon24 sigmaSquared]. rewrite <- distance_sq.
  assert (P : distance a b <> 0).
  { intros Z. apply N, dot_zero. rewrite <- distance_sq, Z. ring. }
  f_equal. field. assumption.
Qed.
Lemma kernel_energy eps sigma sh a b : a <> b ->
  snd (ljKernel 1 (mkLJ (24 * eps) (sigma * sigma) (6 * sh)) (rsub a b) (dot (rsub a b) (rsub a b))) =
  6 * (ljPotential eps sigma (distance a b) + sh).
Proof.
  intros N. unfold ljKernel, ljPotential. cbn [snd epsilon24 sigmaSquared shift6]. rewrite <- distance_sq.
  assert (P : distance a b <> 0).
  { intros Z. apply N, dot_zero. rewrite <- distance_sq, Z. ring. }
  field. assumption.
Qed.

Lemma force_opp eps sigma a b : ljForce eps sigma b a = rsub rzero (ljForce eps sigma a b).
Proof. unfold ljForce. rewrite (distance_sym b a). cbv zeta. r3. Qed.

Section Physics.
  Context {A : Type}.
  Variable same : A -> A -> bool.
  Hypothesis sameEq : forall x y, same x y = true <-> x = y.
  Variable part : A -> Particle.
  Variable typeId : A -> nat.
  Variable cfg : LJConfig.
  Variable fld : Field.
  Variable known : nat -> Prop.
  Hypothesis Hset : setUp cfg fld known.

  Lemma hit_interacting i j : hit part cfg i j = interacting part fld i j.
  Proof.
    unfold hit, interacting. f_equal. destruct (setUpCutoff _ _ _ Hset) as [C0 C]. rewrite C. unfold displacement.
    destruct (Rle_dec (distance (ppos (part i)) (ppos (part j))) (cutoffOf fld)) as [L|L];
      destruct (Rle_dec (dot (rsub (ppos (part i)) (ppos (part j))) (rsub (ppos (part i)) (ppos (part j)))) (cutoffOf fld * cutoffOf fld)) as [M|M];
      try reflexivity; exfalso.
    - apply M, distance_le; assumption.
    - apply L, distance_le; assumption.
  Qed.

  Notation apart := (LJSpec.apart part fld).

  Section Pair.
    Variables i j : A.
    Hypothesis Ki : known (typeId i).
    Hypothesis Kj : known (typeId j).
    Hypothesis Hap : apart i j.

    Lemma props_known : exists p, pairProps cfg (typeId i) (typeId j) = Some p /\ propsOf typeId cfg i j = p /\
      p = mkLJ (24 * epsilonOf fld (typeId i) (typeId j)) (sigmaOf fld (typeId i) (typeId j) * sigmaOf fld (typeId i) (typeId j))
            (6 * shiftOf fld (typeId i) (typeId j)).
    Proof.
      destruct (setUpProps _ _ _ Hset _ _ Ki Kj) as (p & E & E1 & E2 & E3). exists p. split; [assumption|].
      split; [unfold propsOf; now rewrite E|]. destruct p; cbn in *. congruence.
    Qed.

    Lemma pairF_force : pairF part typeId cfg i j = forceOf part typeId fld i j.
    Proof.
      unfold pairF, forceOf. rewrite hit_interacting. destruct (interacting part fld i j) eqn:I; [|reflexivity].
      destruct props_known as (p & _ & -> & ->). unfold displacement. rewrite kernel_force; [reflexivity|]. now apply Hap.
    Qed.
    Lemma pairE_energy : pairE part typeId cfg i j = 6 * energyOf part typeId fld i j.
    Proof.
      unfold pairE, energyOf. rewrite hit_interacting. destruct (interacting part fld i j) eqn:I; [|ring].
      destruct props_known as (p & _ & -> & ->). unfold displacement. rewrite kernel_energy; [reflexivity|]. now apply Hap.
    Qed.

    Lemma interacting_sym : interacting part fld j i = interacting part fld i j.
    Proof.
      unfold interacting. rewrite (distance_sym (ppos (part j))). f_equal. apply andb_comm.
    Qed.
    Lemma forceOf_opp : forceOf part typeId fld j i = rsub rzero (forceOf part typeId fld i j).
    Proof.
      unfold forceOf. rewrite interacting_sym. destruct (setUpSymmetric _ _ _ Hset _ _ Ki Kj) as (E1 & E2 & _).
      destruct (interacting part fld i j); [rewrite <- E1, <- E2; apply force_opp|r3].
    Qed.
    Lemma energyOf_sym : energyOf part typeId fld j i = energyOf part typeId fld i j.
    Proof.
      unfold energyOf. rewrite interacting_sym. destruct (setUpSymmetric _ _ _ Hset _ _ Ki Kj) as (E1 & E2 & E3).
      destruct (interacting part fld i j); [|reflexivity]. now rewrite <- E1, <- E2, <- E3, (distance_sym (ppos (part j))).
    Qed.
    Lemma virialOf_sym : virialOf part typeId fld j i = virialOf part typeId fld i j.
    Proof. unfold virialOf. rewrite forceOf_opp. r3. Qed.
  End Pair.

  (** Everything that is added, pair by pair. *)
  Definition usable (c : Call A) : Prop :=
    known (typeId (fstP c)) /\ known (typeId (sndP c)) /\ apart (fstP c) (sndP c).

  Lemma usable_defined c : usable c -> defined part typeId cfg c.
  Proof.
    intros (Ki & Kj & Ap). right. right. destruct (props_known _ _ Ki Kj) as (p & E & _). split; [congruence|].
    rewrite hit_interacting. intros I Z. apply (Ap I). now apply dot_zero.
  Qed.

  Notation forcesOn := (LJSpec.forcesOn part typeId fld same).
  Notation ownedEnergy := (LJSpec.ownedEnergy part typeId fld).
  Notation ownedVirial := (LJSpec.ownedVirial part typeId fld).
  Lemma forcesOn_app a l1 l2 : forcesOn a (l1 ++ l2) = radd (forcesOn a l1) (forcesOn a l2).
  Proof. unfold LJSpec.forcesOn. now rewrite filter_app, map_app, vsum_app. Qed.
  Lemma ownedEnergy_app l1 l2 : ownedEnergy (l1 ++ l2) = ownedEnergy l1 + ownedEnergy l2.
  Proof. unfold LJSpec.ownedEnergy. now rewrite filter_app, map_app, rsum_app. Qed.
  Lemma ownedVirial_app l1 l2 : ownedVirial (l1 ++ l2) = radd (ownedVirial l1) (ownedVirial l2).
  Proof. unfold LJSpec.ownedVirial. now rewrite filter_app, map_app, vsum_app. Qed.

  Lemma callF_added a c : usable c -> callFc same part typeId cfg a c = forcesOn a (added c).
  Proof.
    intros (Ki & Kj & Ap). unfold callFc, callF, LJSpec.forcesOn, added, at_, opp. rewrite (pairF_force _ _ Ki Kj Ap).
    destruct (n3 c); cbn [filter fst snd].
    - destruct (same a (fstP c)), (same a (sndP c)); cbn [map vsum fold_right fst snd]; try rewrite (forceOf_opp _ _ Ki Kj); r3.
    - destruct (same a (fstP c)); cbn [map vsum fold_right fst snd]; r3.
  Qed.

  Lemma calls_forces a cs : (forall c, In c cs -> usable c) ->
    vsum (map (callFc same part typeId cfg a) cs) = forcesOn a (flat_map added cs).
  Proof.
    induction cs as [|c cs IH]; intros H; [reflexivity|]. cbn [flat_map]. rewrite forcesOn_app.
    change (radd (callFc same part typeId cfg a c) (vsum (map (callFc same part typeId cfg a) cs)) =
            radd (forcesOn a (added c)) (forcesOn a (flat_map added cs))).
    rewrite IH by (intros c' I; apply H; now right). rewrite callF_added by (apply H; now left). reflexivity.
  Qed.

  Lemma dummy_not_owned p : isDummy p = true -> isOwned p = false.
  Proof. unfold isDummy, isOwned, stDummy, stOwned. rewrite Z.eqb_eq, Z.eqb_neq. lia. Qed.

  Lemma call_sums c : usable c -> calcGlobals cfg = true ->
    potentialSum (callSc part typeId cfg c) = 6 * ownedEnergy (added c) /\
    virialSum (callSc part typeId cfg c) = ownedVirial (added c).
  Proof.
    intros (Ki & Kj & Ap) G. unfold callSc, pairS. rewrite G. cbn [whenSums].
    rewrite (pairE_energy _ _ Ki Kj Ap), (pairF_force _ _ Ki Kj Ap).
    assert (Z : isDummy (part (fstP c)) = true -> energyOf part typeId fld (fstP c) (sndP c) = 0 /\
                virialOf part typeId fld (fstP c) (sndP c) = rzero).
    { intros D. unfold virialOf, energyOf, forceOf, interacting. rewrite D. cbn. split; [reflexivity|r3]. }
    assert (P : forall n, potentialSum (kernelCount cfg (n3 c) n) = 0 /\ virialSum (kernelCount cfg (n3 c) n) = rzero)
      by (intros n; unfold kernelCount; destruct (n3 c); split; reflexivity).
    change (rmul (displacement part (fstP c) (sndP c)) (forceOf part typeId fld (fstP c) (sndP c))) with
      (virialOf part typeId fld (fstP c) (sndP c)).
    unfold LJSpec.ownedEnergy, LJSpec.ownedVirial, added, factorOf.
    destruct (isDummy (part (fstP c))) eqn:D.
    - destruct (Z eq_refl) as [Z1 Z2]. cbn [filter fst snd]. rewrite (dummy_not_owned _ D).
      destruct (n3 c); cbn [filter fst snd]; [|cbn; split; [ring|reflexivity]].
      destruct (isOwned (part (sndP c))); cbn [map rsum vsum fold_right fst snd];
        [rewrite (energyOf_sym _ _ Ki Kj), (virialOf_sym _ _ Ki Kj), Z1, Z2|]; split; cbn; try ring; r3.
    - destruct (P (hit part cfg (fstP c) (sndP c))) as [P1 P2].
      unfold addSums, distCount, globalSums. cbn [potentialSum virialSum]. rewrite P1, P2.
      destruct (n3 c); cbn [filter fst snd]; destruct (isOwned (part (fstP c))), (isOwned (part (sndP c)));
        cbn [map rsum vsum fold_right fst snd]; try rewrite (energyOf_sym _ _ Ki Kj), (virialOf_sym _ _ Ki Kj);
        (split; [ring|r3]).
  Qed.

  Lemma calls_sums cs : (forall c, In c cs -> usable c) -> calcGlobals cfg = true ->
    potentialSum (ssum (map (callSc part typeId cfg) cs)) = 6 * ownedEnergy (flat_map added cs) /\
    virialSum (ssum (map (callSc part typeId cfg) cs)) = ownedVirial (flat_map added cs).
  Proof.
    intros H G. induction cs as [|c cs IH]; [cbn; split; [ring|reflexivity]|].
    destruct IH as [IH1 IH2]; [intros c' I; apply H; now right|].
    destruct (call_sums c (H c (or_introl eq_refl)) G) as [C1 C2].
    cbn [flat_map]. rewrite ownedEnergy_app, ownedVirial_app.
    change (ssum (map (callSc part typeId cfg) (c :: cs))) with (addSums (callSc part typeId cfg c) (ssum (map (callSc part typeId cfg) cs))).
    unfold addSums. cbn [potentialSum virialSum]. rewrite IH1, IH2, C1, C2. split; [ring|reflexivity].
  Qed.

  (** The counters. *)
  Notation alive := (LJSpec.alive part).
  Notation hits := (LJSpec.hits part fld).

  Lemma call_counts c : countFLOPs cfg = true ->
    distCalls (callSc part typeId cfg c) = count alive [c] /\
    kernelsN3 (callSc part typeId cfg c) = count (fun c => n3 c && hits c) [c] /\
    kernelsNoN3 (callSc part typeId cfg c) = count (fun c => negb (n3 c) && hits c) [c].
  Proof.
    intros F. unfold callSc, pairS, count, LJSpec.alive, LJSpec.hits. cbn [filter].
    rewrite <- hit_interacting.
    destruct (isDummy (part (fstP c))) eqn:D.
    { replace (hit part cfg (fstP c) (sndP c)) with false by (unfold hit; now rewrite D).
      cbn. rewrite !andb_false_r. auto. }
    unfold addSums, distCount, kernelCount, whenSums, globalSums. rewrite F.
    destruct (n3 c), (calcGlobals cfg), (isDummy (part (sndP c))), (hit part cfg (fstP c) (sndP c)); cbn; auto.
  Qed.
  Lemma count_app {B} (f : B -> bool) l1 l2 : count f (l1 ++ l2) = (count f l1 + count f l2)%nat.
  Proof. unfold count. now rewrite filter_app, app_length. Qed.
  Lemma calls_counts cs : countFLOPs cfg = true ->
    distCalls (ssum (map (callSc part typeId cfg) cs)) = count alive cs /\
    kernelsN3 (ssum (map (callSc part typeId cfg) cs)) = count (fun c => n3 c && hits c) cs /\
    kernelsNoN3 (ssum (map (callSc part typeId cfg) cs)) = count (fun c => negb (n3 c) && hits c) cs.
  Proof.
    intros F. induction cs as [|c cs (IH1 & IH2 & IH3)]; [auto|].
    destruct (call_counts c F) as (C1 & C2 & C3).
    change (c :: cs) with ([c] ++ cs). rewrite !count_app, map_app, ssum_app. unfold addSums. cbn [distCalls kernelsN3 kernelsNoN3].
    change (ssum (map (callSc part typeId cfg) [c])) with (addSums (callSc part typeId cfg c) noSums).
    rewrite addSums_zero_r, IH1, IH2, IH3, C1, C2, C3. auto.
  Qed.
End Physics.

(** * endTraversal *)
Lemma fold_pot ts : forall x, fold_left (fun a t => a + potentialSum t) ts x = x + potentialSum (ssum ts).
Proof.
  induction ts as [|t ts IH]; intros x; [cbn; ring|]. cbn [fold_left]. rewrite IH.
  change (ssum (t :: ts)) with (addSums t (ssum ts)). cbn [addSums potentialSum]. ring.
Qed.
Lemma fold_vir ts : forall x, fold_left (fun a t => radd a (virialSum t)) ts x = radd x (virialSum (ssum ts)).
Proof.
  induction ts as [|t ts IH]; intros x; [cbn; now rewrite radd_zero_r|]. cbn [fold_left]. rewrite IH.
  change (ssum (t :: ts)) with (addSums t (ssum ts)). cbn [addSums virialSum]. now rewrite radd_assoc.
Qed.
Lemma end_value ts : endTraversal ts = (potentialSum (ssum ts) / 12, rscale (virialSum (ssum ts)) (1 / 2)).
Proof. unfold endTraversal. rewrite fold_pot, fold_vir, radd_zero_l. f_equal. field. Qed.

(** * The parameters *)
Lemma shift6_potential eps sigma c : c <> 0 ->
  calcShift6 (24 * eps) (sigma * sigma) (c * c) = 6 * - ljPotential eps sigma c.
Proof. intros N. unfold calcShift6, ljPotential. field. assumption. Qed.

Lemma setUp_constants cutoff eps sigma b1 b2 b3 lib p0 known : 0 < cutoff ->
  setUp (setParticleProperties (24 * eps) (sigma * sigma) (mkLJC false b1 b2 b3 (cutoff * cutoff) p0 lib))
    (mkField cutoff (fun _ _ => eps) (fun _ _ => sigma) (fun _ _ => if b1 then - ljPotential eps sigma cutoff else 0)) known.
Proof.
  intros C. split; cbn.
  - split; [lra|reflexivity].
  - intros i j _ _. eexists. split; [reflexivity|]. cbn. repeat split.
    destruct b1; [|ring]. apply shift6_potential. lra.
  - auto.
Qed.

Lemma setUp_mixing rs cutoff l l' b1 b2 b3 p0 : 0 < cutoff -> registerAll rs (newLibrary cutoff) = Some l -> usesLJ rs ->
  calculateMixing l = Some l' -> shift6 p0 = 0 ->
  setUp (mkLJC true b1 b2 b3 (cutoff * cutoff) p0 l')
    (mkField cutoff (fun i j => mixedEpsilon (parametersOf rs i) (parametersOf rs j))
       (fun i j => mixedSigma (parametersOf rs i) (parametersOf rs j))
       (fun i j => if b1 then - ljPotential (mixedEpsilon (parametersOf rs i) (parametersOf rs j))
                                  (mixedSigma (parametersOf rs i) (parametersOf rs j)) cutoff else 0))
    (fun i => (i < numSites rs)%nat).
Proof.
  intros C E U M Z. split; cbn [cutoffOf epsilonOf sigmaOf shiftOf].
  - split; [lra|reflexivity].
  - intros i j Hi Hj. unfold pairProps. cbn [useMixing library applyShift consts].
    rewrite (mixing_table _ _ _ _ E U M i j Hi Hj).
    eexists. split; [reflexivity|]. unfold mixed. cbn [epsilon24 sigmaSquared shift6]. repeat split.
    destruct b1; [|lra]. apply shift6_potential. lra.
  - intros i j _ _.
    assert (E1 : mixedEpsilon (parametersOf rs i) (parametersOf rs j) = mixedEpsilon (parametersOf rs j) (parametersOf rs i))
      by (unfold mixedEpsilon; f_equal; ring).
    assert (E2 : mixedSigma (parametersOf rs i) (parametersOf rs j) = mixedSigma (parametersOf rs j) (parametersOf rs i))
      by (unfold mixedSigma; field).
    rewrite E1, E2. auto.
Qed.
