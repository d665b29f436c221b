(** Theorems about the thermostat of md-flexible. *)
From Coq Require Import Reals List Bool Arith Lra Lia.
From Verif.Base Require Import OptionM.
From Verif.Container Require Import IteratorLemmas.
From Verif.Functor Require Import SortModel.
From Verif.Flex Require Import ThermostatModel ThermostatSpec ThermostatProofs.
Import ListNotations.
Local Open Scope R_scope.

Lemma immediate_dist : forall target delta t,
  Rabs (immediateTargetTemperature target delta t - target) = Rmax 0 (Rabs (t - target) - Rabs delta).
Proof.
  intros target delta t. unfold immediateTargetTemperature. pose proof (Rabs_pos delta).
  destruct (Rlt_dec t target).
  - rewrite (Rabs_left (t - target)) by lra. unfold Rmin, Rmax.
    destruct (Rle_dec (t + Rabs delta) target), (Rle_dec 0 _); try lra.
    + destruct (Req_EM_T (t + Rabs delta) target) as [E | E].
      * rewrite E, Rminus_diag_eq, Rabs_R0 by reflexivity. lra.
      * rewrite Rabs_left by lra. lra.
    + rewrite Rminus_diag_eq, Rabs_R0 by reflexivity. lra.
  - rewrite (Rabs_pos_eq (t - target)) by lra. unfold Rmax.
    destruct (Rle_dec (t - Rabs delta) target), (Rle_dec 0 _); try lra.
    + rewrite Rminus_diag_eq, Rabs_R0 by reflexivity. lra.
    + rewrite Rminus_diag_eq, Rabs_R0 by reflexivity. lra.
    + rewrite Rabs_pos_eq by lra. lra.
Qed.

Lemma Rmax_step : forall a d n, 0 <= d -> 0 <= n ->
  Rmax 0 (Rmax 0 (a - d) - n * d) = Rmax 0 (a - (n + 1) * d).
Proof.
  intros a d n Hd Hn. assert (0 <= n * d) by (now apply Rmult_le_pos).
  unfold Rmax. repeat (destruct (Rle_dec _ _)); lra.
Qed.

Section Thermostat.
  Variables (multiSite : bool) (numberComponents : nat) (mass : nat -> R) (inertia : nat -> R3).
  Local Notation temperature' := (temperature multiSite mass inertia).
  Local Notation apply' := (apply multiSite numberComponents mass inertia).
  Local Notation applyN' := (applyN multiSite numberComponents mass inertia).
  Definition occurs (k : nat) (sys : System) : Prop := exists p, In p (particles sys) /\ tType p = k.

  Lemma occurs_scaled : forall c k sys sys', particles sys' = map (scaledBy multiSite c) (particles sys) ->
    (occurs k sys' <-> occurs k sys).
  Proof.
    intros c k sys sys' E. unfold occurs. rewrite E. split.
    - intros [p [H1 H2]]. apply in_map_iff in H1 as [q [<- Hq]]. exists q. auto.
    - intros [p [H1 H2]]. exists (scaledBy multiSite c p). split; [now apply in_map | exact H2].
  Qed.

  Lemma converges : forall n target delta sys,
    (forall p, In p (particles sys) -> (tType p < numberComponents)%nat) -> 0 < target ->
    (forall k, occurs k sys -> 0 < temperature' k (particles sys)) ->
    exists sys', applyN' n target delta sys = Some sys' /\
      forall k, occurs k sys ->
        Rabs (temperature' k (particles sys') - target) =
        Rmax 0 (Rabs (temperature' k (particles sys) - target) - INR n * Rabs delta).
  Proof.
    induction n as [| n IH]; intros target delta sys Hk Ht Hp.
    - exists sys. split; [reflexivity |]. intros k _. cbn. rewrite Rmult_0_l, Rminus_0_r, Rmax_right; [reflexivity |].
      apply Rabs_pos.
    - destruct (apply_spec multiSite numberComponents mass inertia target delta sys Hk (Rlt_le _ _ Ht) Hp)
        as [s1 [c [E1 [_ [_ [E2 E3]]]]]].
      destruct (IH target delta s1) as [s2 [F1 F2]].
      + rewrite E2. intros p Hin. apply in_map_iff in Hin as [q [<- Hq]]. exact (Hk q Hq).
      + exact Ht.
      + intros k Ho. apply (occurs_scaled _ _ _ _ E2) in Ho. rewrite (E3 k Ho).
        apply immediate_pos; [exact Ht | now apply Hp].
      + exists s2. cbn. rewrite E1. split; [exact F1 |]. intros k Ho.
        rewrite F2 by (now apply (occurs_scaled _ _ _ _ E2)). rewrite (E3 k Ho), immediate_dist.
        rewrite (Rmax_step _ (Rabs delta) (INR n)); [| apply Rabs_pos | apply pos_INR].
        change (match n with O => 1 | S _ => INR n + 1 end) with (INR (S n)). rewrite S_INR. reflexivity.
  Qed.

  Lemma step : forall target delta sys,
    (forall p, In p (particles sys) -> (tType p < numberComponents)%nat) -> 0 <= target ->
    (forall k, occurs k sys -> 0 < temperature' k (particles sys)) ->
    exists sys' c, apply' target delta sys = Some sys' /\
      (forall k, 0 <= c k) /\
      sys' = map (map (map (fun p => mkTPart (tType p) (rscale (tVel p) (c (tType p)))
                                     (if multiSite then rscale (tAng p) (c (tType p)) else tAng p) (tOwned p)))) sys /\
      forall k, occurs k sys -> towards target delta (temperature' k (particles sys)) (temperature' k (particles sys')).
  Proof.
    intros target delta sys Hk Ht Hp.
    destruct (apply_spec multiSite numberComponents mass inertia target delta sys Hk Ht Hp)
      as [s1 [c [E1 [E0 [E4 [_ E3]]]]]].
    exists s1, c. split; [exact E1 |]. split; [exact E0 |]. split; [exact E4 |].
    intros k Ho. rewrite (E3 k Ho). apply immediate_towards.
  Qed.

  Lemma independent : forall sys sys', Permutation.Permutation (particles sys) (particles sys') ->
    forall k, temperature' k (particles sys) = temperature' k (particles sys').
  Proof.
    intros sys sys' H k. unfold temperature.
    assert (P : Permutation.Permutation (filter (ofType k) (particles sys)) (filter (ofType k) (particles sys'))).
    { now apply filter_perm. }
    rewrite (Permutation.Permutation_length P). do 2 f_equal.
    induction P as [| x l l' _ IH | x y l | l l' l'' _ IH1 _ IH2]; unfold rsum in *; cbn; [reflexivity | now rewrite IH | lra | congruence].
  Qed.
End Thermostat.

(** ** Counterexamples *)
Definition unit1 (_ : nat) : R := 1.
Definition noInertia (_ : nat) : R3 := mkR3 0 0 0.
Definition r000 : R3 := mkR3 0 0 0.

(** An owned molecule and a halo copy whose velocity was not updated. *)
Definition exOwned : TPart := mkTPart 0 (mkR3 1 0 0) r000 true.
Definition exHalo : TPart := mkTPart 0 (mkR3 2 0 0) r000 false.
Definition exSys : System := [[[exOwned; exHalo]]].

Lemma exSys_known : forall p, In p (particles exSys) -> (tType p < 1)%nat.
Proof. intros p [<- | [<- | []]]; cbn; lia. Qed.
Lemma exSys_temp : temperature false unit1 noInertia 0 (particles exSys) = 5 / 6.
Proof. unfold temperature, rsum, kinetic, dot, unit1. cbn. field. Qed.
Lemma exSys_pos : forall k, occurs k exSys -> 0 < temperature false unit1 noInertia k (particles exSys).
Proof. intros k [p [[<- | [<- | []]] <-]]; cbn [tType exOwned exHalo]; rewrite exSys_temp; lra. Qed.

Lemma halo_biased : exists sys', apply false 1 unit1 noInertia 1 100 exSys = Some sys' /\
  temperature false unit1 noInertia 0 (ownedOf exSys) = 1 / 3 /\
  temperature false unit1 noInertia 0 (ownedOf sys') = 2 / 5.
Proof.
  destruct (apply_spec false 1 unit1 noInertia 1 100 exSys exSys_known ltac:(lra) exSys_pos)
    as [s [c [E1 [E0 [E4 [E2 E3]]]]]].
  assert (O : occurs 0 exSys) by (exists exOwned; split; [now left | reflexivity]).
  pose proof (E3 0%nat O) as E. rewrite E2, scaled_temperature, exSys_temp in E.
  assert (I : immediateTargetTemperature 1 100 (5 / 6) = 1).
  { unfold immediateTargetTemperature. rewrite (Rabs_pos_eq 100) by lra.
    destruct (Rlt_dec (5 / 6) 1); [| lra]. apply Rmin_right. lra. }
  rewrite I in E. exists s. split; [exact E1 |]. split.
  - unfold ownedOf, temperature, rsum, kinetic, dot, unit1. cbn. field.
  - unfold ownedOf. rewrite E2. cbn. change [scaledBy false c exOwned] with (map (scaledBy false c) [exOwned]).
    rewrite scaled_temperature.
    replace (temperature false unit1 noInertia 0 [exOwned]) with (1 / 3).
    + lra.
    + unfold temperature, rsum, kinetic, dot, unit1. cbn. field.
Qed.

(** A component at rest. *)
Lemma rest_fails : forall target delta, apply false 1 unit1 noInertia target delta [[[mkTPart 0 r000 r000 true]]] = None.
Proof.
  intros target delta. unfold apply, calcTemperatureComponent, allreduce, rankAggregate. cbn.
  unfold scaleParticle, scaling. cbn. destruct (Req_EM_T _ 0) as [_ | N]; [reflexivity |].
  exfalso. apply N. unfold energyMul2, dot, unit1, degreesOfFreedom. cbn. field.
Qed.
