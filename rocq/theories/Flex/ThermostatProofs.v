(** Proofs about the thermostat of md-flexible. *)
From Coq Require Import Reals List Bool Arith Lra Lia.
From Verif.Base Require Import OptionM.
From Verif.Functor Require Import SortModel.
From Verif.Flex Require Import ThermostatModel ThermostatSpec.
Import ListNotations.
Local Open Scope R_scope.

Lemma rsum_app : forall a b, rsum (a ++ b) = rsum a + rsum b.
Proof. induction a as [| x t IH]; intros b; unfold rsum in *; cbn; [lra | rewrite IH; lra]. Qed.
Lemma rsum_scale : forall A (f : A -> R) c l, rsum (map (fun x => c * f x) l) = c * rsum (map f l).
Proof. induction l as [| x t IH]; unfold rsum in *; cbn; [lra | rewrite IH; lra]. Qed.

Section Thermostat.
  Variables (multiSite : bool) (numberComponents : nat) (mass : nat -> R) (inertia : nat -> R3).
  Local Notation energy := (energyMul2 multiSite mass inertia).
  Local Notation loop := (threadLoop multiSite numberComponents mass inertia).
  Local Notation rankA := (rankAggregate multiSite numberComponents mass inertia).
  Local Notation reduce := (allreduce multiSite numberComponents mass inertia).
  Local Notation temps := (calcTemperatureComponent multiSite numberComponents mass inertia).
  Local Notation temperature' := (temperature multiSite mass inertia).
  Local Notation apply' := (apply multiSite numberComponents mass inertia).

  Definition energyOf (k : nat) (ps : list TPart) : R := rsum (map energy (filter (ofType k) ps)).
  Definition countOf (k : nat) (ps : list TPart) : nat := length (filter (ofType k) ps).
  Definition known (ps : list TPart) : Prop := forall p, In p ps -> (tType p < numberComponents)%nat.
  (** An aggregate describes a list of particles. *)
  Definition describes (a : Aggregate) (ps : list TPart) : Prop :=
    forall k, fst a k = energyOf k ps /\ snd a k = countOf k ps.

  Lemma describes_zero : describes zeroAggregate [].
  Proof. intros k. split; reflexivity. Qed.
  Lemma describes_plus : forall a b ps qs, describes a ps -> describes b qs -> describes (plusAggregate a b) (ps ++ qs).
  Proof.
    intros a b ps qs Ha Hb k. destruct (Ha k) as [A1 A2], (Hb k) as [B1 B2]. unfold energyOf, countOf in *.
    cbn. rewrite filter_app, map_app, rsum_app, app_length, A1, A2, B1, B2. split; reflexivity.
  Qed.

  Lemma loop_some : forall ps a, known ps -> exists b, loop ps a = Some b.
  Proof.
    induction ps as [| p t IH]; intros a H; cbn [threadLoop]; [now exists a |].
    replace (tType p <? numberComponents)%nat with true.
    - apply IH. intros q Hq. apply H. now right.
    - symmetry. apply Nat.ltb_lt, H. now left.
  Qed.
  Lemma loop_describes : forall ps a b qs, describes a qs -> loop ps a = Some b -> describes b (qs ++ ps).
  Proof.
    induction ps as [| p t IH]; intros a b qs Ha H; cbn [threadLoop] in H.
    - injection H as <-. now rewrite app_nil_r.
    - destruct (tType p <? numberComponents)%nat; [| discriminate].
      replace (qs ++ p :: t) with ((qs ++ [p]) ++ t) by now rewrite <- app_assoc.
      refine (IH _ _ _ _ H). intros k. destruct (Ha k) as [A1 A2]. unfold energyOf, countOf in *.
      cbn [fst snd]. rewrite filter_app, map_app, rsum_app, app_length. cbn. unfold ofType at 2 4.
      rewrite (Nat.eqb_sym (tType p) k).
      destruct (k =? tType p)%nat eqn:E; cbn; rewrite A1, A2; split; lra || lia.
  Qed.
  Lemma fold_describes : forall l pss a qs, describes a qs -> Forall2 describes l pss ->
    describes (fold_left plusAggregate l a) (qs ++ concat pss).
  Proof.
    intros l pss a qs Ha H. revert a qs Ha. induction H as [| b ps l pss Hb _ IH]; intros a qs Ha; cbn.
    - now rewrite app_nil_r.
    - rewrite app_assoc. apply IH. now apply describes_plus.
  Qed.

  Lemma mapM_forall2 : forall A B (f : A -> option B) (P : B -> A -> Prop) l l',
    (forall a b, In a l -> f a = Some b -> P b a) -> mapM f l = Some l' -> Forall2 P l' l.
  Proof.
    induction l as [| a t IH]; intros l' H E; cbn in E.
    - injection E as <-. constructor.
    - destruct (f a) as [b |] eqn:Eb; [| discriminate]. destruct (mapM f t) as [t' |] eqn:Et; [| discriminate].
      injection E as <-. constructor; [apply H; [now left | exact Eb] |]. apply IH; [| reflexivity].
      intros; apply H; [now right | assumption].
  Qed.
  Lemma mapM_some : forall A B (f : A -> option B) l, (forall a, In a l -> exists b, f a = Some b) ->
    exists l', mapM f l = Some l'.
  Proof.
    induction l as [| a t IH]; intros H; cbn; [eexists; reflexivity |].
    destruct (H a (or_introl eq_refl)) as [b ->]. destruct IH as [t' ->]; [intros; apply H; now right |].
    eexists; reflexivity.
  Qed.

  Lemma rank_describes : forall threads a, rankA threads = Some a -> describes a (concat threads).
  Proof.
    intros threads a H. unfold rankAggregate in H. destruct (mapM _ threads) as [l |] eqn:E; [| discriminate].
    injection H as <-. change (concat threads) with ([] ++ concat threads).
    apply fold_describes; [exact describes_zero |].
    eapply mapM_forall2; [| exact E]. intros ps b _ Hb. exact (loop_describes _ _ _ [] describes_zero Hb).
  Qed.
  Lemma reduce_describes : forall sys a, reduce sys = Some a -> describes a (particles sys).
  Proof.
    intros sys a H. unfold allreduce in H. destruct (mapM _ sys) as [l |] eqn:E; [| discriminate].
    injection H as <-. unfold particles. rewrite <- (app_nil_l (concat (concat sys))).
    assert (F : Forall2 (fun b ts => describes b (concat ts)) l sys).
    { eapply mapM_forall2; [| exact E]. intros ts b _ Hb. now apply rank_describes. }
    assert (G : Forall2 describes l (map (@concat _) sys)).
    { clear E. induction F; cbn; constructor; assumption. }
    replace (concat (concat sys)) with (concat (map (@concat _) sys)) by (symmetry; apply concat_concat || (clear; induction sys as [| x t IH]; cbn; [reflexivity | now rewrite concat_app, IH])).
    now apply fold_describes; [exact describes_zero |].
  Qed.

  Lemma in_particles : forall sys rank ps p, In rank sys -> In ps rank -> In p ps -> In p (particles sys).
  Proof.
    intros sys rank ps p H1 H2 H3. unfold particles. apply in_concat. exists ps. split; [| exact H3].
    apply in_concat. exists rank. auto.
  Qed.

  Lemma reduce_some : forall sys, known (particles sys) -> exists a, reduce sys = Some a.
  Proof.
    intros sys H. unfold allreduce.
    destruct (mapM_some _ _ rankA sys) as [l ->]; [| eexists; reflexivity].
    intros rank Hr. unfold rankAggregate.
    destruct (mapM_some _ _ (fun ps => loop ps zeroAggregate) rank) as [l ->]; [| eexists; reflexivity].
    intros ps Hps. apply loop_some. intros p Hp. apply H. eapply in_particles; eassumption.
  Qed.

  (** The measured temperature is the temperature. *)
  Lemma energy_kinetic : forall p, energy p = 2 * kinetic multiSite (mass (tType p)) (inertia (tType p)) p.
  Proof.
    intros p. unfold energyMul2, kinetic, dot, rmul. destruct multiSite; cbn; field.
  Qed.
  Lemma energyOf_kinetic : forall k ps,
    energyOf k ps = 2 * rsum (map (kinetic multiSite (mass k) (inertia k)) (filter (ofType k) ps)).
  Proof.
    intros k ps. unfold energyOf. rewrite <- rsum_scale. f_equal. apply map_ext_in.
    intros p Hp. apply filter_In in Hp as [_ Hp]. unfold ofType in Hp. apply Nat.eqb_eq in Hp.
    rewrite energy_kinetic, Hp. reflexivity.
  Qed.
  Lemma temps_spec : forall sys temp k, temps sys = Some temp ->
    temp k = if (countOf k (particles sys) =? 0)%nat then None else Some (temperature' k (particles sys)).
  Proof.
    intros sys temp k H. unfold calcTemperatureComponent in H. destruct (reduce sys) as [a |] eqn:E; [| discriminate].
    injection H as <-. destruct (reduce_describes _ _ E k) as [A B]. rewrite A, B.
    destruct (countOf k (particles sys) =? 0)%nat; [reflexivity |]. f_equal.
    unfold temperature. rewrite energyOf_kinetic. unfold countOf, degreesOfFreedom. reflexivity.
  Qed.

  (** The immediate target. *)
  Lemma immediate_towards : forall target delta t, towards target delta t (immediateTargetTemperature target delta t).
  Proof.
    intros target delta t. unfold towards, immediateTargetTemperature.
    pose proof (Rabs_pos delta). pose proof (Rle_abs (t - target)). pose proof (Rle_abs (target - t)) as Q.
    rewrite (Rabs_minus_sym target t) in Q.
    destruct (Rlt_dec t target).
    - unfold Rmin. destruct (Rle_dec _ _); repeat split; intros; lra.
    - unfold Rmax. destruct (Rle_dec _ _); repeat split; intros; lra.
  Qed.
  Lemma immediate_nonneg : forall target delta t, 0 <= target -> 0 <= t -> 0 <= immediateTargetTemperature target delta t.
  Proof.
    intros target delta t H H0. unfold immediateTargetTemperature. pose proof (Rabs_pos delta).
    destruct (Rlt_dec t target).
    - unfold Rmin. destruct (Rle_dec _ _); lra.
    - unfold Rmax. destruct (Rle_dec _ _); lra.
  Qed.
  Lemma immediate_pos : forall target delta t, 0 < target -> 0 < t -> 0 < immediateTargetTemperature target delta t.
  Proof.
    intros target delta t H H0. unfold immediateTargetTemperature. pose proof (Rabs_pos delta).
    destruct (Rlt_dec t target).
    - unfold Rmin. destruct (Rle_dec _ _); lra.
    - unfold Rmax. destruct (Rle_dec _ _); lra.
  Qed.

  (** Scaling multiplies the temperature by the square of the factor. *)
  Definition scaledBy (c : nat -> R) (p : TPart) : TPart :=
    mkTPart (tType p) (rscale (tVel p) (c (tType p)))
            (if multiSite then rscale (tAng p) (c (tType p)) else tAng p) (tOwned p).

  Lemma scaled_count : forall c k ps, countOf k (map (scaledBy c) ps) = countOf k ps.
  Proof.
    intros c k ps. unfold countOf. induction ps as [| p t IH]; [reflexivity |]. cbn [map filter].
    change (ofType k (scaledBy c p)) with (ofType k p). destruct (ofType k p); [exact (f_equal S IH) | exact IH].
  Qed.
  Lemma scaled_energy : forall c k ps, energyOf k (map (scaledBy c) ps) = c k * c k * energyOf k ps.
  Proof.
    intros c k ps. unfold energyOf. induction ps as [| p t IH]; [cbn; lra |]. cbn [map filter].
    change (ofType k (scaledBy c p)) with (ofType k p). destruct (ofType k p) eqn:E; [| exact IH].
    cbn [map]. unfold rsum at 1 2. cbn [fold_right]. fold (rsum (map energy (filter (ofType k) (map (scaledBy c) t)))). fold (rsum (map energy (filter (ofType k) t))). rewrite IH.
    unfold ofType in E. apply Nat.eqb_eq in E. subst k.
    unfold energyMul2, scaledBy, dot, rmul, rscale. cbn. destruct multiSite; cbn; ring.
  Qed.
  Lemma scaled_temperature : forall c k ps, temperature' k (map (scaledBy c) ps) = c k * c k * temperature' k ps.
  Proof.
    intros c k ps. unfold temperature. rewrite <- !energyOf_kinetic. fold (countOf k (map (scaledBy c) ps)).
    rewrite scaled_count, scaled_energy. unfold countOf, Rdiv. ring.
  Qed.

  Lemma forall2_concat : forall A B (P : A -> B -> Prop) l l', Forall2 (Forall2 P) l l' -> Forall2 P (concat l) (concat l').
  Proof. induction 1; cbn; [constructor | now apply Forall2_app]. Qed.

  Lemma apply_spec : forall target delta sys,
    known (particles sys) -> 0 <= target ->
    (forall k, (exists p, In p (particles sys) /\ tType p = k) -> 0 < temperature' k (particles sys)) ->
    exists sys' c, apply' target delta sys = Some sys' /\ (forall k, 0 <= c k) /\
      sys' = map (map (map (scaledBy c))) sys /\
      particles sys' = map (scaledBy c) (particles sys) /\
      forall k, (exists p, In p (particles sys) /\ tType p = k) ->
        temperature' k (particles sys') = immediateTargetTemperature target delta (temperature' k (particles sys)).
  Proof.
    intros target delta sys Hk Ht Hpos. destruct (reduce_some _ Hk) as [a Ea].
    assert (ET : exists temp, temps sys = Some temp) by (unfold calcTemperatureComponent; rewrite Ea; eexists; reflexivity).
    destruct ET as [temp ET].
    set (c := fun k => match scaling target delta (temp k) with Some s => s | None => 0 end).
    assert (CP : forall k, (exists p, In p (particles sys) /\ tType p = k) -> (countOf k (particles sys) =? 0)%nat = false).
    { intros k [p [Hp E]]. apply Nat.eqb_neq. unfold countOf.
      assert (In p (filter (ofType k) (particles sys))) by (apply filter_In; split; [exact Hp | unfold ofType; now apply Nat.eqb_eq]).
      destruct (filter (ofType k) (particles sys)); [contradiction | cbn; lia]. }
    assert (CS : forall k, (exists p, In p (particles sys) /\ tType p = k) ->
              scaling target delta (temp k) = Some (c k) /\ 0 <= c k /\
              c k * c k * temperature' k (particles sys) = immediateTargetTemperature target delta (temperature' k (particles sys))).
    { intros k Hp. unfold c. rewrite (temps_spec _ _ k ET), (CP k Hp). cbn.
      pose proof (Hpos k Hp) as P. destruct (Req_EM_T _ 0); [lra |].
      set (T := temperature' k (particles sys)) in *.
      assert (Q : 0 <= immediateTargetTemperature target delta T / T).
      { apply Rmult_le_pos; [apply immediate_nonneg; lra |]. left. now apply Rinv_0_lt_compat. }
      destruct (Rlt_dec _ 0); [lra |]. split; [reflexivity |]. split; [apply sqrt_pos |].
      rewrite sqrt_sqrt by exact Q. field. lra. }
    assert (c0 : forall k, 0 <= c k).
    { intros k. unfold c, scaling. destruct (temp k) as [t |]; [| lra]. cbn.
      destruct (Req_EM_T t 0); [lra |]. destruct (Rlt_dec _ 0); [lra | apply sqrt_pos]. }
    assert (M : forall f : TPart -> option TPart, (forall p, In p (particles sys) -> f p = Some (scaledBy c p)) ->
              mapM (mapM (mapM f)) sys = Some (map (map (map (scaledBy c))) sys)).
    { intros f Hf.
      assert (G : forall A B (h : A -> option B) (h' : A -> B) l, (forall x, In x l -> h x = Some (h' x)) -> mapM h l = Some (map h' l)).
      { induction l as [| x t IH]; intros H; cbn; [reflexivity |]. rewrite (H x (or_introl eq_refl)), IH; [reflexivity |].
        intros; apply H; now right. }
      apply G. intros rank Hr. apply G. intros ps Hps. apply G. intros p Hp. apply Hf. eapply in_particles; eassumption. }
    assert (PM : particles (map (map (map (scaledBy c))) sys) = map (scaledBy c) (particles sys)).
    { unfold particles. rewrite <- concat_map. rewrite <- concat_map. reflexivity. }
    exists (map (map (map (scaledBy c))) sys), c. split; [| split; [exact c0 | split; [reflexivity | split; [exact PM |]]]].
    - unfold apply. rewrite ET. apply M. intros p Hp. unfold scaleParticle.
      destruct (CS (tType p)) as [E _]; [eauto |]. now rewrite E.
    - intros k Hp. rewrite PM, scaled_temperature. now apply CS.
  Qed.
End Thermostat.
