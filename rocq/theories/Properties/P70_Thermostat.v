(** C70: the thermostat of md-flexible. *)
From Coq Require Import Reals List Bool Arith Lra Lia.
From Verif.Functor Require Import SortModel.
From Verif.Flex Require Import ThermostatModel ThermostatSpec ThermostatProofs ThermostatTheorem.
Import ListNotations.
Local Open Scope R_scope.

(** One application brings the temperature of every component that has particles to the target
    if it is at most [|delta|] away, and otherwise changes it by [|delta|] towards the target; all
    velocities of a component are multiplied by the same non-negative factor and nothing else
    changes.  The particles may be spread over ranks and threads in any way. *)
Theorem C70_apply : forall multiSite numberComponents mass inertia target delta sys,
  (forall p, In p (particles sys) -> (tType p < numberComponents)%nat) -> 0 <= target ->
  (forall k, (exists p, In p (particles sys) /\ tType p = k) ->
     0 < temperature multiSite mass inertia k (particles sys)) ->
  exists sys' c, apply multiSite numberComponents mass inertia target delta sys = Some sys' /\
    (forall k, 0 <= c k) /\
    sys' = map (map (map (fun p => mkTPart (tType p) (rscale (tVel p) (c (tType p)))
                                   (if multiSite then rscale (tAng p) (c (tType p)) else tAng p) (tOwned p)))) sys /\
    forall k, (exists p, In p (particles sys) /\ tType p = k) ->
      towards target delta (temperature multiSite mass inertia k (particles sys))
                           (temperature multiSite mass inertia k (particles sys')).
Proof. exact step. Qed.
Print Assumptions C70_apply.

(** Repeated applications approach the target by [|delta|] each and stay there. *)
Theorem C70_converges : forall multiSite numberComponents mass inertia n target delta sys,
  (forall p, In p (particles sys) -> (tType p < numberComponents)%nat) -> 0 < target ->
  (forall k, (exists p, In p (particles sys) /\ tType p = k) ->
     0 < temperature multiSite mass inertia k (particles sys)) ->
  exists sys', applyN multiSite numberComponents mass inertia n target delta sys = Some sys' /\
    forall k, (exists p, In p (particles sys) /\ tType p = k) ->
      Rabs (temperature multiSite mass inertia k (particles sys') - target) =
      Rmax 0 (Rabs (temperature multiSite mass inertia k (particles sys) - target) - INR n * Rabs delta).
Proof. exact converges. Qed.
Print Assumptions C70_converges.

(** The measured temperatures are those of the components, and do not depend on how particles
    are distributed to ranks and threads. *)
Theorem C70_measured : forall multiSite numberComponents mass inertia sys temp k,
  calcTemperatureComponent multiSite numberComponents mass inertia sys = Some temp ->
  (exists p, In p (particles sys) /\ tType p = k) ->
  temp k = Some (temperature multiSite mass inertia k (particles sys)) /\
  forall sys', Permutation.Permutation (particles sys) (particles sys') ->
    temperature multiSite mass inertia k (particles sys) = temperature multiSite mass inertia k (particles sys').
Proof.
  intros multiSite nc mass inertia sys temp k H [p [Hp E]]. split.
  - rewrite (temps_spec _ _ _ _ _ _ k H). unfold countOf.
    assert (I : In p (filter (ofType k) (particles sys))) by (apply filter_In; split; [exact Hp | now apply Nat.eqb_eq]).
    destruct (filter (ofType k) (particles sys)) eqn:F; [contradiction | reflexivity].
  - intros sys' P. now apply independent.
Qed.
Print Assumptions C70_measured.

(** A system of two molecules on one rank meets the hypotheses. *)
Example C70_hypotheses : (forall p, In p (particles exSys) -> (tType p < 1)%nat) /\
  (forall k, (exists p, In p (particles exSys) /\ tType p = k) -> 0 < temperature false unit1 noInertia k (particles exSys)) /\
  temperature false unit1 noInertia 0 (particles exSys) = 5 / 6.
Proof. exact (conj exSys_known (conj exSys_pos exSys_temp)). Qed.

(** Halo particles are counted, with velocities of the last exchange: the owned molecules then
    do not get the target temperature. *)
Theorem C70_halo_refuted : exists sys sys' target delta,
  apply false 1 unit1 noInertia target delta sys = Some sys' /\
  Rabs (temperature false unit1 noInertia 0 (ownedOf sys) - target) <= Rabs delta /\
  temperature false unit1 noInertia 0 (ownedOf sys') <> target.
Proof.
  destruct halo_biased as [s [A [B C]]]. exists exSys, s, 1, 100. split; [exact A |]. rewrite B, C.
  split; [| lra]. rewrite (Rabs_pos_eq 100) by lra. rewrite Rabs_left by lra. lra.
Qed.
Print Assumptions C70_halo_refuted.

(** A component at rest divides by its temperature zero: velocities are not finite afterwards. *)
Theorem C70_rest_refuted : exists sys, particles sys <> [] /\ (forall p, In p (particles sys) -> (tType p < 1)%nat) /\
  forall target delta, apply false 1 unit1 noInertia target delta sys = None.
Proof.
  exists [[[mkTPart 0 r000 r000 true]]]. split; [discriminate |]. split; [| exact rest_fails].
  intros p [<- | []]. cbn. lia.
Qed.
Print Assumptions C70_rest_refuted.
