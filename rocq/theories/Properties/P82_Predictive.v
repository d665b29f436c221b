(** * C82 - the prediction strategy keeps the promising and the long untested configurations

    Model: Tuning/PredictiveModel.v (PredictiveTuning.cpp).  Specification: Tuning/PredictiveSpec.v. *)

From Coq Require Import Reals List ZArith Arith Lia Lra Sorted.
From Verif.Tuning Require Import PredictiveModel PredictiveSpec PredictiveProofs.
Import ListNotations.

(** The start of a tuning phase, for every method of extrapolation.  Without any prediction the queue is as before.
    Otherwise it consists of the promising configurations, those whose prediction is at most the best one times the range,
    the best at the end, and before them of those that wait for a new measurement.  Nothing is in the queue twice. *)
Theorem C82_queue : forall Conf Params (eqb : Conf -> Conf -> bool), (forall x y, eqb x y = true <-> x = y) ->
  forall range, (1 <= range)%R -> forall maxPhases (extrapolate : nat -> nat -> list Evid -> option Params -> Extrapolated * option Params)
    iteration phase evidence queue s q' s', NoDup queue -> NoDup (tooLong s) ->
  resetPredictive eqb range maxPhases extrapolate iteration phase evidence queue s = Some (q', s') ->
  NoDup (tooLong s') /\
  (forall c, In c (tooLong s') <-> In c (tooLong s) \/ due extrapolate iteration phase evidence queue (params s) maxPhases c) /\
  (((forall c z, ~ hasPrediction extrapolate iteration phase evidence queue (params s) c z) /\ q' = queue) \/
   exists best overdue promising,
     (exists c, hasPrediction extrapolate iteration phase evidence queue (params s) c best) /\
     (forall c z, hasPrediction extrapolate iteration phase evidence queue (params s) c z -> (best <= z)%Z) /\
     NoDup q' /\ q' = overdue ++ map fst promising /\ promising <> [] /\
     (forall c z, In (c, z) promising <->
        hasPrediction extrapolate iteration phase evidence queue (params s) c z /\ (IZR z <= range * IZR best)%R) /\
     StronglySorted (fun p q => (snd q <= snd p)%Z) promising /\
     (forall c, In c overdue <-> In c (tooLong s') /\ ~ In c (map fst promising))).
Proof. intros Conf Params eqb E range R1. exact (reset_spec eqb E range R1). Qed.
Print Assumptions C82_queue.

(** A configuration of the queue whose last measurement is too old, or that has too few for a prediction, stays. *)
Theorem C82_due_kept : forall Conf Params (eqb : Conf -> Conf -> bool), (forall x y, eqb x y = true <-> x = y) ->
  forall range, (1 <= range)%R -> forall maxPhases (extrapolate : nat -> nat -> list Evid -> option Params -> Extrapolated * option Params)
    iteration phase evidence queue s q' s' c, NoDup queue -> NoDup (tooLong s) ->
  resetPredictive eqb range maxPhases extrapolate iteration phase evidence queue s = Some (q', s') ->
  due extrapolate iteration phase evidence queue (params s) maxPhases c -> In c q'.
Proof. intros Conf Params eqb E range R1. exact (reset_kept eqb E range R1). Qed.
Print Assumptions C82_due_kept.

(** A queue is never emptied. *)
Theorem C82_nonempty : forall Conf Params (eqb : Conf -> Conf -> bool), (forall x y, eqb x y = true <-> x = y) ->
  forall range, (1 <= range)%R -> forall maxPhases (extrapolate : nat -> nat -> list Evid -> option Params -> Extrapolated * option Params)
    iteration phase evidence queue s q' s', NoDup queue -> NoDup (tooLong s) -> queue <> [] ->
  resetPredictive eqb range maxPhases extrapolate iteration phase evidence queue s = Some (q', s') -> q' <> [].
Proof. intros Conf Params eqb E range R1. exact (reset_nonempty eqb E range R1). Qed.
Print Assumptions C82_nonempty.

(** A measured configuration does not wait any more; the others do as before. *)
Theorem C82_measured : forall Conf Params (eqb : Conf -> Conf -> bool), (forall x y, eqb x y = true <-> x = y) ->
  forall c (s : @PState Conf Params), ~ In c (tooLong (addEvidencePredictive eqb c s)) /\
  forall x, x <> c -> (In x (tooLong (addEvidencePredictive eqb c s)) <-> In x (tooLong s)).
Proof. intros Conf Params eqb E. exact (measured_gone eqb E 0 (fun _ _ _ _ => (NotEnough, None))). Qed.
Print Assumptions C82_measured.

(** A configuration rejected for good does not wait any more, one rejected for now does. *)
Theorem C82_rejected : forall Conf Params (eqb : Conf -> Conf -> bool), (forall x y, eqb x y = true <-> x = y) ->
  forall c (s : @PState Conf Params), rejectPredictive eqb c false s = s /\
  forall x, In x (tooLong (rejectPredictive eqb c true s)) <-> In x (tooLong s) /\ x <> c.
Proof. intros Conf Params eqb E. exact (rejected_gone eqb E). Qed.
Print Assumptions C82_rejected.

(** If the extrapolations are well defined, the start of a phase is exactly if there is no prediction or the range times the
    best one is a long (otherwise the cast is undefined). *)
Theorem C82_defined : forall Conf Params (eqb : Conf -> Conf -> bool), (forall x y, eqb x y = true <-> x = y) ->
  forall range, (1 <= range)%R -> forall maxPhases (extrapolate : nat -> nat -> list Evid -> option Params -> Extrapolated * option Params)
    iteration phase evidence queue s, NoDup queue -> NoDup (tooLong s) ->
  (forall c, In c queue -> evidence c <> [] -> fst (extrapolate iteration phase (evidence c) (params s c)) <> Undefined) ->
  (exists r, resetPredictive eqb range maxPhases extrapolate iteration phase evidence queue s = Some r) <->
  (forall c, ~ (exists z, hasPrediction extrapolate iteration phase evidence queue (params s) c z)) \/
  (exists c z, hasPrediction extrapolate iteration phase evidence queue (params s) c z /\ (range * IZR z < 2 ^ 63)%R).
Proof. intros Conf Params eqb E range R1. exact (reset_defined eqb E range R1). Qed.
Print Assumptions C82_defined.

(** The method lastResult, used in every phase: the prediction is the last measurement. *)
Theorem C82_last_result : forall (iteration : nat -> nat) (evs news : nat -> list Evid) (stored : nat -> option Z),
  evs 0 = [] -> stored 0 = None ->
  (forall k, evs (S k) = evs k ++ news k) -> (forall k e, In e (news k) -> ePhase e = k) ->
  (forall k, stored (S k) = snd (lastResult (iteration k) k (evs k) (stored k))) ->
  forall k es e, evs k = es ++ [e] -> fst (lastResult (iteration k) k (evs k) (stored k)) = Predicted (eValue e).
Proof. exact last_result_history. Qed.
Print Assumptions C82_last_result.

(** Not used in one phase, because an earlier strategy took the configuration out: later predictions ignore the last
    measurement. *)
Theorem C82_last_result_refuted : exists e1 e3 stored, snd (lastResult 20 2 [e1] None) = stored /\ ePhase e1 = 1 /\ ePhase e3 = 3 /\
  eValue e1 <> eValue e3 /\ fst (lastResult 50 5 [e1; e3] stored) = Predicted (eValue e1).
Proof. exists (mkEvid 10 1 100), (mkEvid 30 3 900), (Some 100%Z). repeat split. cbn. lia. Qed.
Print Assumptions C82_last_result_refuted.

(** A configuration that was never measured is dropped as soon as there is a prediction for any other. *)
Theorem C82_untested_refuted : forall Conf Params (eqb : Conf -> Conf -> bool), (forall x y, eqb x y = true <-> x = y) ->
  forall range, (1 <= range)%R -> forall maxPhases (extrapolate : nat -> nat -> list Evid -> option Params -> Extrapolated * option Params)
    iteration phase evidence queue s q' s' c d z, NoDup queue -> NoDup (tooLong s) ->
  evidence c = [] -> ~ In c (tooLong s) -> hasPrediction extrapolate iteration phase evidence queue (params s) d z ->
  resetPredictive eqb range maxPhases extrapolate iteration phase evidence queue s = Some (q', s') -> ~ In c q'.
Proof. intros Conf Params eqb E range R1. exact (reset_untested eqb E range R1). Qed.
Print Assumptions C82_untested_refuted.

(** A waiting configuration that an earlier strategy took out of the queue comes back. *)
Theorem C82_removed_refuted : forall Conf Params (eqb : Conf -> Conf -> bool), (forall x y, eqb x y = true <-> x = y) ->
  forall range, (1 <= range)%R -> forall maxPhases (extrapolate : nat -> nat -> list Evid -> option Params -> Extrapolated * option Params)
    iteration phase evidence queue s q' s' c d z, NoDup queue -> NoDup (tooLong s) ->
  ~ In c queue -> In c (tooLong s) -> hasPrediction extrapolate iteration phase evidence queue (params s) d z ->
  resetPredictive eqb range maxPhases extrapolate iteration phase evidence queue s = Some (q', s') -> In c q'.
Proof. intros Conf Params eqb E range R1. exact (reset_foreign eqb E range R1). Qed.
Print Assumptions C82_removed_refuted.

(** The method newtonPolynomial, when it reuses coefficients: with exactly as many measurements as it needs it always reads
    beyond the measurements. *)
Theorem C82_newton_beyond_refuted : forall iteration minEvidence evs coefficients, 2 <= minEvidence -> length evs = minEvidence ->
  (Z.of_nat minEvidence < 2 ^ 64)%Z -> length coefficients = minEvidence -> newtonReuse iteration minEvidence evs coefficients = None.
Proof. exact newton_beyond. Qed.
Print Assumptions C82_newton_beyond_refuted.

(** With more it takes the wrong ones: the line through (20, 200) and (30, 300) is at 500 in iteration 40. *)
Theorem C82_newton_nodes_refuted :
  newtonReuse 40 2 [mkEvid 10 1 50; mkEvid 20 2 200; mkEvid 30 3 300] [200%R; 10%R] = Some 500%Z.
Proof. exact newton_wrong. Qed.
Print Assumptions C82_newton_nodes_refuted.

(** Four configurations: 0 is fast, 1 nearly as fast, 2 slow and not measured for five phases, 3 slow and measured recently. *)
Definition exEvidence (c : nat) : list Evid :=
  match c with 0 => [mkEvid 90 5 100] | 1 => [mkEvid 91 5 110] | 2 => [mkEvid 20 1 500] | 3 => [mkEvid 92 5 500] | _ => [] end.
Example C82_ex : exists s', resetPredictive Nat.eqb (12 / 10) 5 lastResult 100 6 exEvidence [3; 1; 4; 0; 2] (mkPState [] (fun _ => None)) = Some ([2; 1; 0], s').
Proof.
  unfold resetPredictive. eexists. cbn -[Int_part]. unfold bestAcceptable. cbn -[Int_part].
  replace (12 / 10 * 100)%R with (IZR 120) by lra.
  assert (I : Int_part (IZR 120) = 120%Z) by (apply Z.le_antisymm; [apply le_IZR; apply base_Int_part|apply limit_spec; lra]).
  rewrite I. cbn. reflexivity.
Qed.
Example C82_ex_due : due lastResult 100 6 exEvidence [3; 1; 4; 0; 2] (fun _ => None) 5 2.
Proof. split; [cbn; tauto|]. exists (mkEvid 20 1 500), []. split; [reflexivity|]. left. cbn. lia. Qed.
Example C82_ex_prediction : hasPrediction lastResult 100 6 exEvidence [3; 1; 4; 0; 2] (fun _ => None) 0 100.
Proof. split; [cbn; tauto|]. split; [discriminate|]. exists 100%Z. repeat split. discriminate. Qed.
Example C82_ex_history : exists evs news stored, evs 0 = [] /\ stored 0 = None /\ (forall k, evs (S k) = evs k ++ news k) /\
  (forall k e, In e (news k) -> ePhase e = k) /\ (forall k : nat, stored (S k) = snd (lastResult k k (evs k) (stored k))) /\ evs 1 = [mkEvid 7 0 3].
Proof.
  set (news := fun k => if k =? 0 then [mkEvid 7 0 3] else []).
  set (evs := fix f k := match k with 0 => [] | S k => f k ++ news k end).
  exists evs, news, (fix g k := match k with 0 => None | S k => snd (lastResult k k (evs k) (g k)) end).
  repeat split. intros k e. unfold news. destruct (Nat.eqb_spec k 0) as [->|]; [intros [<-|[]]; reflexivity|intros []].
Qed.
