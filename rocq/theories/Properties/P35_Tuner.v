(** C35, C36, C48: the auto tuner. *)
From Coq Require Import ZArith List Bool Lia.
From Verif.Tuning Require Import TunerModel TunerSpec TunerProofs TunerSwitch.
Import ListNotations.
Local Open Scope Z_scope.

(** In every tuning phase each applicable configuration is sampled [maxSamples] times, and
    then one with the smallest estimate is used until the next phase. *)
Theorem C35_phases : forall interval maxSamples freq est applicable forever sp,
  (1 <= maxSamples)%nat -> goodSpace applicable forever sp -> (length (filter applicable sp) * maxSamples < interval)%nat -> fairEstimate est ->
  forall n is, length is = (n * interval)%nat -> Forall (tame applicable) is ->
  exists t0 t outs, construct maxSamples sp = Some t0 /\ runTuner interval maxSamples freq est applicable forever is t0 = Some (t, outs) /\
    length outs = length is /\
    forall p, (p < n)%nat -> phaseDone interval maxSamples freq est (filter applicable sp) is outs (p * interval).
Proof. exact tuner_phases. Qed.
Print Assumptions C35_phases.

(** The estimate AutoPas uses lies between the samples, if there is one with a rebuild. *)
Theorem C35_estimate : forall sel freq lo hi a b, (1 <= freq)%nat -> a ++ b <> [] -> Forall (fun x => lo <= x <= hi) (a ++ b) -> 0 <= lo ->
  0 <= estimateRuntime sel freq a b <= hi /\ (a <> [] -> lo <= estimateRuntime sel freq a b).
Proof. exact estimate_between. Qed.
Print Assumptions C35_estimate.

(** Without a sample with a rebuild, the estimate is smaller than all samples. *)
Theorem C35_estimate_refuted : exists sel freq v, (1 <= freq)%nat /\ 0 < v /\ estimateRuntime sel freq [] [v; v] < v.
Proof. exists FastestMean, 2%nat, 10. cbn. lia. Qed.
Print Assumptions C35_estimate_refuted.

(** If tuning takes longer than the tuning interval, a slower configuration is selected:
    here 3, which took 100, although 1 took 1. *)
Theorem C35_interval_refuted : exists interval maxSamples freq sp t0 t outs, goodSpace (fun _ => true) (fun _ => true) sp /\
  construct maxSamples sp = Some t0 /\
  runTuner interval maxSamples freq (estimateRuntime FastestAbs freq) (fun _ => true) (fun _ => true) [xIn 1 true; xIn 1 true; xIn 100 true; xIn 1 true] t0 = Some (t, outs) /\
  map fst outs = [(1, true); (2, true); (3, true); (3, false)].
Proof.
  eexists 2%nat, 1%nat, 1%nat, [1; 2; 3], _, _, _. split; [split; [repeat constructor; cbn; lia|split; [reflexivity|cbn; lia]]|].
  split; [reflexivity|]. split; vm_compute; reflexivity.
Qed.
Print Assumptions C35_interval_refuted.

(** A tuning phase that is forced before the next interval uses old evidence: 2 is selected
    for having taken 10 before, although it takes 100 and 1 takes 50. *)
Theorem C35_retune_refuted : exists interval maxSamples freq sp t0 t1 outs1 t2 outs2, goodSpace (fun _ => true) (fun _ => true) sp /\
  construct maxSamples sp = Some t0 /\
  runTuner interval maxSamples freq (estimateRuntime FastestAbs freq) (fun _ => true) (fun _ => true) [xIn 60 true; xIn 10 true; xIn 10 true] t0 = Some (t1, outs1) /\
  map fst outs1 = [(1, true); (2, true); (2, false)] /\
  runTuner interval maxSamples freq (estimateRuntime FastestAbs freq) (fun _ => true) (fun _ => true) [xIn 50 true; xIn 100 true; xIn 100 true] (forceRetune maxSamples t1) = Some (t2, outs2) /\
  map fst outs2 = [(1, true); (2, true); (2, false)].
Proof.
  eexists 50%nat, 1%nat, 1%nat, [1; 2], _, _, _, _, _. split; [split; [repeat constructor; cbn; lia|split; [reflexivity|cbn; lia]]|].
  split; [reflexivity|]. split; [vm_compute; reflexivity|]. split; [reflexivity|]. split; [vm_compute; reflexivity|reflexivity].
Qed.
Print Assumptions C35_retune_refuted.

Example C35_example : exists t0 t outs, goodSpace xApp (fun _ => true) [1; 2; 3] /\ (length (filter xApp [1; 2; 3]%Z) * 2 < 6)%nat /\
  fairEstimate (estimateRuntime FastestMean 4) /\ Forall (tame xApp) xIns /\ construct 2 [1; 2; 3] = Some t0 /\
  runTuner 6 2 4 (estimateRuntime FastestMean 4) xApp (fun _ => true) xIns t0 = Some (t, outs) /\
  outs = [(1, true, false); (1, true, true); (3, true, false); (3, true, true); (3, false, false); (3, false, false)].
Proof.
  eexists _, _, _. split; [exact x_good|]. split; [cbn; lia|]. split; [apply estimate_fair; lia|].
  split; [repeat (constructor; [apply xIn_tame; unfold longMax; lia|]); constructor|]. split; [reflexivity|]. split; vm_compute; reflexivity.
Qed.
Example C35_example_sort : exists t0 t outs, reorders (fun _ => true) sortByName /\ construct 1 [1; 2; 3] = Some t0 /\
  runTuner 4 1 4 (estimateRuntime FastestAbs 4) (fun _ => true) (fun _ => true)
    (map (fun v => mkInput [sortByName] [sortByName] v true false) [50; 9; 40; 1]) t0 = Some (t, outs) /\
  outs = [(3, true, true); (2, true, true); (1, true, true); (2, false, false)].
Proof. eexists _, _, _. split; [exact sortByName_reorders|]. split; [reflexivity|]. split; vm_compute; reflexivity. Qed.

(** The tuner yields an applicable configuration for every computation. *)
Theorem C36_never_fails_partial : forall interval maxSamples freq est applicable forever sp,
  (1 <= maxSamples)%nat -> goodSpace applicable forever sp -> (length (filter applicable sp) * maxSamples < interval)%nat -> fairEstimate est ->
  forall is, Forall (tame applicable) is ->
  exists t0 t outs, construct maxSamples sp = Some t0 /\ runTuner interval maxSamples freq est applicable forever is t0 = Some (t, outs) /\
    length outs = length is /\ Forall (fun o => applicable (fst (fst o)) = true) outs.
Proof. exact tuner_never_fails. Qed.
Print Assumptions C36_never_fails_partial.

(** It fails if the configuration that is tried last has to be rejected, although another
    one is applicable. *)
Theorem C36_reject_refuted : exists interval maxSamples freq applicable sp c t0 is,
  In c sp /\ applicable c = true /\ (length sp * maxSamples < interval)%nat /\ Forall (tame applicable) is /\ construct maxSamples sp = Some t0 /\
  forall forever, runTuner interval maxSamples freq (estimateRuntime FastestAbs freq) applicable forever is t0 = None.
Proof.
  eexists 10%nat, 1%nat, 1%nat, (fun c => c =? 1), [1; 2; 3], 1, _, [xIn 5 true; xIn 5 true].
  split; [now left|]. split; [reflexivity|]. split; [cbn; lia|].
  split; [repeat (constructor; [apply xIn_tame; unfold longMax; lia|]); constructor|]. split; [reflexivity|].
  intros forever. vm_compute. destruct (forever 2), (forever 3); reflexivity.
Qed.
Print Assumptions C36_reject_refuted.

(** It fails if all configurations are applicable and sampling them takes exactly the
    tuning interval. *)
Theorem C36_interval_refuted : exists interval maxSamples freq sp t0 is,
  goodSpace (fun _ => true) (fun _ => true) sp /\ (length sp * maxSamples = interval)%nat /\ Forall (tame (fun _ => true)) is /\ construct maxSamples sp = Some t0 /\
  runTuner interval maxSamples freq (estimateRuntime FastestAbs freq) (fun _ => true) (fun _ => true) is t0 = None.
Proof.
  eexists 4%nat, 2%nat, 1%nat, [1; 2], _, (repeat (xIn 5 true) 5).
  split; [split; [repeat constructor; cbn; lia|split; [reflexivity|cbn; lia]]|]. split; [reflexivity|].
  split; [repeat (constructor; [apply xIn_tame; unfold longMax; lia|]); constructor|]. split; vm_compute; reflexivity.
Qed.
Print Assumptions C36_interval_refuted.

(** Random search fails when all configurations were sampled before it has the evidence it
    was asked for. *)
Theorem C36_random_refuted : exists interval maxSamples freq sp maxEvidence t0,
  goodSpace (fun _ => true) (fun _ => true) sp /\ (length sp * maxSamples < interval)%nat /\ (length sp < maxEvidence)%nat /\ construct maxSamples sp = Some t0 /\
  forall a b c, runTuner interval maxSamples freq (estimateRuntime FastestAbs freq) (fun _ => true) (fun _ => true)
    [mkInput [] [randomSearch 0 maxEvidence a] 5 true false; mkInput [] [randomSearch 1 maxEvidence b] 5 true false; mkInput [] [randomSearch 2 maxEvidence c] 5 true false] t0 = None.
Proof.
  eexists 10%nat, 1%nat, 1%nat, [1; 2], 10%nat, _. split; [split; [repeat constructor; cbn; lia|split; [reflexivity|cbn; lia]]|].
  split; [cbn; lia|]. split; [cbn; lia|]. split; [reflexivity|]. intros a b c. vm_compute. reflexivity.
Qed.
Print Assumptions C36_random_refuted.

(** Before a computation with another configuration the tuner asks for a rebuild, if the
    iterations between two tuning phases are a multiple of the rebuild frequency. *)
Theorem C48_rebuild_on_change_partial : forall interval maxSamples freq est applicable forever sp,
  (1 <= maxSamples)%nat -> (1 <= freq)%nat -> goodSpace applicable forever sp -> (length (filter applicable sp) * maxSamples < interval)%nat -> fairEstimate est ->
  Nat.modulo (interval - length (filter applicable sp) * maxSamples) freq = 0%nat ->
  forall n is t0 t outs, length is = (n * interval)%nat -> Forall (tame applicable) is -> construct maxSamples sp = Some t0 ->
  runTuner interval maxSamples freq est applicable forever is t0 = Some (t, outs) ->
  forall i c tu rb c' tu' rb', nth_error outs i = Some (c, tu, rb) -> nth_error outs (S i) = Some (c', tu', rb') -> c <> c' -> rb = true.
Proof. exact changes_rebuild. Qed.
Print Assumptions C48_rebuild_on_change_partial.

(** Otherwise, the next phase can start with another configuration but without a
    rebuild. *)
Theorem C48_phase_start_refuted : exists interval maxSamples freq sp t0 is t outs c tu c' tu',
  goodSpace (fun _ => true) (fun _ => true) sp /\ (length sp * maxSamples < interval)%nat /\ Forall (tame (fun _ => true)) is /\ construct maxSamples sp = Some t0 /\
  runTuner interval maxSamples freq (estimateRuntime FastestAbs freq) (fun _ => true) (fun _ => true) is t0 = Some (t, outs) /\
  nth_error outs (interval - 1) = Some (c, tu, false) /\ nth_error outs interval = Some (c', tu', false) /\ c <> c'.
Proof.
  eexists 6%nat, 2%nat, 10%nat, [1; 2], _, ([xIn 9 true; xIn 9 false; xIn 5 true] ++ repeat (xIn 5 false) 4), _, _, _, _, _, _.
  split; [split; [repeat constructor; cbn; lia|split; [reflexivity|cbn; lia]]|]. split; [cbn; lia|].
  split; [cbn; repeat (constructor; [apply xIn_tame; unfold longMax; lia|]); constructor|]. split; [reflexivity|].
  split; [vm_compute; reflexivity|]. split; [reflexivity|]. split; [reflexivity|]. discriminate.
Qed.
Print Assumptions C48_phase_start_refuted.

Example C48_example : exists t0, goodSpace xApp (fun _ => true) [1; 2; 3] /\ (length (filter xApp [1; 2; 3]%Z) * 2 < 8)%nat /\
  Nat.modulo (8 - length (filter xApp [1; 2; 3]%Z) * 2) 4 = 0%nat /\ construct 2 [1; 2; 3] = Some t0 /\
  option_map snd (runTuner 8 2 4 (estimateRuntime FastestMean 4) xApp (fun _ => true) (xIns ++ xIns ++ [xIn 5 true; xIn 6 false; xIn 5 true; xIn 6 false]) t0) =
  Some [(1, true, false); (1, true, true); (3, true, false); (3, true, true); (3, false, false); (3, false, false); (3, false, false); (3, false, true);
        (1, true, false); (1, true, true); (3, true, false); (3, true, true); (3, false, false); (3, false, false); (3, false, false); (3, false, true)].
Proof. eexists. split; [exact x_good|]. split; [cbn; lia|]. split; [reflexivity|]. split; vm_compute; reflexivity. Qed.
