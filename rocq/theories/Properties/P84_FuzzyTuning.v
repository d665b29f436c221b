(** * C84 - the fuzzy tuning strategy keeps exactly the configurations its control systems select

    Model: Fuzzy/FuzzyTuningModel.v (FuzzyTuning.cpp, OutputMapper.cpp).  Specification: Fuzzy/FuzzyTuningSpec.v. *)

From Coq Require Import Reals List Bool Lra.
From Verif.Fuzzy Require Import FuzzyTuningModel FuzzyTuningSpec FuzzyTuningProofs.
Import ListNotations.
Open Scope R_scope.

(** Individual systems: a configuration is kept exactly if it fits, for every system, a pattern of the mapping closest to the
    prediction.  The order is reversed. *)
Theorem C84_individual : forall Conf Pattern (matches : Pattern -> Conf -> bool) systems queue q',
  updateIndividual matches systems queue = Some q' ->
  exists keep, q' = rev (filter keep queue) /\ forall c, keep c = true <-> forall s, In s systems -> fits matches s c.
Proof.
  intros Conf Pattern matches systems queue q' E. unfold updateIndividual in E. destruct (filterSystems matches systems queue) as [r|] eqn:F; [|discriminate].
  injection E as <-. destruct (individual_spec matches systems queue r F) as [keep [-> K]]. exists keep. auto.
Qed.
Print Assumptions C84_individual.

(** Suitability: a configuration is kept exactly if it fits a system whose prediction is at least the best prediction times one minus
    the threshold. *)
Theorem C84_suitability : forall Conf Pattern (matches : Pattern -> Conf -> bool) threshold systems queue q',
  updateSuitability matches threshold systems queue = Some q' ->
  exists best keep, (exists s, In s systems /\ fst s = Some best) /\ (forall s v, In s systems -> fst s = Some v -> v <= best) /\
    q' = rev (filter keep queue) /\
    forall c, keep c = true <-> exists s v, In s systems /\ fst s = Some v /\ best * (1 - threshold) <= v /\ fits matches s c.
Proof. intros Conf Pattern matches. exact (suitability_spec matches). Qed.
Print Assumptions C84_suitability.

(** If the best suitability is not negative, configurations that fit a best system are kept. *)
Theorem C84_best : forall Conf Pattern (matches : Pattern -> Conf -> bool) threshold systems queue q' s best c,
  updateSuitability matches threshold systems queue = Some q' -> 0 <= threshold ->
  In s systems -> fst s = Some best -> (forall t v, In t systems -> fst t = Some v -> v <= best) -> 0 <= best ->
  In c queue -> fits matches s c -> In c q'.
Proof.
  intros Conf Pattern matches threshold systems queue q' s best c E T I B M P Q F.
  destruct (suitability_spec matches threshold systems queue q' E) as [b [keep [[t [X Y]] [M' [-> K]]]]].
  apply in_rev. rewrite rev_involutive. apply filter_In. split; [exact Q|]. apply K. exists s, best. split; [exact I|]. split; [exact B|]. split; [|exact F].
  assert (b = best) by (pose proof (M t b X Y); pose proof (M' s best I B); lra). subst b.
  assert (0 <= best * threshold) by (apply Rmult_le_pos; assumption). lra.
Qed.
Print Assumptions C84_best.

(** If all suitabilities are negative and the threshold is positive, every configuration is removed. *)
Theorem C84_negative_refuted : forall Conf Pattern (matches : Pattern -> Conf -> bool) threshold systems queue q',
  updateSuitability matches threshold systems queue = Some q' -> 0 < threshold ->
  (forall s v, In s systems -> fst s = Some v -> v < 0) -> q' = [].
Proof.
  intros Conf Pattern matches threshold systems queue q' E T N.
  destruct (suitability_spec matches threshold systems queue q' E) as [b [keep [[t [X Y]] [M [-> K]]]]].
  replace (filter keep queue) with (@nil Conf); [reflexivity|]. clear E. induction queue as [|c queue IH]; [reflexivity|]. cbn.
  assert (keep c = false) as ->.
  { apply not_true_iff_false. intros C. apply K in C. destruct C as [s [v [A [B [D _]]]]]. pose proof (M s v A B). pose proof (N t b X Y).
    assert (0 < - b * threshold) by (apply Rmult_lt_0_compat; lra). lra. }
  exact IH.
Qed.
Print Assumptions C84_negative_refuted.

(** Patterns are numbers that match equal configurations. *)
Example C84_ex_closest : closestEntry (9 / 4) [(1, [10%nat]); (2, [20%nat; 21%nat]); (3, [30%nat])] [20%nat; 21%nat].
Proof.
  exists [(1, [10%nat])], 2, [(3, [30%nat])]. split; [reflexivity|]. split; intros e [<-|[]]; cbn; unfold Rabs; repeat destruct (Rcase_abs _); lra.
Qed.
Example C84_ex_fits : fits Nat.eqb (Some (9 / 4), [(1, [10%nat]); (2, [20%nat; 21%nat]); (3, [30%nat])]) 21%nat.
Proof. exists (9 / 4), [20%nat; 21%nat], 21%nat. split; [reflexivity|]. split; [exact C84_ex_closest|]. cbn. auto. Qed.
Example C84_ex_individual : updateIndividual Nat.eqb [(Some 7, [(1, [10%nat; 30%nat; 20%nat])])] [30%nat; 5%nat; 10%nat] = Some [10%nat; 30%nat].
Proof. reflexivity. Qed.
Example C84_ex_suitability : updateSuitability Nat.eqb (1 / 10) [(Some 7, [(1, [10%nat])]); (Some 8, [(1, [20%nat])])] [20%nat; 10%nat] = Some [20%nat].
Proof.
  unfold updateSuitability. cbn. destruct (Rlt_dec 8 7); [lra|]. cbn. destruct (Rlt_dec 8 (8 * (1 - 1 / 10))); [lra|]. destruct (Rlt_dec 7 (8 * (1 - 1 / 10))); [reflexivity|lra].
Qed.
