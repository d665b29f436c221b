(** * C71 - a rule file keeps exactly the configurations that no applied order declares worse

    Model: Rules/RuleModel.v.  Specification: Rules/RuleSpec.v.  The theorems hold for every arithmetic of
    doubles [F] and every strict total order on configurations. *)

From Coq Require Import ZArith List Bool String Sorted Lia.
From Verif.Rules Require Import RuleModel RuleSpec RuleProofs RuleTheorem RuleTuning RuleClash RuleExample.
Import ListNotations.
Open Scope Z_scope.

(** The queue: what the compiled rules leave in it is what the direct meaning of the program says; in verify
    mode, and when nothing would be left before anything was measured, it stays as it was. *)
Theorem C71_queue : forall F (cLt : config F -> config F -> bool),
  (forall a, cLt a a = false) ->
  (forall a b c, cLt a b = true -> cLt b c = true -> cLt a c = true) ->
  (forall a b, cLt a b = false -> cLt b a = false -> a = b) ->
  forall info prog os,
  NoDup (map fst info) -> noParens F prog -> wellScoped F info prog -> applies F info prog os ->
  Forall (fun o => patternFits F (worse o)) os ->
  exists n, forall fuel s queue, (n <= fuel)%nat ->
  exists s' queue', optimizeSuggestions F cLt fuel prog info s queue = Ok (s', queue') /\
    rbVerify F s' = rbVerify F s /\ rbTuningTime F s' = rbTuningTime F s /\
    (forall c, In c (rbRemoved F s') <-> In c (rbRemoved F s) \/ (In c queue /\ declaredWorse F os c)) /\
    (rbVerify F s = false -> rbTooHarsh F s = false ->
     ((exists c, In c queue /\ ~ declaredWorse F os c) \/ rbTuningTime F s <> 0) ->
     rbTooHarsh F s' = false /\
     (forall c, In c queue' <-> In c queue /\ ~ declaredWorse F os c) /\ NoDup queue' /\
     StronglySorted (fun a b => cLt a b = true) (rev queue')) /\
    (rbVerify F s = false -> (forall c, In c queue -> declaredWorse F os c) -> rbTuningTime F s = 0 ->
     queue' = queue /\ rbTooHarsh F s' = true) /\
    (rbTooHarsh F s = true -> queue' = queue /\ rbTooHarsh F s' = true) /\
    (rbVerify F s = true -> queue' = queue).
Proof. exact queue_ok. Qed.
Print Assumptions C71_queue.

(** The start of a tuning phase never empties the queue. *)
Theorem C71_reset : forall F (cLt : config F -> config F -> bool),
  (forall a, cLt a a = false) ->
  (forall a b c, cLt a b = true -> cLt b c = true -> cLt a c = true) ->
  (forall a b, cLt a b = false -> cLt b a = false -> a = b) ->
  forall info prog os,
  NoDup (map fst info) -> noParens F prog -> wellScoped F info prog -> applies F info prog os ->
  Forall (fun o => patternFits F (worse o)) os ->
  exists n, forall fuel s queue, (n <= fuel)%nat -> queue <> [] ->
  exists s' queue', resetStrategy F cLt fuel prog info s queue = Ok (s', queue') /\
    queue' <> [] /\ (forall c, In c queue' -> In c queue) /\
    (rbVerify F s = false -> forall c c', In c queue -> ~ declaredWorse F os c ->
     (In c' queue' <-> In c' queue /\ ~ declaredWorse F os c')).
Proof. exact reset_ok. Qed.
Print Assumptions C71_reset.

(** Programs with types have a meaning for all live infos of those types, so nothing above can fail. *)
Theorem C71_typed : forall F info prog, wellTyped F info prog ->
  wellScoped F info prog /\ exists os, applies F info prog os.
Proof. exact welltyped_ok. Qed.
Print Assumptions C71_typed.

(** Any program without parentheses and without unknown names ends, and no access leaves the stack, the
    program or the table of orders: the only possible failure is an operator on operands of wrong types. *)
Theorem C71_total : forall F info prog, NoDup (map fst info) -> noParens F prog -> wellScoped F info prog ->
  exists n, forall fuel, (n <= fuel)%nat ->
  (exists os, applicableOrders F fuel prog info = Ok os) \/ applicableOrders F fuel prog info = Throw BadType.
Proof.
  intros F info prog ND N Sc. destruct (enough_exists F prog info) as [n Hn]. exists n. intros fuel Hf.
  apply applicable_total; auto.
Qed.
Print Assumptions C71_total.

(** A comparison or an arithmetic operator that has no value for its operands makes the execution fail, it
    never yields some value. *)
Theorem C71_clash : forall F info pre x o a b post rho os l r,
  NoDup (map fst info) -> noParens F (pre ++ PDefine x (PBin o a b) :: post) ->
  wellScoped F info (pre ++ PDefine x (PBin o a b) :: post) ->
  runs F (infoEnv F info) (noLists F) pre rho os ->
  evals F rho a l -> evals F rho b r -> o <> OAnd -> o <> OOr -> (forall v, ~ apply F o l r v) ->
  exists n, forall fuel, (n <= fuel)%nat ->
    applicableOrders F fuel (pre ++ PDefine x (PBin o a b) :: post) info = Throw BadType.
Proof. exact clash. Qed.
Print Assumptions C71_clash.

(** A parenthesised expression dereferences a null pointer. *)
Theorem C71_parentheses_refuted : forall F, exists info prog os, NoDup (map fst info) /\ wellScoped F info prog /\
  applies F info prog os /\ os <> [] /\ forall fuel, applicableOrders F fuel prog info = UB.
Proof. exact paren_refuted. Qed.
Print Assumptions C71_parentheses_refuted.

(** A variable whose definition was skipped is read as false instead of being rejected. *)
Theorem C71_skipped_refuted : forall F, exists info prog, NoDup (map fst info) /\ noParens F prog /\ wellScoped F info prog /\
  ~ (exists os, applies F info prog os) /\
  exists n o, forall fuel, (n <= fuel)%nat -> applicableOrders F fuel prog info = Ok [o].
Proof. exact skipped_refuted. Qed.
Print Assumptions C71_skipped_refuted.

(** A configuration is removed although no configuration in the queue is stated to be better. *)
Theorem C71_same_refuted : forall F cLt, exists info prog os s queue c n,
  NoDup (map fst info) /\ noParens F prog /\ wellScoped F info prog /\ applies F info prog os /\
  Forall (fun o => patternFits F (worse o)) os /\ In c queue /\
  (forall o c', In o os -> In c' queue -> ~ statesBetter F o c' c) /\
  forall fuel, (n <= fuel)%nat -> exists s' queue', resetStrategy F cLt fuel prog info s queue = Ok (s', queue') /\ ~ In c queue'.
Proof. exact same_refuted. Qed.
Print Assumptions C71_same_refuted.

(** A cell size factor written without decimal point is dropped from the pattern. *)
Theorem C71_factor_refuted : forall F cLt d, dLt F d (dOfSize F 2) = true -> exists info prog os s queue c n,
  NoDup (map fst info) /\ noParens F prog /\ wellScoped F info prog /\ applies F info prog os /\
  In c queue /\ ~ declaredWorse F os c /\
  forall fuel, (n <= fuel)%nat -> exists s' queue', resetStrategy F cLt fuel prog info s queue = Ok (s', queue') /\ ~ In c queue'.
Proof. exact csf_refuted. Qed.
Print Assumptions C71_factor_refuted.

(** The hypotheses are met by a program with a list, two variables, nested operators and two conditions. *)
Example C71_example : forall F,
  NoDup (map fst (@exampleInfo F)) /\ noParens F exampleRules /\ wellTyped F exampleInfo exampleRules /\
  wellScoped F exampleInfo exampleRules /\
  applies F exampleInfo exampleRules [exampleOrder] /\ Forall (fun o => patternFits F (worse o)) [exampleOrder].
Proof.
  intros F. split; [apply example_nodup|]. split; [apply example_noParens|]. split; [apply example_typed|].
  split; [apply welltyped_ok, example_typed|]. split; [apply example_applies|apply example_fits].
Qed.

(** Options of different kinds cannot be compared. *)
Example C71_clash_example : forall F v, ~ apply F OLess (VOption KContainer 0) (VOption KDataLayout 1) v.
Proof. intros F v H. inversion H; subst. inversion H0. Qed.

Example C71_order_example :
  (forall a, intLt a a = false) /\
  (forall a b c, intLt a b = true -> intLt b c = true -> intLt a c = true) /\
  (forall a b, intLt a b = false -> intLt b a = false -> a = b) /\
  dLt intDoubles 1 (dOfSize intDoubles 2) = true.
Proof.
  split; [intros; apply lexLt_irrefl|]. split; [intros a b c; apply lexLt_trans|]. split; [exact intLt_total|reflexivity].
Qed.
