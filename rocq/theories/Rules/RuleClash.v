(** * Operators on operands of wrong types throw *)

From Coq Require Import ZArith List Bool String Lia.
From Verif.Rules Require Import RuleModel RuleSpec RuleProofs RuleTheorem.
Import ListNotations.
Open Scope Z_scope.

Section Clash.
Variable F : doubles.

Lemma clash_applyM : forall o l r, o <> OAnd -> o <> OOr -> (forall v, ~ apply F o l r v) ->
  applyM F o l r = Throw BadType.
Proof.
  intros o l r HA HO N.
  destruct (applyM F o l r) as [v|e|] eqn:E.
  - exfalso.
    destruct o; try contradiction; destruct l as [b1|d1|s1|k1 n1], r as [b2|d2|s2|k2 n2]; cbn in E; try discriminate;
      try (eapply N; econstructor; econstructor; fail);
      try (eapply N; eapply ApGreater; econstructor; econstructor; fail).
    + destruct k1, k2; cbn in E; try discriminate; eapply N; apply ApLessOption.
    + destruct k1, k2; cbn in E; try discriminate; eapply N; eapply ApGreater; apply ApLessOption.
    + destruct (dEq F d2 (dZero F)) eqn:Z0;
        [eapply N; eapply ApDivDoubleZero | eapply N; eapply ApDivDouble]; try constructor; exact Z0.
    + destruct (s2 =? 0) eqn:Z0;
        [eapply N; eapply ApDivDoubleZero | eapply N; eapply ApDivDouble]; try constructor; exact Z0.
    + destruct (dEq F d2 (dZero F)) eqn:Z0;
        [eapply N; eapply ApDivDoubleZero | eapply N; eapply ApDivDouble]; try constructor; exact Z0.
    + destruct (Z.eq_dec s2 0) as [->|Z0]; [eapply N; eapply ApDivSizeZero | eapply N; eapply ApDivSize, Z0].
  - f_equal. eapply applyM_exn, E.
  - now apply applyM_ub in E.
Qed.

Lemma visit_app : forall p q pc, visitStatements F pc (p ++ q) =
  bind (visitStatements F pc p) (fun '(t, pc1) =>
  bind (visitStatements F pc1 q) (fun '(t', pc2) => Ok ((t ++ t')%list, pc2))).
Proof.
  induction p as [|s p IH]; intros q pc; cbn [app visitStatements bind].
  - destruct (visitStatements F pc q) as [[t' pc2]| |]; reflexivity.
  - destruct (visitStatement F pc s) as [[s' pc1]| |]; cbn [bind]; auto. rewrite IH.
    destruct (visitStatements F pc1 p) as [[t pc2]| |]; cbn [bind]; auto.
    destruct (visitStatements F pc2 q) as [[t' pc3]| |]; reflexivity.
Qed.

Lemma exec_app_throw : forall t t' rho rho1 os e,
  execM F t rho = Ok (rho1, os) -> execM F t' rho1 = Throw e -> execM F (t ++ t') rho = Throw e.
Proof.
  induction t as [|s t IH]; intros t' rho rho1 os e H H'; cbn [app execM] in *.
  - injection H as -> _. exact H'.
  - destruct (execStmt F s rho) as [[ra oa]| |]; cbn [bind] in *; try discriminate.
    destruct (execM F t ra) as [[rb ob]| |] eqn:E; cbn [bind] in *; try discriminate.
    injection H as -> _. rewrite (IH _ _ _ _ _ E H'). reflexivity.
Qed.

Lemma scoped_app : forall p q K ls, scoped F K ls (p ++ q) -> scoped F K ls p.
Proof.
  induction p as [|s p IH]; intros q K ls H; [constructor|].
  cbn [app] in H. inversion H; subst; econstructor; eauto.
Qed.

Theorem clash : forall info pre x o a b post rho os l r,
  NoDup (map fst info) -> noParens F (pre ++ PDefine x (PBin o a b) :: post) ->
  wellScoped F info (pre ++ PDefine x (PBin o a b) :: post) ->
  runs F (infoEnv F info) (noLists F) pre rho os ->
  evals F rho a l -> evals F rho b r -> o <> OAnd -> o <> OOr -> (forall v, ~ apply F o l r v) ->
  exists n, forall fuel, (n <= fuel)%nat ->
    applicableOrders F fuel (pre ++ PDefine x (PBin o a b) :: post) info = Throw BadType.
Proof.
  intros info pre x o a b post rho os l r ND N Sc R Ea Eb HA HO HN.
  destruct (enough_exists F (pre ++ PDefine x (PBin o a b) :: post) info) as [n Hn]. exists n. intros fuel Hf.
  specialize (Hn fuel Hf).
  destruct (visitStatements_ok F _ _ _ _ (pcOk_start F info) N Sc) as (tree & pc' & E & _ & _ & _).
  destruct (genProgram_total F _ _ _ _ ND E) as (g' & p & G).
  assert (Hfuel := Hn _ _ _ _ E G).
  assert (P := program_ok F _ _ _ _ _ ND G Hfuel).
  assert (X : execM F tree (startEnv F info) = Throw BadType).
  { assert (Np : noParens F pre) by (apply Forall_app in N; apply N).
    destruct (visitStatements_ok F pre _ _ _ (pcOk_start F info) Np (scoped_app _ _ _ _ Sc)) as (t1 & pc1 & E1 & _ & _ & M).
    destruct (M (infoEnv F info) (startEnv F info) rho os) as (rhoM & X1 & V).
    { intros y v Hy. unfold startEnv, infoEnv in *. now rewrite Hy. }
    { exact R. }
    rewrite visit_app, E1 in E. cbn [bind visitStatements] in E.
    destruct (visitStatement F pc1 (PDefine x (PBin o a b))) as [[s' pc2]| |] eqn:Es; cbn [bind] in E; try discriminate.
    destruct (visitStatements F pc2 post) as [[t2 pc3]| |]; cbn [bind] in E; try discriminate.
    injection E as <- _. eapply exec_app_throw; [exact X1|].
    cbn in Es.
    destruct (visitExpression F pc1 a) as [a'| |] eqn:Va; cbn in Es; try discriminate.
    destruct (visitExpression F pc1 b) as [b'| |] eqn:Vb; cbn in Es; try discriminate.
    injection Es as <- _. cbn [execM execStmt evalM].
    rewrite (evals_evalM F _ _ _ _ _ V Ea _ Va), (evals_evalM F _ _ _ _ _ V Eb _ Vb). cbn [bind].
    rewrite clash_applyM by assumption. reflexivity. }
  rewrite X in P. destruct P as [_ P].
  unfold applicableOrders. rewrite E. cbn [bind]. rewrite G. cbn [bind]. rewrite P. reflexivity.
Qed.

End Clash.
