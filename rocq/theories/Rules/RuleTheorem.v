(** * From the parse tree to the applied orders *)

From Coq Require Import ZArith List Bool String Lia.
From Verif.Rules Require Import RuleModel RuleSpec RuleProofs.
Import ListNotations.
Open Scope Z_scope.

Section Theorems.
Variable F : doubles.
Notation cell := (cell F).
Notation pexpr := (pexpr F).
Notation pstmt := (pstmt F).
Notation expr := (expr F).
Notation stmt := (stmt F).
Notation parserContext := (parserContext F).
Notation genContext := (genContext F).

(** ** The initial context *)

Lemma lookup_none : forall A x (l : list (string * A)), ~ In x (map fst l) -> lookup x l = None.
Proof.
  induction l as [|[y b] l IH]; cbn; intros H; auto. destruct (String.eqb_spec x y) as [->|N]; [tauto|].
  apply IH. tauto.
Qed.

Lemma lookup_in : forall A x (l : list (string * A)), In x (map fst l) -> exists a, lookup x l = Some a.
Proof.
  induction l as [|[y b] l IH]; cbn; intros H; [tauto|]. destruct (String.eqb_spec x y) as [->|N]; [eauto|].
  apply IH. destruct H; [congruence|assumption].
Qed.

Lemma lookup_some_in : forall A x (l : list (string * A)) a, lookup x l = Some a -> In x (map fst l).
Proof.
  intros A x l a H. destruct (lookup_nth _ _ _ _ H) as [i E]. apply nth_error_In in E.
  apply in_map_iff. now exists (x, a).
Qed.

Lemma combine_snoc : forall (l : list string) (x : string) k,
  combine (l ++ [x]) (seq k (List.length (l ++ [x]))) = combine l (seq k (List.length l)) ++ [(x, (k + List.length l)%nat)].
Proof.
  induction l as [|y l IH]; intros x k; cbn [app List.length seq combine].
  - now rewrite Nat.add_0_r.
  - rewrite IH. cbn [app]. now rewrite Nat.add_succ_r.
Qed.

Lemma combine_fst : forall A (l : list A) k, map fst (combine l (seq k (List.length l))) = l.
Proof. induction l; cbn; intros; f_equal; auto. Qed.

Lemma combine_snd : forall A (l : list A) k, map snd (combine l (seq k (List.length l))) = seq k (List.length l).
Proof. induction l; cbn; intros; f_equal; auto. Qed.

Lemma initialContext_spec : forall names,
  NoDup names ->
  initialContext F names = GenContext F 0 0 (combine names (seq 0 (List.length names))) (List.length names) [].
Proof.
  intros names H. unfold initialContext.
  revert H. induction names as [|x names IH] using rev_ind; intros H; [reflexivity|].
  rewrite fold_left_app. cbn [fold_left]. rewrite IH.
  - unfold addGlobalVariable, addLocalVariable. cbn [gcEnv gcCurrent gcMax gcInitial gcOrders].
    rewrite lookup_none.
    + rewrite combine_snoc, combine_length, seq_length, Nat.min_id, app_length, Nat.add_1_r. reflexivity.
    + rewrite combine_fst. apply NoDup_remove_2 in H. now rewrite app_nil_r in H.
  - apply NoDup_remove_1 in H. now rewrite app_nil_r in H.
Qed.

(** ** The whole program *)

Definition startEnv (info : list (string * cell)) : string -> cell :=
  fun x => match lookup x info with Some v => v | None => VBool false end.

Lemma lookup_combine : forall (info : list (string * cell)) x a k,
  lookup x (combine (map fst info) (seq k (List.length info))) = Some a ->
  exists v, lookup x info = Some v /\ nth_error (map snd info) (a - k) = Some v /\ (k <= a)%nat.
Proof.
  induction info as [|[y v] info IH]; intros x a k H; cbn in H; [discriminate|].
  cbn. destruct (String.eqb x y).
  - injection H as <-. exists v. rewrite Nat.sub_diag. auto.
  - destruct (IH _ _ _ H) as (w & Hw & Hn & Hk). exists w. split; [assumption|].
    replace (a - k)%nat with (S (a - S k))%nat by lia. split; [assumption|lia].
Qed.

Lemma nth_error_repeat' : forall A (a : A) n i, (i < n)%nat -> nth_error (repeat a n) i = Some a.
Proof. induction n; intros [|i] H; cbn; try lia; auto. apply IHn. lia. Qed.

Lemma program_ok : forall info tree g' p fuel,
  NoDup (map fst info) ->
  genProgram F tree (initialContext F (map fst info)) = Ok (g', p) ->
  (List.length (pgInstructions F p) <= fuel)%nat ->
  match execM F tree (startEnv info) with
  | Ok (_, os) => exists outs, execute F fuel p (map snd info) = Ok outs /\ map (nth_error (gcOrders F g')) outs = map Some os
  | Throw e => e = BadType /\ execute F fuel p (map snd info) = Throw BadType
  | UB => False
  end.
Proof.
  intros info tree g' p fuel ND E Hf. unfold genProgram in E.
  destruct (genStmts F tree (initialContext F (map fst info)) [RESERVE F 0]) as [[g1 code]| |] eqn:E1;
    cbn [bind] in E; try discriminate.
  injection E as <- <-. apply genStmts_ok in E1. rewrite (initialContext_spec _ ND) in E1.
  rewrite map_length in E1. set (n := List.length info) in *.
  assert (Hlen : List.length (combine (map fst info) (seq 0 n)) = n).
  { rewrite combine_length, seq_length, map_length. apply Nat.min_id. }
  destruct E1 as (_ & W & _ & Hi & (ext & Hx) & _ & seg & -> & S).
  { reflexivity. }
  { unfold wfEnv. cbn [gcEnv]. rewrite Hlen. unfold n. rewrite <- (map_length fst info). apply combine_snd. }
  cbn [gcEnv gcInitial] in *.
  set (k := numLocals F g1) in *.
  assert (Hk : List.length (gcEnv F g1) = (n + k)%nat).
  { unfold k, numLocals. rewrite Hi, Hx, app_length, Hlen. lia. }
  cbn [patch app pgInstructions List.length] in *.
  set (stk := map snd info ++ repeat (VBool false) (k + gcMax F g1)) in *.
  assert (Hstk : List.length stk = (n + (k + gcMax F g1))%nat).
  { unfold stk. now rewrite app_length, map_length, repeat_length. }
  specialize (S (gcEnv F g1) [] (gcOrders F g1) [] [RESERVE F k] [HALT F] (Z.of_nat n - 1 + Z.of_nat k) (startEnv info)
    (Vm F 1 (Z.of_nat n - 1 + Z.of_nat k) false stk [])).
  cbn [vmStack vmPc vmSp vmHalt vmOut] in S.
  assert (Hrel : rel F (gcEnv F g1) (startEnv info) stk).
  { intros x a Hx'. destruct (wfEnv_lookup _ _ _ W Hx') as [Ha _].
    destruct (lookup x (combine (map fst info) (seq 0 n))) as [b|] eqn:Eb.
    - assert (Hb := lookup_app _ _ _ ext _ Eb). rewrite <- Hx in Hb. assert (b = a) by congruence. subst b.
      destruct (lookup_combine _ _ _ _ Eb) as (v & Hv & Hn & _). rewrite Nat.sub_0_r in Hn.
      unfold startEnv. rewrite Hv. unfold stk. rewrite nth_error_app1; [assumption|].
      apply nth_error_Some. congruence.
    - assert (Hnone : lookup x info = None).
      { apply lookup_none. intros Hin. destruct (lookup_in nat x (combine (map fst info) (seq 0 n))) as [b Hb].
        - unfold n. rewrite <- (map_length fst info), combine_fst. assumption.
        - congruence. }
      unfold startEnv. rewrite Hnone. unfold stk.
      assert (Hna : (n <= a)%nat).
      { rewrite Hx in Hx'. rewrite (lookup_app_none _ _ _ _ Eb) in Hx'.
        destruct (Nat.le_gt_cases n a) as [|Hlt]; [assumption|exfalso].
        assert (exists y, nth_error (gcEnv F g1) a = Some (y, a) /\ In y (map fst info)) as (y & Hy & Hiny).
        { rewrite Hx, nth_error_app1 by lia. destruct (nth_error (combine (map fst info) (seq 0 n)) a) as [[y b]|] eqn:En.
          - exists y. assert (Hyb := map_nth_error snd _ _ En). cbn in Hyb. unfold n in Hyb.
            rewrite <- (map_length fst info), combine_snd in Hyb.
            rewrite nth_error_nth' with (d := 0%nat) in Hyb by (rewrite seq_length, map_length; exact Hlt).
            rewrite seq_nth in Hyb by (rewrite map_length; exact Hlt). injection Hyb as Hyb. cbn in Hyb. subst b.
            split; [reflexivity|]. apply nth_error_In, in_combine_l in En. assumption.
          - apply nth_error_None in En. lia. }
        destruct (wfEnv_lookup _ x a W) as [_ Ex]; [rewrite Hx; now rewrite (lookup_app_none _ _ _ _ Eb)|].
        assert (x = y) by congruence. subst y.
        apply lookup_in in Hiny. destruct Hiny as [v Hv]. congruence. }
      rewrite nth_error_app2; rewrite map_length; fold n; [|assumption].
      apply nth_error_repeat'. lia. }
  specialize (S eq_refl ltac:(now rewrite app_nil_r) W ltac:(lia) ltac:(now rewrite app_nil_r) Hrel eq_refl eq_refl eq_refl
    ltac:(lia)).
  unfold execute. cbn [pgInstructions pgNeeded]. rewrite map_length. fold n. fold stk.
  destruct fuel as [|fuel]; [cbn in Hf; lia|].
  erewrite (run_step F fuel _ (Vm F 0 (Z.of_nat n - 1) false stk []) (RESERVE F k)) by reflexivity.
  cbn [executeInstruction bind setPc setSp vmPc vmSp vmHalt vmStack vmOut].
  cbn [app] in S.
  destruct (execM F tree (startEnv info)) as [[rho' os]|e|]; [| |exact S].
  - destruct S as (stk' & outs & (m & Hm & Hrun) & _ & _ & Hout). exists outs. split; [|exact Hout].
    rewrite app_length in Hf. cbn in Hf.
    replace fuel with (m + S (fuel - m - 1))%nat by lia. cbn [app] in Hrun. rewrite Hrun. cbn [bind app].
    erewrite run_step; [|reflexivity|cbn [vmPc List.length app plus nth_error]; apply nth_error_mid].
    destruct (fuel - m - 1)%nat; reflexivity.
  - destruct S as [-> S]. split; [reflexivity|]. eapply after_throw; [exact S|]. rewrite app_length in Hf. cbn in Hf. lia.
Qed.

(** ** The visitor *)

Definition patOf (sp : spattern F) : pattern F := fold_left (patternAdd F) (List.concat (map snd sp)) (emptyPattern F).

Definition orderOf (o : sorder F) : order F := Order F (patOf (better o)) (patOf (worse o)) (sameProps o).

Definition pcOk (pc : parserContext) (K : string -> Prop) (ls : lists F) : Prop :=
  (forall x, K x -> In x (pcDefinitions F pc) \/ In x (pcGlobals F pc)) /\
  (forall x, lookup x (pcLists F pc) = ls x).

Lemma existsb_in : forall x l, existsb (String.eqb x) l = true <-> In x l.
Proof.
  intros x l. rewrite existsb_exists. split.
  - intros (y & Hy & E). apply String.eqb_eq in E. now subst.
  - intros H. exists x. split; [assumption|apply String.eqb_refl].
Qed.

Lemma visitPatternFrom_ok : forall pc ls p sp acc,
  (forall x, lookup x (pcLists F pc) = ls x) -> denotes F ls p sp ->
  visitPatternFrom F pc acc p = Ok (fold_left (patternAdd F) (List.concat (map snd sp)) acc).
Proof.
  intros pc ls p sp acc Hl H. revert acc. induction H as [|p v l sl H IH|p x vs l sl Hx H IH]; intros acc; cbn.
  - reflexivity.
  - apply IH.
  - unfold resolveList. rewrite Hl, Hx. cbn. rewrite fold_left_app. apply IH.
Qed.

Lemma visitExpression_ok : forall pc K ls e, pcOk pc K ls -> noParenE F e -> scopedE F K e ->
  exists e', visitExpression F pc e = Ok e'.
Proof.
  intros pc K ls e [HK _]. induction e as [v|x|e IH|o a IHa b IHb|e IH]; cbn; intros N S.
  - eauto.
  - unfold visitVariable. destruct (existsb (String.eqb x) (pcDefinitions F pc)) eqn:E1; [eauto|].
    destruct (existsb (String.eqb x) (pcGlobals F pc)) eqn:E2; [eauto|].
    exfalso. destruct (HK _ S) as [H|H]; apply existsb_in in H; congruence.
  - destruct (IH N S) as [e' ->]. cbn. eauto.
  - destruct (IHa (proj1 N) (proj1 S)) as [a' ->]. destruct (IHb (proj2 N) (proj2 S)) as [b' ->]. cbn. eauto.
  - tauto.
Qed.

Lemma apply_applyM : forall o l r v, apply F o l r v -> applyM F o l r = Ok v.
Proof.
  intros o l r v H.
  induction H as [a b|a b|a b|l r a b H|a b|k a b|l r v H IH|a b|a b|a b|a b H|a|l r a b H|l r a b H|l r a b H
                 |l r a b H Hz|l r a b H Hz];
    try (destruct H; cbn in *; try rewrite Hz; reflexivity); try reflexivity.
  - destruct a, b; reflexivity.
  - destruct a, b; reflexivity.
  - destruct a, b; reflexivity.
  - assert (E : (Z.of_nat a <? Z.of_nat b) = Nat.ltb a b).
    { destruct (Nat.ltb_spec a b), (Z.ltb_spec (Z.of_nat a) (Z.of_nat b)); auto; lia. }
    destruct k; cbn -[Z.of_nat Nat.ltb]; now rewrite E.
  - cbn in IH |- *. unfold boolCell in *.
    destruct l as [[|]|?|?|k ?], r as [[|]|?|?|k' ?]; cbn in *; try discriminate; auto;
      destruct k, k'; cbn in *; auto; discriminate.
  - cbn. unfold divSize. destruct (Z.eqb_spec b 0); [contradiction|reflexivity].
Qed.

Definition envOk (rho : env F) (rhoM : string -> cell) : Prop := forall x v, rho x = Some v -> rhoM x = v.

Lemma evals_evalM : forall pc rho rhoM e v, envOk rho rhoM -> evals F rho e v ->
  forall e', visitExpression F pc e = Ok e' -> evalM F rhoM e' = Ok v.
Proof.
  intros pc rho rhoM e v R H. induction H as [v|x v Hx|e b H IH|o a b l r v Ha IHa Hb IHb Hop|e v H IH]; cbn; intros e' E.
  - injection E as <-. reflexivity.
  - unfold visitVariable in E.
    destruct (existsb (String.eqb x) (pcDefinitions F pc)); [injection E as <-; cbn; f_equal; now apply R|].
    destruct (existsb (String.eqb x) (pcGlobals F pc)); [injection E as <-; cbn; f_equal; now apply R|discriminate].
  - destruct (visitExpression F pc e) as [e1| |]; cbn in E; try discriminate. injection E as <-. cbn.
    now rewrite (IH _ eq_refl).
  - destruct (visitExpression F pc a) as [a1| |]; cbn in E; try discriminate.
    destruct (visitExpression F pc b) as [b1| |]; cbn in E; try discriminate. injection E as <-. cbn.
    rewrite (IHa _ eq_refl), (IHb _ eq_refl). cbn. now apply apply_applyM.
  - discriminate.
Qed.

Lemma visitStatement_if : forall pc c body,
  visitStatement F pc (PIf c body) =
  bind (visitExpression F pc c) (fun c' => bind (visitStatements F pc body) (fun '(body', pc') => Ok (SIf c' body', pc'))).
Proof. intros. reflexivity. Qed.

Lemma pstmt_ind' : forall P : pstmt -> Prop,
  (forall x vs, P (PDefineList x vs)) -> (forall x e, P (PDefine x e)) ->
  (forall c body, Forall P body -> P (PIf c body)) -> (forall g s same, P (POrder g s same)) -> forall s, P s.
Proof.
  intros P H1 H2 H3 H4. fix IH 1. intros [x vs|x e|c body|g s same].
  - apply H1.
  - apply H2.
  - apply H3. induction body; constructor; [apply IH|assumption].
  - apply H4.
Qed.

Lemma noParen_body : forall c body, noParen F (PIf c body) -> noParenE F c /\ noParens F body.
Proof.
  intros c body [Hc Hb]. split; [assumption|]. induction body as [|s body IH]; constructor; [apply Hb|].
  apply IH. apply Hb.
Qed.

(** Splitting off the first statement. *)
Lemma scoped_cons : forall K ls s prog, scoped F K ls (s :: prog) ->
  scoped F K ls [s] /\ scoped F (defined F K s) (declared F ls s) prog.
Proof.
  intros K ls s prog H. inversion H; subst; split; try assumption; repeat (econstructor; try eassumption).
Qed.

Lemma runs_cons : forall rho ls s prog rho' os, runs F rho ls (s :: prog) rho' os ->
  exists rho1 os1 os2, runs F rho ls [s] rho1 os1 /\ runs F rho1 (declared F ls s) prog rho' os2 /\ os = os1 ++ os2.
Proof.
  intros rho ls s prog rho' os H. inversion H; subst.
  - exists rho, [], os. repeat split; auto. repeat constructor.
  - exists (update rho x v), [], os. repeat split; auto. econstructor; [eassumption|constructor].
  - exists rho1, (os1 ++ []), os0. repeat split; auto.
    + eapply RunIfTrue; [eassumption|eassumption|constructor].
    + now rewrite app_nil_r.
  - exists rho, [], os. repeat split; auto. eapply RunIfFalse; [eassumption|constructor].
  - exists rho, [SOrd sg ssm same], os0. repeat split; auto. econstructor; [eassumption|eassumption|constructor].
Qed.

Definition visitOk (pc : parserContext) (K : string -> Prop) (ls : lists F) (prog : list pstmt) (tree : list stmt)
  (pc' : parserContext) (K' : string -> Prop) (ls' : lists F) : Prop :=
  pcOk pc' K' ls' /\ pcGlobals F pc' = pcGlobals F pc /\
  forall rho rhoM rho' os, envOk rho rhoM -> runs F rho ls prog rho' os ->
    exists rhoM', execM F tree rhoM = Ok (rhoM', map orderOf os) /\ envOk rho' rhoM'.

Lemma visitStatements_from : forall prog,
  Forall (fun s => forall pc K ls, pcOk pc K ls -> noParen F s -> scoped F K ls [s] ->
     exists s' pc', visitStatement F pc s = Ok (s', pc') /\ visitOk pc K ls [s] [s'] pc' (defined F K s) (declared F ls s)) prog ->
  forall pc K ls, pcOk pc K ls -> noParens F prog -> scoped F K ls prog ->
  exists tree pc', visitStatements F pc prog = Ok (tree, pc') /\
    visitOk pc K ls prog tree pc' (fold_left (defined F) prog K) (fold_left (declared F) prog ls).
Proof.
  intros prog IH. induction IH as [|s prog Hs _ IH]; intros pc K ls P N Sc.
  - exists [], pc. split; [reflexivity|]. split; [assumption|]. split; [reflexivity|].
    intros rho rhoM rho' os R H. inversion H; subst. exists rhoM. auto.
  - inversion N; subst. destruct (scoped_cons _ _ _ _ Sc) as [Sc1 Sc2].
    destruct (Hs pc K ls P) as (s' & pc1 & E1 & P1 & G1 & M1); [assumption|assumption|].
    destruct (IH pc1 _ _ P1) as (tree & pc2 & E2 & P2 & G2 & M2); [assumption|assumption|].
    exists (s' :: tree), pc2. cbn [visitStatements fold_left]. rewrite E1. cbn [bind]. rewrite E2. cbn [bind].
    split; [reflexivity|]. split; [assumption|]. split; [congruence|].
    intros rho rhoM rho' os R H. destruct (runs_cons _ _ _ _ _ _ H) as (rho1 & os1 & os2 & R1 & R2 & ->).
    destruct (M1 _ _ _ _ R R1) as (rhoM1 & X1 & V1). destruct (M2 _ _ _ _ V1 R2) as (rhoM2 & X2 & V2).
    exists rhoM2. split; [|assumption]. cbn [execM] in *.
    destruct (execStmt F s' rhoM) as [[ra oa]| |]; cbn [bind] in *; try discriminate.
    injection X1 as -> X1. rewrite X2. cbn [bind]. rewrite app_nil_r in X1. now rewrite X1, map_app.
Qed.

Lemma exec_single : forall s rhoM rhoM' os,
  execStmt F s rhoM = Ok (rhoM', os) -> execM F [s] rhoM = Ok (rhoM', os).
Proof. intros s rhoM rhoM' os H. cbn [execM]. rewrite H. cbn. now rewrite app_nil_r. Qed.

Lemma visitStatement_ok : forall s pc K ls, pcOk pc K ls -> noParen F s -> scoped F K ls [s] ->
  exists s' pc', visitStatement F pc s = Ok (s', pc') /\ visitOk pc K ls [s] [s'] pc' (defined F K s) (declared F ls s).
Proof.
  induction s as [x vs|x e|c body IH|g sm same] using pstmt_ind'; intros pc K ls P N Sc.
  - eexists _, _. split; [reflexivity|]. split; [|split; [reflexivity|]].
    + split; cbn; [apply P|]. intros y. unfold update. destruct (String.eqb y x); [reflexivity|apply P].
    + intros rho rhoM rho' os R H. inversion H; subst.
      match goal with H : runs _ _ _ [] _ _ |- _ => inversion H; subst end.
      exists rhoM. split; [reflexivity|assumption].
  - inversion Sc; subst. destruct (visitExpression_ok pc K ls e P N) as [e' E']; [assumption|].
    cbn [visitStatement]. rewrite E'. cbn [bind]. eexists _, _. split; [reflexivity|]. split; [|split; [reflexivity|]].
    + split; cbn; [|apply P]. intros y [->|Hy]; [auto|]. destruct (proj1 P _ Hy); auto.
    + intros rho rhoM rho' os R H. inversion H; subst.
      match goal with H : runs _ _ _ [] _ _ |- _ => inversion H; subst end.
      exists (setVar F rhoM x v). split.
      * apply exec_single. cbn. erewrite evals_evalM; [|eassumption|eassumption|eassumption]. reflexivity.
      * intros y w. unfold update, setVar. destruct (String.eqb y x); [congruence|apply R].
  - destruct (noParen_body _ _ N) as [Nc Nb]. inversion Sc; subst.
    destruct (visitExpression_ok pc K ls c P Nc) as [c' Ec]; [assumption|].
    destruct (visitStatements_from body IH pc K ls P Nb) as (tree & pc1 & E1 & P1 & G1 & M1); [assumption|].
    rewrite visitStatement_if, Ec. cbn [bind]. rewrite E1. cbn [bind].
    eexists _, _. split; [reflexivity|]. split; [exact P1|]. split; [assumption|].
    intros rho rhoM rho' os R H. inversion H; subst;
      match goal with H : runs _ _ (declared _ _ _) [] _ _ |- _ => inversion H; subst end.
    + destruct (M1 rho rhoM _ _ R ltac:(eassumption)) as (rhoM' & X & V).
      exists rhoM'. split; [|assumption]. rewrite app_nil_r. apply exec_single. rewrite execStmt_if.
      erewrite evals_evalM; [|eassumption|eassumption|eassumption]. cbn. exact X.
    + exists rhoM. split; [|assumption]. apply exec_single. rewrite execStmt_if.
      erewrite evals_evalM; [|eassumption|eassumption|eassumption]. reflexivity.
  - inversion Sc; subst. cbn [visitStatement]. unfold visitPattern.
    erewrite visitPatternFrom_ok; [|apply P|eassumption]. cbn [bind].
    erewrite visitPatternFrom_ok; [|apply P|eassumption]. cbn [bind].
    eexists _, _. split; [reflexivity|]. split; [assumption|]. split; [reflexivity|].
    intros rho rhoM rho' os R H. inversion H; subst.
    match goal with H : runs _ _ _ [] _ _ |- _ => inversion H; subst end.
    exists rhoM. split; [|assumption]. cbn.
    assert (Hdet : forall p sp sp', denotes F ls p sp -> denotes F ls p sp' -> sp = sp').
    { clear. intros p sp sp' H. revert sp'. induction H; intros sp' H'; inversion H'; subst; auto.
      - f_equal. auto.
      - f_equal; [congruence|auto]. }
    repeat match goal with
    | A : denotes F ls ?p ?a, B : denotes F ls ?p ?b |- _ =>
        let E := fresh in assert (E : a = b) by (eapply Hdet; eassumption); subst; clear B
    end. reflexivity.
Qed.

Lemma visitStatements_ok : forall prog pc K ls, pcOk pc K ls -> noParens F prog -> scoped F K ls prog ->
  exists tree pc', visitStatements F pc prog = Ok (tree, pc') /\
    visitOk pc K ls prog tree pc' (fold_left (defined F) prog K) (fold_left (declared F) prog ls).
Proof.
  intros prog. apply visitStatements_from. apply Forall_forall. intros s _. apply visitStatement_ok.
Qed.

(** ** Code is generated for everything that the visitor accepts *)

Definition bound (pc : parserContext) (g : genContext) : Prop :=
  forall x, In x (pcDefinitions F pc) \/ In x (pcGlobals F pc) -> exists a, lookup x (gcEnv F g) = Some a.

Lemma genExpr_total : forall pc e e', visitExpression F pc e = Ok e' ->
  forall g code, bound pc g -> exists g' code', genExpr F e' g code = Ok (g', code') /\ gcEnv F g' = gcEnv F g.
Proof.
  intros pc. induction e as [v|x|e IH|o a IHa b IHb|e IH]; cbn; intros e' E g code B.
  - injection E as <-. cbn. eauto.
  - unfold visitVariable in E.
    assert (Hx : e' = EVar x /\ (In x (pcDefinitions F pc) \/ In x (pcGlobals F pc))).
    { destruct (existsb (String.eqb x) (pcDefinitions F pc)) eqn:E1; [injection E as <-; apply existsb_in in E1; auto|].
      destruct (existsb (String.eqb x) (pcGlobals F pc)) eqn:E2; [injection E as <-; apply existsb_in in E2; auto|discriminate]. }
    destruct Hx as [-> Hx]. destruct (B _ Hx) as [a Ha]. cbn. unfold addressOf. rewrite Ha. cbn. eauto.
  - destruct (visitExpression F pc e) as [e1| |]; cbn in E; try discriminate. injection E as <-. cbn.
    destruct (IH _ eq_refl g code B) as (g1 & code1 & -> & Hg). cbn. eauto.
  - destruct (visitExpression F pc a) as [a1| |]; cbn in E; try discriminate.
    destruct (visitExpression F pc b) as [b1| |]; cbn in E; try discriminate. injection E as <-. cbn.
    destruct (IHa _ eq_refl g code B) as (g1 & code1 & -> & Hg). cbn.
    destruct (IHb _ eq_refl g1 code1) as (g2 & code2 & -> & Hg2).
    { intros y Hy. rewrite Hg. now apply B. }
    cbn. eexists _, _. split; [reflexivity|]. cbn. congruence.
  - discriminate.
Qed.

Definition keeps (g g' : genContext) : Prop := exists ext, gcEnv F g' = gcEnv F g ++ ext.

Lemma lookup_snoc_same : forall A x (l : list (string * A)) a, lookup x l = None -> lookup x (l ++ [(x, a)]) = Some a.
Proof. intros. rewrite lookup_app_none by assumption. cbn. now rewrite String.eqb_refl. Qed.

Definition genOk (pc : parserContext) (prog : list pstmt) : Prop :=
  forall tree pc', visitStatements F pc prog = Ok (tree, pc') ->
  pcGlobals F pc' = pcGlobals F pc /\
  forall g code, bound pc g -> exists g' code', genStmts F tree g code = Ok (g', code') /\ bound pc' g'.

Lemma genStmts_from : forall prog,
  Forall (fun s => forall pc s' pc', visitStatement F pc s = Ok (s', pc') ->
     forall g code, bound pc g -> exists g' code', genStmt F s' g code = Ok (g', code') /\ bound pc' g') prog ->
  forall pc tree pc', visitStatements F pc prog = Ok (tree, pc') ->
  forall g code, bound pc g -> exists g' code', genStmts F tree g code = Ok (g', code') /\ bound pc' g'.
Proof.
  intros prog IH. induction IH as [|s prog Hs _ IH]; intros pc tree pc' E g code B; cbn in E.
  - injection E as <- <-. cbn. eauto.
  - destruct (visitStatement F pc s) as [[s' pc1]| |] eqn:E1; cbn in E; try discriminate.
    destruct (visitStatements F pc1 prog) as [[l1 pc2]| |] eqn:E2; cbn in E; try discriminate.
    injection E as <- <-. destruct (Hs _ _ _ E1 g code B) as (g1 & code1 & G1 & B1).
    destruct (IH _ _ _ E2 g1 code1 B1) as (g2 & code2 & G2 & B2).
    exists g2, code2. cbn [genStmts]. rewrite G1. cbn [bind]. auto.
Qed.

Lemma genStmt_total : forall s pc s' pc', visitStatement F pc s = Ok (s', pc') ->
  forall g code, bound pc g -> exists g' code', genStmt F s' g code = Ok (g', code') /\ bound pc' g'.
Proof.
  induction s as [x vs|x e|c body IH|gp sm same] using pstmt_ind'; intros pc s' pc' E g code B.
  - cbn in E. injection E as <- <-. cbn. eauto.
  - cbn in E. destruct (visitExpression F pc e) as [e1| |] eqn:E1; cbn in E; try discriminate. injection E as <- <-.
    destruct (genExpr_total _ _ _ E1 g code B) as (g1 & code1 & G1 & Hg). cbn. rewrite G1. cbn.
    unfold addressOf.
    assert (Hadd : exists a, lookup x (gcEnv F (addLocalVariable F x g1)) = Some a).
    { unfold addLocalVariable. destruct (lookup x (gcEnv F g1)) eqn:El; [eauto|]. cbn. rewrite lookup_snoc_same; eauto. }
    destruct Hadd as [a Ha]. rewrite Ha. cbn. eexists _, _. split; [reflexivity|].
    intros y Hy. cbn in Hy |- *.
    assert (Hk : forall z b, lookup z (gcEnv F g1) = Some b -> lookup z (gcEnv F (addLocalVariable F x g1)) = Some b).
    { intros z b Hz. unfold addLocalVariable. destruct (lookup x (gcEnv F g1)); [assumption|]. cbn. now apply lookup_app. }
    destruct Hy as [[<-|Hy]|Hy].
    + eauto.
    + destruct (B y (or_introl Hy)) as [b Hb]. exists b. apply Hk. congruence.
    + destruct (B y (or_intror Hy)) as [b Hb]. exists b. apply Hk. congruence.
  - rewrite visitStatement_if in E. destruct (visitExpression F pc c) as [c1| |] eqn:E1; cbn [bind] in E; try discriminate.
    destruct (visitStatements F pc body) as [[tree pc1]| |] eqn:E2; cbn [bind] in E; try discriminate.
    injection E as <- <-. rewrite genStmt_if.
    destruct (genExpr_total _ _ _ E1 g code B) as (g1 & code1 & -> & Hg). cbn [bind].
    destruct (genStmts_from body IH _ _ _ E2 (freeStack F 1 g1) (code1 ++ [JUMPZERO F 0])) as (g2 & code2 & -> & B2).
    { intros y Hy. cbn. rewrite Hg. now apply B. }
    cbn [bind]. eauto.
  - cbn in E. destruct (visitPattern F pc gp) as [p1| |]; cbn in E; try discriminate.
    destruct (visitPattern F pc sm) as [p2| |]; cbn in E; try discriminate. injection E as <- <-. cbn. eauto.
Qed.

Lemma genProgram_total : forall (info : list (string * cell)) prog tree pc',
  NoDup (map fst info) ->
  visitStatements F (ParserContext F (map fst info) [] []) prog = Ok (tree, pc') ->
  exists g' p, genProgram F tree (initialContext F (map fst info)) = Ok (g', p).
Proof.
  intros info prog tree pc' ND E.
  destruct (genStmts_from prog ltac:(apply Forall_forall; intros; eapply genStmt_total; eassumption) _ _ _ E
     (initialContext F (map fst info)) [RESERVE F 0]) as (g' & code & G & _).
  - intros x [[]|Hx]. cbn in Hx. rewrite (initialContext_spec _ ND). cbn [gcEnv].
    apply lookup_in. now rewrite combine_fst.
  - unfold genProgram. rewrite G. cbn. eauto.
Qed.

(** ** The orders *)

Definition enough (rules : list pstmt) (info : list (string * cell)) (fuel : nat) : Prop :=
  forall tree pc' g' p, visitStatements F (ParserContext F (map fst info) [] []) rules = Ok (tree, pc') ->
    genProgram F tree (initialContext F (map fst info)) = Ok (g', p) ->
    (List.length (pgInstructions F p) <= fuel)%nat.

Lemma collect_orders : forall (O : list (order F)) outs os,
  map (nth_error O) outs = map Some os ->
  fold_right (fun i acc => bind (ofOption OutOfRange (nth_error O i)) (fun o => bind acc (fun os => Ok (o :: os))))
             (Ok []) outs = Ok os.
Proof.
  induction outs as [|i outs IH]; intros [|o os] H; cbn in H; try discriminate; [reflexivity|].
  injection H as H1 H2. cbn. rewrite H1, (IH _ H2). reflexivity.
Qed.

Lemma pcOk_start : forall info : list (string * cell), pcOk (ParserContext F (map fst info) [] []) (fun x => In x (map fst info)) (noLists F).
Proof. intros info. split; cbn; auto. Qed.

Theorem applicable_meaning : forall info prog os fuel,
  NoDup (map fst info) -> noParens F prog -> wellScoped F info prog -> enough prog info fuel ->
  applies F info prog os ->
  applicableOrders F fuel prog info = Ok (map orderOf os).
Proof.
  intros info prog os fuel ND N Sc En (rho' & Hr).
  destruct (visitStatements_ok prog _ _ _ (pcOk_start info) N Sc) as (tree & pc' & E & _ & _ & M).
  destruct (genProgram_total _ _ _ _ ND E) as (g' & p & G).
  assert (Hfuel := En _ _ _ _ E G).
  destruct (M (infoEnv F info) (startEnv info) rho' os) as (rhoM' & X & _).
  { intros x v Hx. unfold startEnv, infoEnv in *. now rewrite Hx. }
  { exact Hr. }
  assert (P := program_ok _ _ _ _ _ ND G Hfuel). rewrite X in P.
  destruct P as (outs & Ex & Hm). unfold applicableOrders. rewrite E. cbn [bind]. rewrite G. cbn [bind].
  rewrite Ex. cbn [bind]. now apply collect_orders.
Qed.

Theorem applicable_total : forall info prog fuel,
  NoDup (map fst info) -> noParens F prog -> wellScoped F info prog -> enough prog info fuel ->
  (exists os, applicableOrders F fuel prog info = Ok os) \/ applicableOrders F fuel prog info = Throw BadType.
Proof.
  intros info prog fuel ND N Sc En.
  destruct (visitStatements_ok prog _ _ _ (pcOk_start info) N Sc) as (tree & pc' & E & _ & _ & _).
  destruct (genProgram_total _ _ _ _ ND E) as (g' & p & G).
  assert (Hfuel := En _ _ _ _ E G).
  assert (P := program_ok _ _ _ _ _ ND G Hfuel).
  unfold applicableOrders. rewrite E. cbn [bind]. rewrite G. cbn [bind].
  destruct (execM F tree (startEnv info)) as [[rho' os]|e|].
  - destruct P as (outs & -> & Hm). left. cbn [bind]. exists os. now apply collect_orders.
  - destruct P as [_ ->]. now right.
  - destruct P.
Qed.

(** There is always such a bound. *)
Lemma enough_exists : forall prog info, exists n, forall fuel, (n <= fuel)%nat -> enough prog info fuel.
Proof.
  intros prog info.
  destruct (visitStatements F (ParserContext F (map fst info) [] []) prog) as [[tree pc']| |] eqn:E;
    [|exists 0%nat; intros fuel _ ? ? ? ? H; congruence|exists 0%nat; intros fuel _ ? ? ? ? H; congruence].
  destruct (genProgram F tree (initialContext F (map fst info))) as [[g' p]| |] eqn:G;
    [|exists 0%nat; intros fuel _ ? ? ? ? H; congruence|exists 0%nat; intros fuel _ ? ? ? ? H; congruence].
  exists (List.length (pgInstructions F p)). intros fuel Hf tree1 pc1 g1 p1 E1 G1.
  rewrite E in E1. injection E1 as <- <-. rewrite G in G1. injection G1 as <- <-. assumption.
Qed.

End Theorems.
