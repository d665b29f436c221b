(** * The generated code computes what the syntax tree means *)

From Coq Require Import ZArith List Bool String Lia.
From Verif.Rules Require Import RuleModel.
Import ListNotations.
Open Scope Z_scope.

(** ** Lists *)

Lemma setNth_length : forall A i (a : A) l, List.length (setNth i a l) = List.length l.
Proof. induction i; intros a [|b l]; cbn; auto. Qed.

Lemma setNth_same : forall A i (a : A) l, (i < List.length l)%nat -> nth_error (setNth i a l) i = Some a.
Proof. induction i; intros a [|b l] H; cbn in *; try lia; auto. apply IHi. lia. Qed.

Lemma setNth_other : forall A i j (a : A) l, i <> j -> nth_error (setNth i a l) j = nth_error l j.
Proof. induction i; intros [|j] a [|b l] H; cbn; auto; try congruence. Qed.

Lemma nth_error_mid : forall A (p : list A) x q, nth_error (p ++ x :: q) (List.length p) = Some x.
Proof. intros. rewrite nth_error_app2, Nat.sub_diag by lia. reflexivity. Qed.

Lemma lookup_app : forall A x (l l' : list (string * A)) a,
  lookup x l = Some a -> lookup x (l ++ l') = Some a.
Proof.
  induction l as [|[y b] l IH]; cbn; intros; try discriminate. destruct (String.eqb x y); auto.
Qed.

Lemma lookup_app_none : forall A x (l l' : list (string * A)),
  lookup x l = None -> lookup x (l ++ l') = lookup x l'.
Proof. induction l as [|[y b] l IH]; cbn; intros; auto. destruct (String.eqb x y); try discriminate; auto. Qed.

Lemma lookup_nth : forall A x (l : list (string * A)) a,
  lookup x l = Some a -> exists i, nth_error l i = Some (x, a).
Proof.
  induction l as [|[y b] l IH]; cbn; intros a H; try discriminate.
  destruct (String.eqb x y) eqn:E.
  - apply String.eqb_eq in E. subst. injection H. intros; subst. now exists 0%nat.
  - destruct (IH _ H) as [i Hi]. now exists (S i).
Qed.

Lemma patch_mid : forall F (i j : instr F) p q, patch F i (List.length p) (p ++ j :: q) = p ++ i :: q.
Proof. induction p; cbn; intros; auto. now rewrite IHp. Qed.

Section Proofs.
Variable F : doubles.
Notation cell := (cell F).
Notation expr := (expr F).
Notation stmt := (stmt F).
Notation instr := (instr F).
Notation vm := (vm F).
Notation genContext := (genContext F).
Notation order := (order F).

Lemma stmt_ind' : forall P : stmt -> Prop,
  (forall x vs, P (SDefineList x vs)) -> (forall x e, P (SDefine x e)) ->
  (forall c body, Forall P body -> P (SIf c body)) -> (forall o, P (SOrder o)) -> forall s, P s.
Proof.
  intros P H1 H2 H3 H4. fix IH 1. intros [x vs|x e|c body|o].
  - apply H1.
  - apply H2.
  - apply H3. induction body; constructor; [apply IH|assumption].
  - apply H4.
Qed.

(** ** The meaning of the syntax tree, including its failures *)

Definition applyM (o : bop) : cell -> cell -> res cell :=
  match o with
  | OLess => boolCell F (compareCells F CLess)
  | OGreater => boolCell F (compareCells F CGreater)
  | OAnd => boolCell F (andCells F)
  | OOr => boolCell F (orCells F)
  | OAdd => computeBinary F addSize (dAdd F)
  | OSub => computeBinary F subSize (dSub F)
  | OMul => computeBinary F mulSize (dMul F)
  | ODiv => divCells F
  end.

Fixpoint evalM (rho : string -> cell) (e : expr) : res cell :=
  match e with
  | ELit v => Ok v
  | EVar x => Ok (rho x)
  | ENot a => bind (evalM rho a) (fun v => bind (getBool F v) (fun b => Ok (VBool (negb b))))
  | EBin o a b => bind (evalM rho a) (fun l => bind (evalM rho b) (fun r => applyM o l r))
  end.

Definition setVar (rho : string -> cell) (x : string) (v : cell) : string -> cell :=
  fun y => if String.eqb y x then v else rho y.

Definition world : Type := ((string -> cell) * list order)%type.

Fixpoint execStmt (s : stmt) (rho : string -> cell) {struct s} : res world :=
  match s with
  | SDefineList _ _ => Ok (rho, [])
  | SDefine x e => bind (evalM rho e) (fun v => Ok (setVar rho x v, []))
  | SIf c body =>
      bind (evalM rho c) (fun v => bind (getBool F v) (fun b =>
      if b then
        (fix go (l : list stmt) (rho : string -> cell) : res world :=
           match l with
           | [] => Ok (rho, [])
           | s :: l' => bind (execStmt s rho) (fun '(rho1, os1) =>
                        bind (go l' rho1) (fun '(rho2, os2) => Ok (rho2, os1 ++ os2)))
           end) body rho
      else Ok (rho, [])))
  | SOrder o => Ok (rho, [o])
  end.

Fixpoint execM (l : list stmt) (rho : string -> cell) : res world :=
  match l with
  | [] => Ok (rho, [])
  | s :: l' => bind (execStmt s rho) (fun '(rho1, os1) =>
               bind (execM l' rho1) (fun '(rho2, os2) => Ok (rho2, os1 ++ os2)))
  end.

Lemma execStmt_if : forall c body rho,
  execStmt (SIf c body) rho =
  bind (evalM rho c) (fun v => bind (getBool F v) (fun b => if b then execM body rho else Ok (rho, []))).
Proof.
  intros. cbn. destruct (evalM rho c) as [v| |]; cbn; auto.
Qed.

Lemma genStmt_if : forall c body g code,
  genStmt F (SIf c body) g code =
  bind (genExpr F c g code) (fun '(g1, code1) =>
  bind (genStmts F body (freeStack F 1 g1) (code1 ++ [JUMPZERO F 0])) (fun '(g3, code3) =>
  Ok (g3, patch F (JUMPZERO F (List.length code3)) (List.length (code1 ++ [JUMPZERO F 0]) - 1) code3))).
Proof.
  intros. cbn [genStmt]. destruct (genExpr F c g code) as [[g1 code1]| |]; cbn [bind]; auto.
Qed.

(** ** One step *)

Lemma applyM_exn : forall o l r e, applyM o l r = Throw e -> e = BadType.
Proof.
  intros o l r e.
  destruct o; cbn; unfold boolCell, andCells, orCells, computeBinary;
    destruct l as [[|]|?|?|k ?], r as [[|]|?|?|k' ?]; cbn; try congruence;
    try (destruct (okind_eqb k k'); cbn; congruence).
Qed.

Lemma applyM_ub : forall o l r, applyM o l r <> UB.
Proof.
  intros o l r.
  destruct o; cbn; unfold boolCell, andCells, orCells, computeBinary;
    destruct l as [[|]|?|?|k ?], r as [[|]|?|?|k' ?]; cbn; try congruence;
    try (destruct (okind_eqb k k'); cbn; congruence).
Qed.

Lemma getBool_cases : forall v, (exists b, v = VBool b /\ getBool F v = Ok b) \/ getBool F v = Throw BadType.
Proof. intros [b| | |]; cbn; eauto. Qed.

Lemma exec_op : forall o st, executeInstruction F (opCode F o) st = binary F (applyM o) st.
Proof. destruct o; reflexivity. Qed.

Lemma run_step : forall fuel code st i,
  vmHalt F st = false -> nth_error code (vmPc F st) = Some i ->
  runVM F (S fuel) code st =
  bind (executeInstruction F i (setPc F (S (vmPc F st)) st)) (fun st' => runVM F fuel code st').
Proof. intros fuel code st i H E. cbn. now rewrite H, E. Qed.

Lemma stackAt_nth : forall st i v,
  0 <= i -> nth_error (vmStack F st) (Z.to_nat i) = Some v -> stackAt F st i = Ok v.
Proof.
  intros st i v H E. unfold stackAt. destruct (Z.ltb_spec i 0); try lia. now rewrite E.
Qed.

Lemma store_ok : forall st sp i v,
  0 <= i < Z.of_nat (List.length (vmStack F st)) ->
  store F st sp i v = Ok (Vm F (vmPc F st) sp (vmHalt F st) (setNth (Z.to_nat i) v (vmStack F st)) (vmOut F st)).
Proof.
  intros st sp i v H. unfold store.
  destruct (Z.ltb_spec i 0); try lia. destruct (Z.leb_spec (Z.of_nat (List.length (vmStack F st))) i); try lia.
  reflexivity.
Qed.

(** ** Expressions *)

(** The cells of the variables hold their values. *)
Definition rel (A : list (string * nat)) (rho : string -> cell) (stk : list cell) : Prop :=
  forall x a, lookup x A = Some a -> nth_error stk a = Some (rho x).

Definition after (code : list instr) (st : vm) (n : nat) (r : res vm) : Prop :=
  exists k, (k <= n)%nat /\ forall fuel, runVM F (k + fuel) code st = bind r (runVM F fuel code).

Lemma after_refl : forall code st n, after code st n (Ok st).
Proof. intros. exists 0%nat. split; [lia|]. reflexivity. Qed.

Lemma after_step : forall code st i,
  vmHalt F st = false -> nth_error code (vmPc F st) = Some i ->
  after code st 1 (executeInstruction F i (setPc F (S (vmPc F st)) st)).
Proof. intros. exists 1%nat. split; [lia|]. intros fuel. cbn [plus]. now apply run_step. Qed.

Lemma after_trans : forall code st n m st1 r,
  after code st n (Ok st1) -> after code st1 m r -> after code st (n + m) r.
Proof.
  intros code st n m st1 r (k & Hk & E) (k' & Hk' & E'). exists (k + k')%nat. split; [lia|].
  intros fuel. rewrite <- Nat.add_assoc, E. cbn. apply E'.
Qed.

Lemma after_weaken : forall code st n m r, (n <= m)%nat -> after code st n r -> after code st m r.
Proof. intros code st n m r H (k & Hk & E). exists k. split; [lia|]. exact E. Qed.

Lemma after_throw : forall code st n e, after code st n (Throw e) ->
  forall fuel, (n <= fuel)%nat -> runVM F fuel code st = Throw e.
Proof.
  intros code st n e (k & Hk & E) fuel Hf. replace fuel with (k + (fuel - k))%nat by lia. now rewrite E.
Qed.

Definition exprOk (g : genContext) (code : list instr) (g' : genContext) (code' : list instr)
  (sem : (string -> cell) -> res cell) : Prop :=
  gcEnv F g' = gcEnv F g /\ gcOrders F g' = gcOrders F g /\ gcInitial F g' = gcInitial F g /\
  gcCurrent F g' = S (gcCurrent F g) /\ (gcMax F g <= gcMax F g')%nat /\ (gcCurrent F g' <= gcMax F g')%nat /\
  exists seg, code' = code ++ seg /\
  forall A pre tail base rho st,
    List.length pre = List.length code ->
    (forall x a, lookup x (gcEnv F g) = Some a -> lookup x A = Some a) ->
    (forall x a, lookup x A = Some a -> Z.of_nat a <= base) ->
    rel A rho (vmStack F st) ->
    vmHalt F st = false -> vmPc F st = List.length pre -> -1 <= base ->
    vmSp F st = base + Z.of_nat (gcCurrent F g) ->
    base + Z.of_nat (gcMax F g') < Z.of_nat (List.length (vmStack F st)) ->
    match sem rho with
    | Ok v => exists stk',
        after (pre ++ seg ++ tail) st (List.length seg)
              (Ok (Vm F (List.length pre + List.length seg) (vmSp F st + 1) false stk' (vmOut F st))) /\
        List.length stk' = List.length (vmStack F st) /\
        (forall i, Z.of_nat i <= vmSp F st -> nth_error stk' i = nth_error (vmStack F st) i) /\
        nth_error stk' (Z.to_nat (vmSp F st + 1)) = Some v
    | Throw e => e = BadType /\ after (pre ++ seg ++ tail) st (List.length seg) (Throw BadType)
    | UB => False
    end.

Lemma rel_below : forall A rho stk stk' base sp,
  rel A rho stk -> (forall x a, lookup x A = Some a -> Z.of_nat a <= base) -> base <= sp ->
  (forall i, Z.of_nat i <= sp -> nth_error stk' i = nth_error stk i) -> rel A rho stk'.
Proof.
  intros A rho stk stk' base sp H B L E x a Hx. rewrite E; [now apply H|]. specialize (B _ _ Hx). lia.
Qed.

(** Loading one cell. *)
Lemma push_ok : forall (g : genContext) (code : list instr) (i : instr) (sem : (string -> cell) -> res cell) (v : (string -> cell) -> cell),
  (forall rho, sem rho = Ok (v rho)) ->
  (forall A base rho st,
    (forall x a, lookup x (gcEnv F g) = Some a -> lookup x A = Some a) ->
    (forall x a, lookup x A = Some a -> Z.of_nat a <= base) ->
    rel A rho (vmStack F st) ->
    executeInstruction F i st = store F st (vmSp F st + 1) (vmSp F st + 1) (v rho)) ->
  exprOk g code (allocateStack F 1 g) (code ++ [i]) sem.
Proof.
  intros g code i sem v Hs Hi. unfold exprOk. cbn [allocateStack gcEnv gcOrders gcInitial gcCurrent gcMax].
  repeat split; try lia. exists [i]. split; [reflexivity|].
  intros A pre tail base rho st Hl Ha Hb Hr Hh Hp Hbase Hsp Hn.
  rewrite Hs.
  exists (setNth (Z.to_nat (vmSp F st + 1)) (v rho) (vmStack F st)). split; [|split; [|split]].
  - eapply after_weaken; [|replace (Ok _) with (executeInstruction F i (setPc F (S (vmPc F st)) st)); [apply after_step|]].
    + cbn. lia.
    + assumption.
    + rewrite Hp. cbn. now rewrite nth_error_mid.
    + rewrite (Hi A base rho) by assumption. rewrite store_ok.
      * cbn. rewrite Hh, Hp. f_equal. f_equal. lia.
      * cbn. lia.
  - apply setNth_length.
  - intros j Hj. apply setNth_other. lia.
  - apply setNth_same. lia.
Qed.

Lemma genExpr_ok : forall e g code g' code',
  genExpr F e g code = Ok (g', code') -> exprOk g code g' code' (fun rho => evalM rho e).
Proof.
  induction e as [v|x|e IH|o a IHa b IHb]; intros g code g' code' E; cbn in E.
  - injection E as <- <-. apply push_ok with (v := fun _ => v); auto.
  - unfold addressOf, ofOption in E. destruct (lookup x (gcEnv F g)) as [a|] eqn:Ex; cbn in E; try discriminate.
    injection E as <- <-. apply push_ok with (v := fun rho => rho x); auto.
    intros A base rho st Ha Hb Hr. cbn. rewrite (stackAt_nth _ _ (rho x)); [reflexivity|lia|].
    rewrite Nat2Z.id. apply Hr. auto.
  - destruct (genExpr F e g code) as [[g1 code1]| |] eqn:E1; cbn in E; try discriminate.
    injection E as <- <-. destruct (IH _ _ _ _ E1) as (Hv & Ho & Hi & Hc & Hm & Hcm & seg & -> & H).
    unfold exprOk. repeat split; try assumption. exists (seg ++ [NOT F]). split; [now rewrite app_assoc|].
    intros A pre tail base rho st Hl Ha Hb Hr Hh Hp Hbase Hsp Hn.
    specialize (H A pre ([NOT F] ++ tail) base rho st Hl Ha Hb Hr Hh Hp Hbase Hsp Hn).
    rewrite !app_length. cbn [evalM List.length]. rewrite <- !app_assoc.
    destruct (evalM rho e) as [v|e0|]; cbn [bind]; [|destruct H as [-> H]; split; auto; eapply after_weaken; [|exact H]; lia|exact H].
    destruct H as (stk & Hst & Hlen & Hlow & Htop).
    assert (Hstep := after_step (pre ++ seg ++ [NOT F] ++ tail)
       (Vm F (List.length pre + List.length seg) (vmSp F st + 1) false stk (vmOut F st)) (NOT F) eq_refl).
    cbn [vmPc] in Hstep.
    assert (Hnth : nth_error (pre ++ seg ++ [NOT F] ++ tail) (List.length pre + List.length seg) = Some (NOT F)).
    { rewrite app_assoc, <- app_length. cbn [app]. apply nth_error_mid. }
    specialize (Hstep Hnth). cbn [executeInstruction] in Hstep.
    rewrite (stackAt_nth _ _ v) in Hstep; [|cbn; lia|exact Htop]. cbn [bind] in Hstep.
    destruct (getBool_cases v) as [(bb & -> & Eb)|Eb]; rewrite Eb in *; cbn [bind] in *.
    + rewrite store_ok in Hstep by (cbn; lia). cbn in Hstep.
      exists (setNth (Z.to_nat (vmSp F st + 1)) (VBool (negb bb)) stk). split; [|split; [|split]].
      * replace (List.length pre + (List.length seg + 1))%nat with (S (List.length pre + List.length seg)) by lia.
        eapply after_trans; eassumption.
      * now rewrite setNth_length.
      * intros j Hj. rewrite setNth_other by lia. now apply Hlow.
      * apply setNth_same. lia.
    + split; [reflexivity|]. eapply after_trans; eassumption.
  - destruct (genExpr F a g code) as [[g1 code1]| |] eqn:E1; cbn in E; try discriminate.
    destruct (genExpr F b g1 code1) as [[g2 code2]| |] eqn:E2; cbn in E; try discriminate.
    injection E as <- <-. destruct (IHa _ _ _ _ E1) as (Hv1 & Ho1 & Hi1 & Hc1 & Hm1 & Hcm1 & seg1 & -> & H1).
    destruct (IHb _ _ _ _ E2) as (Hv2 & Ho2 & Hi2 & Hc2 & Hm2 & Hcm2 & seg2 & -> & H2).
    unfold exprOk. cbn [freeStack gcEnv gcOrders gcInitial gcCurrent gcMax].
    repeat split; try congruence; try lia. exists (seg1 ++ seg2 ++ [opCode F o]).
    split; [now rewrite !app_assoc|].
    intros A pre tail base rho st Hl Ha Hb Hr Hh Hp Hbase Hsp Hn.
    specialize (H1 A pre (seg2 ++ [opCode F o] ++ tail) base rho st Hl Ha Hb Hr Hh Hp Hbase Hsp ltac:(lia)).
    rewrite !app_length. cbn [evalM List.length]. rewrite <- !app_assoc.
    destruct (evalM rho a) as [va|e0|]; cbn [bind];
      [|destruct H1 as [-> H1]; split; auto; eapply after_weaken; [|exact H1]; lia|exact H1].
    destruct H1 as (stk1 & Hst1 & Hlen1 & Hlow1 & Htop1).
    set (st1 := Vm F (List.length pre + List.length seg1) (vmSp F st + 1) false stk1 (vmOut F st)) in *.
    specialize (H2 A (pre ++ seg1) ([opCode F o] ++ tail) base rho st1).
    cbn [vmStack vmSp vmPc vmHalt vmOut st1] in H2.
    rewrite <- !app_assoc in H2.
    assert (Hr1 : rel A rho stk1) by (eapply rel_below; [exact Hr|exact Hb| |exact Hlow1]; lia).
    specialize (H2 ltac:(rewrite !app_length; lia) ltac:(intros; apply Ha; congruence) Hb Hr1 eq_refl
      ltac:(now rewrite app_length) Hbase ltac:(lia) ltac:(lia)).
    destruct (evalM rho b) as [vb|e0|]; cbn [bind];
      [|destruct H2 as [-> H2]; split; auto; eapply after_weaken; [|eapply after_trans; eassumption]; lia|exact H2].
    destruct H2 as (stk2 & Hst2 & Hlen2 & Hlow2 & Htop2).
    rewrite app_length in Hst2.
    assert (Hstep := after_step (pre ++ seg1 ++ seg2 ++ [opCode F o] ++ tail)
       (Vm F (List.length pre + List.length seg1 + List.length seg2) (vmSp F st + 1 + 1) false stk2 (vmOut F st))
       (opCode F o) eq_refl).
    cbn [vmPc] in Hstep.
    assert (Hnth : nth_error (pre ++ seg1 ++ seg2 ++ [opCode F o] ++ tail)
                     (List.length pre + List.length seg1 + List.length seg2) = Some (opCode F o)).
    { rewrite !app_assoc, <- !app_length. rewrite <- (app_assoc _ [opCode F o]). cbn [app]. apply nth_error_mid. }
    specialize (Hstep Hnth). rewrite exec_op in Hstep. unfold binary in Hstep.
    cbn [vmSp setPc] in Hstep. replace (vmSp F st + 1 + 1 - 1) with (vmSp F st + 1) in Hstep by lia.
    rewrite (stackAt_nth _ (vmSp F st + 1) va) in Hstep;
      [|lia|cbn; rewrite Hlow2 by lia; exact Htop1].
    rewrite (stackAt_nth _ (vmSp F st + 1 + 1) vb) in Hstep; [|lia|exact Htop2]. cbn [bind] in Hstep.
    destruct (applyM o va vb) as [v|e0|] eqn:Eo; cbn [bind] in Hstep.
    + rewrite store_ok in Hstep by (cbn; lia). cbn in Hstep.
      exists (setNth (Z.to_nat (vmSp F st + 1)) v stk2). split; [|split; [|split]].
      * replace (List.length pre + (List.length seg1 + (List.length seg2 + 1)))%nat
          with (S (List.length pre + List.length seg1 + List.length seg2)) by lia.
        eapply after_trans; [exact Hst1|]. eapply after_trans; [exact Hst2|]. exact Hstep.
      * rewrite setNth_length. lia.
      * intros j Hj. rewrite setNth_other by lia. rewrite Hlow2 by lia. now apply Hlow1.
      * apply setNth_same. lia.
    + assert (e0 = BadType) by (eapply applyM_exn; eassumption). subst e0. split; [reflexivity|].
      eapply after_trans; [exact Hst1|]. eapply after_trans; [exact Hst2|]. exact Hstep.
    + now apply applyM_ub in Eo.
Qed.

(** ** Statements *)

(** The addresses are the positions. *)
Definition wfEnv (A : list (string * nat)) : Prop := map snd A = seq 0 (List.length A).

Lemma wfEnv_lookup : forall A x a, wfEnv A -> lookup x A = Some a -> (a < List.length A)%nat /\ nth_error A a = Some (x, a).
Proof.
  intros A x a W H. destruct (lookup_nth _ _ _ _ H) as [i Hi].
  assert (Hlt : (i < List.length A)%nat) by (apply nth_error_Some; congruence).
  assert (E : nth_error (map snd A) i = Some a) by now rewrite nth_error_map, Hi.
  rewrite W in E. rewrite nth_error_nth' with (d := 0%nat) in E by now rewrite seq_length.
  rewrite seq_nth in E by assumption. injection E as E. cbn in E. subst i. auto.
Qed.

Lemma wfEnv_inj : forall A x y a, wfEnv A -> lookup x A = Some a -> lookup y A = Some a -> x = y.
Proof.
  intros A x y a W H H'. destruct (wfEnv_lookup _ _ _ W H) as [_ E]. destruct (wfEnv_lookup _ _ _ W H') as [_ E'].
  congruence.
Qed.

Lemma wfEnv_snoc : forall A x, wfEnv A -> wfEnv (A ++ [(x, List.length A)]).
Proof.
  intros A x W. unfold wfEnv in *. rewrite map_app, app_length, W. cbn. now rewrite seq_app.
Qed.

Lemma rel_set : forall A rho stk x a v,
  wfEnv A -> rel A rho stk -> lookup x A = Some a -> (a < List.length stk)%nat ->
  rel A (setVar rho x v) (setNth a v stk).
Proof.
  intros A rho stk x a v W R Hx Hl y b Hy. unfold setVar. destruct (String.eqb_spec y x) as [->|N].
  - assert (b = a) by congruence. subst. now apply setNth_same.
  - rewrite setNth_other; [now apply R|]. intros ->. apply N. eapply wfEnv_inj; eassumption.
Qed.

Definition segOk (g : genContext) (code : list instr) (g' : genContext) (code' : list instr)
  (sem : (string -> cell) -> res world) : Prop :=
  gcCurrent F g = 0%nat -> wfEnv (gcEnv F g) ->
  gcCurrent F g' = 0%nat /\ wfEnv (gcEnv F g') /\ (gcMax F g <= gcMax F g')%nat /\ gcInitial F g' = gcInitial F g /\
  (exists ext, gcEnv F g' = gcEnv F g ++ ext) /\ (exists ext, gcOrders F g' = gcOrders F g ++ ext) /\
  exists seg, code' = code ++ seg /\
  forall A AX O OX pre tail base rho st,
    List.length pre = List.length code ->
    A = gcEnv F g' ++ AX -> wfEnv A -> Z.of_nat (List.length A) <= base + 1 ->
    O = gcOrders F g' ++ OX ->
    rel A rho (vmStack F st) ->
    vmHalt F st = false -> vmPc F st = List.length pre -> vmSp F st = base ->
    base + Z.of_nat (gcMax F g') < Z.of_nat (List.length (vmStack F st)) ->
    match sem rho with
    | Ok (rho', os) => exists stk' outs,
        after (pre ++ seg ++ tail) st (List.length seg)
              (Ok (Vm F (List.length pre + List.length seg) base false stk' (vmOut F st ++ outs))) /\
        List.length stk' = List.length (vmStack F st) /\
        rel A rho' stk' /\
        map (nth_error O) outs = map Some os
    | Throw e => e = BadType /\ after (pre ++ seg ++ tail) st (List.length seg) (Throw BadType)
    | UB => False
    end.

Lemma segOk_nil : forall g code, segOk g code g code (fun rho => Ok (rho, [])).
Proof.
  intros g code Hc W. repeat split; auto; try (exists []; now rewrite app_nil_r).
  exists []. split; [now rewrite app_nil_r|].
  intros A AX O OX pre tail base rho st Hl HA WA HL HO Hr Hh Hp Hsp Hn. exists (vmStack F st), [].
  split; [|auto]. cbn [List.length]. rewrite Nat.add_0_r, app_nil_r, <- Hp, <- Hsp, <- Hh.
  destruct st; apply after_refl.
Qed.

Lemma segOk_app : forall g code g1 code1 g2 code2 sem1 sem2,
  segOk g code g1 code1 sem1 -> segOk g1 code1 g2 code2 sem2 ->
  segOk g code g2 code2 (fun rho => bind (sem1 rho) (fun '(rho1, os1) =>
                                    bind (sem2 rho1) (fun '(rho2, os2) => Ok (rho2, os1 ++ os2)))).
Proof.
  intros g code g1 code1 g2 code2 sem1 sem2 H1 H2 Hc W.
  destruct (H1 Hc W) as (Hc1 & W1 & Hm1 & Hi1 & (ext1 & Hx1) & (oext1 & Ho1) & seg1 & -> & S1). clear H1.
  destruct (H2 Hc1 W1) as (Hc2 & W2 & Hm2 & Hi2 & (ext2 & Hx2) & (oext2 & Ho2) & seg2 & -> & S2). clear H2.
  repeat split; auto; try lia; try congruence.
  { exists (ext1 ++ ext2). now rewrite Hx2, Hx1, app_assoc. }
  { exists (oext1 ++ oext2). now rewrite Ho2, Ho1, app_assoc. }
  exists (seg1 ++ seg2). split; [now rewrite app_assoc|].
  intros A AX O OX pre tail base rho st Hl HA WA HL HO Hr Hh Hp Hsp Hn.
  specialize (S1 A (ext2 ++ AX) O (oext2 ++ OX) pre (seg2 ++ tail) base rho st Hl
    ltac:(now rewrite HA, Hx2, app_assoc) WA HL ltac:(now rewrite HO, Ho2, app_assoc) Hr Hh Hp Hsp ltac:(lia)).
  rewrite !app_length, <- !app_assoc.
  destruct (sem1 rho) as [[rho1 os1]|e|]; cbn [bind];
    [|destruct S1 as [-> S1]; split; auto; eapply after_weaken; [|exact S1]; lia|exact S1].
  destruct S1 as (stk1 & outs1 & Hst1 & Hlen1 & Hr1 & Hout1).
  specialize (S2 A AX O OX (pre ++ seg1) tail base rho1
    (Vm F (List.length pre + List.length seg1) base false stk1 (vmOut F st ++ outs1))
    ltac:(rewrite !app_length; lia) HA WA HL HO Hr1 eq_refl ltac:(now rewrite app_length) eq_refl
    ltac:(cbn; lia)).
  rewrite <- !app_assoc, app_length in S2. cbn [vmStack vmOut] in S2.
  destruct (sem2 rho1) as [[rho2 os2]|e|]; cbn [bind];
    [|destruct S2 as [-> S2]; split; auto; eapply after_trans; eassumption|exact S2].
  destruct S2 as (stk2 & outs2 & Hst2 & Hlen2 & Hr2 & Hout2).
  exists stk2, (outs1 ++ outs2). repeat split; auto; try lia.
  - rewrite (app_assoc (vmOut F st)), Nat.add_assoc. eapply after_trans; [exact Hst1|]. exact Hst2.
  - now rewrite !map_app, Hout1, Hout2.
Qed.

Lemma segOk_ext : forall g code g' code' sem sem',
  (forall rho, sem rho = sem' rho) -> segOk g code g' code' sem -> segOk g code g' code' sem'.
Proof.
  intros g code g' code' sem sem' E H Hc W.
  destruct (H Hc W) as (? & ? & ? & ? & ? & ? & seg & -> & S). repeat split; auto. exists seg. split; auto.
  intros. rewrite <- E. eapply S; eassumption.
Qed.

Lemma env_bound : forall A base x a,
  wfEnv A -> Z.of_nat (List.length A) <= base + 1 -> lookup x A = Some a -> Z.of_nat a <= base.
Proof. intros A base x a W L H. destruct (wfEnv_lookup _ _ _ W H). lia. Qed.

Lemma genDefine_ok : forall x e g code g' code',
  genStmt F (SDefine x e) g code = Ok (g', code') -> segOk g code g' code' (execStmt (SDefine x e)).
Proof.
  intros x e g code g' code' E Hc W. cbn in E.
  destruct (genExpr F e g code) as [[g1 code1]| |] eqn:E1; cbn in E; try discriminate.
  destruct (genExpr_ok _ _ _ _ _ E1) as (Hv & Ho & Hi & Hcur & Hm & Hcm & seg & -> & H).
  unfold addressOf, ofOption in E.
  destruct (lookup x (gcEnv F (addLocalVariable F x g1))) as [a|] eqn:Ea; cbn in E; try discriminate.
  injection E as <- <-. cbn [freeStack gcEnv gcOrders gcInitial gcCurrent gcMax].
  set (g2 := addLocalVariable F x g1) in *.
  assert (G2 : gcCurrent F g2 = gcCurrent F g1 /\ gcMax F g2 = gcMax F g1 /\ gcInitial F g2 = gcInitial F g1 /\
               gcOrders F g2 = gcOrders F g1 /\ wfEnv (gcEnv F g2) /\ exists ext, gcEnv F g2 = gcEnv F g1 ++ ext).
  { unfold g2, addLocalVariable. rewrite <- Hv in W. destruct (lookup x (gcEnv F g1)); cbn; repeat split; auto.
    - exists []. now rewrite app_nil_r.
    - now apply wfEnv_snoc.
    - eauto. }
  destruct G2 as (Gc & Gm & Gi & Go & GW & ext & Gx).
  repeat split; auto; try lia; try congruence.
  { exists ext. congruence. }
  { exists []. rewrite app_nil_r. congruence. }
  exists (seg ++ [STOREA F a]). split; [now rewrite app_assoc|].
  intros A AX O OX pre tail base rho st Hl HA WA HL HO Hr Hh Hp Hsp Hn.
  assert (Hbound : forall y b, lookup y A = Some b -> Z.of_nat b <= base) by (intros; eapply env_bound; eassumption).
  assert (HxA : lookup x A = Some a) by (rewrite HA; now apply lookup_app).
  specialize (H A pre ([STOREA F a] ++ tail) base rho st Hl
    ltac:(intros y b Hy; rewrite HA, Gx, Hv, <- app_assoc; now apply lookup_app) Hbound Hr Hh Hp
    ltac:(specialize (Hbound _ _ HxA); lia) ltac:(rewrite Hc; lia) ltac:(lia)).
  rewrite !app_length, <- !app_assoc. cbn [List.length execStmt].
  destruct (evalM rho e) as [v|e0|]; cbn [bind];
    [|destruct H as [-> H]; split; auto; eapply after_weaken; [|exact H]; lia|exact H].
  destruct H as (stk & Hst & Hlen & Hlow & Htop).
  assert (Hstep := after_step (pre ++ seg ++ [STOREA F a] ++ tail)
     (Vm F (List.length pre + List.length seg) (vmSp F st + 1) false stk (vmOut F st)) (STOREA F a) eq_refl).
  cbn [vmPc] in Hstep.
  assert (Hnth : nth_error (pre ++ seg ++ [STOREA F a] ++ tail) (List.length pre + List.length seg) = Some (STOREA F a)).
  { rewrite app_assoc, <- app_length. cbn [app]. apply nth_error_mid. }
  specialize (Hstep Hnth). cbn [executeInstruction] in Hstep.
  specialize (Hbound _ _ HxA) as Hab.
  rewrite (stackAt_nth _ _ v) in Hstep; [|cbn; lia|exact Htop]. cbn [bind] in Hstep.
  rewrite store_ok in Hstep by (cbn; lia). cbn in Hstep. rewrite Nat2Z.id in Hstep.
  exists (setNth a v stk), []. rewrite app_nil_r. repeat split.
  - replace (List.length pre + (List.length seg + 1))%nat with (S (List.length pre + List.length seg)) by lia.
    rewrite <- Hsp. replace (vmSp F st + 1 - 1) with (vmSp F st) in Hstep by lia.
    eapply after_trans; eassumption.
  - now rewrite setNth_length.
  - apply rel_set; auto; [|lia]. apply rel_below with (stk := vmStack F st) (base := base) (sp := vmSp F st);
      [exact Hr| |lia|exact Hlow].
    intros y b Hy. eapply env_bound; eassumption.
Qed.

Lemma genOrder_ok : forall o g code g' code',
  genStmt F (SOrder o) g code = Ok (g', code') -> segOk g code g' code' (execStmt (SOrder o)).
Proof.
  intros o g code g' code' E Hc W. cbn in E. injection E as <- <-.
  cbn [addOrder gcEnv gcOrders gcInitial gcCurrent gcMax].
  repeat split; auto.
  { exists []. now rewrite app_nil_r. }
  { eauto. }
  rewrite app_length. cbn [List.length]. replace (List.length (gcOrders F g) + 1 - 1)%nat with (List.length (gcOrders F g)) by lia.
  exists [OUTPUTC F (List.length (gcOrders F g))]. split; [reflexivity|].
  intros A AX O OX pre tail base rho st Hl HA WA HL HO Hr Hh Hp Hsp Hn. cbn [execStmt].
  exists (vmStack F st), [List.length (gcOrders F g)]. repeat split; auto.
  - assert (Hstep := after_step (pre ++ [OUTPUTC F (List.length (gcOrders F g))] ++ tail) st
       (OUTPUTC F (List.length (gcOrders F g))) Hh).
    rewrite Hp in Hstep. specialize (Hstep ltac:(cbn [app]; apply nth_error_mid)).
    unfold executeInstruction, setOut, setPc in Hstep. cbn [vmPc vmSp vmHalt vmStack vmOut] in Hstep.
    cbn [List.length]. rewrite Nat.add_1_r. rewrite Hh, Hsp in Hstep. exact Hstep.
  - rewrite HO, <- app_assoc. cbn [map app]. now rewrite nth_error_mid.
Qed.

Lemma genIf_ok : forall c body,
  (forall g code g' code', genStmts F body g code = Ok (g', code') -> segOk g code g' code' (execM body)) ->
  forall g code g' code', genStmt F (SIf c body) g code = Ok (g', code') ->
  segOk g code g' code' (execStmt (SIf c body)).
Proof.
  intros c body IH g code g' code' E Hc W. rewrite genStmt_if in E.
  destruct (genExpr F c g code) as [[g1 code1]| |] eqn:E1; cbn [bind] in E; try discriminate.
  destruct (genStmts F body (freeStack F 1 g1) (code1 ++ [JUMPZERO F 0])) as [[g3 code3]| |] eqn:E2;
    cbn [bind] in E; try discriminate.
  destruct (genExpr_ok _ _ _ _ _ E1) as (Hv & Ho & Hi & Hcur & Hm & Hcm & seg & -> & H).
  destruct (IH _ _ _ _ E2) as (Hc3 & W3 & Hm3 & Hi3 & (ext & Hx) & (oext & Hox) & segb & -> & S);
    [cbn; lia|cbn; congruence|].
  clear IH E1 E2. cbn [freeStack gcEnv gcOrders gcInitial gcCurrent gcMax] in *.
  injection E as <- <-.
  repeat split; auto; try lia; try congruence.
  { exists ext. congruence. }
  { exists oext. congruence. }
  set (target := List.length (((code ++ seg) ++ [JUMPZERO F 0]) ++ segb)).
  exists (seg ++ [JUMPZERO F target] ++ segb). split.
  { replace (List.length ((code ++ seg) ++ [JUMPZERO F 0]) - 1)%nat with (List.length (code ++ seg))
      by (rewrite (app_length (code ++ seg)); cbn; lia).
    rewrite <- (app_assoc (code ++ seg)). cbn [app]. rewrite patch_mid. now rewrite <- app_assoc. }
  intros A AX O OX pre tail base rho st Hl HA WA HL HO Hr Hh Hp Hsp Hn.
  assert (Hbound : forall y b, lookup y A = Some b -> Z.of_nat b <= base) by (intros; eapply env_bound; eassumption).
  specialize (H A pre (([JUMPZERO F target] ++ segb) ++ tail) base rho st Hl
    ltac:(intros y b Hy; rewrite HA, Hx, Hv, <- app_assoc; now apply lookup_app) Hbound Hr Hh Hp
    ltac:(lia) ltac:(rewrite Hc; lia) ltac:(lia)).
  rewrite execStmt_if.
  rewrite !app_length. cbn [List.length].
  replace (pre ++ (seg ++ [JUMPZERO F target] ++ segb) ++ tail)
    with (pre ++ seg ++ ([JUMPZERO F target] ++ segb) ++ tail) by now rewrite <- !app_assoc.
  destruct (evalM rho c) as [v|e0|]; cbn [bind];
    [|destruct H as [-> H]; split; auto; eapply after_weaken; [|exact H]; lia|exact H].
  destruct H as (stk & Hst & Hlen & Hlow & Htop).
  set (full := pre ++ seg ++ ([JUMPZERO F target] ++ segb) ++ tail) in *.
  assert (Hstep := after_step full
     (Vm F (List.length pre + List.length seg) (vmSp F st + 1) false stk (vmOut F st)) (JUMPZERO F target) eq_refl).
  cbn [vmPc] in Hstep.
  assert (Hnth : nth_error full (List.length pre + List.length seg) = Some (JUMPZERO F target)).
  { unfold full. rewrite app_assoc, <- app_length. cbn [app]. apply nth_error_mid. }
  specialize (Hstep Hnth). cbn [executeInstruction] in Hstep.
  rewrite (stackAt_nth _ _ v) in Hstep; [|cbn; lia|exact Htop]. cbn [bind] in Hstep.
  assert (Hr1 : rel A rho stk) by (eapply rel_below; [exact Hr|exact Hbound|apply Z.le_refl|rewrite <- Hsp; exact Hlow]).
  assert (Htarget : target = (List.length pre + (List.length seg + (1 + List.length segb)))%nat).
  { unfold target. rewrite !app_length. cbn. lia. }
  destruct (getBool_cases v) as [(bb & -> & Eb)|Eb]; rewrite Eb in *; cbn [bind] in *.
  - destruct bb.
    + unfold setSp, setPc in Hstep. cbn [vmPc vmSp vmHalt vmStack vmOut] in Hstep.
      replace (vmSp F st + 1 - 1) with base in Hstep by lia.
      specialize (S A AX O OX (pre ++ seg ++ [JUMPZERO F target]) tail base rho
        (Vm F (Datatypes.S (List.length pre + List.length seg)) base false stk (vmOut F st))
        ltac:(rewrite !app_length; cbn; lia) HA WA HL HO Hr1 eq_refl
        ltac:(rewrite !app_length; cbn; lia) eq_refl ltac:(cbn; lia)).
      cbn [vmStack vmOut] in S.
      replace ((pre ++ seg ++ [JUMPZERO F target]) ++ segb ++ tail) with full in S
        by (unfold full; now rewrite <- !app_assoc).
      rewrite !app_length in S. cbn [List.length] in S.
      destruct (execM body rho) as [[rho' os]|e|]; [| |exact S].
      * destruct S as (stk2 & outs & Hst2 & Hlen2 & Hr2 & Hout). exists stk2, outs. repeat split; auto; try lia.
        replace (List.length pre + (List.length seg + (1 + List.length segb)))%nat
          with (List.length pre + (List.length seg + 1) + List.length segb)%nat by lia.
        eapply after_trans; [exact Hst|]. eapply after_trans; [exact Hstep|]. exact Hst2.
      * destruct S as [-> S]. split; auto.
        eapply after_trans; [exact Hst|]. eapply after_trans; [exact Hstep|]. exact S.
    + unfold setSp, setPc in Hstep. cbn [vmPc vmSp vmHalt vmStack vmOut] in Hstep.
      replace (vmSp F st + 1 - 1) with base in Hstep by lia. rewrite Htarget in Hstep.
      exists stk, []. rewrite app_nil_r. repeat split; auto.
      eapply after_weaken; [|eapply after_trans; [exact Hst|exact Hstep]]. lia.
  - split; [reflexivity|]. eapply after_weaken; [|eapply after_trans; [exact Hst|exact Hstep]]. lia.
Qed.

Lemma genStmt_ok : forall s g code g' code',
  genStmt F s g code = Ok (g', code') -> segOk g code g' code' (execStmt s).
Proof.
  induction s as [x vs|x e|c body IH|o] using stmt_ind'; intros g code g' code' E.
  - cbn in E. injection E as <- <-. apply segOk_nil.
  - now apply genDefine_ok.
  - apply genIf_ok; [|exact E].
    clear E g code g' code'. induction IH as [|s l H _ IHl]; intros g code g' code' E; cbn in E.
    + injection E as <- <-. apply segOk_nil.
    + destruct (genStmt F s g code) as [[g1 code1]| |] eqn:E1; cbn in E; try discriminate.
      cbn [execM]. eapply segOk_app; eauto.
  - now apply genOrder_ok.
Qed.

Lemma genStmts_ok : forall l g code g' code',
  genStmts F l g code = Ok (g', code') -> segOk g code g' code' (execM l).
Proof.
  induction l as [|s l IH]; intros g code g' code' E; cbn in E.
  - injection E as <- <-. apply segOk_nil.
  - destruct (genStmt F s g code) as [[g1 code1]| |] eqn:E1; cbn in E; try discriminate.
    cbn [execM]. eapply segOk_app; eauto using genStmt_ok.
Qed.

End Proofs.
