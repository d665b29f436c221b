(** * Rule programs: an example, and the cases in which the strategy departs from the documented meaning *)

From Coq Require Import ZArith List Bool String Lia.
From Verif.Rules Require Import RuleModel RuleSpec RuleProofs RuleTheorem RuleTuning.
Import ListNotations.
Open Scope Z_scope.
Open Scope string_scope.

(** Enumerators used below. *)
Definition soa {F} : cell F := VOption KDataLayout 1.
Definition aos {F} : cell F := VOption KDataLayout 0.

(** ** A program of the kind that the documentation shows *)

Definition soaOrder {F} : pstmt F :=
  POrder [(PContainer, PValList "LinkedCellsContainer"); (PDataLayout, PValLit aos)]
         [(PContainer, PValList "LinkedCellsContainer"); (PDataLayout, PValLit soa)] [PTraversal].

Definition exampleRules {F} : list (pstmt F) :=
  [ PDefineList "LinkedCellsContainer" [VOption KContainer 1; VOption KContainer 2];
    PDefine "threshold" (PLit (VSize 500));
    PIf (PBin OAnd (PBin OLess (PVar "numParticles") (PVar "threshold")) (PNot (PBin OGreater (PVar "numEmptyCells") (PVar "numParticles"))))
        [ PDefine "few" (PLit (VBool true)); soaOrder ];
    PIf (PBin OGreater (PVar "numParticles") (PVar "threshold")) [ soaOrder; soaOrder ] ].

Definition exampleInfo {F} : list (string * cell F) := [("numEmptyCells", VSize 10); ("numParticles", VSize 300)].

Definition lcValues {F} : list (cell F) := [VOption KContainer 1; VOption KContainer 2].

Definition exampleOrder {F} : sorder F :=
  SOrd [(PContainer, lcValues); (PDataLayout, [aos])] [(PContainer, lcValues); (PDataLayout, [soa])] [PTraversal].

Lemma example_typed : forall F, wellTyped F exampleInfo exampleRules.
Proof.
  intros F. unfold wellTyped, exampleRules.
  apply TpList. eapply TpDefine; [apply (TyLit F _ (VSize 500))|discriminate|].
  eapply TpIf; [| |eapply TpIf; [| |apply TpNil]].
  - apply TyBool; [auto| |].
    + eapply TyCmpNum; [auto|apply TyVar; reflexivity|apply TyVar; reflexivity|constructor|constructor].
    + apply TyNot. eapply TyCmpNum; [auto|apply TyVar; reflexivity|apply TyVar; reflexivity|constructor|constructor].
  - eapply TpDefine; [apply (TyLit F _ (VBool true))|intros u E; discriminate E|].
    eapply TpOrder; [| |apply TpNil]; repeat (econstructor; try reflexivity).
  - eapply TyCmpNum; [auto|apply TyVar; reflexivity|apply TyVar; reflexivity|constructor|constructor].
  - eapply TpOrder; [| |eapply TpOrder; [| |apply TpNil]]; repeat (econstructor; try reflexivity).
Qed.

Lemma example_noParens : forall F, noParens F exampleRules.
Proof. intros F. unfold noParens, exampleRules, soaOrder. repeat constructor. Qed.

Lemma example_applies : forall F, applies F exampleInfo exampleRules [exampleOrder].
Proof.
  intros F. eexists. unfold exampleRules.
  apply RunList. eapply RunDefine; [apply EvLit|].
  change [exampleOrder] with ([@exampleOrder F] ++ [])%list.
  eapply RunIfTrue.
  - change true with (true && negb false). eapply EvBin; [|apply EvNot|apply ApAnd].
    + eapply EvBin; [apply EvVar; reflexivity|apply EvVar; reflexivity|]. apply (ApLessSize F 300 500).
    + eapply EvBin; [apply EvVar; reflexivity|apply EvVar; reflexivity|]. apply ApGreater. apply (ApLessSize F 300 10).
  - eapply RunDefine; [apply EvLit|]. eapply RunOrder; [| |apply RunNil]; repeat (econstructor; try reflexivity).
  - eapply RunIfFalse; [|apply RunNil].
    eapply EvBin; [apply EvVar; reflexivity|apply EvVar; reflexivity|]. apply ApGreater. apply (ApLessSize F 500 300).
Qed.

Lemma example_fits : forall F, Forall (fun o => patternFits F (worse o)) [exampleOrder].
Proof.
  intros F. repeat constructor; cbn in H; destruct H as [H|[H|[]]]; injection H as <- <-; try discriminate;
    intros v Hv; cbn in Hv; repeat (destruct Hv as [<-|Hv]; [exact I|]); destruct Hv.
Qed.

Lemma example_nodup : forall F, NoDup (map fst (@exampleInfo F)).
Proof. intros F. cbn. repeat constructor; cbn; intuition discriminate. Qed.

(** ** Parentheses *)

Definition simpleOrder {F} : pstmt F := POrder [(PDataLayout, PValLit aos)] [(PDataLayout, PValLit soa)] [].
Definition simpleMeaning {F} : sorder F := SOrd [(PDataLayout, [aos])] [(PDataLayout, [soa])] [].

Definition parenRules {F} : list (pstmt F) := [PDefine "on" (PParen (PLit (VBool true))); PIf (PVar "on") [simpleOrder]].

Lemma paren_refuted : forall F, exists info prog os, NoDup (map fst info) /\ wellScoped F info prog /\
  applies F info prog os /\ os <> [] /\ forall fuel, applicableOrders F fuel prog info = UB.
Proof.
  intros F. exists [], parenRules, [simpleMeaning]. split; [constructor|]. split; [|split; [|split; [discriminate|reflexivity]]].
  - unfold wellScoped, parenRules. apply ScDefine; [exact I|]. apply ScIf; [cbn; auto| |apply ScNil].
    eapply ScOrder; [| |apply ScNil]; repeat (econstructor; try reflexivity).
  - eexists. eapply RunDefine; [apply EvParen, EvLit|].
    change [simpleMeaning] with ([@simpleMeaning F] ++ [])%list.
    eapply RunIfTrue; [apply EvVar; reflexivity| |apply RunNil].
    eapply RunOrder; [| |apply RunNil]; repeat (econstructor; try reflexivity).
Qed.

(** ** A variable that was never given a value *)

Definition skipRules {F} : list (pstmt F) :=
  [ PIf (PLit (VBool false)) [PDefine "x" (PLit (VBool true))];
    PIf (PNot (PVar "x")) [simpleOrder] ].

Lemma skipped_refuted : forall F, exists info prog, NoDup (map fst info) /\ noParens F prog /\ wellScoped F info prog /\
  ~ (exists os, applies F info prog os) /\
  exists n o, forall fuel, (n <= fuel)%nat -> applicableOrders F fuel prog info = Ok [o].
Proof.
  intros F. exists [], skipRules. split; [constructor|]. split; [unfold noParens, skipRules; repeat constructor|].
  split; [|split].
  - unfold wellScoped, skipRules. apply ScIf; [exact I| |].
    + apply ScDefine; [exact I|apply ScNil].
    + apply ScIf; [cbn; auto| |apply ScNil].
      eapply ScOrder; [| |apply ScNil]; repeat (econstructor; try reflexivity).
  - intros (os & rho' & H). unfold skipRules in H. inversion H; subst;
      match goal with H : evals _ _ (PLit _) _ |- _ => inversion H; subst end.
    match goal with H : runs _ _ _ (PIf (PNot _) _ :: _) _ _ |- _ => inversion H; subst end;
      match goal with H : evals _ _ (PNot _) _ |- _ => inversion H; subst end;
      match goal with H : evals _ _ (PVar _) _ |- _ => inversion H; subst end;
      match goal with H : infoEnv _ _ _ = Some _ |- _ => discriminate H end.
  - exists 9%nat, (orderOf F simpleMeaning). intros fuel Hf. destruct (Nat.le_exists_sub _ _ Hf) as (m & -> & _).
    rewrite Nat.add_comm. reflexivity.
Qed.

(** ** An order removes configurations that it does not compare with any other *)

Definition sameRules {F} : list (pstmt F) :=
  [POrder [(PDataLayout, PValLit soa)] [(PDataLayout, PValLit aos)] [PTraversal]].

Definition aosConfig {F} : config F := Config F 1 7 0 0 0 (dZero F).
Definition soaConfig {F} : config F := Config F 1 8 0 1 0 (dZero F).

Lemma same_refuted : forall F cLt, exists info prog os s queue c n,
  NoDup (map fst info) /\ noParens F prog /\ wellScoped F info prog /\ applies F info prog os /\
  Forall (fun o => patternFits F (worse o)) os /\ In c queue /\
  (forall o c', In o os -> In c' queue -> ~ statesBetter F o c' c) /\
  forall fuel, (n <= fuel)%nat -> exists s' queue', resetStrategy F cLt fuel prog info s queue = Ok (s', queue') /\ ~ In c queue'.
Proof.
  intros F cLt.
  exists [], sameRules, [SOrd [(PDataLayout, [soa])] [(PDataLayout, [aos])] [PTraversal]], (Strategy F false 0 false [] []),
    [aosConfig; soaConfig], aosConfig, 4%nat.
  split; [constructor|]. split; [repeat constructor|]. split; [|split; [|split; [|split; [now left|split]]]].
  - unfold wellScoped, sameRules. eapply ScOrder; [| |apply ScNil]; repeat (econstructor; try reflexivity).
  - eexists. eapply RunOrder; [| |apply RunNil]; repeat (econstructor; try reflexivity).
  - repeat constructor; cbn in H; destruct H as [H|[]]; injection H as <- <-; try discriminate.
    intros v [<-|[]]. exact I.
  - intros o c' [<-|[]] [<-|[<-|[]]] (Hb & Hw & Hs).
    + destruct (Hb PDataLayout (or_introl eq_refl)) as (vs & v & [H|[]] & Hv & Hval). injection H as <-.
      destruct Hv as [<-|[]]. discriminate Hval.
    + specialize (Hs PTraversal (or_introl eq_refl)). discriminate Hs.
  - intros fuel Hf. destruct (Nat.le_exists_sub _ _ Hf) as (m & -> & _). rewrite Nat.add_comm.
    eexists _, _. split; [reflexivity|]. intros [H|[]]. discriminate H.
Qed.

(** ** A cell size factor without decimal point *)

Definition csfRules {F} : list (pstmt F) :=
  [POrder [(PDataLayout, PValLit soa)] [(PDataLayout, PValLit aos); (PCellSizeFactor, PValLit (VSize 2))] []].

Lemma csf_refuted : forall F cLt d, dLt F d (dOfSize F 2) = true -> exists info prog os s queue c n,
  NoDup (map fst info) /\ noParens F prog /\ wellScoped F info prog /\ applies F info prog os /\
  In c queue /\ ~ declaredWorse F os c /\
  forall fuel, (n <= fuel)%nat -> exists s' queue', resetStrategy F cLt fuel prog info s queue = Ok (s', queue') /\ ~ In c queue'.
Proof.
  intros F cLt d Hd.
  exists [], csfRules, [SOrd [(PDataLayout, [soa])] [(PDataLayout, [aos]); (PCellSizeFactor, [VSize 2])] []],
    (Strategy F false 0 false [] []), [Config F 1 7 0 0 0 d; soaConfig], (Config F 1 7 0 0 0 d), 4%nat.
  split; [constructor|]. split; [repeat constructor|]. split; [|split; [|split; [now left|split]]].
  - unfold wellScoped, csfRules. eapply ScOrder; [| |apply ScNil]; repeat (econstructor; try reflexivity).
  - eexists. eapply RunOrder; [| |apply RunNil]; repeat (econstructor; try reflexivity).
  - intros (o & [<-|[]] & H). cbn in H.
    destruct (H PCellSizeFactor ltac:(cbn; auto)) as (vs & v & [Hv|[Hv|[]]] & Hin & Hval); try discriminate Hv.
    injection Hv as <-. destruct Hin as [<-|[]]. cbn in Hval. destruct Hval as [Hval _]. congruence.
  - intros fuel Hf. destruct (Nat.le_exists_sub _ _ Hf) as (m & -> & _). rewrite Nat.add_comm.
    eexists _, _. split; [reflexivity|]. intros [H|[]]. discriminate H.
Qed.

(** ** Configurations are totally ordered: an instance of the hypotheses on the order *)

Definition intDoubles : doubles := Doubles Z Z.add Z.sub Z.mul Z.div Z.ltb Z.eqb 0%Z 0%Z (fun z => z).

(** std::tie compares the components one after the other (Configuration.cpp:116-120). *)
Fixpoint lexLt (a b : list Z) : bool :=
  match a, b with
  | x :: a', y :: b' => (x <? y)%Z || ((x =? y)%Z && lexLt a' b')
  | _, _ => false
  end.

Definition key (c : config intDoubles) : list Z :=
  [Z.of_nat (cContainer _ c); (cCellSizeFactor _ c : Z); Z.of_nat (cTraversal _ c); Z.of_nat (cLoadEstimator _ c);
   Z.of_nat (cDataLayout _ c); Z.of_nat (cNewton3 _ c)].

Definition intLt (a b : config intDoubles) : bool := lexLt (key a) (key b).

Lemma lexLt_irrefl : forall a, lexLt a a = false.
Proof. induction a as [|x a IH]; cbn; auto. rewrite Z.ltb_irrefl, Z.eqb_refl. exact IH. Qed.

Lemma lexLt_trans : forall a b c, lexLt a b = true -> lexLt b c = true -> lexLt a c = true.
Proof.
  induction a as [|x a IH]; intros [|y b] [|z c]; cbn; try discriminate; auto.
  rewrite !orb_true_iff, !andb_true_iff, !Z.ltb_lt, !Z.eqb_eq.
  intros [H|[-> H]] [H'|[-> H']]; auto; try (left; lia). right. eauto.
Qed.

Lemma lexLt_total : forall a b, List.length a = List.length b -> lexLt a b = false -> lexLt b a = false -> a = b.
Proof.
  induction a as [|x a IH]; intros [|y b] L; cbn in *; try discriminate; auto.
  rewrite !orb_false_iff, !andb_false_iff, !Z.ltb_ge, !Z.eqb_neq.
  intros [H1 H2] [H3 H4]. assert (x = y) by lia. subst. f_equal. apply IH; [congruence| |]; tauto.
Qed.

Lemma intLt_total : forall a b, intLt a b = false -> intLt b a = false -> a = b.
Proof.
  intros a b H1 H2. assert (E := lexLt_total (key a) (key b) eq_refl H1 H2).
  destruct a as [a1 a2 a3 a4 a5 a6], b as [b1 b2 b3 b4 b5 b6]. unfold key in E. cbn in E.
  injection E as E1 E2 E3 E4 E5 E6. apply Nat2Z.inj in E1, E3, E4, E5, E6. congruence.
Qed.
