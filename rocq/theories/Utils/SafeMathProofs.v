From Coq Require Import ZArith Reals Bool Lia Lra.
From Flocq Require Import Core BinarySingleNaN.
From Verif.Utils Require Import SafeMathModel SafeMathSpec.
Local Open Scope Z_scope.

Section I.
  Variable T : IntType.
  Hypothesis H0 : tmin T <= 0 <= tmax T.
  Lemma fits_spec z : fits T z = true <-> inType T z.
  Proof. unfold fits, inType. rewrite andb_true_iff, !Z.leb_le. tauto. Qed.
  Lemma add_saturates a b under over : inType T a -> inType T b -> saturates T (a + b) under over (safeAdd T a b under over).
  Proof.
    intros A B. unfold saturates, safeAdd. destruct (fits T (a + b)) eqn:E; [apply fits_spec in E; unfold inType in *; lia|].
    assert (N : ~ inType T (a + b)) by (rewrite <- fits_spec; congruence). unfold inType in *.
    destruct (a <? 0) eqn:C, (b <? 0) eqn:D; cbn; rewrite ?Z.ltb_lt, ?Z.ltb_ge in *; repeat split; intros; lia.
  Qed.
  Lemma sub_saturates a b under over : inType T a -> inType T b -> saturates T (a - b) under over (safeSub T a b under over).
  Proof.
    intros A B. unfold saturates, safeSub. destruct (fits T (a - b)) eqn:E; [apply fits_spec in E; unfold inType in *; lia|].
    assert (N : ~ inType T (a - b)) by (rewrite <- fits_spec; congruence). unfold inType in *.
    destruct (0 <? b) eqn:D; rewrite ?Z.ltb_lt, ?Z.ltb_ge in *; repeat split; intros; lia.
  Qed.
  Lemma mul_saturates a b under over : inType T a -> inType T b -> saturates T (a * b) under over (safeMul T a b under over).
  Proof.
    intros A B. unfold saturates, safeMul. destruct (fits T (a * b)) eqn:E; [apply fits_spec in E; unfold inType in *; lia|].
    assert (N : ~ inType T (a * b)) by (rewrite <- fits_spec; congruence). unfold inType in *.
    destruct (a <? 0) eqn:C, (b <? 0) eqn:D; cbn; rewrite ?Z.ltb_lt, ?Z.ltb_ge in *.
    - assert (0 < a * b) by nia. repeat split; intros; lia.
    - assert (a * b <= 0) by nia. repeat split; intros; lia.
    - assert (a * b <= 0) by nia. repeat split; intros; lia.
    - assert (0 <= a * b) by nia. repeat split; intros; lia.
  Qed.
End I.
Lemma signed_zero bits : 1 <= bits -> tmin (signedInt bits) <= 0 <= tmax (signedInt bits).
Proof. intros H. cbn [signedInt tmin tmax]. pose proof (Z.pow_pos_nonneg 2 (bits - 1) ltac:(lia) ltac:(lia)). lia. Qed.
Lemma unsigned_zero bits : 0 <= bits -> tmin (unsignedInt bits) <= 0 <= tmax (unsignedInt bits).
Proof. intros H. cbn [unsignedInt tmin tmax]. pose proof (Z.pow_pos_nonneg 2 bits ltac:(lia) ltac:(lia)). lia. Qed.

Lemma powLoop_spec n base : forall res, powLoop n base res = res * base ^ Z.of_nat n.
Proof. induction n as [|n IH]; intros res; [cbn; lia|]. cbn [powLoop]. rewrite IH, Nat2Z.inj_succ, Z.pow_succ_r by lia. ring. Qed.
Lemma pow_spec n base : pow n base = base ^ Z.of_nat n.
Proof. destruct n as [|n]; [reflexivity|]. cbn [pow]. rewrite powLoop_spec, Nat2Z.inj_succ, Z.pow_succ_r by lia. ring. Qed.

(** * Doubles *)
Lemma overflow_inf s (r : double) : B2SF r = binary_overflow 53 1024 mode_NE s -> r = B754_infinity s.
Proof. intros H. apply B2SF_inj. rewrite H. reflexivity. Qed.
Lemma sign_B2R (x : double) : is_finite x = true -> (Bsign x = false -> 0 <= B2R x)%R /\ (Bsign x = true -> B2R x <= 0)%R.
Proof.
  destruct x as [s|s| |s m e H]; cbn; intros F; try discriminate; split; intros; try lra; subst.
  - apply F2R_ge_0. cbn. lia.
  - apply F2R_le_0. cbn. lia.
Qed.
Lemma finite_clamp under over r : is_finite r = true -> clampInf under over r = r.
Proof. destruct r; cbn; try reflexivity; discriminate. Qed.

Section D.
  Local Open Scope R_scope.
  Let fe := SpecFloat.fexp 53 1024.
  Let rn := round radix2 fe ZnearestE.
  Instance ve : Valid_exp fe := @fexp_correct 53 1024 dprec.
  Lemma rn_sign x : (0 <= x -> 0 <= rn x) /\ (x <= 0 -> rn x <= 0).
  Proof.
    unfold rn. split; intros H; rewrite <- (round_0 radix2 fe ZnearestE); apply round_le; auto with typeclass_instances.
  Qed.
  Lemma finish exact s (r under over : double) :
    (if Rlt_bool (Rabs (rn exact)) (bpow radix2 1024) then B2R r = rn exact /\ is_finite r = true else r = B754_infinity s /\ ((s = false -> 0 <= exact) /\ (s = true -> exact <= 0))) ->
    saturatesDouble exact under over (clampInf under over r).
  Proof.
    unfold saturatesDouble. fold fe. fold (rn exact). pose proof (bpow_gt_0 radix2 1024) as P. pose proof (rn_sign exact) as [S1 S2].
    destruct (Rlt_bool_spec (Rabs (rn exact)) (bpow radix2 1024)) as [L|L].
    - intros [E F]. rewrite (finite_clamp _ _ r F). split; [intros _; split; [exact F|exact E]|]. apply Rabs_lt_inv in L. split; intros; lra.
    - intros [-> [A B]]. split; [intros; lra|]. cbn [clampInf isInf positive]. destruct s; cbn [negb].
      + specialize (B eq_refl). specialize (S2 B). split; [intros; lra|reflexivity].
      + specialize (A eq_refl). specialize (S1 A). split; [reflexivity|intros; lra].
  Qed.
  Lemma fAdd_saturates a b under over : is_finite a = true -> is_finite b = true -> saturatesDouble (B2R a + B2R b) under over (fAdd a b under over).
  Proof.
    intros A B. unfold fAdd. apply (finish _ (Bsign a)). pose proof (@Bplus_correct 53 1024 dprec dmax mode_NE a b A B) as C. cbn [round_mode] in C. fold fe in C. fold (rn (B2R a + B2R b)) in C.
    destruct (Rlt_bool _ _); [destruct C as (C1 & C2 & _); auto|]. destruct C as [C E]. split; [now apply overflow_inf|].
    pose proof (sign_B2R a A) as [A1 A2]. pose proof (sign_B2R b B) as [B1 B2]. rewrite <- E in *. split; intros S; [specialize (A1 S); specialize (B1 S)|specialize (A2 S); specialize (B2 S)]; lra.
  Qed.
  Lemma fSub_saturates a b under over : is_finite a = true -> is_finite b = true -> saturatesDouble (B2R a - B2R b) under over (fSub a b under over).
  Proof.
    intros A B. unfold fSub. apply (finish _ (Bsign a)). pose proof (@Bminus_correct 53 1024 dprec dmax mode_NE a b A B) as C. cbn [round_mode] in C. fold fe in C. fold (rn (B2R a - B2R b)) in C.
    destruct (Rlt_bool _ _); [destruct C as (C1 & C2 & _); auto|]. destruct C as [C E]. split; [now apply overflow_inf|].
    pose proof (sign_B2R a A) as [A1 A2]. pose proof (sign_B2R b B) as [B1 B2].
    destruct (Bsign a), (Bsign b); cbn in E; try discriminate; split; intros S; try discriminate;
      [specialize (A2 eq_refl); specialize (B1 eq_refl)|specialize (A1 eq_refl); specialize (B2 eq_refl)]; lra.
  Qed.
  Lemma fMul_saturates a b under over : is_finite a = true -> is_finite b = true -> saturatesDouble (B2R a * B2R b) under over (fMul a b under over).
  Proof.
    intros A B. unfold fMul. apply (finish _ (xorb (Bsign a) (Bsign b))). pose proof (@Bmult_correct 53 1024 dprec dmax mode_NE a b) as C. cbn [round_mode] in C. fold fe in C. fold (rn (B2R a * B2R b)) in C.
    destruct (Rlt_bool _ _); [destruct C as (C1 & C2 & _); rewrite A, B in C2; auto|]. split; [now apply overflow_inf|].
    pose proof (sign_B2R a A) as [A1 A2]. pose proof (sign_B2R b B) as [B1 B2].
    destruct (Bsign a), (Bsign b); cbn; split; intros S; try discriminate.
    - specialize (A2 eq_refl). specialize (B2 eq_refl). nra.
    - specialize (A2 eq_refl). specialize (B1 eq_refl). nra.
    - specialize (A1 eq_refl). specialize (B2 eq_refl). nra.
    - specialize (A1 eq_refl). specialize (B1 eq_refl). now apply Rmult_le_pos.
  Qed.
End D.
