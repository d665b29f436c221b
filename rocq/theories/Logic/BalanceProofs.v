From Coq Require Import List Arith Bool Lia Permutation.
From Verif.Logic Require Import BalanceModel.
Import ListNotations.

Section Balance.
Context {A : Type}.
Variables target remainder : nat.
Notation T := (targetSize target remainder).

Definition missing (i : nat) (vecs : list (list A)) : nat :=
  list_sum (map (fun k => T (i + k) - length (nth k vecs [])) (seq 0 (length vecs))).

Definition fits (i : nat) (vecs : list (list A)) := forall k, k < length vecs -> length (nth k vecs []) <= T (i + k).

Lemma missing_cons i v r : missing i (v :: r) = T i - length v + missing (S i) r.
Proof.
  unfold missing. cbn [length seq map list_sum fold_right nth]. rewrite Nat.add_0_r. unfold list_sum. cbn [map fold_right nth]. f_equal.
  rewrite <- seq_shift, map_map. apply f_equal. apply map_ext. intros k. cbn [nth]. f_equal. f_equal. lia.
Qed.

Lemma fits_cons i v r : fits i (v :: r) <-> length v <= T i /\ fits (S i) r.
Proof.
  unfold fits. split.
  - intros H. split.
    + specialize (H 0). cbn in H. rewrite Nat.add_0_r in H. apply H. lia.
    + intros k K. specialize (H (S k)). cbn [nth length] in H. replace (S i + k) with (i + S k) by lia. apply H. lia.
  - intros (H & G) [|k] K; cbn [nth].
    + rewrite Nat.add_0_r. exact H.
    + replace (i + S k) with (S i + k) by lia. apply G. cbn in K. lia.
Qed.

Lemma scan_perm first : forall (vecs : list (list A)) i ftf tmp vecs' tmp' ftf', scan target remainder first i ftf vecs tmp = (vecs', tmp', ftf') ->
  Permutation (concat vecs ++ tmp) (concat vecs' ++ tmp') /\ length vecs' = length vecs.
Proof.
  induction vecs as [|v r IH]; intros i ftf tmp vecs' tmp' ftf' H; cbn [scan] in H.
  { injection H as <- <- <-. split; [reflexivity|reflexivity]. }
  match type of H with context [scanStep ?a ?b ?c ?d ?e ?g] => destruct (scanStep a b c d e g) as ((v1, t1), f1) eqn:E end; unfold scanStep in E; cbv zeta in E.
  assert (P : Permutation (v ++ tmp) (v1 ++ t1)).
  { destruct (T i <? length v).
    - injection E as <- <- <-. rewrite <- (firstn_skipn (T i) v) at 1. rewrite <- app_assoc. apply Permutation_app_head, Permutation_app_comm.
    - destruct (length v <? T i); injection E as <- <- <-; [|reflexivity].
      rewrite <- app_assoc. apply Permutation_app_head.
      rewrite <- (firstn_skipn (length tmp - (T i - length v)) tmp) at 1. apply Permutation_app_comm. }
  assert (Q : forall r', Permutation (concat (v :: r') ++ tmp) (v1 ++ concat r' ++ t1)).
  { intros r'. cbn [concat]. rewrite <- app_assoc. rewrite (Permutation_app_comm (concat r') tmp), app_assoc, P, <- app_assoc.
    apply Permutation_app_head, Permutation_app_comm. }
  destruct (negb first && match t1 with [] => true | _ => false end).
  - injection H as <- <- <-. split; [|reflexivity]. rewrite Q. cbn [concat]. rewrite app_assoc. reflexivity.
  - destruct (scan target remainder first (S i) f1 r t1) as ((r2, t2), f2) eqn:S. injection H as <- <- <-.
    destruct (IH _ _ _ _ _ _ S) as (P2 & L). split; [|cbn; lia].
    rewrite Q, P2. cbn [concat]. rewrite app_assoc. reflexivity.
Qed.

Lemma scan_fits first : forall (vecs : list (list A)) i ftf tmp vecs' tmp' ftf', scan target remainder first i ftf vecs tmp = (vecs', tmp', ftf') ->
  first = true \/ fits i vecs -> fits i vecs'.
Proof.
  induction vecs as [|v r IH]; intros i ftf tmp vecs' tmp' ftf' H F; cbn [scan] in H.
  { injection H as <- <- <-. intros k K. cbn in K. lia. }
  match type of H with context [scanStep ?a ?b ?c ?d ?e ?g] => destruct (scanStep a b c d e g) as ((v1, t1), f1) eqn:E end; unfold scanStep in E; cbv zeta in E.
  assert (P : length v1 <= T i).
  { destruct (T i <? length v) eqn:C.
    - injection E as <- <- <-. rewrite firstn_length. lia.
    - apply Nat.ltb_ge in C. destruct (length v <? T i) eqn:D; injection E as <- <- <-; [|exact C].
      rewrite app_length, skipn_length. lia. }
  destruct (negb first && match t1 with [] => true | _ => false end) eqn:N.
  - injection H as <- <- <-. apply fits_cons. split; [exact P|]. destruct F as [->|F]; [discriminate N|]. apply fits_cons in F. apply F.
  - destruct (scan target remainder first (S i) f1 r t1) as ((r2, t2), f2) eqn:S. injection H as <- <- <-.
    apply fits_cons. split; [exact P|]. apply (IH _ _ _ _ _ _ S). destruct F as [F|F]; [left; exact F|right]. apply fits_cons in F. apply F.
Qed.

(** [firstTooFew] never passes a vector that is too short. *)
Lemma scan_ftf_old first : forall (vecs : list (list A)) i ftf tmp vecs' tmp' ftf', scan target remainder first i ftf vecs tmp = (vecs', tmp', ftf') ->
  ftf < i -> ftf' = ftf.
Proof.
  induction vecs as [|v r IH]; intros i ftf tmp vecs' tmp' ftf' H F; cbn [scan] in H.
  { injection H as <- <- <-. reflexivity. }
  match type of H with context [scanStep ?a ?b ?c ?d ?e ?g] => destruct (scanStep a b c d e g) as ((v1, t1), f1) eqn:E end; unfold scanStep in E; cbv zeta in E.
  assert (f1 = ftf).
  { destruct (T i <? length v), (length v <? T i); injection E as <- <- <-; try reflexivity;
      destruct (Nat.eqb_spec ftf i); try reflexivity; lia. }
  subst f1. destruct (negb first && match t1 with [] => true | _ => false end) eqn:N.
  - injection H as <- <- <-. reflexivity.
  - destruct (scan target remainder first (S i) ftf r t1) as ((r2, t2), f2) eqn:S. injection H as <- <- <-.
    apply (IH _ _ _ _ _ _ S). lia.
Qed.

Lemma scan_ftf : forall (vecs : list (list A)) i tmp vecs' tmp' ftf', scan target remainder true i i vecs tmp = (vecs', tmp', ftf') ->
  i <= ftf' <= i + length vecs /\ (forall k, i + k < ftf' -> length (nth k vecs' []) = T (i + k)).
Proof.
  induction vecs as [|v r IH]; intros i tmp vecs' tmp' ftf' H; cbn [scan] in H.
  { injection H as <- <- <-. split; [cbn; lia|]. intros k K. lia. }
  match type of H with context [scanStep ?a ?b ?c ?d ?e ?g] => destruct (scanStep a b c d e g) as ((v1, t1), f1) eqn:E end; unfold scanStep in E; cbv zeta in E.
  cbn [negb andb] in H.
  destruct (scan target remainder true (S i) f1 r t1) as ((r2, t2), f2) eqn:S. injection H as <- <- <-.
  assert (C : (f1 = Datatypes.S i /\ length v1 = T i) \/ f1 = i).
  { rewrite Nat.eqb_refl in E. destruct (T i <? length v) eqn:C.
    - injection E as <- <- <-. apply Nat.ltb_lt in C. left. split; [reflexivity|]. rewrite firstn_length. lia.
    - apply Nat.ltb_ge in C. destruct (length v <? T i) eqn:D; injection E as <- <- <-; [right; reflexivity|]. apply Nat.ltb_ge in D. left. split; [reflexivity|lia]. }
  destruct C as [(-> & L) | ->].
  - destruct (IH _ _ _ _ _ S) as (B & Q). split; [cbn; lia|]. intros [|k] K; cbn [nth].
    + rewrite Nat.add_0_r. exact L.
    + replace (i + Datatypes.S k) with (Datatypes.S i + k) by lia. apply Q. lia.
  - assert (f2 = i) by (apply (scan_ftf_old _ _ _ _ _ _ _ _ S); lia). subst f2. split; [cbn; lia|]. intros k K. lia.
Qed.

(** In a later pass everything that is stored finds a place. *)
Lemma scan_empties : forall (vecs : list (list A)) i ftf tmp vecs' tmp' ftf', scan target remainder false i ftf vecs tmp = (vecs', tmp', ftf') ->
  fits i vecs -> length tmp <= missing i vecs -> tmp' = [].
Proof.
  induction vecs as [|v r IH]; intros i ftf tmp vecs' tmp' ftf' H F M; cbn [scan] in H.
  { injection H as <- <- <-. unfold missing in M. cbn in M. destruct tmp; [reflexivity|cbn in M; lia]. }
  apply fits_cons in F as (Fv & Fr). rewrite missing_cons in M.
  assert (C : (T i <? length v) = false) by (apply Nat.ltb_ge; exact Fv). 
  match type of H with context [scanStep ?a ?b ?c ?d ?e ?g] => destruct (scanStep a b c d e g) as ((v1, t1), f1) eqn:E end; unfold scanStep in E; cbv zeta in E.
  rewrite C in E. assert (P : length t1 <= missing (S i) r).
  { destruct (length v <? T i) eqn:D; injection E as <- <- <-.
    - rewrite firstn_length. lia.
    - apply Nat.ltb_ge in D. lia. }
  destruct t1 as [|x t1]; cbn [negb andb] in H.
  - injection H as <- <- <-. reflexivity.
  - destruct (scan target remainder false (S i) f1 r (x :: t1)) as ((r2, t2), f2) eqn:S. injection H as <- <- <-.
    apply (IH _ _ _ _ _ _ S Fr P).
Qed.

Lemma length_concat (vv : list (list A)) : length (concat vv) = list_sum (map (@length A) vv).
Proof. induction vv as [|v r IH]; [reflexivity|]. cbn [concat map]. rewrite app_length, IH. reflexivity. Qed.

Definition targets (i n : nat) : nat := list_sum (map (fun k => T (i + k)) (seq 0 n)).

Lemma targets_cons i n : targets i (S n) = T i + targets (S i) n.
Proof.
  unfold targets. cbn [seq map]. rewrite <- seq_shift, map_map. unfold list_sum. cbn [fold_right]. rewrite Nat.add_0_r. f_equal.
  apply f_equal. apply map_ext. intros k. f_equal. lia.
Qed.

Lemma fits_missing : forall (vecs : list (list A)) i, fits i vecs -> list_sum (map (@length A) vecs) + missing i vecs = targets i (length vecs).
Proof.
  induction vecs as [|v r IH]; intros i F; [reflexivity|]. apply fits_cons in F as (Fv & Fr). rewrite missing_cons.
  cbn [length]. rewrite targets_cons, <- (IH _ Fr). cbn [map]. unfold list_sum. cbn [fold_right]. lia.
Qed.

Lemma missing_zero : forall (vecs : list (list A)) i, fits i vecs -> missing i vecs = 0 -> forall k, k < length vecs -> length (nth k vecs []) = T (i + k).
Proof.
  induction vecs as [|v r IH]; intros i F M k K; [cbn in K; lia|]. apply fits_cons in F as (Fv & Fr). rewrite missing_cons in M.
  destruct k as [|k]; cbn [nth].
  - rewrite Nat.add_0_r. lia.
  - replace (i + S k) with (S i + k) by lia. apply IH; [exact Fr|lia|cbn in K; lia].
Qed.

Lemma missing_skip : forall n (vecs : list (list A)) i, (forall k, k < n -> length (nth k vecs []) = T (i + k)) -> n <= length vecs ->
  missing i vecs = missing (i + n) (skipn n vecs).
Proof.
  induction n as [|n IH]; intros vecs i H L; [rewrite Nat.add_0_r; reflexivity|].
  destruct vecs as [|v r]; [cbn in L; lia|]. rewrite missing_cons. cbn [skipn].
  assert (E := H 0 ltac:(lia)). cbn [nth] in E. rewrite Nat.add_0_r in E. rewrite E, Nat.sub_diag. cbn [Nat.add].
  rewrite (IH r (S i)); [f_equal; lia| |cbn in L; lia].
  intros k K. specialize (H (S k)). cbn [nth] in H. rewrite H by lia. f_equal. lia.
Qed.

Lemma fits_app i n (vecs r : list (list A)) : n <= length vecs -> fits i vecs -> fits (i + n) r -> fits i (firstn n vecs ++ r).
Proof.
  intros L F G k K. assert (L1 : length (firstn n vecs) = n) by (rewrite firstn_length; lia).
  destruct (Nat.lt_ge_cases k n).
  - rewrite app_nth1 by lia. rewrite <- (firstn_skipn n vecs) in F. specialize (F k). rewrite app_nth1 in F by lia. apply F.
    rewrite app_length. lia.
  - rewrite app_nth2, L1 by lia. replace (i + k) with (i + n + (k - n)) by lia. apply G. rewrite app_length in K. lia.
Qed.
End Balance.

Section Theorem_.
Context {A : Type}.

Lemma targets_sum q r n : r <= n -> targets q r 0 n = q * n + r.
Proof.
  intros H. assert (G : forall m i, targets q r i m = q * m + (Nat.min (i + m) r - Nat.min i r)).
  { induction m as [|m IH]; intros i; [unfold targets; cbn; lia|]. rewrite targets_cons, IH. unfold targetSize.
    destruct (Nat.ltb_spec i r); lia. }
  rewrite G. lia.
Qed.


Lemma balance_correct (vv : list (list A)) fuel : 1 <= fuel -> exists vv', balanceVectors fuel vv = Some vv' /\
  Permutation (concat vv) (concat vv') /\ length vv' = length vv /\
  forall i, i < length vv -> length (nth i vv' []) = length (concat vv) / length vv + (if i <? length (concat vv) mod length vv then 1 else 0).
Proof.
  intros Fu. destruct vv as [|v0 r0]; [exists []; cbn; repeat split; try reflexivity; intros; lia|].
  unfold balanceVectors. set (vv := v0 :: r0). rewrite <- length_concat. set (n := length (concat vv)). set (m := length vv).
  assert (Hm : m <> 0) by (unfold m, vv; cbn; lia).
  set (q := n / m). set (r := n mod m).
  assert (Hr : r < m) by (apply Nat.mod_upper_bound; exact Hm).
  assert (Hn : n = q * m + r) by (rewrite Nat.mul_comm; apply Nat.div_mod; exact Hm).
  assert (Fin : forall w, Permutation (concat vv) (concat w) -> length w = m -> fits q r 0 w ->
    Permutation (concat vv) (concat w) /\ length w = m /\ forall i, i < m -> length (nth i w []) = q + (if i <? r then 1 else 0)).
  { intros w P L F. split; [exact P|]. split; [exact L|]. intros i I.
    assert (M := fits_missing q r w 0 F). rewrite L, targets_sum, <- length_concat, <- (Permutation_length P) in M by lia. fold n in M.
    rewrite (missing_zero q r w 0 F); [|lia|lia]. unfold targetSize. cbn [Nat.add]. destruct (i <? r); lia. }
  destruct (scan q r true 0 0 vv []) as ((w, tmp), ftf) eqn:S.
  destruct (scan_perm q r true _ _ _ _ _ _ _ S) as (P & L). rewrite app_nil_r in P.
  assert (F := scan_fits q r true _ _ _ _ _ _ _ S (or_introl eq_refl)).
  destruct (scan_ftf q r _ _ _ _ _ _ S) as (B & Q). cbn [Nat.add] in B, Q.
  destruct tmp as [|x tmp].
  { exists w. split; [destruct fuel; reflexivity|]. rewrite app_nil_r in P. apply Fin; assumption. }
  destruct fuel as [|fuel]; [lia|]. cbn [passes].
  destruct (scan q r false ftf ftf (skipn ftf w) (x :: tmp)) as ((w2, t2), f2) eqn:S2.
  destruct (scan_perm q r false _ _ _ _ _ _ _ S2) as (P2 & L2).
  assert (Fs : fits q r ftf (skipn ftf w)).
  { intros k K. rewrite skipn_length in K. specialize (F (ftf + k) ltac:(lia)). cbn [Nat.add] in F.
    rewrite <- (firstn_skipn ftf w) in F at 1. rewrite app_nth2 in F by (rewrite firstn_length; lia).
    rewrite firstn_length in F. replace (ftf + k - Nat.min ftf (length w)) with k in F by lia. exact F. }
  assert (M := fits_missing q r w 0 F).
  assert (Hmiss : length (x :: tmp) = missing q r ftf (skipn ftf w)).
  { assert (K : missing q r 0 w = missing q r ftf (skipn ftf w)) by (apply (missing_skip q r ftf w 0); [intros; apply Q; lia|lia]). rewrite <- K.
    apply Permutation_length in P. rewrite app_length in P. fold n in P. rewrite L in M. fold m in M. rewrite targets_sum in M by lia.
    rewrite <- length_concat in M. lia. }
  assert (E := scan_empties q r _ _ _ _ _ _ _ S2 Fs ltac:(lia)). subst t2.
  assert (F2 := scan_fits q r false _ _ _ _ _ _ _ S2 (or_intror Fs)).
  exists (firstn ftf w ++ w2). split; [destruct fuel; reflexivity|].
  apply Fin.
  - rewrite P. rewrite <- (firstn_skipn ftf w) at 1. rewrite !concat_app, <- app_assoc. apply Permutation_app_head.
    rewrite P2, app_nil_r. reflexivity.
  - rewrite app_length, firstn_length, L2, skipn_length. unfold m. lia.
  - apply fits_app; [lia|exact F|exact F2].
Qed.
End Theorem_.

Lemma balance_sizes {A} (buffers : list (list A)) fuel : 1 <= fuel ->
  exists buffers', balanceVectors fuel buffers = Some buffers' /\ Permutation (concat buffers) (concat buffers') /\
    forall b c, In b buffers' -> In c buffers' -> length b <= length c + 1.
Proof.
  intros H. destruct (balance_correct buffers fuel H) as (r & E & P & L & S). exists r. split; [exact E|]. split; [exact P|].
  intros b c Hb Hc. apply In_nth with (d := []) in Hb as (i & Hi & <-). apply In_nth with (d := []) in Hc as (j & Hj & <-).
  rewrite L in Hi, Hj. rewrite (S i Hi), (S j Hj). destruct (i <? _); destruct (j <? _); lia.
Qed.
