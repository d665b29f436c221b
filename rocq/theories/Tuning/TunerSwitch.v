(** Whether lists are rebuilt when the configuration changes, the estimate, examples and
    refutations. *)
From Coq Require Import ZArith List Bool Permutation Lia.
From Verif.Tuning Require Import TunerModel TunerSpec TunerProofs.
Import ListNotations.
Local Open Scope Z_scope.

(** * Changes of the configuration *)
Section Switch.
  Variables (interval maxSamples freq : nat) (est : list Z -> list Z -> Z) (app forever : Z -> bool) (sp : list Z).
  Hypothesis Hm : (1 <= maxSamples)%nat.
  Hypothesis Hf : (1 <= freq)%nat.
  Hypothesis Hsp : goodSpace app forever sp.
  Hypothesis HT : (length (filter app sp) * maxSamples < interval)%nat.
  Hypothesis Hest : fairEstimate est.

  Lemma phase_out is outs p x : phaseDone interval maxSamples freq est (filter app sp) is outs (p * interval) -> (x < interval)%nat ->
    exists c tu rb, nth_error outs (p * interval + x) = Some (c, tu, rb) /\
      (forall c', (S x < interval)%nat -> (exists tu' rb', nth_error outs (p * interval + S x) = Some (c', tu', rb')) -> c <> c' -> rb = true) /\
      (S x = interval -> rb = Nat.eqb (Nat.modulo (interval - length (filter app sp) * maxSamples) freq) 0).
  Proof.
    intros (cs & best & P & L & H1 & H2 & H3) X. pose proof (Permutation_length P) as LP.
    destruct (Nat.lt_ge_cases x (length cs * maxSamples)) as [I|O].
    - set (j := Nat.div x maxSamples). set (r := Nat.modulo x maxSamples).
      assert (E : x = (j * maxSamples + r)%nat) by (unfold j, r; rewrite Nat.mul_comm; apply Nat.div_mod; lia).
      assert (R : (r < maxSamples)%nat) by (apply Nat.mod_upper_bound; lia).
      assert (J : (j < length cs)%nat) by (apply Nat.div_lt_upper_bound; lia).
      exists (nth j cs 0), true, (Nat.eqb (S r) maxSamples). split; [rewrite E; now apply H1|]. split.
      + intros c' X' (tu' & rb' & N) NE. apply Nat.eqb_eq. destruct (Nat.eq_dec (S r) maxSamples) as [|F]; [assumption|exfalso].
        rewrite E, <- Nat.add_succ_r, (H1 j (S r) J) in N by lia. congruence.
      + intros SX. exfalso. rewrite <- LP in HT. nia.
    - assert (E : x = (length cs * maxSamples + (x - length cs * maxSamples))%nat) by lia. set (r := (x - length cs * maxSamples)%nat) in *.
      exists (nth best cs 0), false, (Nat.eqb (Nat.modulo (S r) freq) 0). split; [rewrite E; apply H3; lia|]. split.
      + intros c' X' (tu' & rb' & N) NE. exfalso. rewrite E, <- Nat.add_succ_r, (H3 (S r)) in N by lia. congruence.
      + intros SX. rewrite <- LP. now replace (interval - length cs * maxSamples)%nat with (S r) by lia.
  Qed.

  Theorem changes_rebuild : Nat.modulo (interval - length (filter app sp) * maxSamples) freq = 0%nat ->
    forall n is t0 t outs, length is = (n * interval)%nat -> Forall (tame app) is -> construct maxSamples sp = Some t0 ->
    runTuner interval maxSamples freq est app forever is t0 = Some (t, outs) ->
    forall i c tu rb c' tu' rb', nth_error outs i = Some (c, tu, rb) -> nth_error outs (S i) = Some (c', tu', rb') -> c <> c' -> rb = true.
  Proof.
    intros D n is t0 t outs L F C E i c tu rb c' tu' rb' N N' NE.
    destruct (tuner_phases interval maxSamples freq est app forever sp Hm Hsp HT Hest n is L F) as (t0' & t' & outs' & C' & E' & LO & PD).
    rewrite C in C'. injection C' as <-. rewrite E in E'. injection E' as <- <-.
    assert (I : (i < n * interval)%nat) by (rewrite <- L, <- LO; apply nth_error_Some; congruence).
    set (p := Nat.div i interval). set (x := Nat.modulo i interval).
    assert (EI : i = (p * interval + x)%nat) by (unfold p, x; rewrite Nat.mul_comm; apply Nat.div_mod; lia).
    assert (X : (x < interval)%nat) by (apply Nat.mod_upper_bound; lia).
    assert (Pn : (p < n)%nat) by (apply Nat.div_lt_upper_bound; lia).
    destruct (phase_out is outs p x (PD p Pn) X) as (c1 & tu1 & rb1 & N1 & IN & EN). rewrite EI in N. rewrite N in N1. injection N1 as <- <- <-.
    destruct (Nat.eq_dec (S x) interval) as [Q|Q].
    - rewrite (EN Q), D. reflexivity.
    - apply (IN c'); [lia| |exact NE]. exists tu', rb'. rewrite EI, <- Nat.add_succ_r in N'. exact N'.
  Qed.
End Switch.

(** * The estimate *)
Lemma fold_min_spec : forall l x, In (fold_left Z.min l x) (x :: l) /\ forall y, In y (x :: l) -> fold_left Z.min l x <= y.
Proof.
  induction l as [|a l IH]; intros x; cbn [fold_left]; [split; [now left|intros y [<-|[]]; lia]|].
  destruct (IH (Z.min x a)) as [I M]. split.
  - destruct I as [E|I]; [|now right; right]. rewrite <- E. destruct (Z.min_spec x a) as [[_ ->]|[_ ->]]; [now left|now right; left].
  - intros y [<-|[<-|J]]; [| |apply M; now right]; specialize (M (Z.min x a) (or_introl eq_refl)); lia.
Qed.
Lemma fold_add_bound lo hi : forall l a, Forall (fun x => lo <= x <= hi) l ->
  a + lo * Z.of_nat (length l) <= fold_left Z.add l a <= a + hi * Z.of_nat (length l).
Proof.
  induction l as [|x l IH]; intros a F; cbn [fold_left length]; [lia|]. inversion F; subst. specialize (IH (a + x) H2). lia.
Qed.
Lemma insertZ_perm x l : Permutation (x :: l) (insertZ x l).
Proof. induction l as [|y l IH]; cbn; [auto|]. destruct (x <=? y); [auto|]. rewrite <- IH. constructor. Qed.
Lemma sortZ_perm l : Permutation l (sortZ l).
Proof. induction l as [|x l IH]; cbn; [auto|]. rewrite <- insertZ_perm. now constructor. Qed.

(** The value of a selector lies between any bounds of the values. *)
Lemma optimum_between sel lo hi l : l <> [] -> Forall (fun x => lo <= x <= hi) l -> 0 <= lo -> lo <= optimumValue sel l <= hi.
Proof.
  intros NE F Lo. unfold optimumValue. destruct l as [|x l]; [congruence|]. destruct sel.
  - unfold minValue. destruct (fold_min_spec l x) as [I _]. rewrite Forall_forall in F. now apply F.
  - unfold meanValue. pose proof (fold_add_bound lo hi (x :: l) 0 F) as B. set (s := fold_left Z.add (x :: l) 0) in *.
    set (n := Z.of_nat (length (x :: l))) in *. assert (0 < n) by (unfold n; cbn; lia).
    rewrite Z.quot_div_nonneg by nia. split; [apply Z.div_le_lower_bound; lia|apply Z.div_le_upper_bound; lia].
  - unfold medianValue. assert (I : In (nth (Nat.div (length (x :: l) - 1) 2) (sortZ (x :: l)) 0) (x :: l)).
    { eapply Permutation_in; [symmetry; apply sortZ_perm|]. apply nth_In. rewrite <- (Permutation_length (sortZ_perm (x :: l))).
      apply Nat.div_lt_upper_bound; cbn [length]; lia. }
    rewrite Forall_forall in F. now apply F.
Qed.

Lemma estimate_between sel freq lo hi a b : (1 <= freq)%nat -> a ++ b <> [] -> Forall (fun x => lo <= x <= hi) (a ++ b) -> 0 <= lo ->
  0 <= estimateRuntime sel freq a b <= hi /\ (a <> [] -> lo <= estimateRuntime sel freq a b).
Proof.
  intros Hf NE F Lo. apply Forall_app in F. destruct F as [Fa Fb]. unfold estimateRuntime. set (f := Z.of_nat freq). assert (1 <= f) by (unfold f; lia).
  assert (Hhi : lo <= hi). { destruct a as [|x a]; [destruct b as [|x b]; [now elim NE|]; inversion Fb; lia|]. inversion Fa; lia. }
  assert (A : 0 <= optimumValue sel a <= hi /\ (a <> [] -> lo <= optimumValue sel a)).
  { destruct a as [|x a]; [split; [cbn; lia|congruence]|]. pose proof (optimum_between sel lo hi (x :: a) ltac:(discriminate) Fa Lo). split; [lia|intros _; lia]. }
  set (n := match b with [] => _ | _ => _ end).
  assert (N : 0 <= n <= hi /\ (a <> [] -> lo <= n)).
  { unfold n. destruct b as [|x b]; [exact A|]. pose proof (optimum_between sel lo hi (x :: b) ltac:(discriminate) Fb Lo). split; [lia|intros _; lia]. }
  set (o := optimumValue sel a) in *. cbv zeta. rewrite Z.quot_div_nonneg by nia. split.
  - split; [apply Z.div_pos; nia|]. apply Z.div_le_upper_bound; nia.
  - intros NA. apply Z.div_le_lower_bound; [lia|]. destruct A as [_ A], N as [_ N]. specialize (A NA). specialize (N NA). nia.
Qed.

Lemma estimate_fair sel freq : (1 <= freq)%nat -> fairEstimate (estimateRuntime sel freq).
Proof.
  intros Hf a b NE F. assert (F' : Forall (fun x => 0 <= x <= longMax - 1) (a ++ b)) by (eapply Forall_impl; [|exact F]; cbn; intros; lia).
  pose proof (estimate_between sel freq 0 (longMax - 1) a b Hf NE F' ltac:(lia)) as [B _]. lia.
Qed.

(** * Strategies *)
Lemma sortByName_reorders : reorders (fun _ => true) sortByName.
Proof.
  intros q m. exists (rev (sortZ q)), false. split; [reflexivity|]. split; [|auto].
  rewrite <- Permutation_rev. apply sortZ_perm.
Qed.

(** * Examples *)
Definition xIn (v : Z) (r : bool) : Input := mkInput [] [] v r false.
Lemma xIn_tame app v r : 0 <= v < longMax -> tame app (xIn v r).
Proof. intros H. repeat split; try constructor; apply H. Qed.
(** Configuration 2 is not applicable and removed. *)
Definition xApp (c : Z) : bool := negb (c =? 2).
Definition xIns : list Input := [xIn 50 true; xIn 40 false; xIn 9 true; xIn 8 false; xIn 7 true; xIn 6 false].
Lemma x_good : goodSpace xApp (fun _ => true) [1; 2; 3].
Proof.
  split; [repeat constructor; cbn; lia|]. split; [reflexivity|]. cbn. lia.
Qed.
Lemma x_run : option_map snd (match construct 2 [1; 2; 3] with None => None | Some t => runTuner 6 2 4 (estimateRuntime FastestMean 4) xApp (fun _ => true) xIns t end)
  = Some [(1, true, false); (1, true, true); (3, true, false); (3, true, true); (3, false, false); (3, false, false)].
Proof. reflexivity. Qed.
Lemma x_sort_run : option_map snd (match construct 1 [1; 2; 3] with None => None | Some t => runTuner 4 1 4 (estimateRuntime FastestAbs 4) (fun _ => true) (fun _ => true)
    (map (fun v => mkInput [sortByName] [sortByName] v true false) [50; 9; 40; 1]) t end)
  = Some [(3, true, true); (2, true, true); (1, true, true); (2, false, false)].
Proof. reflexivity. Qed.
