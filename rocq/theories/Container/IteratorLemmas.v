(** Facts about vectors and strided index ranges used by the iterator proofs. *)
From Verif.Base Require Import ZRange.
From Verif.Container Require Import IteratorModel.

Lemma zsteps_cons lo hi s : 0 < s -> lo < hi -> zsteps lo hi s = lo :: zsteps (lo + s) hi s.
Proof.
  intros Hs Hl. unfold zsteps.
  replace (Z.to_nat ((hi - lo + s - 1) / s)) with (S (Z.to_nat ((hi - (lo + s) + s - 1) / s))).
  - cbn [seq map]. f_equal; [lia|]. rewrite <- seq_shift, map_map. apply map_ext. intros k. lia.
  - replace (hi - lo + s - 1) with ((hi - (lo + s) + s - 1) + 1 * s) by ring.
    rewrite Z.div_add by lia.
    assert (0 <= (hi - (lo + s) + s - 1) / s) by (apply Z.div_pos; lia). lia.
Qed.

Lemma zsteps_nil lo hi s : 0 < s -> hi <= lo -> zsteps lo hi s = [].
Proof.
  intros Hs Hl. unfold zsteps.
  replace (Z.to_nat ((hi - lo + s - 1) / s)) with O; [reflexivity|].
  assert ((hi - lo + s - 1) / s < 1) by (apply Z.div_lt_upper_bound; lia). lia.
Qed.

Lemma at_lt {A} (l : list A) i : 0 <= i < size l -> exists x, at_ l i = Some x.
Proof.
  intros H. unfold at_, size in *. destruct (Z.ltb_spec i 0); [lia|].
  destruct (nth_error l (Z.to_nat i)) eqn:E; [eauto|]. apply nth_error_None in E. lia.
Qed.

Lemma at_some {A} (l : list A) i x : at_ l i = Some x -> 0 <= i < size l /\ nth_error l (Z.to_nat i) = Some x.
Proof.
  unfold at_, size. destruct (Z.ltb_spec i 0); [discriminate|]. intros E. split; [|exact E].
  assert (Z.to_nat i < length l)%nat by (apply nth_error_Some; congruence). lia.
Qed.

Lemma at_none {A} (l : list A) i : size l <= i -> at_ l i = None.
Proof.
  intros H. unfold at_, size in *. destruct (Z.ltb_spec i 0); [reflexivity|]. apply nth_error_None. lia.
Qed.

Lemma skipn_at {A} (l : list A) i x : at_ l i = Some x ->
  skipn (Z.to_nat i) l = x :: skipn (Z.to_nat (i + 1)) l.
Proof.
  intros H. apply at_some in H. destruct H as [Hr H].
  replace (Z.to_nat (i + 1)) with (S (Z.to_nat i)) by lia.
  revert H. generalize (Z.to_nat i). clear. intros n. revert l.
  induction n as [|n IH]; intros [|y l] H; cbn in *; try discriminate; [congruence|now apply IH].
Qed.

Lemma skipn_all_Z {A} (l : list A) i : size l <= i -> skipn (Z.to_nat i) l = [].
Proof. intros H. apply skipn_all2. unfold size in H. lia. Qed.

Lemma setAt_length {A} (l : list A) i x : length (setAt l i x) = length l.
Proof. revert i; induction l as [|y l IH]; intros [|i]; cbn; auto. Qed.

Lemma setAt_same {A} (l : list A) i x : (i < length l)%nat -> nth_error (setAt l i x) i = Some x.
Proof. revert i; induction l as [|y l IH]; intros [|i] H; cbn in *; try lia; [reflexivity|apply IH; lia]. Qed.

Lemma setAt_other {A} (l : list A) i j x : i <> j -> nth_error (setAt l i x) j = nth_error l j.
Proof. revert i j; induction l as [|y l IH]; intros [|i] [|j] H; cbn; try reflexivity; [lia|apply IH; lia]. Qed.

Lemma setAt_split {A} (l : list A) i x y : nth_error l i = Some y ->
  l = firstn i l ++ y :: skipn (S i) l /\ setAt l i x = firstn i l ++ x :: skipn (S i) l.
Proof.
  revert i; induction l as [|z l IH]; intros [|i] H; cbn in *; try discriminate.
  - injection H as ->. auto.
  - destruct (IH i H) as [E1 E2]. split; f_equal; assumption.
Qed.

Lemma setAt_concat {A} (l : list (list A)) i y y' : nth_error l i = Some y ->
  exists r, Permutation (concat l) (y ++ r) /\ Permutation (concat (setAt l i y')) (y' ++ r).
Proof.
  intros H. destruct (setAt_split l i y' y H) as [E1 E2].
  exists (concat (firstn i l) ++ concat (skipn (S i) l)).
  assert (P : forall (a b c : list A), Permutation (a ++ b ++ c) (b ++ a ++ c)).
  { intros a b c. rewrite !app_assoc. apply Permutation_app_tail, Permutation_app_comm. }
  split.
  - rewrite E1 at 1. rewrite concat_app. cbn [concat]. apply P.
  - rewrite E2, concat_app. cbn [concat]. apply P.
Qed.

(** Swap-delete: the last element replaces the deleted one. *)
Lemma swapDelete_spec {A} (l : list A) i x : nth_error l i = Some x ->
  (exists b m, skipn i l = x :: m ++ [b] /\ l = firstn i l ++ x :: m ++ [b] /\
               swapDelete l i = firstn i l ++ b :: m /\ (i < length (swapDelete l i))%nat /\
               nth_error (swapDelete l i) i = Some b /\ skipn i (swapDelete l i) = b :: m /\
               skipn (S i) (swapDelete l i) = m) \/
  (skipn i l = [x] /\ l = firstn i l ++ [x] /\ swapDelete l i = firstn i l /\ length (swapDelete l i) = i).
Proof.
  intros H. destruct (setAt_split l i x x H) as [E1 _].
  assert (Hi : (i < length l)%nat) by (apply nth_error_Some; congruence).
  assert (Lf : length (firstn i l) = i) by (rewrite firstn_length; lia).
  assert (Es : skipn i l = x :: skipn (S i) l).
  { rewrite E1 at 1. rewrite skipn_app, Lf, Nat.sub_diag, skipn_all2 by lia. reflexivity. }
  assert (Ed : forall b r, rev l = b :: r -> swapDelete l i = removelast (setAt l i b)).
  { intros b r E. unfold swapDelete. now rewrite E. }
  set (t := skipn (S i) l) in *. assert (Et : skipn (S i) l = t) by reflexivity. clearbody t.
  destruct t as [|s0 s _] using rev_ind.
  - right. assert (Er : removelast (setAt l i x) = firstn i l).
    { destruct (setAt_split l i x x H) as [_ ->]. rewrite Et. now rewrite removelast_last. }
    assert (Ev : rev l = x :: rev (firstn i l)) by (rewrite E1 at 1; rewrite rev_app_distr; reflexivity).
    rewrite (Ed _ _ Ev), Er. repeat split; auto.
  - left. exists s0, s.
    assert (Er : removelast (setAt l i s0) = firstn i l ++ s0 :: s).
    { destruct (setAt_split l i s0 x H) as [_ ->]. rewrite Et.
      change (s0 :: s ++ [s0]) with ((s0 :: s) ++ [s0]). now rewrite app_assoc, removelast_last. }
    assert (Ev : rev l = s0 :: (rev s ++ [x]) ++ rev (firstn i l)).
    { rewrite E1 at 1. rewrite rev_app_distr. cbn [rev]. rewrite rev_app_distr. reflexivity. }
    rewrite (Ed _ _ Ev), Er. repeat split.
    + exact Es.
    + exact E1.
    + rewrite app_length. cbn. lia.
    + rewrite nth_error_app2, Lf, Nat.sub_diag by lia. reflexivity.
    + rewrite skipn_app, Lf, Nat.sub_diag, skipn_all2 by lia. reflexivity.
    + rewrite skipn_app, Lf, skipn_all2 by lia. replace (S i - i)%nat with 1%nat by lia. reflexivity.
Qed.

Lemma swapDelete_perm {A} (l : list A) i x : nth_error l i = Some x -> Permutation l (x :: swapDelete l i).
Proof.
  intros H. destruct (swapDelete_spec l i x H) as [(b & m & _ & E & -> & _)|(_ & E & -> & _)]; rewrite E at 1.
  - rewrite (Permutation_app_comm _ (x :: m ++ [b])). cbn [app]. constructor.
    rewrite <- app_assoc. cbn [app]. rewrite (Permutation_app_comm m). cbn [app].
    rewrite (Permutation_app_comm (firstn i l) (b :: m)). cbn [app]. constructor. now rewrite Permutation_app_comm.
  - now rewrite Permutation_app_comm.
Qed.

Lemma filter_perm {A} (f : A -> bool) l l' : Permutation l l' -> Permutation (filter f l) (filter f l').
Proof.
  induction 1; cbn; auto.
  - now destruct (f x); [constructor|].
  - destruct (f x), (f y); auto. constructor.
  - etransitivity; eassumption.
Qed.

Lemma filter_nil {A} (f : A -> bool) l : (forall x, In x l -> f x = false) -> filter f l = [].
Proof.
  induction l as [|a l IH]; intros H; cbn; [reflexivity|].
  rewrite (H a) by now left. apply IH. intros y Hy. apply H. now right.
Qed.

Lemma incr_small i : 0 <= i < sizeMax -> incr i = i + 1.
Proof. intros H. unfold incr, sizeMax in *. apply Z.mod_small. lia. Qed.
Lemma incr_decr i : 0 <= i < sizeMod -> incr (decr i) = i.
Proof.
  intros H. unfold incr, decr. rewrite Zplus_mod_idemp_l. replace (i - 1 + 1) with i by ring. now apply Z.mod_small.
Qed.
Lemma sizeMax_pos : 0 < sizeMax < sizeMod. Proof. unfold sizeMax, sizeMod. lia. Qed.

Lemma skipn_skipn {A} : forall y x (l : list A), skipn x (skipn y l) = skipn (x + y) l.
Proof.
  induction y as [|y IH]; intros x l; [now rewrite Nat.add_0_r|].
  rewrite Nat.add_succ_r. destruct l as [|a l]; cbn [skipn]; [now rewrite skipn_nil|apply IH].
Qed.

Lemma skipn_setAt {A} : forall i (l : list A) y, skipn (S i) (setAt l i y) = skipn (S i) l.
Proof. induction i as [|i IH]; intros [|a l] y; try reflexivity. apply (IH l y). Qed.

Lemma skipn_nth {A} : forall i (l : list A) x, nth_error l i = Some x -> skipn i l = x :: skipn (S i) l.
Proof. induction i as [|i IH]; intros [|a l] x H; cbn in *; try discriminate; [congruence|now apply IH]. Qed.
