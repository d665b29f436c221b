(** Boundaries of a grid of subdomains, continued periodically. *)
From Coq Require Import Reals Lra Psatz List ZArith Lia Bool Permutation.
From Verif.Base Require Import OptionM ZRange.
From Verif.Grid Require Import IndexModel.
From Verif.Functor Require Import SortModel.
From Verif.Flex Require Import DomainModel DomainSpec DomainProofs.
Import ListNotations.
Local Open Scope R_scope.

Section Grid.
  Variables gMin gMax : R3.
  Variable d : I3.
  Variable minWidth : R.
  Variable bs : Boxes.
  Variable B : Axis -> Z -> R.
  Hypothesis G : gridOf gMin gMax d minWidth bs B.
  Hypothesis Pw : 0 < minWidth.

  Let n a := iat a d.
  Let Hd : forall a, (1 <= iat a d)%Z := grid_count _ _ _ _ _ _ G.
  Definition span (a : Axis) : R := at3 a gMax - at3 a gMin.
  Definition plane_ (a : Axis) (m : Z) : R := B a (m mod iat a d)%Z + IZR (m / iat a d) * span a.

  Lemma plane_next a m : plane_ a (m + 1) = B a (m mod iat a d + 1)%Z + IZR (m / iat a d) * span a.
  Proof.
    unfold plane_. pose proof (Hd a) as P. pose proof (Z.mod_pos_bound m (iat a d)) as M.
    destruct (Z.eq_dec (m mod iat a d + 1) (iat a d)) as [E|E].
    - assert (D : ((m + 1) / iat a d = m / iat a d + 1)%Z).
      { pose proof (Z.div_mod m (iat a d)). replace (m + 1)%Z with ((m / iat a d + 1) * iat a d)%Z by lia. apply Z.div_mul. lia. }
      assert (R0 : ((m + 1) mod iat a d = 0)%Z).
      { pose proof (Z.div_mod m (iat a d)). replace (m + 1)%Z with ((m / iat a d + 1) * iat a d)%Z by lia. apply Z.mod_mul. lia. }
      rewrite D, R0, E, (grid_first _ _ _ _ _ _ G), (grid_last _ _ _ _ _ _ G), plus_IZR. unfold span. ring.
    - assert (Q : (m = iat a d * (m / iat a d) + m mod iat a d)%Z) by (apply Z.div_mod; lia).
      assert (D : ((m + 1) / iat a d = m / iat a d)%Z)
        by (symmetry; apply (Z.div_unique_pos _ _ _ (m mod iat a d + 1)); lia).
      assert (R0 : ((m + 1) mod iat a d = m mod iat a d + 1)%Z)
        by (symmetry; apply (Z.mod_unique_pos _ _ (m / iat a d)); lia).
      rewrite D, R0. reflexivity.
  Qed.
  Lemma plane_width a m : minWidth <= plane_ a (m + 1) - plane_ a m.
  Proof.
    rewrite plane_next. unfold plane_. pose proof (Hd a) as P. pose proof (grid_width _ _ _ _ _ _ G a (m mod iat a d)%Z) as W.
    assert (M : (0 <= m mod iat a d < iat a d)%Z) by (apply Z.mod_pos_bound; lia). specialize (W M). lra.
  Qed.
  Lemma plane_lt a m k : (m < k)%Z -> plane_ a m + minWidth <= plane_ a k.
  Proof.
    intros H. replace k with (m + 1 + Z.of_nat (Z.to_nat (k - m - 1)))%Z by lia. generalize (Z.to_nat (k - m - 1)). intros j.
    induction j as [|j IH]; [rewrite Z.add_0_r; pose proof (plane_width a m); lra|].
    rewrite Nat2Z.inj_succ. replace (m + 1 + Z.succ (Z.of_nat j))%Z with (m + 1 + Z.of_nat j + 1)%Z by lia. pose proof (plane_width a (m + 1 + Z.of_nat j)). lra.
  Qed.
  Lemma plane_le a m k : (m <= k)%Z -> plane_ a m <= plane_ a k.
  Proof. intros H. destruct (Z.eq_dec m k) as [->|N]; [lra|]. pose proof (plane_lt a m k ltac:(lia)). lra. Qed.
  (** A coordinate lies between two planes only. *)
  Lemma cell_unique a m k x : plane_ a m <= x < plane_ a (m + 1) -> plane_ a k <= x < plane_ a (k + 1) -> m = k.
  Proof.
    intros H K. destruct (Z.lt_trichotomy m k) as [L|[E|L]]; [|exact E|].
    - pose proof (plane_le a (m + 1) k ltac:(lia)). lra.
    - pose proof (plane_le a (k + 1) m ltac:(lia)). lra.
  Qed.
  Lemma plane_in a i : (0 <= i < iat a d)%Z -> plane_ a i = B a i.
  Proof. intros H. unfold plane_. rewrite Z.mod_small, Z.div_small by exact H. ring. Qed.
  Lemma plane_after a i : (0 <= i < iat a d)%Z -> plane_ a (i + 1) = B a (i + 1)%Z.
  Proof. intros H. rewrite plane_next. rewrite Z.mod_small, Z.div_small by exact H. ring. Qed.

  Let rid a r := iat a (indexToId r d).
  Lemma rid_range a r : isRank d r -> (0 <= rid a r < iat a d)%Z.
  Proof. intros H. apply id_of_rank; assumption. Qed.
  Lemma min_plane a r : isRank d r -> at3 a (boxMin bs r) = plane_ a (rid a r).
  Proof. intros H. rewrite (grid_min _ _ _ _ _ _ G) by exact H. rewrite plane_in by (apply rid_range, H). reflexivity. Qed.
  Lemma max_plane a r : isRank d r -> at3 a (boxMax bs r) = plane_ a (rid a r + 1).
  Proof. intros H. rewrite (grid_max _ _ _ _ _ _ G) by exact H. rewrite plane_after by (apply rid_range, H). reflexivity. Qed.
  Lemma plane_zero a : plane_ a 0 = at3 a gMin.
  Proof. rewrite plane_in by (pose proof (Hd a); lia). apply (grid_first _ _ _ _ _ _ G). Qed.
  Lemma plane_count a : plane_ a (iat a d) = at3 a gMax.
  Proof.
    replace (iat a d) with (iat a d - 1 + 1)%Z by lia. rewrite plane_after by (pose proof (Hd a); lia).
    replace (iat a d - 1 + 1)%Z with (iat a d) by lia. apply (grid_last _ _ _ _ _ _ G).
  Qed.
  Lemma plane_shift a m k : plane_ a (m + k * iat a d) = plane_ a m + IZR k * span a.
  Proof. unfold plane_. pose proof (Hd a). rewrite Z.mod_add, Z.div_add, plus_IZR by lia. ring. Qed.

  Hypothesis Ds : distinguishable gMin gMax minWidth.
  Lemma bounded a i : (0 <= i <= iat a d)%Z -> Rabs (plane_ a i) <= Rmax (Rabs (at3 a gMin)) (Rabs (at3 a gMax)).
  Proof.
    intros H. pose proof (plane_le a 0 i ltac:(lia)) as L. pose proof (plane_le a i (iat a d) ltac:(lia)) as U. rewrite plane_zero in L. rewrite plane_count in U.
    unfold Rmax, Rabs. repeat destruct Rcase_abs; destruct Rle_dec; lra.
  Qed.
  Lemma near_self x : isNearRel x x = true.
  Proof.
    unfold isNearRel. destruct (Rle_dec _ _) as [_|N]; [reflexivity|]. exfalso. apply N. replace (x - x) with 0 by ring. rewrite Rabs_R0.
    apply Rmult_le_pos; [lra|]. apply Rle_trans with (Rabs x); [apply Rabs_pos|apply Rmax_l].
  Qed.
  Lemma near_min a r : isRank d r -> isNearRel (at3 a (boxMin bs r)) (at3 a gMin) = (rid a r =? 0)%Z.
  Proof.
    intros H. rewrite min_plane by exact H. pose proof (rid_range a r H) as I. destruct (Z.eqb_spec (rid a r) 0) as [->|N].
    - rewrite plane_zero. apply near_self.
    - unfold isNearRel. destruct (Rle_dec _ _) as [L|_]; [|reflexivity]. exfalso. pose proof (plane_lt a 0 (rid a r) ltac:(lia)) as W.
      rewrite plane_zero in W. pose proof (Ds a) as D.
      assert (U : Rmax (Rabs (plane_ a (rid a r))) (Rabs (at3 a gMin)) <= Rmax (Rabs (at3 a gMin)) (Rabs (at3 a gMax)))
        by (apply Rmax_lub; [apply bounded; lia|apply Rmax_l]).
      assert (minWidth <= Rabs (plane_ a (rid a r) - at3 a gMin)) by (rewrite Rabs_right; lra). lra.
  Qed.
  Lemma near_max a r : isRank d r -> isNearRel (at3 a (boxMax bs r)) (at3 a gMax) = (rid a r + 1 =? iat a d)%Z.
  Proof.
    intros H. rewrite max_plane by exact H. pose proof (rid_range a r H) as I. destruct (Z.eqb_spec (rid a r + 1) (iat a d)) as [->|N].
    - rewrite plane_count. apply near_self.
    - unfold isNearRel. destruct (Rle_dec _ _) as [L|_]; [|reflexivity]. exfalso. pose proof (plane_lt a (rid a r + 1) (iat a d) ltac:(lia)) as W.
      rewrite plane_count in W. pose proof (Ds a) as D.
      assert (U : Rmax (Rabs (plane_ a (rid a r + 1))) (Rabs (at3 a gMax)) <= Rmax (Rabs (at3 a gMin)) (Rabs (at3 a gMax)))
        by (apply Rmax_lub; [apply bounded; lia|apply Rmax_r]).
      assert (minWidth <= Rabs (plane_ a (rid a r + 1) - at3 a gMax)) by (rewrite Rabs_left1; lra). lra.
  Qed.
  (** Every coordinate of the global box lies between two planes. *)
  Lemma cell_exists a x : at3 a gMin <= x < at3 a gMax -> exists i, (0 <= i < iat a d)%Z /\ plane_ a i <= x < plane_ a (i + 1).
  Proof.
    intros H. rewrite <- plane_zero, <- plane_count in H. pose proof (Hd a) as P.
    assert (Q : forall j, (Z.of_nat j <= iat a d)%Z -> x < plane_ a (Z.of_nat j) -> exists i, (0 <= i < iat a d)%Z /\ plane_ a i <= x < plane_ a (i + 1)).
    { induction j as [|j IH]; intros L X; [cbn [Z.of_nat] in X; lra|].
      rewrite Nat2Z.inj_succ in *. destruct (Rlt_dec x (plane_ a (Z.of_nat j))) as [Y|Y]; [apply IH; [lia|exact Y]|].
      exists (Z.of_nat j). split; [lia|]. replace (Z.of_nat j + 1)%Z with (Z.succ (Z.of_nat j)) by lia. lra. }
    apply (Q (Z.to_nat (iat a d))); rewrite Z2Nat.id by lia; [lia|apply H].
  Qed.
End Grid.
