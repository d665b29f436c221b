(** Ranks, identifiers, neighbours and boundaries. *)
From Coq Require Import Reals Lra Psatz List ZArith Lia Bool Permutation.
From Verif.Base Require Import OptionM ZRange.
From Verif.Grid Require Import IndexModel.
From Verif.Functor Require Import SortModel.
From Verif.Flex Require Import DomainModel DomainSpec.
Import ListNotations.

Lemma iat_iset a x v : iat a (iset a x v) = x.
Proof. destruct a; reflexivity. Qed.
Lemma iat_iset_other a b x v : a <> b -> iat a (iset b x v) = iat a v.
Proof. destruct a, b; intros N; try reflexivity; now elim N. Qed.
Lemma i3_ext u v : (forall a, iat a u = iat a v) -> u = v.
Proof. intros H. destruct u, v. f_equal; [exact (H AX)|exact (H AY)|exact (H AZ)]. Qed.
Lemma at3_set3 a x v : at3 a (set3 a x v) = x.
Proof. destruct a; reflexivity. Qed.
Lemma at3_set3_other a b x v : a <> b -> at3 a (set3 b x v) = at3 a v.
Proof. destruct a, b; intros N; try reflexivity; now elim N. Qed.
Lemma r3_ext u v : (forall a, at3 a u = at3 a v) -> u = v.
Proof. intros H. destruct u, v. f_equal; [exact (H AX)|exact (H AY)|exact (H AZ)]. Qed.

Section Ids.
  Variable d : I3.
  Hypothesis Hd : forall a, 1 <= iat a d.

  Lemma pos3 : 0 < ix d /\ 0 < iy d /\ 0 < iz d.
  Proof. pose proof (Hd AX). pose proof (Hd AY). pose proof (Hd AZ). cbn [iat] in *. lia. Qed.
  Lemma index_expr id : idToIndex id d = ix id * (iy d * iz d) + iy id * iz d + iz id.
  Proof. unfold idToIndex, axes. cbn [fold_left accumulatedTail iat]. ring. Qed.
  Lemma id_expr i : indexToId i d = mkI3 (i / (iy d * iz d)) (i mod (iy d * iz d) / iz d) (i mod (iy d * iz d) mod iz d).
  Proof.
    destruct pos3 as (Px & Py & Pz). unfold indexToId, accumulatedTail. rewrite !Z.mul_1_l, Z.div_1_r.
    assert (Q : 0 < iy d * iz d) by nia.
    assert (M : i - iy d * iz d * (i / (iy d * iz d)) = i mod (iy d * iz d)) by (rewrite Z.mod_eq by lia; reflexivity).
    rewrite M. f_equal. rewrite (Z.mod_eq (i mod (iy d * iz d)) (iz d)) by lia. reflexivity.
  Qed.
  Lemma index_rank id : isId d id -> isRank d (idToIndex id d).
  Proof.
    intros H. pose proof (H AX) as X. pose proof (H AY) as Y. pose proof (H AZ) as W. cbn [iat] in X, Y, W. rewrite index_expr. unfold isRank.
    assert (A : 0 <= iy id * iz d <= (iy d - 1) * iz d) by nia.
    assert (C : 0 <= ix id * (iy d * iz d) <= (ix d - 1) * (iy d * iz d)) by nia.
    clear - A C W. replace (ix d * iy d * iz d) with ((ix d - 1) * (iy d * iz d) + ((iy d - 1) * iz d + iz d)) by ring. lia.
  Qed.
  Lemma id_of_rank r : isRank d r -> isId d (indexToId r d).
  Proof.
    intros [H0 H1] a. destruct pos3 as (Px & Py & Pz). rewrite id_expr.
    assert (Q : 0 < iy d * iz d) by nia. destruct a; cbn [iat ix iy iz].
    - split; [apply Z.div_pos; lia|]. apply Z.div_lt_upper_bound; nia.
    - pose proof (Z.mod_pos_bound r (iy d * iz d) Q). split; [apply Z.div_pos; lia|]. apply Z.div_lt_upper_bound; nia.
    - apply Z.mod_pos_bound. exact Pz.
  Qed.
  Lemma id_index id : isId d id -> indexToId (idToIndex id d) d = id.
  Proof.
    intros H. pose proof (H AX). pose proof (H AY). pose proof (H AZ). cbn [iat] in *. rewrite id_expr, index_expr.
    assert (R0 : 0 <= iy id * iz d + iz id < iy d * iz d) by nia.
    assert (D : (ix id * (iy d * iz d) + iy id * iz d + iz id) / (iy d * iz d) = ix id)
      by (rewrite <- Z.add_assoc, Z.div_add_l by lia; rewrite Z.div_small by lia; lia).
    assert (M : (ix id * (iy d * iz d) + iy id * iz d + iz id) mod (iy d * iz d) = iy id * iz d + iz id)
      by (rewrite Z.mod_eq by lia; rewrite D; lia).
    assert (L : (iy id * iz d + iz id) mod iz d = iz id) by (rewrite Z.add_comm, Z.mod_add by lia; apply Z.mod_small; lia).
    rewrite D, M, L. rewrite Z.div_add_l by lia. rewrite (Z.div_small (iz id)) by lia. destruct id as [u v w]; cbn [ix iy iz]. f_equal. lia.
  Qed.
  Lemma index_id r : isRank d r -> idToIndex (indexToId r d) d = r.
  Proof.
    intros H. destruct pos3 as (Px & Py & Pz). rewrite id_expr, index_expr. cbn [ix iy iz].
    assert (Q : 0 < iy d * iz d) by nia.
    pose proof (Z.div_mod r (iy d * iz d)). pose proof (Z.div_mod (r mod (iy d * iz d)) (iz d)). lia.
  Qed.
  Lemma index_inj u v : isId d u -> isId d v -> idToIndex u d = idToIndex v d -> u = v.
  Proof. intros U V E. rewrite <- (id_index u U), <- (id_index v V), E. reflexivity. Qed.

  (** The rank [k] steps further in dimension [a]. *)
  Definition stepRank (a : Axis) (k : Z) (r : Z) : Z :=
    idToIndex (iset a ((iat a (indexToId r d) + k) mod iat a d) (indexToId r d)) d.
  Lemma left_step a r : leftNeighbor d a r = stepRank a (-1) r.
  Proof.
    unfold leftNeighbor, stepRank. f_equal. f_equal. replace (iat a (indexToId r d) - 1 + iat a d) with (iat a (indexToId r d) + -1 + 1 * iat a d) by lia.
    apply Z.mod_add. pose proof (Hd a). lia.
  Qed.
  Lemma right_step a r : rightNeighbor d a r = stepRank a 1 r.
  Proof.
    unfold rightNeighbor, stepRank. f_equal. f_equal. replace (iat a (indexToId r d) + 1 + iat a d) with (iat a (indexToId r d) + 1 + 1 * iat a d) by lia.
    apply Z.mod_add. pose proof (Hd a). lia.
  Qed.
  Lemma iset_id a k id : isId d id -> isId d (iset a (k mod iat a d) id).
  Proof.
    intros H b. pose proof (Hd a) as P. destruct (eqAxis b a) eqn:E.
    - assert (b = a) by (destruct a, b; (reflexivity || discriminate)). subst. rewrite iat_iset. apply Z.mod_pos_bound. lia.
    - rewrite iat_iset_other by (intros ->; destruct a; discriminate). apply H.
  Qed.
  Lemma step_rank a k r : isRank d r -> isRank d (stepRank a k r).
  Proof. intros H. apply index_rank, iset_id, id_of_rank, H. Qed.
  Lemma step_id a k r : isRank d r -> indexToId (stepRank a k r) d = iset a ((iat a (indexToId r d) + k) mod iat a d) (indexToId r d).
  Proof. intros H. apply id_index, iset_id, id_of_rank, H. Qed.
  Lemma step_step a k m r : isRank d r -> stepRank a k (stepRank a m r) = stepRank a (k + m) r.
  Proof.
    intros H. unfold stepRank at 1. rewrite step_id by exact H. rewrite iat_iset. unfold stepRank. f_equal.
    rewrite Zplus_mod_idemp_l. replace (iat a (indexToId r d) + m + k) with (iat a (indexToId r d) + (k + m)) by lia.
    destruct a; reflexivity.
  Qed.
  Lemma step_zero a r : isRank d r -> stepRank a 0 r = r.
  Proof.
    intros H. unfold stepRank. rewrite Z.add_0_r, Z.mod_small by (apply id_of_rank, H).
    replace (iset a (iat a (indexToId r d)) (indexToId r d)) with (indexToId r d) by (destruct (indexToId r d), a; reflexivity).
    apply index_id, H.
  Qed.
  Lemma step_inj a k r s : isRank d r -> isRank d s -> stepRank a k r = s <-> r = stepRank a (- k) s.
  Proof.
    intros Hr Hs. split; intros E.
    - rewrite <- E, step_step by exact Hr. replace (- k + k) with 0 by lia. symmetry. now apply step_zero.
    - rewrite E, step_step by exact Hs. replace (k + - k) with 0 by lia. now apply step_zero.
  Qed.
  (** Steps by different numbers lead to the same rank only if they differ by whole rounds. *)
  Lemma step_same a k m r : isRank d r -> stepRank a k r = stepRank a m r -> (k - m) mod iat a d = 0.
  Proof.
    intros H E. apply (f_equal (fun s => iat a (indexToId s d))) in E. rewrite !step_id, !iat_iset in E by exact H.
    pose proof (Hd a). replace (k - m) with ((iat a (indexToId r d) + k) - (iat a (indexToId r d) + m)) by lia.
    rewrite Zminus_mod, E, Z.sub_diag. reflexivity.
  Qed.
End Ids.
