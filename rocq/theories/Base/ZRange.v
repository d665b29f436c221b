(** Integer loops: [zrange lo hi] are the values of [for (i = lo; i < hi; ++i)],
    [zsteps lo hi s] the values of [for (i = lo; i < hi; i += s)]. *)
From Coq Require Export ZArith List Lia Bool Permutation.
Export ListNotations.
Global Open Scope Z_scope.

Global Arguments Z.mul : simpl never.
Global Arguments Z.add : simpl never.
Global Arguments Z.sub : simpl never.
Global Arguments Z.opp : simpl never.

Ltac Zify.zify_post_hook ::= Z.div_mod_to_equations.

Definition zsteps (lo hi s : Z) : list Z :=
  map (fun k => lo + s * Z.of_nat k) (seq 0 (Z.to_nat ((hi - lo + s - 1) / s))).

Definition zrange (lo hi : Z) : list Z :=
  map (fun k => lo + Z.of_nat k) (seq 0 (Z.to_nat (hi - lo))).

Lemma in_zrange lo hi x : In x (zrange lo hi) <-> lo <= x < hi.
Proof.
  unfold zrange. rewrite in_map_iff. split.
  - intros (k & <- & Hk). rewrite in_seq in Hk. lia.
  - intros H. exists (Z.to_nat (x - lo)). rewrite in_seq. lia.
Qed.

Lemma NoDup_map_inj {A B} (f : A -> B) (l : list A) :
  (forall x y, In x l -> In y l -> f x = f y -> x = y) -> NoDup l -> NoDup (map f l).
Proof.
  induction l as [|a l IH]; intros Hinj Hnd; simpl; constructor.
  - rewrite in_map_iff. intros (y & Hy & Hin).
    inversion Hnd as [|? ? Hna ?]; subst.
    apply Hna. rewrite (Hinj a y); auto with datatypes.
  - inversion Hnd; subst. apply IH; auto with datatypes.
Qed.

Lemma NoDup_zrange lo hi : NoDup (zrange lo hi).
Proof.
  unfold zrange. apply NoDup_map_inj; [|apply seq_NoDup]. intros; lia.
Qed.

Lemma length_zrange lo hi : length (zrange lo hi) = Z.to_nat (hi - lo).
Proof. unfold zrange. now rewrite map_length, seq_length. Qed.

Lemma in_zsteps lo hi s x : 0 < s ->
  In x (zsteps lo hi s) <-> lo <= x < hi /\ (x - lo) mod s = 0.
Proof.
  intros Hs. unfold zsteps. rewrite in_map_iff. split.
  - intros (k & <- & Hk). rewrite in_seq in Hk.
    assert (Hk' : Z.of_nat k < (hi - lo + s - 1) / s) by lia.
    assert (s * ((hi - lo + s - 1) / s) <= hi - lo + s - 1) by (apply Z.mul_div_le; lia).
    split; [nia|].
    replace (lo + s * Z.of_nat k - lo) with (Z.of_nat k * s) by ring.
    apply Z.mod_mul; lia.
  - intros [Hx Hm].
    assert (Hd : x - lo = s * ((x - lo) / s)).
    { rewrite (Z.div_mod (x - lo) s) at 1 by lia. lia. }
    set (q := (x - lo) / s) in *.
    assert (0 <= q) by (unfold q; apply Z.div_pos; lia).
    exists (Z.to_nat q). split; [rewrite Z2Nat.id by lia; lia|].
    rewrite in_seq.
    assert (q < (hi - lo + s - 1) / s).
    { apply Z.lt_le_trans with (q + 1); [lia|].
      apply Z.div_le_lower_bound; [lia|]. nia. }
    lia.
Qed.

Lemma NoDup_zsteps lo hi s : 0 < s -> NoDup (zsteps lo hi s).
Proof.
  intros Hs. unfold zsteps. apply NoDup_map_inj; [|apply seq_NoDup].
  intros; nia.
Qed.
