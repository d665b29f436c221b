From Verif.Base Require Import ZRange.
From Verif.Grid Require Import IndexModel IndexSpec.

Lemma i3_ext a b : ix a = ix b -> iy a = iy b -> iz a = iz b -> a = b.
Proof. destruct a, b; simpl; intros; subst; reflexivity. Qed.

Lemma i3eqb_eq a b : i3eqb a b = true <-> a = b.
Proof.
  unfold i3eqb. rewrite !andb_true_iff, !Z.eqb_eq. split.
  - intros [[? ?] ?]. now apply i3_ext.
  - intros ->. auto.
Qed.

Lemma i3_eq_dec (a b : I3) : {a = b} + {a <> b}.
Proof. repeat decide equality. Defined.

Lemma threeToOneD_range dims p : inGrid dims p -> 0 <= threeToOneD p dims < numCells dims.
Proof.
  unfold inGrid, threeToOneD, numCells. intros (Hx & Hy & Hz).
  assert (0 <= iz p * iy dims + iy p <= iz dims * iy dims - 1) by nia.
  nia.
Qed.

Lemma oneToThreeD_threeToOneD dims p : inGrid dims p ->
  oneToThreeD (threeToOneD p dims) dims = p.
Proof.
  unfold inGrid, threeToOneD, oneToThreeD. intros (Hx & Hy & Hz).
  destruct p as [x y z], dims as [dx dy dz]; simpl in *.
  assert (E1 : ((z * dy + y) * dx + x) / (dx * dy) = z).
  { symmetry. apply Z.div_unique with (r := y * dx + x); [left; nia | ring]. }
  rewrite E1.
  assert (E2 : ((z * dy + y) * dx + x - z * dx * dy) / dx = y).
  { symmetry. apply Z.div_unique with (r := x); [left; nia | ring]. }
  rewrite E2. f_equal. ring.
Qed.

Lemma threeToOneD_oneToThreeD dims i : positive dims -> 0 <= i < numCells dims ->
  threeToOneD (oneToThreeD i dims) dims = i.
Proof.
  unfold positive, threeToOneD, oneToThreeD. intros Hp Hi. simpl. ring.
Qed.

Lemma oneToThreeD_inGrid dims i : positive dims -> 0 <= i < numCells dims ->
  inGrid dims (oneToThreeD i dims).
Proof.
  unfold positive, inGrid, oneToThreeD, numCells. destruct dims as [dx dy dz]; simpl.
  intros (Hx & Hy & Hz) Hi.
  assert (Hxy : 0 < dx * dy) by nia.
  pose proof (Z.div_mod i (dx * dy) ltac:(lia)) as E1.
  pose proof (Z.mod_pos_bound i (dx * dy) Hxy) as B1.
  set (q := i / (dx * dy)) in *. set (r := i mod (dx * dy)) in *.
  assert (Hq0 : 0 <= q) by (unfold q; apply Z.div_pos; lia).
  assert (Hq : q < dz) by (unfold q; apply Z.div_lt_upper_bound; lia).
  replace (i - q * dx * dy) with r by lia.
  pose proof (Z.div_mod r dx ltac:(lia)) as E2.
  pose proof (Z.mod_pos_bound r dx ltac:(lia)) as B2.
  set (q2 := r / dx) in *. set (r2 := r mod dx) in *.
  assert (0 <= q2) by (unfold q2; apply Z.div_pos; lia).
  assert (q2 < dy) by (unfold q2; apply Z.div_lt_upper_bound; lia).
  replace (i - dx * (q2 + dy * q)) with r2 by lia.
  lia.
Qed.

Lemma threeToOneD_inj dims p q : inGrid dims p -> inGrid dims q ->
  threeToOneD p dims = threeToOneD q dims -> p = q.
Proof.
  intros Hp Hq E. rewrite <- (oneToThreeD_threeToOneD dims p Hp).
  rewrite E. now apply oneToThreeD_threeToOneD.
Qed.

Lemma threeToOneD_add dims p q :
  threeToOneD (i3add p q) dims = threeToOneD p dims + threeToOneD q dims.
Proof. unfold threeToOneD, i3add; simpl; ring. Qed.

(** * unsigned long version *)
Lemma w64_id x : 0 <= x < W64 -> w64 x = x.
Proof. intros. unfold w64. now apply Z.mod_small. Qed.

Lemma W64_pos : 0 < W64. Proof. reflexivity. Qed.
Global Opaque W64.

Lemma threeToOneD_u64_eq dims p : inGrid dims p -> numCells dims <= W64 ->
  threeToOneD_u64 p dims = threeToOneD p dims.
Proof.
  unfold inGrid, numCells, threeToOneD_u64, threeToOneD.
  destruct p as [x y z], dims as [dx dy dz]; simpl. intros (Hx & Hy & Hz) Hn.
  assert (B : 0 <= z * dy + y <= dz * dy - 1) by nia.
  assert (B0 : 0 <= z * dy <= z * dy + y) by nia.
  assert (B2 : dy * dz <= dx * dy * dz) by nia.
  rewrite (w64_id (z * dy)) by lia.
  rewrite (w64_id (z * dy + y)) by lia.
  rewrite (w64_id ((z * dy + y) * dx)) by nia.
  rewrite w64_id by nia. reflexivity.
Qed.

Lemma oneToThreeD_u64_eq dims i : positive dims -> 0 <= i < numCells dims -> numCells dims <= W64 ->
  oneToThreeD_u64 i dims = oneToThreeD i dims \/ ix dims * iy dims = W64.
Proof.
  intros Hp Hi Hn.
  destruct (Z.eq_dec (ix dims * iy dims) W64) as [E|E]; [now right|left].
  pose proof (oneToThreeD_inGrid dims i Hp Hi) as Hg.
  pose proof (threeToOneD_oneToThreeD dims i Hp Hi) as Hr.
  unfold inGrid, threeToOneD, oneToThreeD, oneToThreeD_u64, numCells, positive in *.
  destruct dims as [dx dy dz]; simpl in *.
  assert (dx * dy <= W64) by nia.
  rewrite (w64_id (dx * dy)) by nia.
  set (z := i / (dx * dy)) in *.
  rewrite (w64_id (z * dx)) by nia.
  rewrite (w64_id (z * dx * dy)) by nia.
  rewrite (w64_id (i - z * dx * dy)) by nia.
  set (y := (i - z * dx * dy) / dx) in *.
  rewrite (w64_id (dy * z)) by nia.
  rewrite (w64_id (y + dy * z)) by nia.
  rewrite (w64_id (dx * (y + dy * z))) by nia.
  rewrite (w64_id (i - _)) by nia. reflexivity.
Qed.

Lemma oneToThreeD_u64_small dims i : positive dims -> 0 <= i < numCells dims -> numCells dims < W64 ->
  oneToThreeD_u64 i dims = oneToThreeD i dims.
Proof.
  intros Hp Hi Hn. destruct (oneToThreeD_u64_eq dims i Hp Hi ltac:(lia)) as [E|E]; [exact E|].
  exfalso. unfold positive, numCells in *. nia.
Qed.
