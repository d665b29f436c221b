(** Geometry of the grid of towers. *)
From Coq Require Import Reals Lra Lia Psatz.
From Flocq Require Import Core.
From Verif.Base Require Import ZRange.
From Verif.Functor Require Import SortModel SortSpec SortProofs.
From Verif.Grid Require Import CellBlockSpec.
From Verif.Container Require Import ParticleModel IteratorModel IteratorContainers LinkedCellsGeo.
From Verif.Cluster Require Import TowerModel BlockModel.
Local Open Scope Z_scope.

Lemma inBoxb_spec lo hi p : inBoxb lo hi p = true <-> inBox lo hi p.
Proof.
  unfold inBoxb, inBox. rewrite !andb_true_iff.
  repeat match goal with |- context [Rle_dec ?a ?b] => destruct (Rle_dec a b) | |- context [Rlt_dec ?a ?b] => destruct (Rlt_dec a b) end;
    split; intros H; repeat match goal with H : _ /\ _ |- _ => destruct H end; try discriminate; repeat split; try lra; auto.
Qed.

(** The coordinate [v] (relative to the box) is in tower [i - n]. *)
Definition inDim (side : R) (n i : Z) (v : R) : Prop := (side * IZR (i - n) <= v < side * IZR (i - n + 1))%R.

Lemma dim_dist side n a b u v : (0 < side)%R -> inDim side n a u -> inDim side n b v ->
  (IZR (Z.max 0 (Z.abs (a - b) - 1)) * side <= Rabs (u - v))%R /\
  (1 <= Z.abs (a - b) -> (IZR (Z.abs (a - b) - 1) * side < Rabs (u - v))%R).
Proof.
  intros S [A1 A2] [B1 B2]. rewrite !plus_IZR, !minus_IZR in A1, A2, B1, B2 || (rewrite !minus_IZR in A1, B1; rewrite !plus_IZR, !minus_IZR in A2, B2).
  assert (K : 1 <= Z.abs (a - b) -> (IZR (Z.abs (a - b) - 1) * side < Rabs (u - v))%R).
  { intros H. destruct (Z.lt_total a b) as [L|[->|L]]; [| lia |].
    - replace (Z.abs (a - b) - 1) with (b - a - 1) by lia. rewrite !minus_IZR.
      rewrite Rabs_minus_sym. apply Rlt_le_trans with (v - u)%R; [nra|apply Rle_abs].
    - replace (Z.abs (a - b) - 1) with (a - b - 1) by lia. rewrite !minus_IZR.
      apply Rlt_le_trans with (u - v)%R; [nra|apply Rle_abs]. }
  split; [|exact K].
  destruct (Z.lt_ge_cases (Z.abs (a - b)) 1).
  - replace (Z.max 0 (Z.abs (a - b) - 1)) with 0 by lia. rewrite Rmult_0_l. apply Rabs_pos.
  - replace (Z.max 0 (Z.abs (a - b) - 1)) with (Z.abs (a - b) - 1) by lia. left. apply K. lia.
Qed.

Lemma inDim_unique side n a b v : (0 < side)%R -> inDim side n a v -> inDim side n b v -> a = b.
Proof.
  intros S A B. destruct (dim_dist side n a b v v S A B) as [_ K].
  destruct (Z.lt_ge_cases (Z.abs (a - b)) 1); [lia|]. exfalso.
  specialize (K H). rewrite Rminus_eq_0, Rabs_R0 in K.
  assert (0 <= IZR (Z.abs (a - b) - 1))%R by (apply IZR_le; lia). nra.
Qed.

Lemma Zceil_pos x : (0 < x)%R -> 1 <= Zceil x.
Proof.
  intros H. assert (U := Zceil_ub x). destruct (Z.lt_ge_cases 0 (Zceil x)); [lia|].
  exfalso. assert (IZR (Zceil x) <= 0)%R by (apply IZR_le; lia). lra.
Qed.

Section Dim.
  Variables (box opt il : R).
  Hypothesis box_pos : (0 < box)%R.
  Hypothesis opt_pos : (0 < opt)%R.
  Hypothesis il_pos : (0 < il)%R.
  Lemma owned_pos : 1 <= ownedTowers box opt.
  Proof using box_pos opt_pos. apply Zceil_pos. apply Rdiv_lt_0_compat; auto. Qed.
  Lemma side_pos : (0 < sideLength box opt)%R.
  Proof using box_pos opt_pos.
    apply Rdiv_lt_0_compat; auto. apply IZR_lt. assert (X := owned_pos). lia.
  Qed.
  Lemma side_fills : (sideLength box opt * IZR (ownedTowers box opt) = box)%R.
  Proof using box_pos opt_pos.
    unfold sideLength. field. apply Rgt_not_eq. apply IZR_lt. assert (X := owned_pos). lia.
  Qed.
  Lemma halo_pos : 1 <= haloTowers il (sideLength box opt).
  Proof using box_pos opt_pos il_pos. apply Zceil_pos. apply Rdiv_lt_0_compat; auto. apply side_pos. Qed.
  Lemma halo_fills : (il <= sideLength box opt * IZR (haloTowers il (sideLength box opt)))%R.
  Proof using box_pos opt_pos.
    assert (S := side_pos). unfold haloTowers. assert (U := Zceil_ub (il / sideLength box opt)).
    apply Rmult_le_compat_l with (r := sideLength box opt) in U; [|lra].
    replace (sideLength box opt * (il / sideLength box opt))%R with il in U; [exact U|]. field. lra.
  Qed.
End Dim.

Section Grid.
  Variables (bMin bMax : R3) (il opt : R).
  Hypothesis box_ok : below bMin bMax.
  Hypothesis il_pos : (0 < il)%R.
  Hypothesis opt_pos : (0 < opt)%R.
  Notation bx := (rx bMax - rx bMin)%R.
  Notation by_ := (ry bMax - ry bMin)%R.
  (** As many halo towers in x as in y. *)
  Hypothesis same_halo : haloTowers il (sideLength bx opt) = haloTowers il (sideLength by_ opt).
  Let g := estimatedGrid bMin bMax il opt.

  Lemma nil_x : gNIL g = haloTowers il (gSideX g).
  Proof using same_halo. unfold g, estimatedGrid. cbn [gNIL gSideX]. lia. Qed.
  Lemma nil_y : gNIL g = haloTowers il (gSideY g).
  Proof using same_halo. unfold g, estimatedGrid. cbn [gNIL gSideY]. lia. Qed.
  Lemma gx_pos : (0 < bx)%R. Proof using box_ok. destruct box_ok as (? & ? & ?). lra. Qed.
  Lemma gy_pos : (0 < by_)%R. Proof using box_ok. destruct box_ok as (? & ? & ?). lra. Qed.
  Lemma sx_pos : (0 < gSideX g)%R. Proof using box_ok opt_pos. apply side_pos; auto. apply gx_pos. Qed.
  Lemma sy_pos : (0 < gSideY g)%R. Proof using box_ok opt_pos. apply side_pos; auto. apply gy_pos. Qed.
  Lemma nil_pos : 1 <= gNIL g.
  Proof using box_ok opt_pos il_pos. clear same_halo. unfold g, estimatedGrid. cbn [gNIL]. assert (X := halo_pos bx opt il gx_pos opt_pos il_pos). lia. Qed.
  Lemma nx_eq : gNX g = ownedTowers bx opt + 2 * gNIL g.
  Proof using same_halo. rewrite nil_x. reflexivity. Qed.
  Lemma ny_eq : gNY g = ownedTowers by_ opt + 2 * gNIL g.
  Proof using same_halo. rewrite nil_y. reflexivity. Qed.
  Lemma nx_pos : 3 <= gNX g.
  Proof using All. assert (X := owned_pos bx opt gx_pos opt_pos). assert (Y := nx_eq). assert (W := nil_pos). unfold g in *. lia. Qed.
  Lemma ny_pos : 3 <= gNY g.
  Proof using All. assert (X := owned_pos by_ opt gy_pos opt_pos). assert (Y := ny_eq). assert (W := nil_pos). unfold g in *. lia. Qed.

  (** The particle at [p] belongs to tower (x, y). *)
  Definition inTower (x y : Z) (p : R3) : Prop :=
    inDim (gSideX g) (gNIL g) x (rx p - rx bMin) /\ inDim (gSideY g) (gNIL g) y (ry p - ry bMin).

  Lemma inTower_unique x y x' y' p : inTower x y p -> inTower x' y' p -> x = x' /\ y = y'.
  Proof using box_ok opt_pos.
    intros [A B] [C D]. split; [exact (inDim_unique _ _ _ _ _ sx_pos A C)|exact (inDim_unique _ _ _ _ _ sy_pos B D)].
  Qed.

  Lemma box_inTower x y p : inBoxb (towerLo g x y) (towerHi g x y) p = true -> inTower x y p.
  Proof using.
    intros H. apply inBoxb_spec in H. destruct H as (X & Y & _). cbn [towerLo towerHi rx ry] in X, Y.
    replace (gMin g) with bMin in * by reflexivity.
    unfold inTower, inDim. rewrite !plus_IZR, !minus_IZR. split; split; nra.
  Qed.

  Lemma dim_at lo hi side (n : Z) v own : (0 < side)%R -> (side * IZR own = hi - lo)%R -> n = own + 2 * gNIL g ->
    (il <= side * IZR (gNIL g))%R -> (lo - il <= v < hi + il)%R ->
    inDim side (gNIL g) (towerDim g lo hi side n v) (v - lo) /\ 0 <= towerDim g lo hi side n v < n.
  Proof using.
    intros S F N H V. unfold towerDim. replace (gIL g) with il by reflexivity.
    destruct (Rle_dec (hi + il) v) as [B|B]; [lra|]. destruct (Rlt_dec v (lo - il)) as [B'|B']; [lra|].
    set (f := Zfloor ((v - lo) * (1 / side))).
    assert (L := Zfloor_lb ((v - lo) * (1 / side))). assert (U := Zfloor_ub ((v - lo) * (1 / side))). fold f in L, U.
    assert (E : (v - lo = side * ((v - lo) * (1 / side)))%R) by (field; lra).
    set (q := ((v - lo) * (1 / side))%R) in *.
    assert (LO : - gNIL g <= f).
    { assert (- IZR (gNIL g) <= q)%R by nra. assert (IZR (- gNIL g) < IZR (f + 1))%R by (rewrite opp_IZR, plus_IZR; lra).
      apply lt_IZR in H1. lia. }
    assert (HI : f < own + gNIL g).
    { assert (q < IZR own + IZR (gNIL g))%R by nra. assert (IZR f < IZR (own + gNIL g))%R by (rewrite plus_IZR; lra).
      apply lt_IZR in H1. lia. }
    replace (Z.min (Z.max (f + gNIL g) 0) (n - 1)) with (f + gNIL g) by lia.
    split; [|lia]. unfold inDim. replace (f + gNIL g - gNIL g) with f by lia. rewrite plus_IZR. rewrite E. split; nra.
  Qed.

  Lemma at_inTower p : inBoxb (haloMin g) (haloMax g) p = true ->
    inTower (fst (towerAt g p)) (snd (towerAt g p)) p /\
    0 <= fst (towerAt g p) < gNX g /\ 0 <= snd (towerAt g p) < gNY g.
  Proof using All.
    intros H. apply inBoxb_spec in H. destruct H as (X & Y & _). cbn [haloMin haloMax rx ry] in X, Y.
    unfold towerAt. assert (A := nx_pos). assert (B := ny_pos). destruct (Z.eqb_spec (gNX g * gNY g) 1); [nia|].
    cbn [fst snd].
    destruct (dim_at (rx (gMin g)) (rx (gMax g)) (gSideX g) (gNX g) (rx p) (ownedTowers bx opt)) as [DX BX]; auto.
    { apply sx_pos. } { apply side_fills; auto. apply gx_pos. } { apply nx_eq. }
    { rewrite nil_x. apply halo_fills; auto. apply gx_pos. }
    destruct (dim_at (ry (gMin g)) (ry (gMax g)) (gSideY g) (gNY g) (ry p) (ownedTowers by_ opt)) as [DY BY]; auto.
    { apply sy_pos. } { apply side_fills; auto. apply gy_pos. } { apply ny_eq. }
    { rewrite nil_y. apply halo_fills; auto. apply gy_pos. }
    unfold inTower. auto.
  Qed.

  (** Particles within the interaction length are in towers that are looked at. *)
  Lemma dist_dims p q : (Rabs (rx p - rx q) * Rabs (rx p - rx q) + Rabs (ry p - ry q) * Rabs (ry p - ry q) <= dist3 p q * dist3 p q)%R.
  Proof using.
    unfold dist3. rewrite sqrt_sqrt by apply dot_self_nonneg. unfold dot, rsub; cbn [rx ry rz].
    assert (E : forall a, (Rabs a * Rabs a = a * a)%R) by (intros a; rewrite <- Rabs_mult; apply Rabs_right; apply Rle_ge, Rle_0_sqr).
    rewrite !E. assert (Z := Rle_0_sqr (rz p - rz q)). unfold Rsqr in Z. lra.
  Qed.
  Lemma near_towers x y nx ny p q : inTower x y p -> inTower nx ny q -> (dist3 p q <= il)%R ->
    Z.abs (x - nx) <= gNIL g /\ Z.abs (y - ny) <= gNIL g /\ towersNear g x y nx ny = true.
  Proof using All.
    intros [PX PY] [QX QY] D. assert (SX := sx_pos). assert (SY := sy_pos).
    destruct (dim_dist _ _ _ _ _ _ SX PX QX) as [X1 X2]. destruct (dim_dist _ _ _ _ _ _ SY PY QY) as [Y1 Y2].
    replace (rx p - rx bMin - (rx q - rx bMin))%R with (rx p - rx q)%R in * by lra.
    replace (ry p - ry bMin - (ry q - ry bMin))%R with (ry p - ry q)%R in * by lra.
    assert (DD := dist_dims p q).
    assert (D0 : (0 <= dist3 p q)%R) by (unfold dist3; apply sqrt_pos).
    assert (AX := Rabs_pos (rx p - rx q)). assert (AY := Rabs_pos (ry p - ry q)).
    assert (SQ : forall a, (0 <= a -> a * a <= dist3 p q * dist3 p q -> a <= il)%R).
    { intros a A0 A1. apply Rle_trans with (2 := D). apply Rsqr_incr_0_var; [exact A1|exact D0]. }
    assert (IX : (Rabs (rx p - rx q) <= il)%R) by (apply SQ; [exact AX|nra]).
    assert (IY : (Rabs (ry p - ry q) <= il)%R) by (apply SQ; [exact AY|nra]). clear SQ.
    split; [|split].
    - destruct (Z.le_gt_cases (Z.abs (x - nx)) (gNIL g)); [lia|]. exfalso.
      assert (NP := nil_pos). specialize (X2 ltac:(lia)).
      assert (HF := halo_fills bx opt il gx_pos opt_pos). fold (gSideX g) in HF.
      change (sideLength bx opt) with (gSideX g) in HF. rewrite <- nil_x in HF.
      assert (IZR (gNIL g) <= IZR (Z.abs (x - nx) - 1))%R by (apply IZR_le; lia). nra.
    - destruct (Z.le_gt_cases (Z.abs (y - ny)) (gNIL g)); [lia|]. exfalso.
      assert (NP := nil_pos). specialize (Y2 ltac:(lia)).
      assert (HF := halo_fills by_ opt il gy_pos opt_pos).
      change (sideLength by_ opt) with (gSideY g) in HF. rewrite <- nil_y in HF.
      assert (IZR (gNIL g) <= IZR (Z.abs (y - ny) - 1))%R by (apply IZR_le; lia). nra.
    - unfold towersNear. replace (gIL g) with il by reflexivity.
      set (dx := (IZR (Z.max 0 (Z.abs (x - nx) - 1)) * gSideX g)%R) in *.
      set (dy := (IZR (Z.max 0 (Z.abs (y - ny) - 1)) * gSideY g)%R) in *.
      assert (0 <= dx)%R. { apply Rmult_le_pos; [apply IZR_le; lia|lra]. }
      assert (0 <= dy)%R. { apply Rmult_le_pos; [apply IZR_le; lia|lra]. }
      destruct (Rle_dec (dx * dx + dy * dy) (il * il)); [reflexivity|]. exfalso. apply n.
      apply Rle_trans with (dist3 p q * dist3 p q)%R; [|nra]. apply Rle_trans with (2 := DD). nra.
  Qed.

  (** In a tower with a particle of the box all particles are inside the box in x and y. *)
  Lemma tower_in_box x y p q : inTower x y p -> inTower x y q ->
    (rx bMin <= rx p < rx bMax)%R -> (ry bMin <= ry p < ry bMax)%R ->
    (rx bMin <= rx q < rx bMax)%R /\ (ry bMin <= ry q < ry bMax)%R.
  Proof using box_ok opt_pos.
    clear same_halo.
    assert (K : forall side own n i lo hi u v, (0 < side)%R -> (side * IZR own = hi - lo)%R -> inDim side n i (u - lo) -> inDim side n i (v - lo) ->
              (lo <= u < hi)%R -> (lo <= v < hi)%R).
    { clear. intros side own n i lo hi u v S F [U1 U2] [V1 V2] [B1 B2].
      assert (A : 0 <= i - n). { assert (0 < IZR (i - n + 1))%R by nra. apply lt_IZR in H. lia. }
      assert (B : i - n < own). { assert (IZR (i - n) < IZR own)%R by nra. apply lt_IZR in H. lia. }
      assert (0 <= IZR (i - n))%R by (apply IZR_le; lia). assert (IZR (i - n + 1) <= IZR own)%R by (apply IZR_le; lia).
      split; nra. }
    intros [PX PY] [QX QY] BX BY. split.
    - apply (K (gSideX g) (ownedTowers bx opt) (gNIL g) x (rx bMin) (rx bMax) (rx p)); auto; [apply sx_pos|]. apply side_fills; auto. apply gx_pos.
    - apply (K (gSideY g) (ownedTowers by_ opt) (gNIL g) y (ry bMin) (ry bMax) (ry p)); auto; [apply sy_pos|]. apply side_fills; auto. apply gy_pos.
  Qed.
End Grid.

(** Bounding boxes *)
Lemma bb_fold c : forall box, let r := fold_left bbStep c box in
  (rx (fst r) <= rx (fst box) /\ ry (fst r) <= ry (fst box) /\ rz (fst r) = rz (fst box) /\
   rx (snd box) <= rx (snd r) /\ ry (snd box) <= ry (snd r) /\ rz (snd r) = rz (snd box))%R /\
  forall p, In p c -> (rx (fst r) <= rx (ppos p) <= rx (snd r) /\ ry (fst r) <= ry (ppos p) <= ry (snd r))%R.
Proof.
  induction c as [|a c IH]; intros [lo hi]; cbn [fold_left].
  - split; [repeat split; lra|]. intros p [].
  - destruct (IH (bbStep (lo, hi) a)) as [A B]. cbv zeta in A, B |- *. set (r := fold_left bbStep c (bbStep (lo, hi) a)) in *.
    cbn [bbStep fst snd rx ry rz] in A, B |- *.
    assert (M1 := Rmin_l (rx lo) (rx (ppos a))). assert (M2 := Rmin_r (rx lo) (rx (ppos a))).
    assert (M3 := Rmin_l (ry lo) (ry (ppos a))). assert (M4 := Rmin_r (ry lo) (ry (ppos a))).
    assert (M5 := Rmax_l (rx hi) (rx (ppos a))). assert (M6 := Rmax_r (rx hi) (rx (ppos a))).
    assert (M7 := Rmax_l (ry hi) (ry (ppos a))). assert (M8 := Rmax_r (ry hi) (ry (ppos a))).
    split; [repeat split; lra|]. intros p [<-|I]; [repeat split; lra|apply B; auto].
Qed.

Lemma boxDistance_le aMin aMax bMin bMax p q : inClosedBox aMin aMax p -> inClosedBox bMin bMax q ->
  (boxDistanceSquared aMin aMax bMin bMax <= dist3 p q * dist3 p q)%R.
Proof.
  intros (A1 & A2 & A3) (B1 & B2 & B3). unfold boxDistanceSquared, dist3.
  rewrite sqrt_sqrt by apply dot_self_nonneg. unfold dot, rsub; cbn [rx ry rz].
  assert (K : forall al ah bl bh u v, (al <= u <= ah -> bl <= v <= bh ->
    Rmax 0 (al - bh) * Rmax 0 (al - bh) + Rmax 0 (bl - ah) * Rmax 0 (bl - ah) <= (u - v) * (u - v))%R).
  { clear. intros al ah bl bh u v H1 H2. unfold Rmax. assert (SQ := Rle_0_sqr (u - v)). unfold Rsqr in SQ.
    assert (M : forall a b, (0 <= a -> a <= b -> a * a <= b * b)%R) by (intros; apply Rmult_le_compat; lra).
    destruct (Rle_dec 0 (al - bh)) as [A|A]; destruct (Rle_dec 0 (bl - ah)) as [B|B].
    - replace (al - bh)%R with 0%R by lra. replace (bl - ah)%R with 0%R by lra. lra.
    - assert (X := M _ (u - v)%R A ltac:(lra)). lra.
    - assert (X := M _ (v - u)%R B ltac:(lra)). replace ((u - v) * (u - v))%R with ((v - u) * (v - u))%R by ring. lra.
    - lra. }
  assert (X := K _ _ _ _ _ _ A1 B1). assert (Y := K _ _ _ _ _ _ A2 B2). assert (Z := K _ _ _ _ _ _ A3 B3). lra.
Qed.

Lemma boxDistance_sym a b c d : boxDistanceSquared a b c d = boxDistanceSquared c d a b.
Proof. unfold boxDistanceSquared. apply Rplus_comm. Qed.
Lemma clustersNear_sym g a b : clustersNear g a b = clustersNear g b a.
Proof.
  unfold clustersNear. destruct (boundingBox a) as [[al ah]|]; destruct (boundingBox b) as [[bl bh]|]; auto.
  rewrite boxDistance_sym. reflexivity.
Qed.
