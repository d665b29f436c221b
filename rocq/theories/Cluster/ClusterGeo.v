(** Which towers an iterator has to look at. *)
From Coq Require Import Reals Lra Psatz.
From Flocq Require Import Core.
From Verif.Base Require Import ZRange.
From Verif.Functor Require Import SortModel.
From Verif.Grid Require Import CellBlockSpec.
From Verif.Container Require Import IteratorModel IteratorContainers IteratorSpec.
From Verif.Cluster Require Import BlockModel BlockGeo ClusterContainerModel ClusterContainerSpec.
Local Open Scope Z_scope.

(** One dimension of a regular grid. *)
Record dimOk (lo hi il side : R) (n nil own : Z) : Prop := {
  side_gt : (0 < side)%R; own_eq : (side * IZR own = hi - lo)%R; n_eq : n = own + 2 * nil;
  nil_ge : (il <= side * IZR nil)%R; nil_lt : (side * (IZR nil - 1) < il)%R; own_ge : 1 <= own; nil_1 : 1 <= nil }.

Lemma towerDim_mono g lo hi side n v w : (0 < side)%R -> 1 <= n -> (v <= w)%R -> towerDim g lo hi side n v <= towerDim g lo hi side n w.
Proof.
  intros S N H. unfold towerDim.
  assert (F : Zfloor ((v - lo) * (1 / side)) <= Zfloor ((w - lo) * (1 / side))).
  { apply Zfloor_le. apply Rmult_le_compat_r; [|lra]. apply Rlt_le, Rdiv_lt_0_compat; lra. }
  repeat match goal with |- context [Rle_dec ?a ?b] => destruct (Rle_dec a b) | |- context [Rlt_dec ?a ?b] => destruct (Rlt_dec a b) end; try lra; lia.
Qed.

Lemma towerDim_at g lo hi side n own i v : dimOk lo hi (gIL g) side n (gNIL g) own -> 0 <= i < n ->
  inDim side (gNIL g) i (v - lo) -> towerDim g lo hi side n v = i.
Proof.
  intros [S F N H1 H2 O L] I [A B]. rewrite plus_IZR, minus_IZR in B. rewrite minus_IZR in A. unfold towerDim.
  destruct (Rle_dec (hi + gIL g) v) as [C|C].
  - assert (IZR (own + 2 * gNIL g - 2) < IZR i)%R.
    { rewrite minus_IZR, plus_IZR, mult_IZR. nra. }
    apply lt_IZR in H. lia.
  - destruct (Rlt_dec v (lo - gIL g)) as [D|D].
    + assert (IZR i < IZR 1)%R by nra. apply lt_IZR in H. lia.
    + assert (E : Zfloor ((v - lo) * (1 / side)) = i - gNIL g).
      { apply Zfloor_imp. rewrite plus_IZR, minus_IZR. assert (Q : ((v - lo) * (1 / side) * side = v - lo)%R) by (field; lra).
        set (q := ((v - lo) * (1 / side))%R) in *. split; nra. }
      rewrite E. lia.
Qed.

Lemma owned_dim side nil own i v lo hi il n : dimOk lo hi il side n nil own -> inDim side nil i (v - lo) -> (lo <= v < hi)%R ->
  nil <= i < n - nil.
Proof.
  intros [S F N H1 H2 O L] [A B] [C D]. rewrite plus_IZR, minus_IZR in B. rewrite minus_IZR in A.
  assert (IZR nil < IZR (i + 1))%R by (rewrite plus_IZR; nra). assert (IZR i < IZR (own + nil))%R by (rewrite plus_IZR; nra).
  apply lt_IZR in H, H0. lia.
Qed.

(** * The whole grid *)
Definition gridDims (g : Grid) : Prop :=
  exists ox oy, dimOk (rx (gMin g)) (rx (gMax g)) (gIL g) (gSideX g) (gNX g) (gNIL g) ox /\
                dimOk (ry (gMin g)) (ry (gMax g)) (gIL g) (gSideY g) (gNY g) (gNIL g) oy.

Lemma halo_less il side : (0 < side)%R -> (side * (IZR (haloTowers il side) - 1) < il)%R.
Proof.
  intros S. unfold haloTowers.
  assert (L : (IZR (Zceil (il / side)) - 1 < il / side)%R).
  { destruct (Req_dec (IZR (Zfloor (il / side))) (il / side)) as [E|E].
    - rewrite <- E at 1. rewrite Zceil_IZR. lra.
    - rewrite (Zceil_floor_neq _ E), plus_IZR. assert (X := Zfloor_lb (il / side)). lra. }
  apply Rmult_lt_compat_l with (r := side) in L; [|exact S].
  replace (side * (il / side))%R with il in L; [exact L|]. field. lra.
Qed.

Lemma regular_dims g : regularGrid g -> gridDims g.
Proof.
  intros (bMin & bMax & il & opt & -> & B & I & O & H).
  exists (ownedTowers (rx bMax - rx bMin) opt), (ownedTowers (ry bMax - ry bMin) opt).
  assert (X := gx_pos bMin bMax B). assert (Y := gy_pos bMin bMax B).
  split; constructor.
  - now apply (sx_pos bMin bMax il opt B O).
  - now apply side_fills.
  - now apply nx_eq.
  - rewrite nil_x by assumption. now apply halo_fills.
  - rewrite nil_x by assumption. apply halo_less. now apply (sx_pos bMin bMax il opt B O).
  - now apply owned_pos.
  - now apply nil_pos.
  - now apply (sy_pos bMin bMax il opt B O).
  - now apply side_fills.
  - now apply ny_eq.
  - rewrite nil_y by assumption. now apply halo_fills.
  - rewrite nil_y by assumption. apply halo_less. now apply (sy_pos bMin bMax il opt B O).
  - now apply owned_pos.
  - now apply nil_pos.
Qed.

(** Tower [c] as pair of indices. *)
Lemma grid_index g c : 1 <= gNX g -> 0 <= c < gNX g * gNY g ->
  0 <= c mod gNX g < gNX g /\ 0 <= c / gNX g < gNY g /\ tower1D g (c mod gNX g) (c / gNX g) = c.
Proof.
  intros N C. assert (M := Z.mod_pos_bound c (gNX g) ltac:(lia)). assert (E := Z.div_mod c (gNX g) ltac:(lia)).
  split; [exact M|]. split; [split; [apply Z.div_pos; lia|apply Z.div_lt_upper_bound; lia]|]. unfold tower1D. lia.
Qed.

Lemma box_dims g x y p : inBox (towerLo g x y) (towerHi g x y) p ->
  inDim (gSideX g) (gNIL g) x (rx p - rx (gMin g)) /\ inDim (gSideY g) (gNIL g) y (ry p - ry (gMin g)).
Proof.
  intros (X & Y & _). cbn [towerLo towerHi rx ry] in X, Y. unfold inDim. rewrite !plus_IZR, !minus_IZR. split; split; nra.
Qed.

(** A position in the box of tower [c] has tower [c]. *)
Lemma box_at g c p : gridDims g -> 0 <= c < gNX g * gNY g ->
  inBox (towerLo g (c mod gNX g) (c / gNX g)) (towerHi g (c mod gNX g) (c / gNX g)) p ->
  towerAt g p = (c mod gNX g, c / gNX g).
Proof.
  intros (ox & oy & DX & DY) C B. pose proof DX as [_ _ NX _ _ OX LX]. pose proof DY as [_ _ NY _ _ OY LY].
  destruct (grid_index g c ltac:(lia) C) as (X & Y & E). destruct (box_dims g _ _ _ B) as [BX BY].
  unfold towerAt. destruct (Z.eqb_spec (gNX g * gNY g) 1); [nia|].
  f_equal; [now apply (towerDim_at g _ _ _ _ ox)|now apply (towerDim_at g _ _ _ _ oy)].
Qed.

(** Positions between two corners have towers between those of the corners. *)
Definition leq3 (a b : R3) : Prop := (rx a <= rx b /\ ry a <= ry b /\ rz a <= rz b)%R.
Lemma at_mono g p q : gridDims g -> leq3 p q -> towerIndexAt g (gNX g * gNY g) p <= towerIndexAt g (gNX g * gNY g) q.
Proof.
  intros (ox & oy & DX & DY) (LX & LY & _). pose proof DX as [SX _ NX _ _ OX IX]. pose proof DY as [SY _ NY _ _ OY IY].
  unfold towerIndexAt, towerAt, tower1D. destruct (Z.eqb_spec (gNX g * gNY g) 1) as [E|_]; [lia|]. cbn [fst snd].
  assert (X := towerDim_mono g (rx (gMin g)) (rx (gMax g)) _ (gNX g) _ _ SX ltac:(lia) LX).
  assert (Y := towerDim_mono g (ry (gMin g)) (ry (gMax g)) _ (gNY g) _ _ SY ltac:(lia) LY). nia.
Qed.
Lemma at_range g n p : 1 <= gNX g -> 1 <= gNY g -> n = gNX g * gNY g -> 0 <= towerIndexAt g n p < n.
Proof.
  intros X Y ->. unfold towerIndexAt. destruct (Z.eqb_spec (gNX g * gNY g) 1) as [E|E]; [lia|]. unfold towerAt, tower1D.
  destruct (Z.eqb_spec (gNX g * gNY g) 1) as [?|_]; [lia|]. cbn [fst snd].
  assert (A : forall lo hi side m v, 1 <= m -> 0 <= towerDim g lo hi side m v < m).
  { intros. unfold towerDim. repeat match goal with |- context [Rle_dec ?a ?b] => destruct (Rle_dec a b) | |- context [Rlt_dec ?a ?b] => destruct (Rlt_dec a b) end; lia. }
  assert (P := A (rx (gMin g)) (rx (gMax g)) (gSideX g) (gNX g) (rx p) X).
  assert (Q := A (ry (gMin g)) (ry (gMax g)) (gSideY g) (gNY g) (ry p) Y). nia.
Qed.
Lemma box_index g c p : gridDims g -> 0 <= c < gNX g * gNY g ->
  inBox (towerLo g (c mod gNX g) (c / gNX g)) (towerHi g (c mod gNX g) (c / gNX g)) p ->
  towerIndexAt g (gNX g * gNY g) p = c.
Proof.
  intros D C B. pose proof D as (ox & oy & [_ _ NX _ _ OX LX] & [_ _ NY _ _ OY LY]). unfold towerIndexAt.
  destruct (Z.eqb_spec (gNX g * gNY g) 1) as [E|_]; [lia|]. rewrite (box_at g c p D C B). cbn [fst snd].
  apply grid_index; lia.
Qed.

(** A position inside the box has a tower that can contain owned particles. *)
Lemma owned_index g c p : gridDims g -> 0 <= c < gNX g * gNY g ->
  inBox (towerLo g (c mod gNX g) (c / gNX g)) (towerHi g (c mod gNX g) (c / gNX g)) p -> inBox (gMin g) (gMax g) p ->
  firstOwnedTower g <= c <= lastOwnedTower g /\ canContainOwned g c = true.
Proof.
  intros (ox & oy & DX & DY) C B (PX & PY & _). destruct (box_dims g _ _ _ B) as [BX BY].
  assert (X := owned_dim _ _ _ _ _ _ _ _ _ DX BX PX). assert (Y := owned_dim _ _ _ _ _ _ _ _ _ DY BY PY).
  pose proof DX as [_ _ NX _ _ OX LX]. pose proof DY as [_ _ NY _ _ OY LY].
  destruct (grid_index g c ltac:(lia) C) as (_ & _ & E).
  assert (R : firstOwnedTower g <= c <= lastOwnedTower g).
  { unfold firstOwnedTower, lastOwnedTower, tower1D in *. split; nia. }
  split; [exact R|]. unfold canContainOwned. destruct (Z.ltb_spec c (firstOwnedTower g)); [lia|].
  destruct (Z.ltb_spec (lastOwnedTower g) c); [lia|]. cbn [orb]. lia.
Qed.

Lemma last_range g : gridDims g -> 0 <= firstOwnedTower g /\ lastOwnedTower g < gNX g * gNY g.
Proof.
  intros (ox & oy & DX & DY). pose proof DX as [_ _ NX _ _ OX LX]. pose proof DY as [_ _ NY _ _ OY LY].
  unfold firstOwnedTower, lastOwnedTower, tower1D. split; nia.
Qed.
