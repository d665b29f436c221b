(** Leaves that do not touch are at least a leaf apart; leaves in a range. *)
From Coq Require Import Reals Lra Permutation.
From Verif.Base Require Import ZRange.
From Verif.Functor Require Import SortModel SortSpec.
From Verif.Grid Require Import CellBlockModel CellBlockSpec.
From Verif.Container Require Import IteratorModel IteratorContainers LinkedCellsGeo.
From Verif.Octree Require Import DirectionModel OctreeModel OctreeSpec OctreeBase OctreeAxis OctreeNeighbor OctreeTouch OctreeInsert.
Local Open Scope R_scope.

Lemma coord_le_dist a b r : dist3 a b <= r ->
  (- r <= rx a - rx b <= r) /\ (- r <= ry a - ry b <= r) /\ (- r <= rz a - rz b <= r).
Proof.
  intros H. assert (0 <= r) by (eapply Rle_trans; [apply sqrt_pos|exact H]). apply dist3_sq in H; [|assumption].
  unfold dot, rsub in H. cbn [rx ry rz] in H.
  assert (S : forall x y z, x * x + y * y + z * z <= r * r -> - r <= x <= r).
  { intros x y z Q. assert (x * x <= r * r) by nra. split; nra. }
  repeat split; [eapply S|eapply S|eapply (S (ry a - ry b) (rx a - rx b))|eapply (S (ry a - ry b) (rx a - rx b))|eapply (S (rz a - rz b) (rx a - rx b))|eapply (S (rz a - rz b) (rx a - rx b))];
    try exact H; try (rewrite (Rplus_comm (_ * _) ((rx a - rx b) * _)); exact H).
  all: instantiate (1 := ry a - ry b); lra.
Qed.

Section Gap.
  Variable mid : R -> R -> R.
  Variable w : R.

  (** Both halves of every halving on the way are at least [w] long. *)
  Fixpoint wideF (lo hi : R) (l : list bool) : Prop :=
    match l with
    | [] => True
    | b :: r => w <= mid lo hi - lo /\ w <= hi - mid lo hi /\ (if b then wideF (mid lo hi) hi r else wideF lo (mid lo hi) r)
    end.

  Lemma gap_hi lo hi u : strictF mid lo hi u -> wideF lo hi u -> snd (ivalF mid lo hi u) < hi -> snd (ivalF mid lo hi u) <= hi - w.
  Proof.
    revert lo hi. induction u as [|b u IH]; intros lo hi S W H; cbn in *; [lra|]. destruct S as (S1 & S2 & S3), W as (W1 & W2 & W3).
    destruct b; [now apply IH|]. apply ivalF_inside in S3. lra.
  Qed.
  Lemma gap_lo lo hi u : strictF mid lo hi u -> wideF lo hi u -> lo < fst (ivalF mid lo hi u) -> lo + w <= fst (ivalF mid lo hi u).
  Proof.
    revert lo hi. induction u as [|b u IH]; intros lo hi S W H; cbn in *; [lra|]. destruct S as (S1 & S2 & S3), W as (W1 & W2 & W3).
    destruct b; [|now apply IH]. apply ivalF_inside in S3. lra.
  Qed.

  Lemma gap u v : forall lo hi, strictF mid lo hi u -> strictF mid lo hi v -> wideF lo hi u -> wideF lo hi v ->
    snd (ivalF mid lo hi u) < fst (ivalF mid lo hi v) -> snd (ivalF mid lo hi u) + w <= fst (ivalF mid lo hi v).
  Proof.
    revert v. induction u as [|b u IH]; intros v lo hi Su Sv Wu Wv H.
    - apply ivalF_inside in Sv. cbn in *. lra.
    - destruct v as [|b' v]; [apply ivalF_inside in Su; cbn [ivalF fst snd] in *; lra|].
      cbn [ivalF strictF wideF] in *. destruct Su as (_ & _ & Su), Sv as (_ & _ & Sv), Wu as (_ & _ & Wu), Wv as (_ & _ & Wv).
      destruct b, b'; [now apply IH| | |now apply IH].
      + apply ivalF_inside in Su. apply ivalF_inside in Sv. lra.
      + pose proof (ivalF_inside _ _ _ _ Su). pose proof (ivalF_inside _ _ _ _ Sv).
        destruct (Rlt_le_dec (snd (ivalF mid lo (mid lo hi) u)) (mid lo hi)) as [L|L].
        * pose proof (gap_hi _ _ _ Su Wu L). lra.
        * pose proof (gap_lo _ _ _ Sv Wv ltac:(lra)). lra.
  Qed.
End Gap.

Section Range.
  Context {P : Type}.
  Variable rnd : R -> R.
  Variable il : R.
  Notation Tree := (Tree P).
  Variables M eps : R.
  Hypothesis Hacc : accurate rnd M eps.
  Hypothesis Heps : 0 <= eps <= M.
  Hypothesis Hil8 : 8 * eps <= il.
  Hypothesis Hil : 0 < il.
  Let w := il - 3 * eps.
  Notation wideP lo hi l := (wideF (center rnd) w lo hi (rev l)).

  Lemma wide_node (t n : Tree) (q : Path) : wf rnd il t -> boxUpTo M (boxMin t) (boxMax t) -> below (boxMin t) (boxMax t) -> nodeAt t q = Some n ->
    wideP (rx (boxMin t)) (rx (boxMax t)) (map vx q) /\ wideP (ry (boxMin t)) (ry (boxMax t)) (map vy q) /\
    wideP (rz (boxMin t)) (rz (boxMax t)) (map vz q).
  Proof.
    intros W. revert n q. induction W as [lo hi ps|lo hi cs L B W IH T]; intros n q U D E; cbn [boxMin boxMax] in *.
    - destruct (list_eq_dec vertex_dec q []) as [->|N]; [cbn; auto|].
      destruct (exists_last N) as (m & v & ->). rewrite nodeAt_last in E. discriminate.
    - destruct (list_eq_dec vertex_dec q []) as [->|N]; [cbn; auto|].
      destruct (exists_last N) as (m & v & ->). rewrite nodeAt_last in E. cbn [SON] in E.
      destruct (nth_error cs (vertexToIndex v)) as [c|] eqn:C; [|discriminate].
      destruct (child_precise rnd il M eps Hacc Heps Hil8 Hil lo hi (vertexToIndex v) U D T) as (U' & D' & _ & _).
      destruct (child_precise rnd il M eps Hacc Heps Hil8 Hil lo hi 0 U D T) as (_ & _ & W0 & _).
      destruct (child_precise rnd il M eps Hacc Heps Hil8 Hil lo hi 7 U D T) as (_ & _ & W7 & _).
      destruct (B _ _ C) as [B1 B2]. rewrite <- B1, <- B2 in U', D'.
      destruct (IH _ c C n m U' D' E) as (IX & IY & IZ). rewrite B1, B2 in IX, IY, IZ.
      unfold wideBox, childMin, childMax in W0, W7. cbn [Nat.testbit Nat.odd Nat.even Nat.div2 negb rx ry rz] in W0, W7.
      unfold childMin, childMax in IX, IY, IZ. cbn [rx ry rz] in *.
      destruct (index_bits v) as (I2 & I1 & I0). rewrite I2 in IX. rewrite I1 in IY. rewrite I0 in IZ.
      rewrite !map_app. cbn [map]. rewrite !rev_app_distr. cbn [rev app wideF]. unfold w in *.
      repeat split; try lra; [destruct (vx v)|destruct (vy v)|destruct (vz v)]; assumption.
  Qed.

  (** Two leaves that do not touch are further apart than [w]. *)
  Lemma leaves_apart (t : Tree) p lo1 hi1 ps1 q lo2 hi2 ps2 x y : wf rnd il t -> boxUpTo M (boxMin t) (boxMax t) -> below (boxMin t) (boxMax t) ->
    leafAt t p lo1 hi1 ps1 -> leafAt t q lo2 hi2 ps2 -> inBox lo1 hi1 x -> inBox lo2 hi2 y -> dist3 x y <= w -> touching lo1 hi1 lo2 hi2.
  Proof.
    intros W U D L1 L2 I1 I2 Hd. destruct (wf_precise rnd il M eps Hacc Heps Hil8 Hil t W U D) as (S & _).
    apply touching_meet; [exact (S _ _ _ _ L1)|exact (S _ _ _ _ L2)|]. unfold leafAt in *.
    destruct (solid_strict rnd il t _ p W S L1) as (SX & SY & SZ). destruct (node_box rnd il t _ p W L1) as (BX & BY & BZ).
    destruct (solid_strict rnd il t _ q W S L2) as (SX' & SY' & SZ'). destruct (node_box rnd il t _ q W L2) as (BX' & BY' & BZ').
    destruct (wide_node t _ p W U D L1) as (WX & WY & WZ). destruct (wide_node t _ q W U D L2) as (WX' & WY' & WZ').
    cbn [boxMin boxMax] in *. apply coord_le_dist in Hd as (DX & DY & DZ). destruct I1 as (X & Y & Z), I2 as (X' & Y' & Z').
    unfold strict in *. rewrite ival_F in BX, BY, BZ, BX', BY', BZ'.
    pose proof (gap _ w _ _ _ _ SX SX' WX WX') as G1. pose proof (gap _ w _ _ _ _ SX' SX WX' WX) as G2.
    pose proof (gap _ w _ _ _ _ SY SY' WY WY') as G3. pose proof (gap _ w _ _ _ _ SY' SY WY' WY) as G4.
    pose proof (gap _ w _ _ _ _ SZ SZ' WZ WZ') as G5. pose proof (gap _ w _ _ _ _ SZ' SZ WZ' WZ) as G6.
    rewrite BX, BX' in G1, G2. rewrite BY, BY' in G3, G4. rewrite BZ, BZ' in G5, G6. cbn [fst snd] in *.
    unfold meet. cbn [fst snd].
    repeat split; apply Rnot_lt_le; intros Q; [specialize (G2 Q)|specialize (G1 Q)|specialize (G4 Q)|specialize (G3 Q)|specialize (G6 Q)|specialize (G5 Q)]; lra.
  Qed.

  (** Leaves in a range. *)
  Lemma in_range_leaf (t : Tree) path lo hi q : wf rnd il t -> In q (getLeavesInRange rnd t path lo hi) ->
    exists m, q = m ++ path /\ isLeafAt t m.
  Proof.
    intros H. revert path q. induction H as [a b ps|a b cs L B W IH T]; intros path q I.
    - cbn in I. destruct (enclosesVolume rnd a b lo hi); [|destruct I]. destruct I as [<-|[]]. exists []. split; [reflexivity|]. now exists a, b, ps.
    - rewrite getLeavesInRange_inner in I. apply in_flat_map in I as ((v & c) & Iv & I). cbn [fst snd] in I. apply (in_sons rnd il) in Iv; [|exact L].
      destruct (enclosesVolume _ _ _ _ _); [|destruct I]. apply (IH _ _ Iv) in I as (m & -> & (x & y & l & E)).
      exists (m ++ [v]). split; [now rewrite <- app_assoc|]. exists x, y, l. rewrite nodeAt_last. cbn [SON]. now rewrite Iv.
  Qed.

  Lemma NoDup_range (t : Tree) path lo hi : wf rnd il t -> NoDup (getLeavesInRange rnd t path lo hi).
  Proof using.
    intros H. revert path. induction H as [a b ps|a b cs L B W IH T]; intros path.
    - cbn. destruct (enclosesVolume rnd a b lo hi); repeat constructor; intros [].
    - rewrite getLeavesInRange_inner. apply NoDup_flat_map'.
      + apply NoDup_sons.
      + intros (v & c) I. cbn [fst snd]. apply (in_sons rnd il) in I; [|exact L]. destruct (enclosesVolume _ _ _ _ _); [eauto|constructor].
      + intros (v & c) (v' & c') q I J K N. cbn [fst snd] in K, N. apply (in_sons rnd il) in I; [|exact L]. apply (in_sons rnd il) in J; [|exact L].
        destruct (enclosesVolume _ (boxMin c) _ _ _); [|destruct K]. destruct (enclosesVolume _ (boxMin c') _ _ _); [|destruct N].
        apply in_range_leaf in K as (m & -> & _); [|eauto]. apply in_range_leaf in N as (m' & E & _); [|eauto].
        apply app_eq_tail in E. subst v'. congruence.
  Qed.

  (** The point is well inside of the range. *)
  Definition wellInside (lo hi x : R3) : Prop :=
    (rx lo + eps <= rx x /\ rx x + eps < rx hi) /\ (ry lo + eps <= ry x /\ ry x + eps < ry hi) /\ (rz lo + eps <= rz x /\ rz x + eps < rz hi).

  Lemma overlaps1_true a b lo hi x : - M <= a -> b <= M -> eps < b - a -> a <= x < b -> lo + eps <= x -> x + eps < hi -> overlaps1 rnd a b lo hi = true.
  Proof.
    intros A B E X Y Z. unfold overlaps1. destruct (Rlt_dec _ _) as [|N]; [reflexivity|]. exfalso. apply N.
    assert (Q : eps < Rmin b hi - Rmax a lo <= 2 * M) by (unfold Rmin, Rmax; repeat destruct (Rle_dec _ _); lra).
    pose proof (rnd_bounds rnd M eps Hacc _ ltac:(split; [|apply Q]; lra)). lra.
  Qed.

  Lemma encloses_true a b lo hi x : boxUpTo M a b -> wideBox w a b -> inBox a b x -> wellInside lo hi x -> enclosesVolume rnd a b lo hi = true.
  Proof.
    intros (U1 & U2 & U3) (W1 & W2 & W3) (I1 & I2 & I3) (J1 & J2 & J3). unfold enclosesVolume, w in *.
    rewrite !andb_true_iff. repeat split; eapply overlaps1_true; try apply U1; try apply U2; try apply U3; try eassumption; try lra; tauto.
  Qed.

  Lemma range_complete (t : Tree) path lo hi x : wf rnd il t -> boxUpTo M (boxMin t) (boxMax t) -> wideBox w (boxMin t) (boxMax t) ->
    forall m l h c, leafAt t m l h c -> inBox l h x -> wellInside lo hi x -> In (m ++ path) (getLeavesInRange rnd t path lo hi).
  Proof.
    intros H. revert path. induction H as [a b ps|a b cs L B W IH T]; intros path U Wd m l h c E I J; cbn [boxMin boxMax] in *; unfold leafAt in E.
    - destruct (list_eq_dec vertex_dec m []) as [->|N]; [|destruct (exists_last N) as (m' & v & ->); rewrite nodeAt_last in E; discriminate].
      injection E as <- <- <-. cbn. rewrite (encloses_true a b lo hi x U Wd I J). now left.
    - assert (D : below a b) by (unfold wideBox, below, w in *; lra).
      destruct (list_eq_dec vertex_dec m []) as [->|N]; [discriminate|]. destruct (exists_last N) as (m' & v & ->).
      rewrite nodeAt_last in E. cbn [SON] in E. destruct (nth_error cs (vertexToIndex v)) as [d|] eqn:C; [|discriminate].
      destruct (child_precise rnd il M eps Hacc Heps Hil8 Hil a b (vertexToIndex v) U D T) as (U' & D' & W' & _).
      destruct (B _ _ C) as [B1 B2]. rewrite <- B1, <- B2 in U', D', W'.
      pose proof (wf_precise rnd il M eps Hacc Heps Hil8 Hil d (W _ _ C) U' D') as (S & _).
      pose proof (proj1 (node_within rnd il d _ m' (W _ _ C) S E)) as A. cbn [boxMin boxMax] in A.
      pose proof (within_in _ _ _ _ _ A I) as I'.
      rewrite getLeavesInRange_inner. apply in_flat_map. exists (v, d). split; [now apply in_sons|]. cbn [fst snd].
      rewrite (encloses_true _ _ lo hi x U' W' I' J). rewrite <- app_assoc. cbn [app]. exact (IH _ _ C (v :: path) U' W' m' l h c E I J).
  Qed.
End Range.
