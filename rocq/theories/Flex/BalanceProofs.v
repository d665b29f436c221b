(** The boxes of the ranks: initially and after load balancing. *)
From Coq Require Import Reals Lra List ZArith Lia Bool.
From Verif.Base Require Import OptionM ZRange Lists.
From Verif.Grid Require Import IndexModel.
From Verif.Functor Require Import SortModel.
From Verif.Flex Require Import DomainModel DomainSpec DomainProofs GridProofs.
Import ListNotations.
Local Open Scope R_scope.

(** initializeLocalBox. *)
Lemma initial_grid gMin gMax d minWidth : (forall a, (1 <= iat a d)%Z) -> (forall a, minWidth * IZR (iat a d) <= at3 a gMax - at3 a gMin) ->
  gridOf gMin gMax d minWidth (mkBoxes (initialMin gMin gMax d) (initialMax gMin gMax d)) (fun a i => IZR i * localWidth gMin gMax d a + at3 a gMin).
Proof.
  intros Hd Hw. assert (P : forall a, 0 < IZR (iat a d)) by (intros a; apply IZR_lt; pose proof (Hd a); lia).
  split.
  - exact Hd.
  - intros a. ring.
  - intros a. unfold localWidth. field. specialize (P a). lra.
  - intros a i Hi. rewrite plus_IZR. assert (W : minWidth <= localWidth gMin gMax d a); [|lra]. unfold localWidth. specialize (P a). specialize (Hw a).
    apply Rmult_le_reg_r with (IZR (iat a d)); [exact P|]. unfold Rdiv. rewrite Rmult_assoc, Rinv_l by lra. lra.
  - intros r a _. destruct a; reflexivity.
  - intros r a _. destruct a; reflexivity.
Qed.

(** The boxes cover the global box, and no two of them overlap. *)
Section Cover.
  Variables gMin gMax : R3.
  Variable d : I3.
  Variable minWidth : R.
  Variable bs : Boxes.
  Variable B : Axis -> Z -> R.
  Hypothesis G : gridOf gMin gMax d minWidth bs B.
  Hypothesis Pw : 0 < minWidth.
  Let Hd : forall a, (1 <= iat a d)%Z := grid_count _ _ _ _ _ _ G.

  Lemma covered x : (forall a, at3 a gMin <= at3 a x < at3 a gMax) -> exists! r, isRank d r /\ inRankBox bs r x.
  Proof.
    intros H. destruct (cell_exists _ _ _ _ _ _ G AX _ (H AX)) as (i & Hi & Ci). destruct (cell_exists _ _ _ _ _ _ G AY _ (H AY)) as (j & Hj & Cj).
    destruct (cell_exists _ _ _ _ _ _ G AZ _ (H AZ)) as (k & Hk & Ck).
    assert (Id : isId d (mkI3 i j k)) by (intros []; assumption).
    exists (idToIndex (mkI3 i j k) d). assert (Rr : isRank d (idToIndex (mkI3 i j k) d)) by (now apply index_rank).
    split; [split; [exact Rr|]|].
    - intros a. rewrite (min_plane _ _ _ _ _ _ G), (max_plane _ _ _ _ _ _ G) by exact Rr. rewrite (id_index d Hd _ Id). destruct a; assumption.
    - intros s [Hs Is]. rewrite <- (index_id d Hd s Hs). f_equal. apply i3_ext. intros a. specialize (Is a).
      rewrite (min_plane _ _ _ _ _ _ G), (max_plane _ _ _ _ _ _ G) in Is by exact Hs.
      destruct a; cbn [iat ix iy iz]; eapply (cell_unique _ _ _ _ _ _ G Pw); eassumption.
  Qed.
  Lemma box_width r a : isRank d r -> minWidth <= at3 a (boxMax bs r) - at3 a (boxMin bs r).
  Proof. intros H. rewrite (grid_min _ _ _ _ _ _ G), (grid_max _ _ _ _ _ _ G) by exact H. apply (grid_width _ _ _ _ _ _ G). now apply (id_of_rank d Hd). Qed.
  Lemma box_inside r a : isRank d r -> at3 a gMin <= at3 a (boxMin bs r) /\ at3 a (boxMax bs r) <= at3 a gMax.
  Proof.
    intros H. rewrite (min_plane _ _ _ _ _ _ G), (max_plane _ _ _ _ _ _ G) by exact H. rewrite <- (plane_zero _ _ _ _ _ _ G), <- (plane_count _ _ _ _ _ _ G).
    pose proof (id_of_rank d Hd r H a). split; apply (plane_le _ _ _ _ _ _ G Pw); lia.
  Qed.
End Cover.

Lemma balanced_bounds lw rw l h w b : 0 < lw -> 0 < rw -> 0 < w -> l + 2 * w <= h -> balanceAdjacentDomains lw rw l h w = Some b -> l + w <= b <= h - w.
Proof.
  intros A C W L. unfold balanceAdjacentDomains. destruct (Req_EM_T _ _); [discriminate|]. destruct (Rlt_dec _ _) as [E|E]; [intros [= <-]; lra|].
  destruct (Rlt_dec _ _) as [F|F]; intros [= <-]; lra.
Qed.
Lemma balanced_some lw rw l h w : 0 < lw -> 0 < rw -> exists b, balanceAdjacentDomains lw rw l h w = Some b.
Proof.
  intros A C. unfold balanceAdjacentDomains. destruct (Req_EM_T _ _); [lra|]. destruct (Rlt_dec _ _); [eexists; reflexivity|]. destruct (Rlt_dec _ _); eexists; reflexivity.
Qed.

Section Balance.
  Variables gMin gMax : R3.
  Variable d : I3.
  Variable minWidth : R.
  Variable bs : Boxes.
  Variable B : Axis -> Z -> R.
  Hypothesis G : gridOf gMin gMax d minWidth bs B.
  Hypothesis Ds : distinguishable gMin gMax minWidth.
  Hypothesis Pw : 0 < minWidth.
  Variable work : Z -> R.
  Hypothesis Hw : forall r, isRank d r -> 0 < work r.
  Let Hd : forall a, (1 <= iat a d)%Z := grid_count _ _ _ _ _ _ G.
  Let rid a r := iat a (indexToId r d).
  Notation avg := (averageWork d work).

  Lemma in_plane a r q : In q (plane d a r) <-> isRank d q /\ rid a q = rid a r.
  Proof. unfold plane. rewrite filter_In, Z.eqb_eq. unfold ranks, rankCount. rewrite in_zrange. unfold isRank. tauto. Qed.
  Lemma sum_positive (l : list Z) acc : 0 <= acc -> (forall q, In q l -> isRank d q) -> l <> [] -> 0 < fold_left (fun s q => s + work q) l acc.
  Proof.
    revert acc. induction l as [|q l IH]; intros acc A H N; [contradiction|]. cbn [fold_left]. pose proof (Hw q (H q (or_introl eq_refl))).
    destruct l as [|u l]; [cbn [fold_left]; lra|]. apply IH; [lra|intros v Hv; apply H; now right|discriminate].
  Qed.
  Lemma avg_positive a r : isRank d r -> 0 < avg a r.
  Proof.
    intros H. unfold averageWork. destruct (Z.ltb_spec 1 (match a with AX => iy d * iz d | AY => iz d * ix d | AZ => ix d * iy d end)%Z) as [L|L]; [|now apply Hw].
    apply Rdiv_lt_0_compat; [|apply IZR_lt; lia]. apply sum_positive; [lra| |].
    - intros q Hq. now apply in_plane in Hq.
    - assert (I : In r (plane d a r)) by (apply in_plane; split; [exact H|reflexivity]). intros E. rewrite E in I. destruct I.
  Qed.
  Lemma avg_same a r s : isRank d r -> isRank d s -> rid a r = rid a s -> avg a r = avg a s.
  Proof.
    intros Hr Hs E. unfold averageWork. destruct (Z.ltb_spec 1 (match a with AX => iy d * iz d | AY => iz d * ix d | AZ => ix d * iy d end)%Z) as [L|L].
    - do 2 f_equal. unfold plane. unfold rid in E. rewrite E. reflexivity.
    - f_equal. rewrite <- (index_id d Hd r Hr), <- (index_id d Hd s Hs). f_equal. apply i3_ext. intros b.
      pose proof (id_of_rank d Hd r Hr b) as Ir. pose proof (id_of_rank d Hd s Hs b) as Is. pose proof (Hd AX). pose proof (Hd AY). pose proof (Hd AZ). cbn [iat] in *.
      assert (One : b <> a -> iat b d = 1%Z) by (clear E Ir Is Hr Hs; destruct a, b; cbn [iat] in *; intros N; try (now destruct N); clear -L H H0 H1; nia).
      destruct (eqAxis b a) eqn:Q; [destruct a, b; try discriminate Q; exact E|]. assert (N : b <> a) by (intros ->; destruct a; discriminate Q). specialize (One N). lia.
  Qed.

  (** The rank at position [i] along [a]. *)
  Definition repr (a : Axis) (i : Z) : Z := idToIndex (iset a (i mod iat a d) (mkI3 0 0 0)) d.
  Lemma repr_rank a i : isRank d (repr a i) /\ rid a (repr a i) = (i mod iat a d)%Z.
  Proof.
    assert (I0 : isId d (mkI3 0 0 0)) by (intros b; pose proof (Hd b); destruct b; cbn [iat ix iy iz] in *; lia).
    assert (I : isId d (iset a (i mod iat a d) (mkI3 0 0 0))) by (apply iset_id; [exact Hd|exact I0]).
    split; [now apply index_rank|]. unfold rid, repr. rewrite (id_index d Hd _ I). apply iat_iset.
  Qed.
  (** The new planes. *)
  Definition newPlane (a : Axis) (i : Z) : R :=
    if (0 <? i)%Z && (i <? iat a d)%Z
    then match balanceAdjacentDomains (avg a (repr a (i - 1))) (avg a (repr a i)) (B a (i - 1)%Z) (B a (i + 1)%Z) minWidth with
         | Some b => B a i + (b - B a i) / 2
         | None => B a i
         end
    else B a i.
  Lemma newPlane_inner a i : (0 < i < iat a d)%Z -> exists b, B a (i - 1)%Z + minWidth <= b <= B a (i + 1)%Z - minWidth /\ newPlane a i = B a i + (b - B a i) / 2 /\
    balanceAdjacentDomains (avg a (repr a (i - 1))) (avg a (repr a i)) (B a (i - 1)%Z) (B a (i + 1)%Z) minWidth = Some b.
  Proof.
    intros H. unfold newPlane. destruct (Z.ltb_spec 0 i); [|lia]. destruct (Z.ltb_spec i (iat a d)); [|lia]. cbn [andb].
    pose proof (avg_positive a _ (proj1 (repr_rank a (i - 1)))) as A. pose proof (avg_positive a _ (proj1 (repr_rank a i))) as C.
    destruct (balanced_some _ _ (B a (i - 1)%Z) (B a (i + 1)%Z) minWidth A C) as [b E]. rewrite E. exists b. split; [|split; reflexivity].
    refine (balanced_bounds _ _ _ _ _ _ A C Pw _ E). pose proof (grid_width _ _ _ _ _ _ G a (i - 1)%Z ltac:(lia)) as W1. pose proof (grid_width _ _ _ _ _ _ G a i ltac:(lia)) as W2.
    replace (i - 1 + 1)%Z with i in W1 by lia. lra.
  Qed.
  Lemma newPlane_outer a i : (i <= 0 \/ iat a d <= i)%Z -> newPlane a i = B a i.
  Proof. intros H. unfold newPlane. destruct (Z.ltb_spec 0 i); [|reflexivity]. destruct (Z.ltb_spec i (iat a d)); [lia|reflexivity]. Qed.

  Let min_p a r (H : isRank d r) : isNearRel (at3 a (boxMin bs r)) (at3 a gMin) = (rid a r =? 0)%Z := near_min _ _ _ _ _ _ G Pw Ds a r H.
  Let max_p a r (H : isRank d r) : isNearRel (at3 a (boxMax bs r)) (at3 a gMax) = (rid a r + 1 =? iat a d)%Z := near_max _ _ _ _ _ _ G Pw Ds a r H.
  Lemma step_rid a k r : isRank d r -> (0 <= rid a r + k < iat a d)%Z -> isRank d (stepRank d a k r) /\ rid a (stepRank d a k r) = (rid a r + k)%Z.
  Proof. intros H K. split; [now apply step_rank|]. unfold rid in *. rewrite step_id by assumption. rewrite iat_iset, Z.mod_small by exact K. reflexivity. Qed.
  Lemma balancedMin_plane a r : isRank d r -> balancedMin gMin gMax d minWidth bs work a r = Some (newPlane a (rid a r)).
  Proof.
    intros H. unfold balancedMin. rewrite (min_p a r H). pose proof (id_of_rank d Hd r H a) as I. fold (rid a r) in I. destruct (Z.eqb_spec (rid a r) 0) as [E|N].
    - rewrite newPlane_outer by lia. rewrite (grid_min _ _ _ _ _ _ G) by exact H. reflexivity.
    - rewrite left_step by exact Hd. destruct (step_rid a (-1) r H ltac:(lia)) as [Hl El]. rewrite (max_p a _ Hl). destruct (Z.eqb_spec (rid a (stepRank d a (-1) r) + 1) (iat a d)); [lia|].
      destruct (newPlane_inner a (rid a r) ltac:(lia)) as (b & _ & Np & Eb).
      replace (at3 a (boxMin bs (stepRank d a (-1) r))) with (B a (rid a r - 1)%Z) by (rewrite (grid_min _ _ _ _ _ _ G) by exact Hl; f_equal; unfold rid in *; lia).
      replace (at3 a (boxMax bs r)) with (B a (rid a r + 1)%Z) by (rewrite (grid_max _ _ _ _ _ _ G) by exact H; reflexivity).
      rewrite (avg_same a (stepRank d a (-1) r) (repr a (rid a r - 1))); [|exact Hl|apply repr_rank|rewrite (proj2 (repr_rank a _)), Z.mod_small by lia; lia].
      rewrite (avg_same a r (repr a (rid a r))); [|exact H|apply repr_rank|rewrite (proj2 (repr_rank a _)), Z.mod_small by lia; lia].
      rewrite Eb, Np. rewrite (grid_min _ _ _ _ _ _ G) by exact H. reflexivity.
  Qed.
  Lemma balancedMax_plane a r : isRank d r -> balancedMax gMin gMax d minWidth bs work a r = Some (newPlane a (rid a r + 1)).
  Proof.
    intros H. unfold balancedMax. rewrite (max_p a r H). pose proof (id_of_rank d Hd r H a) as I. fold (rid a r) in I. destruct (Z.eqb_spec (rid a r + 1) (iat a d)) as [E|N].
    - rewrite newPlane_outer by lia. rewrite (grid_max _ _ _ _ _ _ G) by exact H. reflexivity.
    - rewrite right_step by exact Hd. destruct (step_rid a 1 r H ltac:(lia)) as [Hl El]. rewrite (min_p a _ Hl). destruct (Z.eqb_spec (rid a (stepRank d a 1 r)) 0); [lia|].
      destruct (newPlane_inner a (rid a r + 1) ltac:(lia)) as (b & _ & Np & Eb). replace (rid a r + 1 - 1)%Z with (rid a r) in * by lia.
      replace (at3 a (boxMin bs r)) with (B a (rid a r)) by (rewrite (grid_min _ _ _ _ _ _ G) by exact H; reflexivity).
      replace (at3 a (boxMax bs (stepRank d a 1 r))) with (B a (rid a r + 1 + 1)%Z) by (rewrite (grid_max _ _ _ _ _ _ G) by exact Hl; f_equal; unfold rid in *; lia).
      rewrite (avg_same a (stepRank d a 1 r) (repr a (rid a r + 1))); [|exact Hl|apply repr_rank|rewrite (proj2 (repr_rank a _)), Z.mod_small by lia; lia].
      rewrite (avg_same a r (repr a (rid a r))); [|exact H|apply repr_rank|rewrite (proj2 (repr_rank a _)), Z.mod_small by lia; lia].
      rewrite Eb, Np. rewrite (grid_max _ _ _ _ _ _ G) by exact H. reflexivity.
  Qed.

  Definition newBoxes : Boxes :=
    mkBoxes (fun r => mkR3 (newPlane AX (rid AX r)) (newPlane AY (rid AY r)) (newPlane AZ (rid AZ r)))
            (fun r => mkR3 (newPlane AX (rid AX r + 1)) (newPlane AY (rid AY r + 1)) (newPlane AZ (rid AZ r + 1))).
  Lemma balanced_box r : isRank d r -> balancedBox gMin gMax d minWidth bs work r = Some (boxMin newBoxes r, boxMax newBoxes r).
  Proof. intros H. unfold balancedBox. rewrite !balancedMin_plane, !balancedMax_plane by exact H. reflexivity. Qed.
  Lemma old_width a i : (0 <= i < iat a d)%Z -> minWidth <= B a (i + 1)%Z - B a i.
  Proof. apply (grid_width _ _ _ _ _ _ G). Qed.
  Lemma new_grid : gridOf gMin gMax d minWidth newBoxes newPlane.
  Proof.
    split.
    - exact Hd.
    - intros a. rewrite newPlane_outer by lia. apply (grid_first _ _ _ _ _ _ G).
    - intros a. rewrite newPlane_outer by lia. apply (grid_last _ _ _ _ _ _ G).
    - intros a i Hi. pose proof (old_width a i Hi) as W.
      assert (Lo : 2 * newPlane a i <= B a i + B a (i + 1)%Z - minWidth).
      { destruct (Z.eq_dec i 0) as [->|N]; [rewrite newPlane_outer by lia; lra|]. destruct (newPlane_inner a i ltac:(lia)) as (b & Hb & -> & _). lra. }
      assert (Up : B a i + minWidth + B a (i + 1)%Z <= 2 * newPlane a (i + 1)%Z).
      { destruct (Z.eq_dec (i + 1) (iat a d)) as [E|N]; [rewrite newPlane_outer by lia; lra|]. destruct (newPlane_inner a (i + 1) ltac:(lia)) as (b & Hb & -> & _).
        replace (i + 1 - 1)%Z with i in Hb by lia. lra. }
      lra.
    - intros r a _. destruct a; reflexivity.
    - intros r a _. destruct a; reflexivity.
  Qed.
  (** Nothing moves further than to a neighbour. *)
  Lemma near_after r x a : isRank d r -> inRankBox bs r x ->
    exists s, isRank d s /\ (Z.abs (iat a (indexToId s d) - iat a (indexToId r d)) <= 1)%Z /\ at3 a (boxMin newBoxes s) <= at3 a x < at3 a (boxMax newBoxes s).
  Proof.
    intros H Ix. specialize (Ix a). rewrite (grid_min _ _ _ _ _ _ G), (grid_max _ _ _ _ _ _ G) in Ix by exact H. fold (rid a r) in *. pose proof (id_of_rank d Hd r H a) as I. fold (rid a r) in I.
    assert (Mv : forall k, (0 <= rid a r + k < iat a d)%Z -> (Z.abs k <= 1)%Z -> newPlane a (rid a r + k) <= at3 a x < newPlane a (rid a r + k + 1) ->
      exists s, isRank d s /\ (Z.abs (iat a (indexToId s d) - iat a (indexToId r d)) <= 1)%Z /\ at3 a (boxMin newBoxes s) <= at3 a x < at3 a (boxMax newBoxes s)).
    { intros k Hk Ka Hx. destruct (step_rid a k r H Hk) as [Hs Es]. exists (stepRank d a k r). split; [exact Hs|]. split; [unfold rid in *; lia|].
      rewrite (grid_min _ _ _ _ _ _ new_grid), (grid_max _ _ _ _ _ _ new_grid) by exact Hs. fold (rid a (stepRank d a k r)). rewrite Es. exact Hx. }
    assert (Lo : forall i, (0 <= i < iat a d)%Z -> newPlane a i <= B a (i + 1)%Z).
    { intros i Hi. pose proof (old_width a i Hi). destruct (Z.eq_dec i 0) as [->|N]; [rewrite newPlane_outer by lia; lra|]. destruct (newPlane_inner a i ltac:(lia)) as (b & Hb & -> & _). lra. }
    assert (Up : forall i, (0 <= i < iat a d)%Z -> B a i <= newPlane a (i + 1)%Z).
    { intros i Hi. pose proof (old_width a i Hi). destruct (Z.eq_dec (i + 1) (iat a d)) as [E|N]; [rewrite newPlane_outer by lia; lra|].
      destruct (newPlane_inner a (i + 1) ltac:(lia)) as (b & Hb & -> & _). replace (i + 1 - 1)%Z with i in Hb by lia. lra. }
    destruct (Rlt_dec (at3 a x) (newPlane a (rid a r))) as [L|L]; [|destruct (Rlt_dec (at3 a x) (newPlane a (rid a r + 1))) as [U|U]].
    - destruct (Z.eq_dec (rid a r) 0) as [E|N]; [exfalso; rewrite newPlane_outer in L by lia; lra|]. apply (Mv (-1)%Z); [lia|lia|]. pose proof (Lo (rid a r - 1)%Z ltac:(lia)) as Q.
      replace (rid a r - 1 + 1)%Z with (rid a r) in Q by lia. replace (rid a r + -1)%Z with (rid a r - 1)%Z by lia. replace (rid a r - 1 + 1)%Z with (rid a r) by lia. lra.
    - apply (Mv 0%Z); [lia|lia|]. rewrite Z.add_0_r. lra.
    - destruct (Z.eq_dec (rid a r + 1) (iat a d)) as [E|N]; [exfalso; rewrite newPlane_outer in U by lia; lra|]. apply (Mv 1%Z); [lia|lia|]. pose proof (Up (rid a r + 1)%Z ltac:(lia)). lra.
  Qed.
  Lemma balance_grid : exists bs' B', (forall r, isRank d r -> balancedBox gMin gMax d minWidth bs work r = Some (boxMin bs' r, boxMax bs' r)) /\
    gridOf gMin gMax d minWidth bs' B' /\
    forall r x a, isRank d r -> inRankBox bs r x ->
      exists s, isRank d s /\ (Z.abs (iat a (indexToId s d) - iat a (indexToId r d)) <= 1)%Z /\ at3 a (boxMin bs' s) <= at3 a x < at3 a (boxMax bs' s).
  Proof. exists newBoxes, newPlane. split; [exact balanced_box|]. split; [exact new_grid|]. exact near_after. Qed.
End Balance.

Lemma grid_boxes gMin gMax d minWidth bs bs' B : gridOf gMin gMax d minWidth bs B -> (forall r, isRank d r -> boxMin bs' r = boxMin bs r /\ boxMax bs' r = boxMax bs r) -> gridOf gMin gMax d minWidth bs' B.
Proof.
  intros [A1 A2 A3 A4 A5 A6] E. split; try assumption.
  - intros r a H. rewrite (proj1 (E r H)). now apply A5.
  - intros r a H. rewrite (proj2 (E r H)). now apply A6.
Qed.
Lemma reachable_grid gMin gMax d minWidth bs : suitable gMin gMax d minWidth -> reachableBoxes gMin gMax d minWidth bs -> exists B, gridOf gMin gMax d minWidth bs B.
Proof.
  intros (Pw & Ds & Su). induction 1 as [|bs work bs' _ [B G] Hw Hb].
  - eexists. apply initial_grid; intros a; apply (Su a).
  - destruct (balance_grid _ _ _ _ _ _ G Ds Pw work Hw) as (bs2 & B2 & E2 & G2 & _). exists B2. apply (grid_boxes _ _ _ _ _ _ _ G2).
    intros r H. specialize (E2 r H). rewrite (Hb r H) in E2. injection E2 as -> ->. split; reflexivity.
Qed.
