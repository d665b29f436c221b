(** The exchange of halo particles along one dimension. *)
From Coq Require Import Reals Lra Psatz List ZArith Lia Bool Permutation.
From Verif.Base Require Import OptionM ZRange Lists.
From Verif.Grid Require Import IndexModel.
From Verif.Functor Require Import SortModel.
From Verif.Container Require Import ParticleModel.
From Verif.Flex Require Import DomainModel DomainSpec DomainProofs GridProofs ExchangeModel ExchangeSpec.
Import ListNotations.
Local Open Scope R_scope.

Lemma particle_ext p q : pid p = pid q -> ppos p = ppos q -> pown p = pown q -> pdata p = pdata q -> p = q.
Proof. destruct p, q; cbn; intros; subst; reflexivity. Qed.
Lemma pcoord_with a x p : pcoord a (withCoord a x p) = x.
Proof. unfold pcoord, withCoord, withPos. cbn [ppos]. apply at3_set3. Qed.
Lemma pcoord_with_other a b x p : a <> b -> pcoord a (withCoord b x p) = pcoord a p.
Proof. intros N. unfold pcoord, withCoord, withPos. cbn [ppos]. now apply at3_set3_other. Qed.
Lemma with_self a p : withCoord a (pcoord a p) p = p.
Proof. destruct p as [i [x y z] o t]. destruct a; reflexivity. Qed.

Section Receive.
  Variable cfg : Config.
  Let d := decomposition cfg.
  Hypothesis Hd : forall a, (1 <= iat a d)%Z.
  (** A round in which all ranks send. *)
  Lemma receive send toL toR a r : (forall s, isRank d s -> send s = Some (toL s, toR s)) -> isRank d r ->
    exists l, sendAndReceive cfg send a r = Some l /\ Permutation l (toR (stepRank d a (-1) r) ++ toL (stepRank d a 1 r)).
  Proof.
    intros Sd Hr. unfold sendAndReceive. fold d. rewrite (left_step d Hd), (right_step d Hd).
    pose proof (step_rank d Hd a (-1) r Hr) as Rl. pose proof (step_rank d Hd a 1 r Hr) as Rn.
    destruct (Z.eqb_spec (stepRank d a (-1) r) r) as [E|N].
    - assert (E1 : stepRank d a 1 r = r).
      { rewrite <- E at 1. rewrite step_step by assumption. replace (1 + -1)%Z with 0%Z by lia. now apply step_zero. }
      rewrite (Sd r Hr). exists (toL r ++ toR r). split; [reflexivity|]. rewrite E, E1. apply Permutation_app_comm.
    - unfold messages. fold d. rewrite (Sd _ Rl), (Sd _ Rn). rewrite !(left_step d Hd), !(right_step d Hd), !step_step by assumption.
      replace (1 + -1)%Z with 0%Z by lia. replace (-1 + 1)%Z with 0%Z by lia. rewrite !step_zero by assumption. rewrite !Z.eqb_refl.
      change (-1 + -1)%Z with (-2)%Z. change (1 + 1)%Z with 2%Z.
      destruct (Z.eqb_spec (stepRank d a (-1) r) (stepRank d a 1 r)) as [E|E].
      + assert (Q : stepRank d a (-2) r = r).
        { replace (-2)%Z with (-1 + -1)%Z by lia. rewrite <- step_step by assumption. rewrite E, step_step by assumption.
          replace (-1 + 1)%Z with 0%Z by lia. now apply step_zero. }
        rewrite Q, Z.eqb_refl. cbn [app]. eexists. split; [reflexivity|]. rewrite E. apply Permutation_app_comm.
      + assert (Q : stepRank d a (-2) r <> r).
        { intros Q. apply E. rewrite <- Q at 2. rewrite step_step by assumption. reflexivity. }
        destruct (Z.eqb_spec (stepRank d a (-2) r) r) as [Q'|_]; [contradiction|]. cbn [app].
        eexists. split; [reflexivity|]. apply Permutation_refl.
  Qed.
End Receive.

Section Step.
  Variable cfg : Config.
  Let d := decomposition cfg.
  Variable minWidth : R.
  Variable B : Axis -> Z -> R.
  Hypothesis G : gridOf (globalMin cfg) (globalMax cfg) d minWidth (boxes cfg) B.
  Hypothesis Ds : distinguishable (globalMin cfg) (globalMax cfg) minWidth.
  Hypothesis Hc : 0 < cutoffWidth cfg.
  Hypothesis Hs : 0 <= skin cfg.
  Let w := cutoffWidth cfg + skin cfg.
  Hypothesis Wide : 2 * w <= minWidth.
  Let Hd : forall a, (1 <= iat a d)%Z := grid_count _ _ _ _ _ _ G.
  Let Pw : 0 < minWidth.
  Proof. unfold w in Wide. lra. Qed.
  Let L a := gHi cfg a - gLo cfg a.
  Let rid a r := iat a (indexToId r d).
  Notation plane a m := (plane_ (globalMin cfg) (globalMax cfg) d B a m).

  Definition image (a : Axis) (k : Z) (p : Particle) : Particle := withCoord a (pcoord a p + IZR k * L a) p.
  Lemma image_zero a p : image a 0 p = p.
  Proof. unfold image. rewrite Rmult_0_l, Rplus_0_r. apply with_self. Qed.
  Lemma image_coord a k p : pcoord a (image a k p) = pcoord a p + IZR k * L a.
  Proof. apply pcoord_with. Qed.
  Lemma image_inj a k p q : image a k p = image a k q -> p = q.
  Proof.
    intros E. assert (C : pcoord a p = pcoord a q) by (apply (f_equal (pcoord a)) in E; rewrite !image_coord in E; lra).
    unfold image in E. rewrite <- (with_self a p), <- (with_self a q), C. rewrite C in E. destruct p as [i [x y z] o t], q as [i' [x' y' z'] o' t'].
    unfold withCoord, withPos in *. cbn [pid ppos pown pdata] in *. destruct a; cbn [set3 rx ry rz] in *; injection E; intros; subst; reflexivity.
  Qed.

  Lemma lo_plane a r : isRank d r -> lo cfg a r = plane a (rid a r).
  Proof. intros H. exact (min_plane _ _ _ _ _ _ G a r H). Qed.
  Lemma hi_plane a r : isRank d r -> hi cfg a r = plane a (rid a r + 1).
  Proof. intros H. exact (max_plane _ _ _ _ _ _ G a r H). Qed.
  Lemma atMin_iff a r : isRank d r -> atMin cfg a r = (rid a r =? 0)%Z.
  Proof. intros H. exact (near_min _ _ _ _ _ _ G Pw Ds a r H). Qed.
  Lemma atMax_iff a r : isRank d r -> atMax cfg a r = (rid a r + 1 =? iat a d)%Z.
  Proof. intros H. exact (near_max _ _ _ _ _ _ G Pw Ds a r H). Qed.
  Lemma rank_rid a r : isRank d r -> (0 <= rid a r < iat a d)%Z.
  Proof. intros H. exact (id_of_rank d Hd r H a). Qed.
  Lemma width a r : isRank d r -> lo cfg a r + w <= hi cfg a r - w.
  Proof. intros H. rewrite lo_plane, hi_plane by exact H. pose proof (plane_width _ _ _ _ _ _ G a (rid a r)). lra. Qed.

  (** The cell of the rank [m - rid] steps further, and the number of rounds. *)
  Definition cellRank (a : Axis) (r : Z) (m : Z) : Z := stepRank d a (m - rid a r) r.
  Lemma cell_rank a r m : isRank d r -> isRank d (cellRank a r m) /\ rid a (cellRank a r m) = (m mod iat a d)%Z.
  Proof.
    intros H. split; [now apply step_rank|]. unfold rid, cellRank. rewrite step_id by assumption. rewrite iat_iset. f_equal. unfold rid. lia.
  Qed.

  Definition inSlab (a : Axis) (r : Z) (p : Particle) : Prop := lo cfg a r <= pcoord a p < hi cfg a r.
  (** Particles in the slab of the rank of cell [m], moved to cell [m]. *)
  Lemma image_cell a r m p : isRank d r -> inSlab a (cellRank a r m) p ->
    plane a m <= pcoord a (image a (m / iat a d) p) < plane a (m + 1).
  Proof.
    intros H I. destruct (cell_rank a r m H) as [Hr Er]. unfold inSlab in I. rewrite lo_plane, hi_plane, Er in I by exact Hr.
    rewrite image_coord. assert (M : (0 <= m mod iat a d < iat a d)%Z) by (apply Z.mod_pos_bound; pose proof (Hd a); lia).
    rewrite (plane_next _ _ _ _ _ _ G). rewrite plane_in, (plane_after _ _ _ _ _ _ G) in I by exact M. unfold plane_, span, L, gHi, gLo in *. lra.
  Qed.

  Definition allowed (a : Axis) (m : Z) : Prop := boundary cfg a = Periodic \/ (0 <= m < iat a d)%Z.
  (** [q] comes from the content [c] of the rank of some cell. *)
  Definition fromCell (c : Z -> list Particle) (a : Axis) (r m : Z) (q : Particle) : Prop :=
    exists p, In p (c (cellRank a r m)) /\ q = image a (m / iat a d) p.
  Definition reach (a : Axis) (r : Z) (q : Particle) : Prop := lo cfg a r - w <= pcoord a q < hi cfg a r + w.

  Section Axis.
    Variable a : Axis.
    Variable owned : Z -> list Particle.
    Variable h : Z -> list Particle.
    Variable halo : Z -> option (list Particle).
    Hypothesis Hh : forall r, isRank d r -> halo r = Some (h r).
    Hypothesis Own : forall r p, isRank d r -> In p (owned r) -> forall b, inSlab b r p.
    Hypothesis Hal : forall r p, isRank d r -> In p (h r) -> inSlab a r p.
    Hypothesis Ex : boundary cfg a = Periodic \/ iat a d = 1%Z \/ forall r, isRank d r -> h r = [].
    Let c r := owned r ++ h r.

    Lemma slab r p : isRank d r -> In p (c r) -> inSlab a r p.
    Proof. intros H I. apply in_app_or in I. destruct I as [I|I]; [exact (Own r p H I a)|now apply Hal]. Qed.

    Lemma inside_left r p : isRank d r -> In p (owned r) ->
      insideDomain (boxMin (boxes cfg) r) (set3 a (lo cfg a r + cutoffWidth cfg + skin cfg) (boxMax (boxes cfg) r)) (ppos p) =
      (if Rlt_dec (pcoord a p) (lo cfg a r + w) then true else false).
    Proof.
      intros H I. pose proof (Own r p H I AX) as X. pose proof (Own r p H I AY) as Y. pose proof (Own r p H I AZ) as Z0. unfold inSlab, lo, hi, pcoord in *.
      unfold insideDomain, axes, w. cbn [forallb].
      destruct a; cbn [at3 set3 rx ry rz] in *; repeat destruct Rle_dec; repeat destruct Rlt_dec; cbn; try reflexivity; lra.
    Qed.
    Lemma inside_right r p : isRank d r -> In p (owned r) ->
      insideDomain (set3 a (hi cfg a r - cutoffWidth cfg - skin cfg) (boxMin (boxes cfg) r)) (boxMax (boxes cfg) r) (ppos p) =
      (if Rle_dec (hi cfg a r - w) (pcoord a p) then true else false).
    Proof.
      intros H I. pose proof (Own r p H I AX) as X. pose proof (Own r p H I AY) as Y. pose proof (Own r p H I AZ) as Z0. unfold inSlab, lo, hi, pcoord in *.
      unfold insideDomain, axes, w. cbn [forallb].
      destruct a; cbn [at3 set3 rx ry rz] in *; repeat destruct Rle_dec; repeat destruct Rlt_dec; cbn; try reflexivity; lra.
    Qed.
    Lemma near_left r p : isRank d r -> In p (h r) -> nearLeft cfg a r p = (if Rlt_dec (pcoord a p) (lo cfg a r + w) then true else false).
    Proof. intros H I. pose proof (Hal r p H I) as [A1 A2]. unfold nearLeft, inInterval, w. destruct Rle_dec; repeat destruct Rlt_dec; cbn; try reflexivity; lra. Qed.
    Lemma near_right r p : isRank d r -> In p (h r) -> negb (nearLeft cfg a r p) && nearRight cfg a r p = (if Rle_dec (hi cfg a r - w) (pcoord a p) then true else false).
    Proof.
      intros H I. rewrite near_left by assumption. pose proof (Hal r p H I) as [A1 A2]. pose proof (width a r H) as W. unfold nearRight, inInterval, w in *.
      repeat destruct Rle_dec; repeat destruct Rlt_dec; cbn; try reflexivity; lra.
    Qed.

    (** What a rank sends, if all its particles were treated alike. *)
    Definition lefts (r : Z) : list Particle :=
      if isPeriodic (boundary cfg a) || negb (rid a r =? 0)%Z then
        map (image a (if (rid a r =? 0)%Z then 1 else 0)) (filter (fun p => if Rlt_dec (pcoord a p) (lo cfg a r + w) then true else false) (c r))
      else [].
    Definition rights (r : Z) : list Particle :=
      if isPeriodic (boundary cfg a) || negb (rid a r + 1 =? iat a d)%Z then
        map (image a (if (rid a r + 1 =? iat a d)%Z then -1 else 0)) (filter (fun p => if Rle_dec (hi cfg a r - w) (pcoord a p) then true else false) (c r))
      else [].

    Lemma shift_left r p : isRank d r -> shifted (atMin cfg a r) a (gHi cfg a - gLo cfg a) p = image a (if (rid a r =? 0)%Z then 1 else 0) p.
    Proof.
      intros H. unfold shifted. rewrite atMin_iff by exact H. destruct (rid a r =? 0)%Z; [|symmetry; apply image_zero]. unfold image. rewrite Rmult_1_l. reflexivity.
    Qed.
    Lemma shift_right r p : isRank d r -> shifted (atMax cfg a r) a (- (gHi cfg a - gLo cfg a)) p = image a (if (rid a r + 1 =? iat a d)%Z then -1 else 0) p.
    Proof.
      intros H. unfold shifted. rewrite atMax_iff by exact H. destruct (_ =? _)%Z; [|symmetry; apply image_zero]. unfold image, L. f_equal. lra.
    Qed.

    Lemma sends r : isRank d r -> skips cfg a r = false -> haloSends cfg owned halo a r = Some (lefts r, rights r).
    Proof.
      intros H Sk. unfold haloSends. rewrite (Hh r H), Sk. rewrite atMin_iff, atMax_iff by exact H. f_equal. f_equal.
      - unfold lefts, c. rewrite filter_app, map_app. unfold collectForLeft, forwardLeft.
        rewrite (filter_ext_in _ _ _ (fun p I => inside_left r p H I)), (filter_ext_in _ _ _ (fun p I => near_left r p H I)).
        rewrite (map_ext _ _ (fun p => shift_left r p H)).
        rewrite (map_ext (fun p => if atMin cfg a r then withCoord a (pcoord a p + (gHi cfg a - gLo cfg a)) p else p) _ (fun p => shift_left r p H)).
        destruct (isPeriodic (boundary cfg a)) eqn:Pe; cbn [orb]; [reflexivity|]. destruct (rid a r =? 0)%Z eqn:Z0; cbn [negb]; [|reflexivity].
        destruct Ex as [E|[E|E]]; [rewrite E in Pe; discriminate| |rewrite (E r H); reflexivity].
        exfalso. unfold skips in Sk. rewrite Pe, atMin_iff, atMax_iff, Z0, E in Sk by exact H. apply Z.eqb_eq in Z0. rewrite Z0 in Sk. discriminate.
      - unfold rights, c. rewrite filter_app, map_app. unfold collectForRight, forwardRight.
        rewrite (filter_ext_in _ _ _ (fun p I => inside_right r p H I)), (filter_ext_in _ _ _ (fun p I => near_right r p H I)).
        rewrite (map_ext _ _ (fun p => shift_right r p H)).
        rewrite (map_ext (fun p => if atMax cfg a r then withCoord a (pcoord a p - (gHi cfg a - gLo cfg a)) p else p) _ (fun p => shift_right r p H)).
        destruct (isPeriodic (boundary cfg a)) eqn:Pe; cbn [orb]; [reflexivity|]. destruct (rid a r + 1 =? iat a d)%Z eqn:Z0; cbn [negb]; [|reflexivity].
        destruct Ex as [E|[E|E]]; [rewrite E in Pe; discriminate| |rewrite (E r H); reflexivity].
        exfalso. unfold skips in Sk. pose proof (rank_rid a r H) as Rg. rewrite Pe, atMin_iff, atMax_iff, Z0 in Sk by exact H.
        replace (rid a r) with 0%Z in Sk by lia. discriminate.
    Qed.

    Lemma lo_cell r m : isRank d r -> lo cfg a (cellRank a r m) + IZR (m / iat a d) * L a = plane a m.
    Proof.
      intros H. destruct (cell_rank a r m H) as [Hr Er]. rewrite lo_plane, Er by exact Hr.
      rewrite plane_in by (apply Z.mod_pos_bound; pose proof (Hd a); lia). reflexivity.
    Qed.
    Lemma hi_cell r m : isRank d r -> hi cfg a (cellRank a r m) + IZR (m / iat a d) * L a = plane a (m + 1).
    Proof.
      intros H. destruct (cell_rank a r m H) as [Hr Er]. rewrite hi_plane, Er by exact Hr. rewrite (plane_next _ _ _ _ _ _ G a m).
      rewrite (plane_after _ _ _ _ _ _ G) by (apply Z.mod_pos_bound; pose proof (Hd a); lia). reflexivity.
    Qed.
    Lemma own_cell r : isRank d r -> cellRank a r (rid a r) = r.
    Proof. intros H. unfold cellRank. rewrite Z.sub_diag. now apply step_zero. Qed.

    Lemma in_rights r q : isRank d r ->
      In q (rights (stepRank d a (-1) r)) <-> (allowed a (rid a r - 1) /\ fromCell c a r (rid a r - 1) q) /\ lo cfg a r - w <= pcoord a q.
    Proof.
      intros H. pose proof (rank_rid a r H) as I. set (m := (rid a r - 1)%Z).
      assert (Es : stepRank d a (-1) r = cellRank a r m) by (unfold cellRank, m; f_equal; lia). rewrite Es.
      destruct (cell_rank a r m H) as [Hr Er]. pose proof (hi_cell r m H) as Hi. replace (m + 1)%Z with (rid a r) in Hi by lia. rewrite <- lo_plane in Hi by exact H.
      assert (C : ((m mod iat a d + 1 =? iat a d) = (rid a r =? 0))%Z /\ (m / iat a d = if rid a r =? 0 then -1 else 0)%Z).
      { unfold m. destruct (Z.eqb_spec (rid a r) 0) as [->|N].
        - replace (0 - 1)%Z with (-1)%Z by lia. assert (D : (-1 / iat a d = -1)%Z) by (symmetry; apply (Z.div_unique_pos _ _ _ (iat a d - 1)); lia).
          assert (M : (-1 mod iat a d = iat a d - 1)%Z) by (symmetry; apply (Z.mod_unique_pos _ _ (-1)); lia). rewrite M, D.
          split; [apply Z.eqb_eq; lia|reflexivity].
        - rewrite Z.mod_small, Z.div_small by lia. split; [apply Z.eqb_neq; lia|reflexivity]. }
      destruct C as [C1 C2]. unfold rights, fromCell. rewrite Er, C1. rewrite C2 in Hi. rewrite C2. unfold allowed.
      destruct (isPeriodic (boundary cfg a)) eqn:Pe.
      - assert (Pb : boundary cfg a = Periodic) by (destruct (boundary cfg a); (reflexivity || discriminate)).
        cbn [orb]. rewrite in_map_iff. split.
        + intros (p & <- & Ip). apply filter_In in Ip. destruct Ip as [Ip Dp]. destruct (Rle_dec _ _) as [Le|]; [|discriminate].
          split; [split; [now left|exists p; split; [exact Ip|reflexivity]]|]. rewrite image_coord. lra.
        + intros [[_ (p & Ip & ->)] Q]. exists p. split; [reflexivity|]. apply filter_In. split; [exact Ip|]. rewrite image_coord in Q.
          destruct (Rle_dec _ _) as [_|N]; [reflexivity|]. exfalso. apply N. lra.
      - assert (Pb : boundary cfg a <> Periodic) by (intros E; rewrite E in Pe; discriminate).
        cbn [orb]. destruct (Z.eqb_spec (rid a r) 0) as [Z0|Z0]; cbn [negb].
        + split; [intros []|]. intros [[[E|E] _] _]; [contradiction|]. unfold m in E. lia.
        + rewrite in_map_iff. split.
          * intros (p & <- & Ip). apply filter_In in Ip. destruct Ip as [Ip Dp]. destruct (Rle_dec _ _) as [Le|]; [|discriminate].
            split; [split; [right; unfold m; lia|exists p; split; [exact Ip|reflexivity]]|]. rewrite image_coord. lra.
          * intros [[_ (p & Ip & ->)] Q]. exists p. split; [reflexivity|]. apply filter_In. split; [exact Ip|]. rewrite image_coord in Q.
            destruct (Rle_dec _ _) as [_|N]; [reflexivity|]. exfalso. apply N. lra.
    Qed.
    Lemma in_lefts r q : isRank d r ->
      In q (lefts (stepRank d a 1 r)) <-> (allowed a (rid a r + 1) /\ fromCell c a r (rid a r + 1) q) /\ pcoord a q < hi cfg a r + w.
    Proof.
      intros H. pose proof (rank_rid a r H) as I. set (m := (rid a r + 1)%Z).
      assert (Es : stepRank d a 1 r = cellRank a r m) by (unfold cellRank, m; f_equal; lia). rewrite Es.
      destruct (cell_rank a r m H) as [Hr Er]. pose proof (lo_cell r m H) as Hi. unfold m in Hi at 3. rewrite <- hi_plane in Hi by exact H.
      assert (C : ((m mod iat a d =? 0) = (rid a r + 1 =? iat a d))%Z /\ (m / iat a d = if rid a r + 1 =? iat a d then 1 else 0)%Z).
      { unfold m. destruct (Z.eqb_spec (rid a r + 1) (iat a d)) as [->|N].
        - rewrite Z.mod_same, Z.div_same by lia. split; reflexivity.
        - rewrite Z.mod_small, Z.div_small by lia. split; [apply Z.eqb_neq; lia|reflexivity]. }
      destruct C as [C1 C2]. unfold lefts, fromCell. rewrite Er, C1. rewrite C2 in Hi. rewrite C2. unfold allowed.
      destruct (isPeriodic (boundary cfg a)) eqn:Pe.
      - assert (Pb : boundary cfg a = Periodic) by (destruct (boundary cfg a); (reflexivity || discriminate)).
        cbn [orb]. rewrite in_map_iff. split.
        + intros (p & <- & Ip). apply filter_In in Ip. destruct Ip as [Ip Dp]. destruct (Rlt_dec _ _) as [Le|]; [|discriminate].
          split; [split; [now left|exists p; split; [exact Ip|reflexivity]]|]. rewrite image_coord. lra.
        + intros [[_ (p & Ip & ->)] Q]. exists p. split; [reflexivity|]. apply filter_In. split; [exact Ip|]. rewrite image_coord in Q.
          destruct (Rlt_dec _ _) as [_|N]; [reflexivity|]. exfalso. apply N. lra.
      - assert (Pb : boundary cfg a <> Periodic) by (intros E; rewrite E in Pe; discriminate).
        cbn [orb]. destruct (Z.eqb_spec (rid a r + 1) (iat a d)) as [Z0|Z0]; cbn [negb].
        + split; [intros []|]. intros [[[E|E] _] _]; [contradiction|]. unfold m in E. lia.
        + rewrite in_map_iff. split.
          * intros (p & <- & Ip). apply filter_In in Ip. destruct Ip as [Ip Dp]. destruct (Rlt_dec _ _) as [Le|]; [|discriminate].
            split; [split; [right; unfold m; lia|exists p; split; [exact Ip|reflexivity]]|]. rewrite image_coord. lra.
          * intros [[_ (p & Ip & ->)] Q]. exists p. split; [reflexivity|]. apply filter_In. split; [exact Ip|]. rewrite image_coord in Q.
            destruct (Rlt_dec _ _) as [_|N]; [reflexivity|]. exfalso. apply N. lra.
    Qed.

    Lemma in_own r q : isRank d r -> In q (c r) <-> allowed a (rid a r) /\ fromCell c a r (rid a r) q.
    Proof.
      intros H. unfold fromCell. rewrite own_cell by exact H. pose proof (rank_rid a r H) as I. rewrite Z.div_small by exact I. split.
      - intros Q. split; [right; exact I|]. exists q. split; [exact Q|]. symmetry. apply image_zero.
      - intros [_ (p & Ip & ->)]. rewrite image_zero. exact Ip.
    Qed.
    Lemma from_cell r m q : isRank d r -> fromCell c a r m q -> plane a m <= pcoord a q < plane a (m + 1).
    Proof. intros H (p & Ip & ->). apply (image_cell a r); [exact H|]. apply slab; [exact (proj1 (cell_rank a r m H))|exact Ip]. Qed.
    Lemma own_reach r q : isRank d r -> In q (c r) -> reach a r q.
    Proof. intros H Q. pose proof (slab r q H Q) as [S1 S2]. unfold reach, w. lra. Qed.

    (** The members of the new content. *)
    Lemma reach_cells r q m : isRank d r -> reach a r q -> fromCell c a r m q -> (m = rid a r - 1 \/ m = rid a r \/ m = rid a r + 1)%Z.
    Proof.
      intros H [R1 R2] F. pose proof (from_cell r m q H F) as [P1 P2]. rewrite lo_plane in R1 by exact H. rewrite hi_plane in R2 by exact H.
      assert (Ww : w <= minWidth) by lra.
      destruct (Z_lt_le_dec m (rid a r - 1)) as [A|A].
      - exfalso. pose proof (plane_le _ _ _ _ _ _ G Pw a (m + 1) (rid a r - 1) ltac:(lia)). pose proof (plane_lt _ _ _ _ _ _ G Pw a (rid a r - 1) (rid a r) ltac:(lia)). lra.
      - destruct (Z_lt_le_dec (rid a r + 1) m) as [C|C]; [|lia].
        exfalso. pose proof (plane_le _ _ _ _ _ _ G Pw a (rid a r + 1 + 1) m ltac:(lia)). pose proof (plane_lt _ _ _ _ _ _ G Pw a (rid a r + 1) (rid a r + 1 + 1) ltac:(lia)). lra.
    Qed.

    Definition newContent (r : Z) (q : Particle) : Prop := reach a r q /\ exists m, allowed a m /\ fromCell c a r m q.

    Lemma skip_all r s : isRank d r -> isRank d s -> skips cfg a s = true -> skips cfg a r = true.
    Proof.
      intros H K. unfold skips. rewrite !atMin_iff, !atMax_iff by assumption. pose proof (rank_rid a r H). pose proof (rank_rid a s K).
      destruct (isPeriodic (boundary cfg a)); [discriminate|]. cbn [negb andb]. rewrite !andb_true_iff, !Z.eqb_eq. lia.
    Qed.

    Lemma skip_step r : isRank d r -> boundary cfg a <> Periodic -> iat a d = 1%Z -> haloStep cfg owned halo a r = Some (h r).
    Proof.
      intros H Pb E. unfold haloStep. rewrite (Hh r H). unfold skips. rewrite atMin_iff, atMax_iff by exact H. pose proof (rank_rid a r H).
      replace (rid a r) with 0%Z by lia. rewrite E. destruct (boundary cfg a); [now elim Pb|reflexivity|reflexivity].
    Qed.
    Lemma halo_step r : isRank d r -> exists h', haloStep cfg owned halo a r = Some h' /\
      (forall q, In q (owned r ++ h') <-> newContent r q) /\ ((forall s, isRank d s -> NoDup (c s)) -> NoDup (owned r ++ h')).
    Proof.
      intros H. pose proof (rank_rid a r H) as I. unfold haloStep. rewrite (Hh r H). destruct (skips cfg a r) eqn:Sk.
      - exists (h r). split; [reflexivity|]. split; [|intros Nd; exact (Nd r H)]. intros q. fold (c r). split.
        + intros Q. split; [now apply own_reach|]. exists (rid a r). now apply in_own.
        + intros [Rq (m & Am & F)]. unfold skips in Sk. rewrite atMin_iff, atMax_iff in Sk by exact H.
          destruct (isPeriodic (boundary cfg a)) eqn:Pe; [discriminate|]. cbn [negb andb] in Sk. apply andb_true_iff in Sk. rewrite !Z.eqb_eq in Sk.
          destruct Am as [Am|Am]; [rewrite Am in Pe; discriminate|]. apply in_own; [exact H|]. replace (rid a r) with m by lia. split; [now right|exact F].
      - destruct (receive cfg Hd (haloSends cfg owned halo a) lefts rights a r) as (l & El & Pl).
        { intros s K. apply sends; [exact K|]. destruct (skips cfg a s) eqn:Ss; [|reflexivity]. rewrite (skip_all r s H K Ss) in Sk. discriminate. }
        { exact H. }
        rewrite El. exists (h r ++ l). split; [reflexivity|]. rewrite app_assoc. fold (c r). fold d in Pl. split.
        + intros q. rewrite in_app_iff. assert (Q : In q l <-> In q (rights (stepRank d a (-1) r)) \/ In q (lefts (stepRank d a 1 r))).
          { rewrite <- in_app_iff. split; apply Permutation_in; [exact Pl|now apply Permutation_sym]. }
          rewrite Q, (in_rights r q H), (in_lefts r q H). split.
          * intros [J|[[[A F] J]|[[A F] J]]].
            -- split; [now apply own_reach|]. exists (rid a r). now apply in_own.
            -- split; [|exists (rid a r - 1)%Z; split; assumption]. split; [exact J|]. pose proof (from_cell _ _ _ H F) as [_ U].
               replace (rid a r - 1 + 1)%Z with (rid a r) in U by lia. rewrite <- lo_plane in U by exact H. pose proof (width a r H). unfold w in *. lra.
            -- split; [|exists (rid a r + 1)%Z; split; assumption]. split; [|exact J]. pose proof (from_cell _ _ _ H F) as [U _].
               rewrite <- hi_plane in U by exact H. pose proof (width a r H). unfold w in *. lra.
          * intros [Rq (m & Am & F)]. destruct (reach_cells r q m H Rq F) as [-> |[-> | ->]].
            -- right. left. split; [split; assumption|apply Rq].
            -- left. apply in_own; [exact H|]. split; assumption.
            -- right. right. split; [split; assumption|apply Rq].
        + intros Nd. assert (Cu := cell_unique _ _ _ _ _ _ G Pw a).
          assert (Nr : forall s, isRank d s -> NoDup (rights s)).
          { intros s K. unfold rights. destruct (_ || _); [|constructor]. apply NoDup_map_inj; [intros x y _ _; apply image_inj|]. apply NoDup_filter, Nd, K. }
          assert (Nl : forall s, isRank d s -> NoDup (lefts s)).
          { intros s K. unfold lefts. destruct (_ || _); [|constructor]. apply NoDup_map_inj; [intros x y _ _; apply image_inj|]. apply NoDup_filter, Nd, K. }
          apply (Permutation_NoDup (l := c r ++ rights (stepRank d a (-1) r) ++ lefts (stepRank d a 1 r))); [apply Permutation_app_head; symmetry; exact Pl|].
          apply NoDup_app_intro; [exact (Nd r H)| |].
          * apply NoDup_app_intro; [apply Nr, step_rank; assumption|apply Nl, step_rank; assumption|].
            intros q Q1 Q2. apply (in_rights r q H) in Q1. apply (in_lefts r q H) in Q2. destruct Q1 as [[_ F1] _], Q2 as [[_ F2] _].
            pose proof (Cu _ _ _ (from_cell _ _ _ H F1) (from_cell _ _ _ H F2)). lia.
          * intros q Q1 Q2. apply (in_own r q H) in Q1. destruct Q1 as [_ F1]. apply in_app_or in Q2. destruct Q2 as [Q2|Q2].
            -- apply (in_rights r q H) in Q2. destruct Q2 as [[_ F2] _]. pose proof (Cu _ _ _ (from_cell _ _ _ H F1) (from_cell _ _ _ H F2)). lia.
            -- apply (in_lefts r q H) in Q2. destruct Q2 as [[_ F2] _]. pose proof (Cu _ _ _ (from_cell _ _ _ H F1) (from_cell _ _ _ H F2)). lia.
    Qed.
  End Axis.
End Step.
