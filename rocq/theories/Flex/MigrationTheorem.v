(** Every migrating particle arrives at its rank. *)
From Coq Require Import Reals Lra Psatz List ZArith Lia Bool Permutation.
From Verif.Base Require Import OptionM ZRange Lists.
From Verif.Grid Require Import IndexModel.
From Verif.Functor Require Import SortModel.
From Verif.Container Require Import ParticleModel IteratorLemmas.
From Verif.Flex Require Import DomainModel DomainSpec DomainProofs GridProofs ExchangeModel ExchangeSpec HaloProofs MigrationProofs.
Import ListNotations.
Local Open Scope R_scope.

Lemma iter_r {A} n (f : A -> A) x : Nat.iter (S n) f x = Nat.iter n f (f x).
Proof. induction n as [|n IH]; [reflexivity|]. cbn [Nat.iter nat_rect] in *. f_equal. exact IH. Qed.

Section Theorem_.
  Variable cfg : Config.
  Let d := decomposition cfg.
  Variable minWidth : R.
  Variable B : Axis -> Z -> R.
  Hypothesis G : gridOf (globalMin cfg) (globalMax cfg) d minWidth (boxes cfg) B.
  Hypothesis Ds : distinguishable (globalMin cfg) (globalMax cfg) minWidth.
  Hypothesis Pw : 0 < minWidth.
  Let Hd : forall a, (1 <= iat a d)%Z := grid_count _ _ _ _ _ _ G.
  (** The number below the upper boundary lies in the last subdomain. *)
  Hypothesis Ji : forall a, B a (iat a d - 1)%Z <= justInside cfg a < gHi cfg a.
  Let rid a r := iat a (indexToId r d).
  Let L a := gHi cfg a - gLo cfg a.
  Notation plane a m := (plane_ (globalMin cfg) (globalMax cfg) d B a m).
  Notation hop := (hop cfg).

  Let lo_p a r (H : isRank d r) : lo cfg a r = plane a (rid a r) := min_plane _ _ _ _ _ _ G a r H.
  Let hi_p a r (H : isRank d r) : hi cfg a r = plane a (rid a r + 1) := max_plane _ _ _ _ _ _ G a r H.
  Let min_p a r (H : isRank d r) : atMin cfg a r = (rid a r =? 0)%Z := near_min _ _ _ _ _ _ G Pw Ds a r H.
  Let max_p a r (H : isRank d r) : atMax cfg a r = (rid a r + 1 =? iat a d)%Z := near_max _ _ _ _ _ _ G Pw Ds a r H.
  Let rg a r (H : isRank d r) : (0 <= rid a r < iat a d)%Z := id_of_rank d Hd r H a.
  Let p0 a : plane a 0 = gLo cfg a := plane_zero _ _ _ _ _ _ G a.
  Let pn a : plane a (iat a d) = gHi cfg a := plane_count _ _ _ _ _ _ G a.
  Let pshift a m k : plane a (m + k * iat a d) = plane a m + IZR k * L a := plane_shift _ _ _ _ _ _ G a m k.
  Let ple a m k : (m <= k)%Z -> plane a m <= plane a k := plane_le _ _ _ _ _ _ G Pw a m k.

  Lemma wrap_in a x : gLo cfg a <= x < gHi cfg a -> wrapCoord cfg a x = x.
  Proof. intros H. unfold wrapCoord. fold (gLo cfg a) (gHi cfg a). destruct (Rlt_dec _ _); [lra|]. destruct (Rle_dec _ _); [lra|reflexivity]. Qed.

  Lemma rid_step a k r : isRank d r -> rid a (stepRank d a k r) = ((rid a r + k) mod iat a d)%Z.
  Proof. intros H. unfold rid. rewrite step_id by assumption. apply iat_iset. Qed.
  Lemma rid_other a b k r : isRank d r -> b <> a -> rid b (stepRank d a k r) = rid b r.
  Proof. intros H N. unfold rid. rewrite step_id by assumption. now apply iat_iset_other. Qed.

  (** One step along [a]: the particle gets closer to its subdomain. *)
  Lemma hop_closer a r p m : isRank d r -> plane a m <= pcoord a p < plane a (m + 1) -> (- iat a d <= m < 2 * iat a d)%Z -> m <> rid a r ->
    exists m', let y := hop a (r, p) in
      isRank d (fst y) /\ plane a m' <= pcoord a (snd y) < plane a (m' + 1) /\ (- iat a d <= m' < 2 * iat a d)%Z /\
      (m' mod iat a d = m mod iat a d)%Z /\
      (Z.abs (rid a (fst y) - m') + 1 = Z.abs (rid a r - m))%Z /\ wrapCoord cfg a (pcoord a (snd y)) = wrapCoord cfg a (pcoord a p) /\
      (forall b, b <> a -> rid b (fst y) = rid b r /\ pcoord b (snd y) = pcoord b p) /\
      snd y = withCoord a (pcoord a (snd y)) p.
  Proof.
    intros Hr Hm Rm N. pose proof (rg a r Hr) as I. pose proof (Hd a) as Hn. cbv zeta.
    destruct (Z_lt_le_dec m (rid a r)) as [Lt|Ge].
    - (* to the left *)
      assert (Lf : leaveLeft cfg a r p = true).
      { unfold leaveLeft. rewrite lo_p by exact Hr. destruct (Rlt_dec _ _) as [_|Q]; [reflexivity|]. exfalso. apply Q. pose proof (ple a (m + 1) (rid a r) ltac:(lia)). lra. }
      assert (Eh : hop a (r, p) = (stepRank d a (-1) r, sentLeft cfg a r p)) by (unfold MigrationProofs.hop; cbn [fst snd]; rewrite Lf; reflexivity).
      rewrite Eh. cbn [fst snd]. rewrite rid_step by exact Hr.
      assert (Oth : forall b q, b <> a -> (q = p \/ exists x, q = withCoord a x p) -> rid b (stepRank d a (-1) r) = rid b r /\ pcoord b q = pcoord b p).
      { intros b q Nb Eq. split; [now apply rid_other|]. destruct Eq as [->|(x & ->)]; [reflexivity|now apply pcoord_with_other]. }
      unfold sentLeft. rewrite min_p by exact Hr. destruct (Z.eqb_spec (rid a r) 0) as [Z0|Z0].
      + rewrite Z0 in *. set (x' := Rmin (justInside cfg a) (pcoord a p + (gHi cfg a - gLo cfg a))).
        assert (Wx : wrapCoord cfg a (pcoord a p) = x').
        { unfold wrapCoord. fold (gLo cfg a) (gHi cfg a). destruct (Rlt_dec _ _) as [_|Q]; [reflexivity|]. exfalso. apply Q. rewrite <- p0. pose proof (ple a (m + 1) 0 ltac:(lia)). lra. }
        assert (C : plane a (m + 1 * iat a d) <= pcoord a p + L a < plane a (m + 1 + 1 * iat a d)) by (rewrite !pshift; lra).
        assert (Last : plane a (iat a d - 1) <= justInside cfg a < plane a (iat a d)).
        { rewrite pn. rewrite plane_in by lia. apply Ji. }
        assert (Cx : plane a (m + 1 * iat a d) <= x' < plane a (m + 1 * iat a d + 1)).
        { replace (m + 1 * iat a d + 1)%Z with (m + 1 + 1 * iat a d)%Z by lia. unfold x', Rmin. fold (L a). destruct (Rle_dec _ _) as [Q|Q]; [|exact C].
          destruct (Z.eq_dec (m + 1 * iat a d) (iat a d - 1)) as [E|E].
          - rewrite E. replace (m + 1 + 1 * iat a d)%Z with (iat a d) by lia. exact Last.
          - exfalso. pose proof (ple a (m + 1 + 1 * iat a d) (iat a d - 1) ltac:(lia)). lra. }
        exists (m + 1 * iat a d)%Z. split; [now apply step_rank|]. rewrite pcoord_with. split; [exact Cx|]. split; [lia|].
        assert (M1 : ((0 + -1) mod iat a d = iat a d - 1)%Z) by (symmetry; apply (Z.mod_unique_pos _ _ (-1)); lia).
        split; [rewrite Z.mod_add by lia; reflexivity|]. split; [rewrite M1; lia|]. split.
        { rewrite Wx. apply wrap_in. rewrite <- p0, <- pn. pose proof (ple a 0 (m + 1 * iat a d) ltac:(lia)). pose proof (ple a (m + 1 * iat a d + 1) (iat a d) ltac:(lia)). lra. }
        split; [|reflexivity]. intros b Nb. apply Oth; [exact Nb|right; eexists; reflexivity].
      + exists m. split; [now apply step_rank|]. split; [exact Hm|]. split; [exact Rm|]. split; [reflexivity|].
        rewrite Z.mod_small by lia. split; [lia|]. split; [reflexivity|]. split; [|symmetry; apply with_self]. intros b Nb. apply Oth; [exact Nb|now left].
    - (* to the right *)
      assert (Lf : leaveLeft cfg a r p = false).
      { unfold leaveLeft. rewrite lo_p by exact Hr. destruct (Rlt_dec _ _) as [Q|_]; [|reflexivity]. exfalso. pose proof (ple a (rid a r) m ltac:(lia)). lra. }
      assert (Rf : leaveRight cfg a r p = true).
      { unfold leaveRight. rewrite Lf, hi_p by exact Hr. destruct (Rle_dec _ _) as [_|Q]; [reflexivity|]. exfalso. apply Q. pose proof (ple a (rid a r + 1) m ltac:(lia)). lra. }
      assert (Eh : hop a (r, p) = (stepRank d a 1 r, sentRight cfg a r p)) by (unfold MigrationProofs.hop; cbn [fst snd]; rewrite Lf, Rf; reflexivity).
      rewrite Eh. cbn [fst snd]. rewrite rid_step by exact Hr.
      assert (Oth : forall b q, b <> a -> (q = p \/ exists x, q = withCoord a x p) -> rid b (stepRank d a 1 r) = rid b r /\ pcoord b q = pcoord b p).
      { intros b q Nb Eq. split; [now apply rid_other|]. destruct Eq as [->|(x & ->)]; [reflexivity|now apply pcoord_with_other]. }
      unfold sentRight. rewrite max_p by exact Hr. destruct (Z.eqb_spec (rid a r + 1) (iat a d)) as [Z0|Z0].
      + assert (Hx : gHi cfg a <= pcoord a p) by (rewrite <- pn; pose proof (ple a (iat a d) m ltac:(lia)); lra).
        assert (Lpos : gLo cfg a < gHi cfg a).
        { rewrite <- p0, <- pn. pose proof (plane_lt _ _ _ _ _ _ G Pw a 0 (iat a d) ltac:(lia)). lra. }
        assert (Ex : Rmax (gLo cfg a) (pcoord a p - (gHi cfg a - gLo cfg a)) = pcoord a p - L a) by (unfold Rmax, L; destruct (Rle_dec _ _); lra).
        rewrite Ex.
        assert (Wx : wrapCoord cfg a (pcoord a p) = pcoord a p - L a).
        { unfold wrapCoord. fold (gLo cfg a) (gHi cfg a) (L a). destruct (Rlt_dec _ _) as [Q|_]; [lra|]. destruct (Rle_dec _ _); [reflexivity|lra]. }
        assert (C : plane a (m + -1 * iat a d) <= pcoord a p - L a < plane a (m + -1 * iat a d + 1)).
        { replace (m + -1 * iat a d + 1)%Z with (m + 1 + -1 * iat a d)%Z by lia. rewrite !pshift. lra. }
        exists (m + -1 * iat a d)%Z. split; [now apply step_rank|]. rewrite pcoord_with. split; [exact C|]. split; [lia|].
        split; [rewrite Z.mod_add by lia; reflexivity|].
        rewrite Z0, Z.mod_same by lia. split; [lia|]. split.
        { rewrite Wx. apply wrap_in. rewrite <- p0, <- pn. pose proof (ple a 0 (m + -1 * iat a d) ltac:(lia)). pose proof (ple a (m + -1 * iat a d + 1) (iat a d) ltac:(lia)). lra. }
        split; [|reflexivity]. intros b Nb. apply Oth; [exact Nb|right; eexists; reflexivity].
      + exists m. split; [now apply step_rank|]. split; [exact Hm|]. split; [exact Rm|]. split; [reflexivity|].
        rewrite Z.mod_small by lia. split; [lia|]. split; [reflexivity|]. split; [|symmetry; apply with_self]. intros b Nb. apply Oth; [exact Nb|now left].
  Qed.

  (** All steps along [a]. *)
  Lemma hops_arrive a n r p m : isRank d r -> plane a m <= pcoord a p < plane a (m + 1) -> (- iat a d <= m < 2 * iat a d)%Z ->
    (Z.abs (rid a r - m) <= Z.of_nat n)%Z ->
    exists s, Nat.iter n (hop a) (r, p) = (s, withCoord a (wrapCoord cfg a (pcoord a p)) p) /\ isRank d s /\
      lo cfg a s <= wrapCoord cfg a (pcoord a p) < hi cfg a s /\ (forall b, b <> a -> rid b s = rid b r).
  Proof.
    revert r p m. induction n as [|n IH]; intros r p m Hr Hm Rm Dn.
    - assert (E : m = rid a r) by lia. subst m. pose proof (rg a r Hr) as I. exists r.
      assert (Wx : wrapCoord cfg a (pcoord a p) = pcoord a p).
      { apply wrap_in. rewrite <- p0, <- pn. pose proof (ple a 0 (rid a r) ltac:(lia)). pose proof (ple a (rid a r + 1) (iat a d) ltac:(lia)). lra. }
      cbn [Nat.iter nat_rect]. rewrite Wx, with_self. split; [reflexivity|]. split; [exact Hr|]. rewrite lo_p, hi_p by exact Hr. split; [exact Hm|reflexivity].
    - destruct (Z.eq_dec m (rid a r)) as [E|N].
      + assert (St : hop a (r, p) = (r, p)).
        { apply hop_stay, leaves_slab. cbn [fst snd]. rewrite lo_p, hi_p by exact Hr. rewrite <- E. exact Hm. }
        rewrite iter_r, St. apply (IH r p m Hr Hm Rm). lia.
      + destruct (hop_closer a r p m Hr Hm Rm N) as (m' & Hr' & Hm' & Rm' & _ & Dm' & Wm' & Om' & Em'). rewrite iter_r.
        destruct (hop a (r, p)) as [r' p']. cbn [fst snd] in *.
        destruct (IH r' p' m' Hr' Hm' Rm' ltac:(lia)) as (s & Es & Rs & Bs & Os). exists s. rewrite Wm' in Es, Bs. split.
        * rewrite Es. f_equal. rewrite Em'. destruct p as [i [x y z] o t]. destruct a; reflexivity.
        * split; [exact Rs|]. split; [exact Bs|]. intros b Nb. rewrite (Os b Nb). apply Om', Nb.
  Qed.

  Lemma cell_between a u v x : (u <= v)%Z -> plane a u <= x < plane a v -> exists m, (u <= m < v)%Z /\ plane a m <= x < plane a (m + 1).
  Proof.
    intros Uv. assert (Q : forall k, plane a u <= x < plane a (u + Z.of_nat k) -> exists m, (u <= m < u + Z.of_nat k)%Z /\ plane a m <= x < plane a (m + 1)).
    { induction k as [|k IH]; intros X; [change (Z.of_nat 0) with 0%Z in X; rewrite Z.add_0_r in X; destruct X as [X X']; exfalso; lra|]. rewrite Nat2Z.inj_succ in *.
      destruct (Rlt_dec x (plane a (u + Z.of_nat k))) as [Y|Y].
      - destruct (IH (conj (proj1 X) Y)) as (m & Rm & Cm). exists m. split; [lia|exact Cm].
      - exists (u + Z.of_nat k)%Z. split; [lia|]. replace (u + Z.of_nat k + 1)%Z with (u + Z.succ (Z.of_nat k))%Z by lia. lra. }
    specialize (Q (Z.to_nat (v - u))). replace (u + Z.of_nat (Z.to_nat (v - u)))%Z with v in Q by lia. exact Q.
  Qed.
  Lemma target a r p : isRank d r -> leavingParticle cfg minWidth r p ->
    exists m, plane a m <= pcoord a p < plane a (m + 1) /\ (- iat a d <= m < 2 * iat a d)%Z /\ (Z.abs (rid a r - m) <= Z.of_nat (sendSteps cfg a))%Z.
  Proof.
    intros Hr [_ H]. destruct (H a) as [_ C]. fold (pcoord a p) (lo cfg a r) (hi cfg a r) (gLo cfg a) (gHi cfg a) d in C. pose proof (rg a r Hr) as I.
    destruct C as [[S1 [C|(s & Hs & Ds1 & C)]]|[S1 C]].
    - rewrite lo_p, hi_p in C by exact Hr. pose proof (plane_lt _ _ _ _ _ _ G Pw a (rid a r - 1) (rid a r) ltac:(lia)).
      pose proof (plane_lt _ _ _ _ _ _ G Pw a (rid a r + 1) (rid a r + 2) ltac:(lia)).
      destruct (cell_between a (rid a r - 1) (rid a r + 2) (pcoord a p) ltac:(lia) ltac:(lra)) as (m & Rm & Cm). exists m. split; [exact Cm|]. lia.
    - pose proof (rg a s Hs) as Is. fold (lo cfg a s) (hi cfg a s) in C. rewrite lo_p, hi_p in C by exact Hs. exists (rid a s). split; [exact C|]. fold d in Ds1. unfold rid in *. lia.
    - rewrite <- p0, <- pn in C. pose proof (plane_lt _ _ _ _ _ _ G Pw a (-1) 0 ltac:(lia)). pose proof (plane_lt _ _ _ _ _ _ G Pw a (iat a d) (iat a d + 1) ltac:(lia)).
      destruct (cell_between a (-1) (iat a d + 1) (pcoord a p) ltac:(lia) ltac:(lra)) as (m & Rm & Cm). exists m. split; [exact Cm|]. lia.
  Qed.

  Definition hops (a : Axis) : Z * Particle -> Z * Particle := Nat.iter (sendSteps cfg a) (hop a).
  Lemma lo_same a r s : isRank d r -> isRank d s -> rid a r = rid a s -> lo cfg a r = lo cfg a s /\ hi cfg a r = hi cfg a s.
  Proof. intros Hr Hs E. rewrite !lo_p, !hi_p, E by assumption. split; reflexivity. Qed.

  (** What happens to one particle. *)
  Lemma travel r p : isRank d r -> leavingParticle cfg minWidth r p ->
    exists s1 p1 s2 p2 s3, hops AX (r, p) = (s1, p1) /\ hops AY (s1, p1) = (s2, p2) /\ hops AZ (s2, p2) = (s3, wrapParticle cfg p) /\
      isRank d s1 /\ isRank d s2 /\ isRank d s3 /\ pcoord AY p1 = pcoord AY p /\ pcoord AZ p2 = pcoord AZ p /\
      insideLocal cfg s3 (wrapParticle cfg p) = true.
  Proof.
    intros Hr Lv.
    destruct (target AX r p Hr Lv) as (mx & Cx & Bx & Dx). destruct (hops_arrive AX _ r p mx Hr Cx Bx Dx) as (s1 & E1 & R1 & I1 & O1).
    set (p1 := withCoord AX (wrapCoord cfg AX (pcoord AX p)) p) in *.
    assert (Y1 : pcoord AY p1 = pcoord AY p) by (apply pcoord_with_other; discriminate).
    assert (Z1 : pcoord AZ p1 = pcoord AZ p) by (apply pcoord_with_other; discriminate).
    destruct (target AY r p Hr Lv) as (my & Cy & By & Dy). rewrite <- Y1 in Cy. rewrite <- (O1 AY) in Dy by discriminate.
    destruct (hops_arrive AY _ s1 p1 my R1 Cy By Dy) as (s2 & E2 & R2 & I2 & O2). rewrite Y1 in E2, I2.
    set (p2 := withCoord AY (wrapCoord cfg AY (pcoord AY p)) p1) in *.
    assert (Z2 : pcoord AZ p2 = pcoord AZ p) by (unfold p2; rewrite pcoord_with_other by discriminate; exact Z1).
    destruct (target AZ r p Hr Lv) as (mz & Cz & Bz & Dz). rewrite <- Z2 in Cz. rewrite <- (O1 AZ), <- (O2 AZ) in Dz by discriminate.
    destruct (hops_arrive AZ _ s2 p2 mz R2 Cz Bz Dz) as (s3 & E3 & R3 & I3 & O3). rewrite Z2 in E3, I3.
    exists s1, p1, s2, p2, s3. split; [exact E1|]. split; [exact E2|]. split; [exact E3|]. repeat (split; [assumption|]).
    apply inside_coords. intros a. destruct a.
    - destruct (lo_same AX s3 s1 R3 R1) as [El Eh]; [rewrite (O3 AX), (O2 AX) by discriminate; reflexivity|]. rewrite El, Eh. exact I1.
    - destruct (lo_same AY s3 s2 R3 R2) as [El Eh]; [rewrite (O3 AY) by discriminate; reflexivity|]. rewrite El, Eh. exact I2.
    - exact I3.
  Qed.

  (** The steps along one dimension for all ranks. *)
  Lemma skip_same a r s : isRank d r -> isRank d s -> skips cfg a s = true -> skips cfg a r = true /\ boundary cfg a <> Periodic /\ iat a d = 1%Z.
  Proof.
    intros H K. unfold skips. rewrite !min_p, !max_p by assumption. pose proof (rg a r H). pose proof (rg a s K).
    destruct (boundary cfg a); cbn [isPeriodic negb andb]; [discriminate| |]; rewrite !andb_true_iff, !Z.eqb_eq; intros [E1 E2]; (split; [lia|split; [discriminate|lia]]).
  Qed.
  Lemma axis_step a V m : Forall (fun x => isRank d (fst x)) V -> Forall (fun x => boundary cfg a = Periodic \/ gLo cfg a <= pcoord a (snd x) < gHi cfg a) V ->
    stateOf cfg V m -> stateOf cfg (map (hops a) V) (migrationAxis cfg m a).
  Proof.
    intros Fr Fb St.
    assert (Rank0 : exists r, isRank d r) by (exists 0%Z; unfold isRank; pose proof (Hd AX); pose proof (Hd AY); pose proof (Hd AZ); cbn [iat] in *; nia).
    destruct Rank0 as (r0 & H0). destruct (skips cfg a r0) eqn:Sk.
    - destruct (skip_same a r0 r0 H0 H0 Sk) as (_ & Pb & En).
      assert (Al : forall r, isRank d r -> skips cfg a r = true) by (intros r Hr; exact (proj1 (skip_same a r r0 Hr H0 Sk))).
      assert (Lv : Forall (fun x => leaves cfg a x = false) V).
      { apply Forall_forall. intros x Ix. rewrite Forall_forall in Fr, Fb. apply leaves_slab. destruct (Fb x Ix) as [E|E]; [contradiction|].
        rewrite lo_p, hi_p by (now apply Fr). pose proof (rg a (fst x) (Fr x Ix)). replace (rid a (fst x)) with 0%Z by lia. replace (0 + 1)%Z with (iat a d) by lia. rewrite p0, pn. exact E. }
      assert (Ev : map (hop a) V = V).
      { rewrite <- map_id. apply map_ext_in. intros x Ix. apply hop_stay. rewrite Forall_forall in Lv. now apply Lv. }
      assert (Eh : forall n, map (Nat.iter n (hop a)) V = V).
      { intros n. induction n as [|n IH]; [apply map_id|]. transitivity (map (hop a) (map (Nat.iter n (hop a)) V)); [rewrite map_map; reflexivity|]. rewrite IH. exact Ev. }
      unfold hops, migrationAxis. rewrite Eh. induction (sendSteps cfg a) as [|n IH]; [exact St|]. change (stateOf cfg V (migrationStep cfg (Nat.iter n (fun m' => migrationStep cfg m' a) m) a)).
      rewrite <- Ev. apply step_skip; [exact Al|exact Lv|exact IH].
    - assert (Al : forall r, isRank d r -> skips cfg a r = false) by (intros r Hr; destruct (skips cfg a r) eqn:E; [|reflexivity]; rewrite (proj1 (skip_same a r0 r H0 Hr E)) in Sk; discriminate).
      unfold hops, migrationAxis. clear Fb. induction (sendSteps cfg a) as [|n IH]; [rewrite map_id; exact St|].
      change (stateOf cfg (map (Nat.iter (S n) (hop a)) V) (migrationStep cfg (Nat.iter n (fun m' => migrationStep cfg m' a) m) a)).
      replace (map (Nat.iter (S n) (hop a)) V) with (map (hop a) (map (Nat.iter n (hop a)) V)) by (rewrite map_map; reflexivity).
      apply step_exchange; [exact Hd|exact Al| |exact IH].
      apply Forall_map. apply Forall_forall. intros x Ix. rewrite Forall_forall in Fr. generalize (Fr x Ix). clear -Hd. induction n as [|n IH]; [tauto|]. intros H. cbn [Nat.iter nat_rect]. apply hop_rank; [exact Hd|]. now apply IH.
  Qed.

  Lemma bagAt_initial leaving r (l : list Z) : NoDup l -> In r l -> bagAt r (flat_map (fun t => map (pair t) (leaving t)) l) = leaving r.
  Proof.
    intros N I.
    assert (Same : forall t (ps : list Particle), bagAt t (map (pair t) ps) = ps).
    { intros t ps. unfold bagAt. induction ps as [|p ps IH]; [reflexivity|]. cbn [map filter fst]. rewrite Z.eqb_refl. cbn [map snd]. f_equal. exact IH. }
    assert (Other : forall t u (ps : list Particle), u <> t -> bagAt t (map (pair u) ps) = []).
    { intros t u ps Nu. unfold bagAt. induction ps as [|p ps IH]; [reflexivity|]. cbn [map filter fst]. destruct (Z.eqb_spec u t); [contradiction|]. exact IH. }
    assert (None_ : forall l', ~ In r l' -> bagAt r (flat_map (fun t => map (pair t) (leaving t)) l') = []).
    { induction l' as [|t l' IH]; intros Nt; [reflexivity|]. cbn [flat_map]. rewrite bagAt_app, Other by (intros ->; apply Nt; now left). apply IH. intros K. apply Nt. now right. }
    induction N as [|t l Nt N IH]; [destruct I|]. cbn [flat_map]. rewrite bagAt_app. destruct I as [-> |I].
    - rewrite Same, None_ by exact Nt. apply app_nil_r.
    - rewrite Other by (intros ->; contradiction). now apply IH.
  Qed.
  Lemma bags_all (l : list Z) I : NoDup l -> Forall (fun x => In (fst x) l) I -> Permutation (flat_map (fun r => bagAt r I) l) (map snd I).
  Proof.
    intros N. induction I as [|[t p] I IH]; intros F; [cbn [map]; clear; induction l as [|u l IHl]; [constructor|exact IHl]|].
    inversion F as [|? ? Ht F']; subst. cbn [fst] in Ht. specialize (IH F'). cbn [map snd]. rewrite <- IH.
    assert (Q : forall l', ~ In t l' -> flat_map (fun r => bagAt r ((t, p) :: I)) l' = flat_map (fun r => bagAt r I) l').
    { induction l' as [|u l' IHl]; intros Nt; [reflexivity|]. cbn [flat_map]. rewrite IHl by (intros K; apply Nt; now right). f_equal.
      unfold bagAt. cbn [filter fst]. destruct (Z.eqb_spec t u) as [-> |_]; [exfalso; apply Nt; now left|reflexivity]. }
    clear IH F F'. induction N as [|u l Nu N IHl]; [destruct Ht|]. cbn [flat_map]. destruct Ht as [-> |Ht].
    - rewrite Q by exact Nu. unfold bagAt at 1. cbn [filter fst]. rewrite Z.eqb_refl. reflexivity.
    - assert (E : bagAt u ((t, p) :: I) = bagAt u I) by (unfold bagAt; cbn [filter fst]; destruct (Z.eqb_spec t u) as [-> |_]; [contradiction|reflexivity]).
      rewrite E. rewrite (IHl Ht). symmetry. apply Permutation_middle.
  Qed.

  Theorem migration leaving : (forall r p, isRank d r -> In p (leaving r) -> leavingParticle cfg minWidth r p) ->
    exists arrived, (forall r, isRank d r -> exchangeMigratingParticles cfg leaving r = Some (arrived r)) /\
      (forall r q, isRank d r -> In q (arrived r) -> inRankBox (boxes cfg) r (ppos q)) /\
      Permutation (flat_map arrived (ranks d)) (map (wrapParticle cfg) (flat_map leaving (ranks d))).
  Proof.
    intros Lv. set (V0 := flat_map (fun t => map (pair t) (leaving t)) (ranks d)).
    assert (Rk : forall r, In r (ranks d) <-> isRank d r) by (intros r; unfold ranks, isRank, rankCount; apply in_zrange).
    assert (In0 : forall r p, In (r, p) V0 -> isRank d r /\ leavingParticle cfg minWidth r p).
    { intros r p I. apply in_flat_map in I. destruct I as (t & It & I). apply in_map_iff in I. destruct I as (q & [= -> ->] & Iq). apply Rk in It. split; [exact It|now apply Lv]. }
    assert (S0 : stateOf cfg V0 (fun r => Some (mkMig (leaving r) []))).
    { exists V0, []. split; [|split; [reflexivity|split; [constructor|]]].
      - intros r Hr. exists (mkMig (leaving r) []). split; [reflexivity|]. cbn [emigrants inserted]. split; [|reflexivity].
        unfold V0. rewrite bagAt_initial; [reflexivity|apply NoDup_zrange|now apply Rk].
      - apply Forall_forall. intros [r p] I. destruct (In0 r p I) as [_ [Nb _]]. unfold inside. cbn [fst snd]. destruct (insideLocal cfg r p) eqn:E; [|reflexivity].
        exfalso. apply Nb. intros a. rewrite inside_coords in E. exact (E a). }
    assert (Bd : forall r p a, In (r, p) V0 -> boundary cfg a = Periodic \/ gLo cfg a <= pcoord a p < gHi cfg a).
    { intros r p a I. destruct (In0 r p I) as [_ [_ L0]]. exact (proj1 (L0 a)). }
    assert (S1 : stateOf cfg (map (hops AX) V0) (migrationAxis cfg (fun r => Some (mkMig (leaving r) [])) AX)).
    { apply axis_step; [| |exact S0]; apply Forall_forall; intros [r p] I; cbn [fst snd]; [apply (In0 r p I)|exact (Bd r p AX I)]. }
    assert (S2 : stateOf cfg (map (hops AY) (map (hops AX) V0)) (migrationAxis cfg (migrationAxis cfg (fun r => Some (mkMig (leaving r) [])) AX) AY)).
    { apply axis_step; [| |exact S1]; apply Forall_map, Forall_forall; intros [r p] I; destruct (In0 r p I) as [Hr Lp];
        destruct (travel r p Hr Lp) as (s1 & p1 & s2 & p2 & s3 & E1 & E2 & E3 & R1 & R2 & R3 & Y & Z0 & In3); rewrite E1; cbn [fst snd]; [exact R1|]. rewrite Y. exact (Bd r p AY I). }
    assert (S3 : stateOf cfg (map (hops AZ) (map (hops AY) (map (hops AX) V0))) (fold_left (migrationAxis cfg) axes (fun r => Some (mkMig (leaving r) [])))).
    { apply axis_step; [| |exact S2]; rewrite map_map; apply Forall_map, Forall_forall; intros [r p] I; destruct (In0 r p I) as [Hr Lp];
        destruct (travel r p Hr Lp) as (s1 & p1 & s2 & p2 & s3 & E1 & E2 & E3 & R1 & R2 & R3 & Y & Z0 & In3); rewrite E1, E2; cbn [fst snd]; [exact R2|]. rewrite Z0. exact (Bd r p AZ I). }
    rewrite !map_map in S3. destruct S3 as (W & I & Ho & P & FI & FW).
    assert (Fin : forall r p, In (r, p) V0 -> exists s, hops AZ (hops AY (hops AX (r, p))) = (s, wrapParticle cfg p) /\ isRank d s /\ insideLocal cfg s (wrapParticle cfg p) = true).
    { intros r p Ip. destruct (In0 r p Ip) as [Hr Lp]. destruct (travel r p Hr Lp) as (s1 & p1 & s2 & p2 & s3 & E1 & E2 & E3 & R1 & R2 & R3 & Y & Z0 & In3).
      exists s3. rewrite E1, E2, E3. split; [reflexivity|]. split; assumption. }
    assert (W0 : W = []).
    { destruct W as [|x W]; [reflexivity|]. exfalso. inversion FW as [|? ? Fx _]; subst.
      assert (Ix : In x (I ++ x :: W)) by (apply in_or_app; right; now left). apply (Permutation_in _ P) in Ix. apply in_map_iff in Ix. destruct Ix as ([r p] & <- & Ip).
      destruct (Fin r p Ip) as (s & E & _ & Ins). rewrite E in Fx. unfold inside in Fx. cbn [fst snd] in Fx. rewrite Ins in Fx. discriminate. }
    subst W. rewrite app_nil_r in P.
    assert (Rows : Forall (fun x => In (fst x) (ranks d)) I).
    { apply Forall_forall. intros x Ix. apply (Permutation_in _ P) in Ix. apply in_map_iff in Ix. destruct Ix as ([r p] & <- & Ip). destruct (Fin r p Ip) as (s & E & Rs & _).
      rewrite E. apply Rk, Rs. }
    exists (fun r => match exchangeMigratingParticles cfg leaving r with Some l => l | None => [] end).
    assert (Res : forall r, isRank d r -> exists l, exchangeMigratingParticles cfg leaving r = Some l /\ Permutation l (bagAt r I)).
    { intros r Hr. destruct (Ho r Hr) as (s & Es & Pe & Pi). exists (inserted s). split; [|exact Pi]. unfold exchangeMigratingParticles. rewrite Es.
      apply Permutation_sym, Permutation_nil in Pe. rewrite Pe. reflexivity. }
    split; [|split].
    - intros r Hr. destruct (Res r Hr) as (l & -> & _). reflexivity.
    - intros r q Hr Iq. destruct (Res r Hr) as (l & El & Pl). rewrite El in Iq. apply (Permutation_in _ Pl) in Iq. unfold bagAt in Iq. apply in_map_iff in Iq.
      destruct Iq as (x & <- & Ix). apply filter_In in Ix. destruct Ix as [Ix Ex]. apply Z.eqb_eq in Ex. rewrite Forall_forall in FI. pose proof (FI x Ix) as In3.
      unfold inside in In3. rewrite Ex in In3. rewrite inside_coords in In3. exact In3.
    - transitivity (flat_map (fun r => bagAt r I) (ranks d)).
      { assert (Q : forall l, (forall r, In r l -> isRank d r) -> Permutation (flat_map (fun r => match exchangeMigratingParticles cfg leaving r with Some l0 => l0 | None => [] end) l) (flat_map (fun r => bagAt r I) l)).
        { induction l as [|r l IH]; intros Hl; [constructor|]. cbn [flat_map]. apply Permutation_app; [|apply IH; intros u Iu; apply Hl; now right].
          destruct (Res r (Hl r (or_introl eq_refl))) as (l0 & -> & Pl). exact Pl. }
        apply Q. intros r. apply Rk. }
      etransitivity; [apply bags_all; [apply NoDup_zrange|exact Rows]|]. etransitivity; [apply Permutation_map, P|]. rewrite map_map.
      assert (Sn : map snd V0 = flat_map leaving (ranks d)).
      { unfold V0. generalize (ranks d). clear. induction l as [|r l IH]; [reflexivity|]. cbn [flat_map]. rewrite map_app, IH, map_map. cbn [snd]. rewrite map_id. reflexivity. }
      rewrite <- Sn, map_map. erewrite map_ext_in; [apply Permutation_refl|]. intros [r p] Ip. cbn [snd]. destruct (Fin r p Ip) as (s & E & _). rewrite E. reflexivity.
  Qed.
End Theorem_.
