(** The neighbour leaves are the leaves that touch. *)
From Coq Require Import Reals Lra.
From Verif.Base Require Import ZRange.
From Verif.Functor Require Import SortModel SortSpec.
From Verif.Grid Require Import CellBlockModel CellBlockSpec.
From Verif.Octree Require Import DirectionModel OctreeModel OctreeSpec OctreeBase OctreeAxis OctreeNeighbor.
Local Open Scope Z_scope.

Lemma zip3 (lx ly lz : list bool) : length lx = length ly -> length lx = length lz ->
  exists p, map vx p = lx /\ map vy p = ly /\ map vz p = lz.
Proof.
  revert ly lz. induction lx as [|x lx IH]; intros [|y ly] [|z lz] A B; try discriminate; [now exists []|].
  injection A as A. injection B as B. destruct (IH ly lz A B) as (p & <- & <- & <-).
  exists (mkV x y z :: p). cbn. destruct (mkV_bits x y z) as (-> & -> & ->). auto.
Qed.

Lemma path_eq (p q : Path) : map vx p = map vx q -> map vy p = map vy q -> map vz p = map vz q -> p = q.
Proof.
  revert q. induction p as [|a p IH]; intros [|b q] X Y Z; try discriminate; [reflexivity|].
  cbn in *. injection X as X X'. injection Y as Y Y'. injection Z as Z Z'. f_equal; [now apply vertex_bits|now apply IH].
Qed.

Lemma firstn_skipn_len {A} (l : list A) n : (n <= length l)%nat -> exists m c, l = m ++ c /\ length c = n.
Proof.
  intros H. exists (firstn (length l - n) l), (skipn (length l - n) l). split; [now rewrite firstn_skipn|].
  rewrite skipn_length. lia.
Qed.

Lemma Forall_map_eq {A} (f : A -> bool) b l : Forall (fun x => x = b) (map f l) <-> Forall (fun v => f v = b) l.
Proof. apply Forall_map. Qed.

Lemma towards_iff e (f : Vertex -> bool) m : towards e (map f m) <-> Forall (fun v => sideOk e (f v)) m.
Proof.
  destruct e; cbn.
  - apply Forall_map.
  - split; [|trivial]. intros _. apply Forall_forall. trivial.
  - apply Forall_map.
Qed.

Section Touch.
  Context {P : Type}.
  Variable rnd : R -> R.
  Variable il : R.
  Notation Tree := (Tree P).
  Notation ival := (ival (center rnd)).
  Notation strict := (strict (center rnd)).

  Lemma node_box (t n : Tree) (q : Path) : wf rnd il t -> nodeAt t q = Some n ->
    ival (rx (boxMin t)) (rx (boxMax t)) (map vx q) = (rx (boxMin n), rx (boxMax n)) /\
    ival (ry (boxMin t)) (ry (boxMax t)) (map vy q) = (ry (boxMin n), ry (boxMax n)) /\
    ival (rz (boxMin t)) (rz (boxMax t)) (map vz q) = (rz (boxMin n), rz (boxMax n)).
  Proof.
    intros W. revert n. induction q as [|v q IH]; intros n E.
    - injection E as ->. auto.
    - cbn [nodeAt] in E. destruct (nodeAt t q) as [f|] eqn:F; [|discriminate]. destruct (IH f eq_refl) as (X & Y & Z).
      pose proof (wf_node rnd il t q f W F) as Wf. destruct Wf as [|lo hi cs L B _ _]; [discriminate|].
      cbn [SON] in E. apply B in E as [-> ->]. cbn [map OctreeAxis.ival]. rewrite X, Y, Z. cbn [boxMin boxMax fst snd].
      unfold childMin, childMax. cbn [rx ry rz]. destruct (index_bits v) as (-> & -> & ->).
      repeat split; [destruct (vx v)|destruct (vy v)|destruct (vz v)]; reflexivity.
  Qed.

  Lemma solid_son (t c : Tree) v : solidLeaves t -> SON t v = Some c -> solidLeaves c.
  Proof. intros H E path lo hi ps A. apply (H (path ++ [v]) lo hi ps). unfold leafAt. rewrite nodeAt_last, E. exact A. Qed.

  Lemma solid_node (t : Tree) : wf rnd il t -> solidLeaves t -> below (boxMin t) (boxMax t).
  Proof.
    intros W. induction W as [lo hi ps|lo hi cs L B W IH _]; intros H.
    - apply (H [] lo hi ps). reflexivity.
    - destruct (length8 cs L) as (c0 & c1 & c2 & c3 & c4 & c5 & c6 & c7 & ->). cbn [boxMin boxMax].
      pose proof (IH 0%nat c0 eq_refl (solid_son _ c0 LDB H eq_refl)) as S0.
      pose proof (IH 7%nat c7 eq_refl (solid_son _ c7 RUF H eq_refl)) as S7.
      destruct (B 0%nat c0 eq_refl) as [A0 B0]. destruct (B 7%nat c7 eq_refl) as [A7 B7]. rewrite A0, B0 in S0. rewrite A7, B7 in S7.
      unfold below, childMin, childMax in *. cbn in *. lra.
  Qed.

  Lemma solid_strict (t n : Tree) (q : Path) : wf rnd il t -> solidLeaves t -> nodeAt t q = Some n ->
    strict (rx (boxMin t)) (rx (boxMax t)) (map vx q) /\ strict (ry (boxMin t)) (ry (boxMax t)) (map vy q) /\
    strict (rz (boxMin t)) (rz (boxMax t)) (map vz q).
  Proof.
    intros W. revert n q. induction W as [lo hi ps|lo hi cs L B W IH T]; intros n q H E.
    - pose proof (H [] lo hi ps eq_refl) as (X & Y & Z). destruct (list_eq_dec vertex_dec q []) as [->|N].
      + unfold OctreeAxis.strict. cbn. auto.
      + destruct (exists_last N) as (m & v & ->). rewrite nodeAt_last in E. discriminate.
    - pose proof (wfInner rnd il lo hi cs L B W T) as W'.
      pose proof (solid_node _ W' H) as (X & Y & Z). cbn [boxMin boxMax] in *.
      destruct (list_eq_dec vertex_dec q []) as [->|N]; [unfold OctreeAxis.strict; cbn; auto|].
      destruct (exists_last N) as (m & v & ->). rewrite nodeAt_last in E. cbn [SON] in E.
      destruct (nth_error cs (vertexToIndex v)) as [c|] eqn:C; [|discriminate].
      destruct (IH _ c C n m (solid_son _ c v H C) E) as (IX & IY & IZ).
      destruct (B _ _ C) as [B1 B2]. rewrite B1, B2 in IX, IY, IZ. unfold childMin, childMax in IX, IY, IZ. cbn [rx ry rz] in *.
      destruct (index_bits v) as (I2 & I1 & I0). rewrite I2 in IX. rewrite I1 in IY. rewrite I0 in IZ.
      assert (M : (rx lo < center rnd (rx lo) (rx hi) < rx hi)%R /\ (ry lo < center rnd (ry lo) (ry hi) < ry hi)%R /\
                  (rz lo < center rnd (rz lo) (rz hi) < rz hi)%R).
      { destruct (length8 cs L) as (c0 & c1 & c2 & c3 & c4 & c5 & c6 & c7 & ->).
        pose proof (solid_node c0 (W 0%nat c0 eq_refl) (solid_son _ c0 LDB H eq_refl)) as S0.
        pose proof (solid_node c7 (W 7%nat c7 eq_refl) (solid_son _ c7 RUF H eq_refl)) as S7.
        destruct (B 0%nat c0 eq_refl) as [A0 B0]. destruct (B 7%nat c7 eq_refl) as [A7 B7]. rewrite A0, B0 in S0. rewrite A7, B7 in S7.
        unfold below, childMin, childMax in *. cbn in *. lra. }
      destruct M as (MX & MY & MZ). rewrite !map_app. cbn [map].
      unfold OctreeAxis.strict in *. rewrite !rev_app_distr. cbn [rev app strictF].
      repeat split; try tauto; [destruct (vx v)|destruct (vy v)|destruct (vz v)]; assumption.
  Qed.

  Lemma touching_meet lo1 hi1 lo2 hi2 : below lo1 hi1 -> below lo2 hi2 ->
    (touching lo1 hi1 lo2 hi2 <->
     meet (rx lo1, rx hi1) (rx lo2, rx hi2) /\ meet (ry lo1, ry hi1) (ry lo2, ry hi2) /\ meet (rz lo1, rz hi1) (rz lo2, rz hi2)).
  Proof.
    intros (A1 & A2 & A3) (B1 & B2 & B3). unfold touching, meet, inClosedBox. cbn. split.
    - intros (x & H1 & H2). lra.
    - intros H. exists (mkR3 (Rmax (rx lo1) (rx lo2)) (Rmax (ry lo1) (ry lo2)) (Rmax (rz lo1) (rz lo2))). cbn.
      unfold Rmax. repeat destruct (Rle_dec _ _); lra.
  Qed.

  Theorem neighbors_touch (t : Tree) (p q : Path) lo1 hi1 ps1 : wf rnd il t -> solidLeaves t -> leafAt t p lo1 hi1 ps1 ->
    (In q (getNeighborLeaves t p) <->
     q <> p /\ exists lo2 hi2 ps2, leafAt t q lo2 hi2 ps2 /\ touching lo1 hi1 lo2 hi2).
  Proof.
    intros W S Lp. unfold leafAt in *.
    assert (Np : isNode t p) by (unfold isNode; congruence).
    destruct (solid_strict t _ p W S Lp) as (SX & SY & SZ). destruct (node_box t _ p W Lp) as (BX & BY & BZ). cbn [boxMin boxMax] in BX, BY, BZ.
    rewrite (in_neighborLeaves t p q Np). split.
    - intros (d & n & E & I). cbn [leavesTowards] in I. destruct (nodeAt t n) as [nd|] eqn:En; [|destruct I].
      pose proof (wf_node rnd il t n nd W En) as Wn.
      apply (in_leavesFrom rnd il _ nd n q Wn) in I as (m & -> & (lo2 & hi2 & ps2 & Lm) & F).
      pose proof (gteq_spec rnd il t W p (dirSides d)) as G. destruct (step3 (dirSides d) p) as [p'|] eqn:St; [|congruence].
      destruct G as (m' & n' & E' & -> & _ & C). rewrite E in E'. injection E' as <-.
      assert (Lq : nodeAt t (m ++ n) = Some (Leaf lo2 hi2 ps2)) by (rewrite nodeAt_app, En; exact Lm).
      destruct (solid_strict t _ _ W S Lq) as (QX & QY & QZ). destruct (node_box t _ _ W Lq) as (CX & CY & CZ). cbn [boxMin boxMax] in CX, CY, CZ.
      pose proof (step3_length _ _ _ St) as Len. rewrite app_length in Len.
      assert (FF : Forall (fun v => sideOk (sx (dirSides d)) (vx v) /\ sideOk (sy (dirSides d)) (vy v) /\ sideOk (sz (dirSides d)) (vz v)) m).
      { eapply Forall_impl; [|exact F]. intros v Hv. now apply allowed_iff. }
      pose proof (proj1 (step3_axes _ _ _) St) as (TX & TY & TZ). rewrite !map_app in TX, TY, TZ. rewrite !map_app in QX, QY, QZ, CX, CY, CZ.
      destruct C as [->|C].
      + cbn [map app length Nat.add] in *. split.
        * intros Eq. assert (m = []) as ->.
          { destruct m; [reflexivity|]. apply (f_equal (@length _)) in Eq. rewrite app_length in Eq. cbn in Eq. lia. }
          cbn in Eq. subst n. exact (step3_moves (dirSides d) p (dir_some d) St).
        * exists lo2, hi2, ps2. split; [exact Lq|].
          apply touching_meet; [apply (S p _ _ ps1 Lp)|apply (S _ _ _ ps2 Lq)|].
          rewrite <- BX, <- BY, <- BZ, <- CX, <- CY, <- CZ.
          assert (Sym : forall i j, meet i j -> meet j i) by (unfold meet; tauto).
          assert (Fx : forall f e, (forall v, sideOk (sx (dirSides d)) (vx v) /\ sideOk (sy (dirSides d)) (vy v) /\ sideOk (sz (dirSides d)) (vz v) -> sideOk e (f v)) -> towards e (map f m)).
          { intros f e Hf. apply towards_iff. eapply Forall_impl; [|exact FF]. exact Hf. }
          split; [|split]; apply Sym.
          -- apply meet_deeper; [now rewrite !map_length|exact QX|exact SX|]. exists (sx (dirSides d)). split; [exact TX|]. apply Fx; tauto.
          -- apply meet_deeper; [now rewrite !map_length|exact QY|exact SY|]. exists (sy (dirSides d)). split; [exact TY|]. apply Fx; tauto.
          -- apply meet_deeper; [now rewrite !map_length|exact QZ|exact SZ|]. exists (sz (dirSides d)). split; [exact TZ|]. apply Fx; tauto.
      + assert (m = []) as ->.
        { unfold GRAY in C. rewrite En in C. destruct nd as [a b l|]; [|discriminate].
          destruct m as [|v m]; [reflexivity|]. rewrite (leaf_no_below t n (v :: m) a b l En) in Lq by discriminate. discriminate. }
        cbn [map app] in *. split.
        * intros ->. destruct m' as [|v m']; [|cbn in Len; lia]. exact (step3_moves (dirSides d) p (dir_some d) St).
        * exists lo2, hi2, ps2. split; [exact Lq|].
          apply touching_meet; [apply (S p _ _ ps1 Lp)|apply (S _ _ _ ps2 Lq)|].
          rewrite <- BX, <- BY, <- BZ, <- CX, <- CY, <- CZ.
          assert (Sym : forall i j, meet i j -> meet j i) by (unfold meet; tauto).
          split; [|split]; apply Sym.
          -- apply (meet_higher _ _ _ (map vx m')); [rewrite !map_length; lia|exact QX|exact SX|]. eexists _, _. exact TX.
          -- apply (meet_higher _ _ _ (map vy m')); [rewrite !map_length; lia|exact QY|exact SY|]. eexists _, _. exact TY.
          -- apply (meet_higher _ _ _ (map vz m')); [rewrite !map_length; lia|exact QZ|exact SZ|]. eexists _, _. exact TZ.
    - intros (Neq & lo2 & hi2 & ps2 & Lq & Tq).
      destruct (solid_strict t _ _ W S Lq) as (QX & QY & QZ). destruct (node_box t _ _ W Lq) as (CX & CY & CZ). cbn [boxMin boxMax] in CX, CY, CZ.
      apply touching_meet in Tq; [|apply (S p _ _ ps1 Lp)|apply (S _ _ _ ps2 Lq)].
      rewrite <- BX, <- BY, <- BZ, <- CX, <- CY, <- CZ in Tq.
      assert (Sym : forall i j, meet i j -> meet j i) by (unfold meet; tauto).
      destruct Tq as (MX & MY & MZ). apply Sym in MX. apply Sym in MY. apply Sym in MZ.
      destruct (le_lt_dec (length p) (length q)) as [Le|Lt].
      + destruct (firstn_skipn_len q (length p) Le) as (m & c & -> & Lc).
        rewrite !map_app in *.
        apply meet_deeper in MX as (ex & TX & FX); [|now rewrite !map_length|exact QX|exact SX].
        apply meet_deeper in MY as (ey & TY & FY); [|now rewrite !map_length|exact QY|exact SY].
        apply meet_deeper in MZ as (ez & TZ & FZ); [|now rewrite !map_length|exact QZ|exact SZ].
        assert (St : step3 (mkSides ex ey ez) p = Some c) by (apply step3_axes; cbn; auto).
        destruct (isNoSide (mkSides ex ey ez)) eqn:Z.
        { destruct ex, ey, ez; try discriminate. rewrite step3_none in St. injection St as <-. exfalso.
          destruct m as [|v m]; [now apply Neq|]. rewrite (leaf_no_below t p (v :: m) _ _ _ Lp) in Lq by discriminate. discriminate. }
        destruct (sides_dir _ Z) as (d & Ed). exists d, c.
        pose proof (gteq_spec rnd il t W p (dirSides d)) as G. rewrite Ed, St in G. destruct G as (m' & n & E & -> & Nn & C).
        assert (m' = []) as ->.
        { destruct C as [->|C]; [reflexivity|]. destruct m' as [|v m']; [reflexivity|]. exfalso.
          unfold GRAY, isNode in *. destruct (nodeAt t n) as [[a b l|]|] eqn:En; try congruence.
          rewrite app_assoc, (leaf_no_below t n (m ++ v :: m') a b l En) in Lq; [discriminate|]. destruct m; discriminate. }
        cbn [app] in *. rewrite Ed. split; [exact E|]. cbn [leavesTowards]. unfold isNode in Nn. destruct (nodeAt t n) as [nd|] eqn:En; [|congruence].
        apply (in_leavesFrom rnd il _ nd n _ (wf_node rnd il t n nd W En)). exists m. split; [reflexivity|]. split.
        * exists lo2, hi2, ps2. rewrite nodeAt_app, En in Lq. exact Lq.
        * apply towards_iff in FX. apply towards_iff in FY. apply towards_iff in FZ.
          rewrite Forall_forall in *. intros v Hv. apply allowed_iff. rewrite Ed. cbn. auto.
      + apply (meet_higher _ _ _ (repeat false (length p - length q))) in MX as (ex & mx & TX); [|rewrite repeat_length, !map_length; lia|exact QX|exact SX].
        apply (meet_higher _ _ _ (repeat false (length p - length q))) in MY as (ey & my & TY); [|rewrite repeat_length, !map_length; lia|exact QY|exact SY].
        apply (meet_higher _ _ _ (repeat false (length p - length q))) in MZ as (ez & mz & TZ); [|rewrite repeat_length, !map_length; lia|exact QZ|exact SZ].
        assert (Ls : length mx = (length p - length q)%nat /\ length my = (length p - length q)%nat /\ length mz = (length p - length q)%nat).
        { apply step1_val in TX as [TX _]. apply step1_val in TY as [TY _]. apply step1_val in TZ as [TZ _].
          rewrite app_length, !map_length in *. lia. }
        destruct Ls as (L1 & L2 & L3).
        destruct (zip3 mx my mz) as (m & <- & <- & <-); [congruence|congruence|]. rewrite map_length in L1.
        assert (St : step3 (mkSides ex ey ez) p = Some (m ++ q)) by (apply step3_axes; cbn; rewrite !map_app; auto).
        assert (Nm : m <> []) by (intros ->; cbn in L1; lia).
        destruct (isNoSide (mkSides ex ey ez)) eqn:Z.
        { destruct ex, ey, ez; try discriminate. rewrite step3_none in St. injection St as St. exfalso.
          rewrite St, (leaf_no_below t q m _ _ _ Lq Nm) in Lp. discriminate. }
        destruct (sides_dir _ Z) as (d & Ed). exists d, q.
        pose proof (gteq_spec rnd il t W p (dirSides d)) as G. rewrite Ed, St in G. destruct G as (m' & n & E & Es & Nn & C).
        assert (n = q) as ->.
        { destruct C as [->|C].
          - cbn in Es. subst n. exfalso. apply Nn. exact (leaf_no_below t q m _ _ _ Lq Nm).
          - unfold GRAY, isNode in *. destruct (nodeAt t n) as [[a b l|]|] eqn:En; try congruence.
            destruct (app_eq_app _ _ _ _ Es) as (x & [[H1 H2]|[H1 H2]]); subst.
            + destruct x as [|v x]; [reflexivity|]. rewrite (leaf_no_below t q (v :: x) _ _ _ Lq) in En by discriminate. discriminate.
            + destruct x as [|v x]; [reflexivity|]. rewrite (leaf_no_below t n (v :: x) _ _ _ En) in Lq by discriminate. discriminate. }
        rewrite Ed. split; [exact E|]. cbn [leavesTowards]. rewrite Lq. left. reflexivity.
  Qed.
End Touch.
