(** VerletLists and VerletListsCells: the traversals of the lists. *)
From Coq Require Import Reals Lra.
From Verif.Base Require Import ZRange Occ OptionM Lists.
From Verif.Grid Require Import IndexModel IndexSpec IndexProofs CellBlockModel CellBlockSpec CellBlockExact.
From Verif.Traversal Require Import ColorModel ColorProofs CellSpec CellLemmas C08Model C08Proofs C08Bases C04Model C18Model C18Proofs C01Model C01Spec C01Proofs
  SliceModel SliceSpec SliceProofs LockModel LockProofs SliceCells.
From Verif.Functor Require Import CellFunctorModel FunctorSpec CellFunctorProofs SortModel SortSpec SortProofs.
From Verif.Container Require Import LinkedCellsModel LinkedCellsSpec LinkedCellsBuild LinkedCellsCount LinkedCellsDir LinkedCellsGeo LinkedCellsProofs.
From Verif.Verlet Require Import VerletModel VerletSpec VerletGen VerletStore VerletCells VerletBase VerletTraverse.
Open Scope Z_scope.

Lemma nodup_concat_disjoint {A} (L : list (list A)) : NoDup (concat L) -> forall i j a b x, i <> j ->
  nth_error L i = Some a -> nth_error L j = Some b -> In x a -> In x b -> False.
Proof.
  induction L as [|l L IH]; intros Hd i j a b x Hij Ei Ej Ha Hb; [destruct i; discriminate|].
  cbn [concat] in Hd. apply NoDup_app_inv in Hd as (D1 & D2 & D3).
  destruct i as [|i], j as [|j]; cbn [nth_error] in *.
  - congruence.
  - injection Ei as ->. apply (D3 x Ha). apply in_concat. exists b. split; [eapply nth_error_In; eauto|exact Hb].
  - injection Ej as ->. apply (D3 x Hb). apply in_concat. exists a. split; [eapply nth_error_In; eauto|exact Ha].
  - apply (IH D2 i j a b x); auto.
Qed.

Lemma concat_flat_map {A B} (f : A -> list B) (L : list (list A)) : concat (map (flat_map f) L) = flat_map f (concat L).
Proof. induction L as [|l L IH]; [reflexivity|]. cbn [map concat]. now rewrite flat_map_app, IH. Qed.

Lemma pairsOf_concat {P} (L : list (list (NList P))) : pairsOf (concat L) = flat_map pairsOf L.
Proof. induction L as [|l L IH]; [reflexivity|]. cbn [concat flat_map]. now rewrite pairsOf_app, IH. Qed.

Lemma thick_weaken m m1 m2 t : m2 <= m1 -> thick m m1 t -> thick m m2 t.
Proof.
  intros H. induction t as [|x t IH]; [trivial|]. destruct t as [|y t]; cbn [thick] in *; [lia|]. tauto.
Qed.

Section Proofs.
  Context {P : Type}.
  Variables (pid : P -> Z) (isHalo : P -> bool) (old now : P -> R3) (view : R3 -> list P -> list P).
  Variables (cf : CFSettings) (lay : Layout) (cut skin csf : R) (bMin bMax : R3) (ps : list P).
  Let il := (cut + skin)%R.
  Let b := rebuild rndExact il csf bMin bMax.
  Let dims := blockDims b.
  Let len := blockLength b.
  Let ov := blockOverlap rndExact il b.
  Let near := nearR len il.
  Let h := mkI3 (cellsPerInteractionLength rndExact csf) (cellsPerInteractionLength rndExact csf) (cellsPerInteractionLength rndExact csf).
  Let n3_ := useNewton3 cf.
  Hypothesis Hgrid : validGrid il csf bMin bMax.
  Hypothesis Hview : forall dir l, isSortedView old dir l (view dir l).
  Hypothesis Hids : distinctIds pid ps.
  Hypothesis Hps : validParticles isHalo old b bMin bMax ps.
  Hypothesis Hcut : (0 < cut)%R.
  Hypothesis Hskin : (0 <= skin)%R.
  Hypothesis Hmoved : movedLess old now skin ps.
  Hypothesis Hn : useNewton3 cf || bidirectional cf = true.

  Let at__ := at_ old il csf bMin bMax.

  Lemma dims_pos : positive dims.
  Proof. exact (v_pos il csf bMin bMax Hgrid). Qed.
  Lemma ov_pos : positive ov.
  Proof. destruct (v_fits2 old view il csf bMin bMax ps Hgrid Hview) as [H _]. exact H. Qed.

  (** ** VerletLists *)
  Section VL.
    Variable bases : list I3.
    Hypothesis Hbases : Permutation bases (concat (c08Colors dims ov)).

    Lemma vl_all : exists cells lists,
      lcAddAll isHalo rndExact b old (lcEmpty b) ps = Some cells /\
      vlBuild pid old il n3_ cells (lcInteract isHalo view old cf il len cells (c08StepsDir near dims ov bases)) = Some lists /\
      (forall buckets, Permutation (concat buckets) lists ->
         everyPairOnce pid isHalo now cut ps (concat (vlTraverseAoS n3_ buckets)) /\
         (n3_ = false -> noSharedWrites (vlTraverseAoS n3_ buckets))) /\
      (forall table order, Permutation order (seq 0 (length lists)) ->
         exists soa calls, vlSoALists pid cells lists table = Some soa /\ vlTraverseSoA n3_ cells soa order = Some calls /\
           everyPairOnce pid isHalo now cut ps (concat calls) /\ (n3_ = false -> noSharedWrites calls)).
    Proof.
      destruct (v_build isHalo old il csf bMin bMax ps Hgrid Hps) as (cells & Hadd & Hb). fold b in Hadd, Hb.
      destruct (c08_every pid isHalo old view cf il csf bMin bMax ps Hgrid Hview Hids Hps cells Hb now cut skin Hcut Hskin eq_refl Hmoved Hadd bases Hbases Hn) as [Hdir Hev].
      set (pushes := flat_map (genPushes old il (useNewton3 cf)) _) in Hev.
      assert (Hin : forall i j, In (i, j) pushes -> In i ps /\ In j ps).
      { intros i j Hij. destruct (pushes_sub pid isHalo old view cf il csf bMin bMax ps Hview Hids cells Hb _ i j Hdir Hij) as (H1 & H2 & _). auto. }
      assert (Hall : forall p, In p (allParticles cells) <-> In p ps) by (intros p; apply (all_in isHalo old view il csf bMin bMax ps Hgrid Hview Hps cells Hb)).
      pose proof (all_ids pid old il csf bMin bMax ps Hids cells Hb) as Hd.
      destruct (vlBuild_spec pid cells Hd pushes) as (lists & E & Hk & Hp); [intros i j Hij; apply Hall; now apply (Hin i j)|].
      exists cells, lists. split; [exact Hadd|]. split; [exact E|].
      assert (HndK : NoDup (map fst lists)).
      { rewrite Hk. eapply NoDup_map_inv. exact Hd. }
      split.
      - intros buckets Hbk. split.
        + unfold vlTraverseAoS. rewrite concat_flat_map, listCalls_pairs. eapply every_perm; [|exact Hev].
          apply pushCalls_perm. symmetry. rewrite (pairsOf_perm _ _ Hbk). exact Hp.
        + intros Hn3 i j t1 t2 p Hij E1 E2 W1 W2. unfold vlTraverseAoS in E1, E2. rewrite nth_error_map in E1, E2.
          destruct (nth_error buckets i) as [b1|] eqn:B1; [|discriminate]. destruct (nth_error buckets j) as [b2|] eqn:B2; [|discriminate].
          injection E1 as <-. injection E2 as <-.
          assert (Hkey : forall bk, writes (flat_map (listCalls n3_) bk) p -> In p (map fst bk)).
          { intros bk (c & Hc & Hw). apply in_flat_map in Hc as ([q ns] & Hq & Hc). unfold listCalls in Hc. cbn [fst snd] in Hc.
            apply in_map_iff in Hc as (q' & <- & _). cbn [fstP sndP n3] in Hw. rewrite Hn3 in Hw. destruct Hw as [<-|[Hw _]]; [|discriminate].
            apply in_map_iff. exists (q, ns). auto. }
          apply (nodup_concat_disjoint (map (map fst) buckets)) with (i := i) (j := j) (a := map fst b1) (b := map fst b2) (x := p); auto.
          * rewrite <- concat_map. eapply Permutation_NoDup; [|exact HndK]. symmetry. now apply Permutation_map.
          * now rewrite nth_error_map, B1.
          * now rewrite nth_error_map, B2.
      - intros table order Hord.
        destruct (vl_soa pid cells Hd lists table n3_ order Hk) as (soa & E1 & E2); [|exact Hord|].
        { intros p q Hpq. apply Hall. apply (Hin p q). eapply Permutation_in; [exact Hp|exact Hpq]. }
        eexists soa, _. split; [exact E1|]. split; [exact E2|]. split.
        + rewrite <- flat_map_concat_map. eapply every_perm; [|exact Hev].
          rewrite (Permutation_flat_map _ Hord), (seq_nth_map (listCalls n3_) lists), listCalls_pairs.
          apply pushCalls_perm. now symmetry.
        + intros Hn3. apply noShared_map; [eapply Permutation_NoDup; [symmetry; exact Hord|apply seq_NoDup]|].
          intros i j p Hi Hj Hij W1 W2.
          assert (Hkey : forall i, writes (match nth_error lists i with Some l => listCalls n3_ l | None => [] end) p -> nth_error (map fst lists) i = Some p).
          { clear -Hn3. intros i (c & Hc & Hw). rewrite nth_error_map. destruct (nth_error lists i) as [[q ns]|]; [|destruct Hc].
            unfold listCalls in Hc. cbn [fst snd] in Hc. apply in_map_iff in Hc as (q' & <- & _). cbn [fstP sndP n3] in Hw.
            rewrite Hn3 in Hw. destruct Hw as [<-|[Hw _]]; [reflexivity|discriminate]. }
          apply Hkey in W1, W2. apply Hij. apply (NoDup_nth_error (map fst lists)); [exact HndK| |congruence].
          apply nth_error_Some. congruence.
    Qed.
  End VL.

  (** ** Lists per cell, built with c18 *)
  Lemma c18_call k1 k2 dir : inGrid dims k1 -> inGrid dims k2 ->
    In (threeToOneD k1 dims, threeToOneD k2 dims, dir) (c18CallsDir near dims ov) ->
    - ix ov <= ix k2 - ix k1 <= ix ov /\ - iy ov <= iy k2 - iy k1 <= iy ov /\ 0 <= iz k2 - iz k1 <= iz ov /\
    lexNonneg (ix k2 - ix k1) (iy k2 - iy k1) (iz k2 - iz k1).
  Proof.
    intros G1 G2 H. pose proof (v_fits2 old view il csf bMin bMax ps Hgrid Hview) as Hf. fold dims ov in Hf.
    apply (in_map fst) in H. fold dims in H. rewrite (c18CallsDir_eq near dims ov Hf) in H. cbn [fst] in H.
    unfold c18TasksT in H. apply in_concat in H as (tk & Ht & H). apply in_concat in Ht as (tks & Ht & Htk).
    apply in_map_iff in Ht as (col & <- & Hcol). apply in_map_iff in Htk as (k & <- & Hk).
    apply in_map_iff in H as (o & E & Ho). unfold flat2 in E. cbn [fst snd] in E. injection E as E1 E2.
    assert (Hkc : In k (concat (c18Colors dims ov))) by (apply in_concat; eauto).
    pose proof (c18_bases_inGrid dims ov k Hf Hkc) as Gk.
    assert (k = k1) by (apply (threeToOneD_inj dims); auto). subst k.
    pose proof Hkc as Hkb. apply c18_bases in Hkb; [|exact Hf].
    apply (in_c18Off3 near ov dims k1 o Hf Gk) in Ho as ((X & Y & Z) & L & X2 & Y2 & _).
    assert (G2' : inGrid dims (i3add k1 o)).
    { unfold inGrid, i3add. cbn [ix iy iz]. unfold inGrid in Gk. lia. }
    assert (i3add k1 o = k2) by (apply (threeToOneD_inj dims); auto). subst k2. unfold i3add. cbn [ix iy iz].
    replace (ix k1 + ix o - ix k1) with (ix o) by lia. replace (iy k1 + iy o - iy k1) with (iy o) by lia.
    replace (iz k1 + iz o - iz k1) with (iz o) by lia. auto.
  Qed.

  Section Cells.
    Variable cells : list (Cell P).
    Hypothesis Hadd : lcAddAll isHalo rndExact b old (lcEmpty b) ps = Some cells.
    Hypothesis Hb : built rndExact b old ps cells.
    Let pushes := flat_map (genPushes old il n3_) (lcInteract isHalo view old cf il len cells (c18CallsDir near dims ov)).

    Lemma c_all p : In p (allParticles cells) <-> In p ps.
    Proof. apply (all_in isHalo old view il csf bMin bMax ps Hgrid Hview Hps cells Hb). Qed.
    Lemma c_ids : distinctIds pid (allParticles cells).
    Proof. exact (all_ids pid old il csf bMin bMax ps Hids cells Hb). Qed.
    Lemma c_every : everyPairOnce pid isHalo now cut ps (pushCalls n3_ pushes).
    Proof. exact (proj2 (c18_every pid isHalo old view cf il csf bMin bMax ps Hgrid Hview Hids Hps cells Hb now cut skin Hcut Hskin eq_refl Hmoved Hadd Hn)). Qed.

    Lemma c_pushes p q : In (p, q) pushes -> In p ps /\ In q ps /\
      exists k1 k2, inGrid dims k1 /\ inGrid dims k2 /\ at__ k1 p /\ at__ k2 q /\
        - ix ov <= ix k2 - ix k1 <= ix ov /\ - iy ov <= iy k2 - iy k1 <= iy ov /\ - iz ov <= iz k2 - iz k1 <= iz ov /\
        (n3_ = true -> 0 <= iz k2 - iz k1 /\ lexNonneg (ix k2 - ix k1) (iy k2 - iy k1) (iz k2 - iz k1)).
    Proof.
      intros H. pose proof (proj1 (c18_every pid isHalo old view cf il csf bMin bMax ps Hgrid Hview Hids Hps cells Hb now cut skin Hcut Hskin eq_refl Hmoved Hadd Hn)) as Hdir.
      destruct (pushes_sub pid isHalo old view cf il csf bMin bMax ps Hview Hids cells Hb _ p q Hdir H) as (Ip & Iq & k1 & k2 & dir & Hc & G1 & G2 & Hk).
      split; [exact Ip|]. split; [exact Iq|]. destruct (c18_call k1 k2 dir G1 G2 Hc) as (X & Y & Z & L). fold dims in G1, G2.
      destruct Hk as [[A1 A2]|(Hn3 & A2 & A1)].
      - exists k1, k2. do 7 (split; [first [assumption|lia]|]). intros _. split; [lia|exact L].
      - exists k2, k1. do 7 (split; [first [assumption|lia]|]). intros E. unfold n3_ in E. congruence.
    Qed.

    (** Lists that hold the pushes. *)
    Section Held.
      Variable lists : list (list (NList P)).
      Hypothesis Hlen : length lists = length cells.
      Hypothesis Hkeys : forall c ls p, nth_error lists c = Some ls -> In p (map fst ls) -> cellHas cells c p.
      Hypothesis Hpairs : Permutation (pairsOf (concat lists)) pushes.

      Definition src (k : I3) : list (P * P) :=
        match nth_error lists (Z.to_nat (threeToOneD k dims)) with Some ls => pairsOf ls | None => [] end.

      Lemma src_in k p q : inGrid dims k -> In (p, q) (src k) -> at__ k p /\ In (p, q) pushes.
      Proof.
        intros G H. unfold src in H. destruct (nth_error lists _) as [ls|] eqn:E; [|destruct H]. split.
        - apply pairsOf_in in H as Hp. eapply Hkeys in Hp; [|exact E].
          apply (cellHas_k old view il csf bMin bMax ps Hview cells Hb k p G) in Hp. exact (proj2 Hp).
        - eapply Permutation_in; [exact Hpairs|]. rewrite pairsOf_concat. apply in_flat_map. exists ls. split; [|exact H].
          eapply nth_error_In; eauto.
      Qed.

      Lemma src_perm ks : NoDup ks -> (forall k, In k ks <-> inGrid dims k) -> Permutation (flat_map src ks) pushes.
      Proof.
        intros Hd Hi. rewrite <- Hpairs, pairsOf_concat, <- (seq_nth_map pairsOf lists).
        pose proof (cells_length old view il csf bMin bMax ps Hview cells Hb) as EL. fold b in EL. fold dims in EL.
        rewrite Hlen, EL. rewrite <- (Permutation_flat_map _ (grid_perm dims ks dims_pos Hd Hi)).
        rewrite !flat_map_concat_map, map_map. reflexivity.
      Qed.

      Lemma lists_c18 : n3_ = true -> forall p q k, In (p, q) pushes -> inGrid dims k -> at__ k p ->
        exists k2, inGrid dims k2 /\ at__ k2 q /\ - ix ov <= ix k2 - ix k <= ix ov /\ - iy ov <= iy k2 - iy k <= iy ov /\ 0 <= iz k2 - iz k <= iz ov.
      Proof.
        intros E p q k H G A. destruct (c_pushes p q H) as (_ & _ & k1 & k2 & G1 & G2 & A1 & A2 & X & Y & Z & L).
        assert (k1 = k) by (apply (at_unique old il csf bMin bMax k1 k p); assumption). subst k1. exists k2. specialize (L E). tauto.
      Qed.

      Let tk := task n3_ src.

      Lemma process_ok k : inGrid dims k -> vlcProcess pid lay n3_ cells lists dims k = Some (tk k).
      Proof.
        intros G. unfold vlcProcess, tk, task, src. pose proof (threeToOneD_range dims k G) as R.
        pose proof (cells_length old view il csf bMin bMax ps Hview cells Hb) as EL. fold b in EL. fold dims in EL.
        destruct (nth_error lists _) as [ls|] eqn:E; [|apply nth_error_None in E; lia].
        apply cellListCalls_ok; [exact c_ids| |].
        - intros p Hp. apply in_all. exists (Z.to_nat (threeToOneD k dims)). eapply Hkeys; eauto.
        - intros p q Hpq. apply c_all. apply (c_pushes p q). eapply Permutation_in; [exact Hpairs|].
          rewrite pairsOf_concat. apply in_flat_map. exists ls. split; [eapply nth_error_In; eauto|exact Hpq].
      Qed.

      Lemma traverse_ok groups : (forall k, In k (concat groups) -> inGrid dims k) ->
        vlcTraverse pid lay n3_ cells lists dims groups = Some (map (map tk) groups).
      Proof.
        intros H. unfold vlcTraverse. apply mapM_some. intros g Hg. apply mapM_some. intros k Hk. apply process_ok, H.
        apply in_concat. eauto.
      Qed.

      Let Hat : forall p, In p ps -> exists k, inGrid dims k /\ at__ k p /\ (isHalo p = false -> ownedCell dims h k).
      Proof. intros p Hp. exact (v_at isHalo old il csf bMin bMax ps Hgrid Hps p Hp). Qed.
      Let Huniq : forall k k' p, inGrid dims k -> inGrid dims k' -> at__ k p -> at__ k' p -> k = k'.
      Proof. intros k k' p. exact (at_unique old il csf bMin bMax k k' p). Qed.
      Let Hin : forall p q, In (p, q) pushes -> In p ps /\ In q ps.
      Proof. intros p q H. destruct (c_pushes p q H) as (A & B & _). auto. Qed.

      Lemma held_c01 : n3_ = false -> exists calls, vlcTraverse pid lay n3_ cells lists dims (c01Colors ov dims) = Some calls /\
        everyOwnedPairOnce pid isHalo now cut ps (concat (concat calls)) /\ noSharedWrites (concat calls).
      Proof.
        intros E. eexists. split; [apply traverse_ok|split].
        - intros k Hk. apply c01_bases in Hk. pose proof ov_pos as Ho. unfold ownedCell, inGrid, positive in *. lia.
        - apply (c01_every pid isHalo now cut ps dims ov h at__ n3_ pushes src Hids dims_pos ov_pos
            (v_halo il csf bMin bMax Hgrid) Hat Huniq c_every Hin src_in src_perm lists_c18 E).
        - rewrite <- concat_map.
          exact (c01_noShared isHalo ps dims ov h at__ n3_ pushes src ov_pos Hat Huniq Hin src_in lists_c18 E).
      Qed.

      Lemma held_c18 : exists calls, vlcTraverse pid lay n3_ cells lists dims (vlcC18Colors dims ov) = Some calls /\
        everyPairOnce pid isHalo now cut ps (concat (concat calls)) /\ Forall noSharedWrites calls.
      Proof.
        eexists. split; [apply traverse_ok|split].
        - intros k Hk. now apply (c18All_in dims ov h at__ pushes src ov_pos Huniq src_in).
        - exact (c18_all_every pid isHalo now cut ps dims ov h at__ n3_ pushes src ov_pos Huniq c_every src_in src_perm).
        - exact (c18_all_noShared isHalo ps dims ov h at__ n3_ pushes src ov_pos Hat Huniq Hin src_in src_perm lists_c18).
      Qed.

      Let L := comp (dimLong dims) dims.
      Let o := vlcSliceOverlap dims ov.
      Lemma o_len : 0 < o /\ o + 1 <= L.
      Proof.
        assert (F : gridFits2x dims ov) by exact (v_fits2 old view il csf bMin bMax ps Hgrid Hview).
        unfold gridFits2x, positive in F. unfold o, L, vlcSliceOverlap.
        destruct (dims_perm dims) as [D|[D|[D|[D|[D|D]]]]]; injection D as -> _ _; unfold comp; cbn [Z.eqb Pos.eqb ix iy iz]; lia.
      Qed.

      Lemma lock_slicing t : vlcLockSlicing dims ov t -> t <> [] /\ zsum t = L /\ thick (o + 1) 1 t.
      Proof.
        intros H. destruct o_len as [O1 O2]. unfold vlcLockSlicing in H. cbv zeta in H. fold L o in H. destruct H as [->|(grow & threads & Ht & E)].
        - destruct (init_thickness L (o + 1) o false ltac:(lia) ltac:(lia) ltac:(lia)) as (A & B & C). cbv zeta in *.
          rewrite Z.sub_0_r in B, C. split; [exact A|]. split; [exact B|]. eapply thick_weaken; [|exact C]. lia.
        - destruct (balanced_thickness grow L (o + 1) o false threads ltac:(lia) ltac:(lia) ltac:(lia) Ht) as (t' & E' & A & B & C). cbv zeta in *.
          rewrite E in E'. injection E' as <-. rewrite Z.sub_0_r in B, C. split; [exact A|]. split; [exact B|].
          eapply thick_weaken; [|exact C]. lia.
      Qed.

      Lemma layer_groups layers : (forall l, In l layers -> 0 <= l < L) ->
        forall k, In k (concat (map (vlcLayer dims) layers)) -> inGrid dims k.
      Proof.
        intros Hl k Hk. rewrite <- flat_map_concat_map in Hk. apply in_flat_map in Hk as (l & Hin' & Hk).
        exact (proj1 (layer_inGrid dims l k (Hl l Hin') Hk)).
      Qed.

      (** Every complete execution of the slices. *)
      Lemma held_sliced t k d st : vlcLockSlicing dims ov t ->
        let n := Z.of_nat (length t) in
        reach n (initState (sliceProg t o)) k d st -> (forall s ev st', ~ step n st s ev st') ->
        exists calls, vlcTraverse pid lay n3_ cells lists dims (map (vlcLayer dims) d) = Some calls /\
          everyPairOnce pid isHalo now cut ps (concat (concat calls)).
      Proof.
        cbv zeta. intros Ht Hr Hs. destruct (lock_slicing t Ht) as (_ & Hsum & Hthick). destruct o_len as [O1 O2].
        destruct (sliced_stuck_done t o k d st O1 Hthick Hr Hs) as [_ El]. rewrite Hsum in El.
        eexists. split; [apply traverse_ok, layer_groups|].
        - intros l H. eapply Permutation_in in H; [|exact El]. now apply in_zrange in H.
        - exact (layers_every pid isHalo now cut ps dims n3_ pushes src c_every src_perm d El).
      Qed.

      Lemma held_locks t k d st s1 s2 l1 l2 : vlcLockSlicing dims ov t ->
        let n := Z.of_nat (length t) in
        reach n (initState (sliceProg t o)) k d st -> 0 <= s1 < n -> 0 <= s2 < n -> s1 <> s2 ->
        processing st s1 l1 -> processing st s2 l2 ->
        exists calls, vlcTraverse pid lay n3_ cells lists dims [vlcLayer dims l1; vlcLayer dims l2] = Some calls /\
          noSharedWrites (map (@concat _) calls).
      Proof.
        cbv zeta. intros Ht Hr R1 R2 N P1 P2. destruct (lock_slicing t Ht) as (_ & Hsum & Hthick). destruct o_len as [O1 O2].
        pose proof (inv_reach t o O1 Hthick k d st Hr) as Hi.
        pose proof (thick_pos (o + 1) 1 t ltac:(lia) ltac:(lia) Hthick) as Hpos.
        assert (Hl : forall s l, 0 <= s < Z.of_nat (length t) -> processing st s l -> 0 <= l < L).
        { intros s l Hs Ps. pose proof (processing_holds t o st s l Hi Hs Ps) as (R & _). rewrite <- Hsum, <- sliceStart_end.
          pose proof (sliceStart_mono t 0 s Hpos ltac:(lia) ltac:(lia) ltac:(lia)). rewrite sliceStart_0 in *.
          pose proof (sliceStart_mono t (s + 1) (Z.of_nat (length t)) Hpos ltac:(lia) ltac:(lia) ltac:(lia)).
          rewrite sliceStart_succ in * by assumption. lia. }
        pose proof (Hl s1 l1 R1 P1) as B1. pose proof (Hl s2 l2 R2 P2) as B2.
        eexists. split; [apply (traverse_ok (map (vlcLayer dims) [l1; l2])), layer_groups|].
        - intros l [<-|[<-|[]]]; assumption.
        - cbn [map]. rewrite <- !flat_map_concat_map.
          assert (Hno : forall p, writes (flat_map tk (vlcLayer dims l1)) p -> writes (flat_map tk (vlcLayer dims l2)) p -> False).
          { intros p W1 W2. exact (locked_apart isHalo ps dims ov h at__ n3_ pushes src ov_pos Hat Huniq Hin src_in lists_c18 t k d st s1 s2 l1 l2 p Hthick Hr R1 R2 N P1 P2 B1 B2 W1 W2). }
          intros i j t1 t2 p Hij E1 E2 W1 W2. destruct i as [|[|i]], j as [|[|j]]; cbn [nth_error] in *; try discriminate;
            try (destruct i; discriminate); try (destruct j; discriminate); try congruence.
          + injection E1 as <-. injection E2 as <-. eauto.
          + injection E1 as <-. injection E2 as <-. eauto.
      Qed.

      Lemma c02_slices : zsum (vlcC02Slices dims ov) = L /\ thick o 0 (vlcC02Slices dims ov).
      Proof.
        destruct o_len as [O1 O2]. unfold vlcC02Slices. cbv zeta. fold L o.
        destruct (init_thickness L o o false ltac:(lia) ltac:(lia) ltac:(lia)) as (A & B & C). cbv zeta in *. rewrite Z.sub_0_r in B, C.
        split; [exact B|]. eapply thick_weaken; [|exact C]. lia.
      Qed.

      Lemma c02_groups : concat (concat (vlcC02Colors dims ov)) = flat_map (vlcLayer dims) (concat (concat (c02Tasks (vlcC02Slices dims ov)))).
      Proof.
        unfold vlcC02Colors. induction (c02Tasks _) as [|c l IH]; [reflexivity|]. cbn [map concat]. rewrite !concat_app, flat_map_app, IH.
        f_equal. apply concat_flat_map.
      Qed.

      Lemma held_c02 :
        (exists calls, vlcTraverse pid lay n3_ cells lists dims (concat (vlcC02Colors dims ov)) = Some calls /\
           everyPairOnce pid isHalo now cut ps (concat (concat calls))) /\
        (forall color, In color (vlcC02Colors dims ov) -> exists calls,
           vlcTraverse pid lay n3_ cells lists dims color = Some calls /\ noSharedWrites (map (@concat _) calls)).
      Proof.
        destruct o_len as [O1 O2]. destruct c02_slices as [Hsum Hthick].
        pose proof (thick_pos o 0 _ ltac:(lia) ltac:(lia) Hthick) as Hpos.
        pose proof (c02_layers_perm (vlcC02Slices dims ov) Hpos) as Hperm. rewrite Hsum in Hperm.
        destruct (layers_in dims _ Hperm) as [Gd Gi]. rewrite <- c02_groups in Gd, Gi. split.
        - eexists. split; [apply traverse_ok; intros k Hk; now apply Gi|].
          exact (groups_every pid isHalo now cut ps dims n3_ pushes src c_every src_perm (concat (vlcC02Colors dims ov)) Gd Gi).
        - intros color Hcol. eexists. split; [apply traverse_ok|].
          + intros k Hk. apply Gi. apply in_concat in Hk as (g & Hg & Hk). apply in_concat. exists g. split; [|exact Hk].
            apply in_concat. eauto.
          + pose proof (c02_apart isHalo ps dims ov h at__ n3_ pushes src ov_pos Hat Huniq Hin src_in lists_c18 (vlcC02Slices dims ov) 0 Hthick ltac:(lia) Hsum) as Hf.
            rewrite Forall_forall in Hf. unfold vlcC02Colors in Hcol. apply in_map_iff in Hcol as (col & <- & Hcol).
            specialize (Hf (map (flat_map (layerTask dims n3_ src)) col) (in_map _ _ _ Hcol)).
            rewrite !map_map. erewrite map_ext; [exact Hf|]. intros layers. unfold layerTask.
            rewrite <- flat_map_concat_map. clear. induction layers as [|l ls IH]; [reflexivity|]. cbn [flat_map]. now rewrite flat_map_app, IH.
      Qed.
    End Held.
  End Cells.
End Proofs.
