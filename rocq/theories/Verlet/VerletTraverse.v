(** Traversals that process the lists of one cell after another. *)
From Coq Require Import Reals.
From Verif.Base Require Import ZRange Occ OptionM Lists.
From Verif.Grid Require Import IndexModel IndexSpec IndexProofs.
From Verif.Traversal Require Import ColorModel ColorProofs CellSpec CellLemmas C08Model C08Proofs C08Bases C04Model C18Model C01Model C01Spec C01Proofs
  SliceModel SliceSpec SliceProofs LockModel LockProofs SliceCells.
From Verif.Functor Require Import CellFunctorModel FunctorSpec SortModel SortSpec.
From Verif.Container Require Import LinkedCellsCount.
From Verif.Verlet Require Import VerletModel VerletSpec VerletGen VerletStore VerletCells VerletBase.
Open Scope Z_scope.

Lemma noShared_map {P A} (f : A -> list (Call P)) (l : list A) : NoDup l ->
  (forall x y p, In x l -> In y l -> x <> y -> writes (f x) p -> writes (f y) p -> False) -> noSharedWrites (map f l).
Proof.
  intros Hd H i j t1 t2 p Hij E1 E2 W1 W2. rewrite nth_error_map in E1, E2.
  destruct (nth_error l i) as [x|] eqn:Ex; [|discriminate]. destruct (nth_error l j) as [y|] eqn:Ey; [|discriminate].
  injection E1 as <-. injection E2 as <-. apply (H x y p); eauto using nth_error_In. intros ->. apply Hij.
  apply (NoDup_nth_error l); [exact Hd| |congruence]. apply nth_error_Some. congruence.
Qed.

Lemma writes_flat {P A} (f : A -> list (Call P)) (l : list A) p : writes (flat_map f l) p -> exists x, In x l /\ writes (f x) p.
Proof.
  intros (c & Hc & H). apply in_flat_map in Hc as (x & Hx & Hc). exists x. split; [exact Hx|]. exists c. auto.
Qed.

Lemma grid_enum dims : positive dims -> let ks := map (fun i => oneToThreeD i dims) (zrange 0 (numCells dims)) in
  NoDup ks /\ forall k, In k ks <-> inGrid dims k.
Proof.
  intros Hp. cbv zeta. split.
  - apply NoDup_map_inj; [|apply NoDup_zrange]. intros x y Hx Hy E. apply in_zrange in Hx, Hy.
    rewrite <- (threeToOneD_oneToThreeD dims x Hp Hx), <- (threeToOneD_oneToThreeD dims y Hp Hy). congruence.
  - intros k. rewrite in_map_iff. split.
    + intros (i & <- & Hi). apply in_zrange in Hi. now apply oneToThreeD_inGrid.
    + intros Hk. exists (threeToOneD k dims). split; [now apply oneToThreeD_threeToOneD|]. apply in_zrange. now apply threeToOneD_range.
Qed.

Lemma grid_perm dims ks : positive dims -> NoDup ks -> (forall k, In k ks <-> inGrid dims k) ->
  Permutation (map (fun k => Z.to_nat (threeToOneD k dims)) ks) (seq 0 (Z.to_nat (numCells dims))).
Proof.
  intros Hp Hd Hin. apply NoDup_Permutation; [|apply seq_NoDup|].
  - apply NoDup_map_inj; [|exact Hd]. intros x y Hx Hy E. apply Hin in Hx, Hy. apply (threeToOneD_inj dims); auto.
    pose proof (threeToOneD_range dims x Hx). pose proof (threeToOneD_range dims y Hy). lia.
  - intros i. rewrite in_map_iff, in_seq. split.
    + intros (k & <- & Hk). apply Hin in Hk. pose proof (threeToOneD_range dims k Hk). lia.
    + intros Hi. exists (oneToThreeD (Z.of_nat i) dims). rewrite Hin. split.
      * rewrite threeToOneD_oneToThreeD; [apply Nat2Z.id|exact Hp|lia].
      * apply oneToThreeD_inGrid; [exact Hp|lia].
Qed.

Lemma layer_inGrid dims l k : 0 <= l < comp (dimLong dims) dims -> In k (vlcLayer dims l) -> inGrid dims k /\ comp (dimLong dims) k = l.
Proof.
  intros Hl Hk. apply in_layerCells in Hk as (E & Hm & Hs). split; [|exact E]. rewrite <- E in Hl. revert Hl Hm Hs. unfold inGrid.
  destruct (dims_perm dims) as [D|[D|[D|[D|[D|D]]]]]; injection D as -> -> ->; unfold comp; cbn [Z.eqb Pos.eqb ix iy iz]; lia.
Qed.

Lemma layers_in dims layers : Permutation layers (zrange 0 (comp (dimLong dims) dims)) ->
  NoDup (flat_map (vlcLayer dims) layers) /\ forall k, In k (flat_map (vlcLayer dims) layers) <-> inGrid dims k.
Proof.
  intros Hl. split.
  - apply NoDup_flat_map.
    + eapply Permutation_NoDup; [symmetry; exact Hl|apply NoDup_zrange].
    + intros; apply NoDup_layerCells.
    + intros x y k _ _ Hx Hy. apply in_layerCells in Hx, Hy. destruct Hx as [Hx _], Hy as [Hy _]. congruence.
  - intros k. rewrite in_flat_map. split.
    + intros (l & H & Hk). eapply Permutation_in in H; [|exact Hl]. apply in_zrange in H. now apply layer_inGrid in Hk.
    + intros Hk. exists (comp (dimLong dims) k). split.
      * eapply Permutation_in; [symmetry; exact Hl|]. apply in_zrange. revert Hk. unfold inGrid.
        destruct (dims_perm dims) as [D|[D|[D|[D|[D|D]]]]]; injection D as -> _ _; unfold comp; cbn [Z.eqb Pos.eqb ix iy iz]; lia.
      * apply in_layerCells. split; [reflexivity|]. revert Hk. unfold inGrid.
        destruct (dims_perm dims) as [D|[D|[D|[D|[D|D]]]]]; injection D as _ -> ->; unfold comp; cbn [Z.eqb Pos.eqb ix iy iz]; lia.
Qed.


Section Src.
  Context {P : Type}.
  Variables (pid : P -> Z) (isHalo : P -> bool) (now : P -> R3) (cut : R) (ps : list P).
  Variables (dims ov h : I3) (at_ : I3 -> P -> Prop) (newton3 : bool) (pushes : list (P * P)) (src : I3 -> list (P * P)).
  Hypothesis Hids : distinctIds pid ps.
  Hypothesis Hpos : positive dims.
  Hypothesis Hov : positive ov.
  Hypothesis Hhalo : haloCovers h ov.
  Hypothesis Hat : forall p, In p ps -> exists k, inGrid dims k /\ at_ k p /\ (isHalo p = false -> ownedCell dims h k).
  Hypothesis Huniq : forall k k' p, inGrid dims k -> inGrid dims k' -> at_ k p -> at_ k' p -> k = k'.
  Hypothesis Hall : everyPairOnce pid isHalo now cut ps (pushCalls newton3 pushes).
  Hypothesis Hin : forall p q, In (p, q) pushes -> In p ps /\ In q ps.
  Hypothesis Hsrc : forall k p q, inGrid dims k -> In (p, q) (src k) -> at_ k p /\ In (p, q) pushes.
  Hypothesis Hperm : forall ks, NoDup ks -> (forall k, In k ks <-> inGrid dims k) -> Permutation (flat_map src ks) pushes.
  (** With Newton 3 the neighbours of a particle are in cells the c18 base step of
      its cell reaches. *)
  Hypothesis Hc18 : newton3 = true -> forall p q k, In (p, q) pushes -> inGrid dims k -> at_ k p ->
    exists k2, inGrid dims k2 /\ at_ k2 q /\ - ix ov <= ix k2 - ix k <= ix ov /\ - iy ov <= iy k2 - iy k <= iy ov /\ 0 <= iz k2 - iz k <= iz ov.

  Definition task (k : I3) : list (Call P) := pushCalls newton3 (src k).

  Lemma tasks_concat ks : flat_map task ks = pushCalls newton3 (flat_map src ks).
  Proof. unfold task, pushCalls. induction ks as [|k ks IH]; [reflexivity|]. cbn [flat_map]. now rewrite map_app, IH. Qed.

  Lemma tasks_every ks : NoDup ks -> (forall k, In k ks <-> inGrid dims k) -> everyPairOnce pid isHalo now cut ps (flat_map task ks).
  Proof.
    intros Hd Hk. rewrite tasks_concat. eapply every_perm; [|exact Hall]. symmetry. apply pushCalls_perm. now apply Hperm.
  Qed.

  Lemma concat_map_map (groups : list (list I3)) : concat (concat (map (map task) groups)) = flat_map task (concat groups).
  Proof.
    induction groups as [|g l IH]; [reflexivity|]. cbn [map concat]. rewrite concat_app, flat_map_app, IH. f_equal.
    now rewrite flat_map_concat_map.
  Qed.

  Lemma groups_every groups : NoDup (concat groups) -> (forall k, In k (concat groups) <-> inGrid dims k) ->
    everyPairOnce pid isHalo now cut ps (concat (concat (map (map task) groups))).
  Proof. intros Hd Hk. rewrite concat_map_map. now apply tasks_every. Qed.

  (** A task writes to particles of its own cell, with Newton 3 also to those of the
      cells its c18 base step reaches. *)
  Lemma task_writes k p : inGrid dims k -> writes (task k) p -> exists k2, inGrid dims k2 /\ at_ k2 p /\
    - ix ov <= ix k2 - ix k <= ix ov /\ - iy ov <= iy k2 - iy k <= iy ov /\ 0 <= iz k2 - iz k <= iz ov /\
    (newton3 = false -> k2 = k).
  Proof.
    intros Hk (c & Hc & H). unfold task, pushCalls in Hc. apply in_map_iff in Hc as ([x y] & <- & Hxy). cbn [fstP sndP n3] in H.
    destruct (Hsrc k x y Hk Hxy) as [Ax Px]. unfold positive in Hov. destruct H as [<-|[Hn <-]].
    - exists k. rewrite !Z.sub_diag. split; [exact Hk|]. split; [exact Ax|]. split; [lia|]. split; [lia|]. split; [lia|reflexivity].
    - destruct (Hc18 Hn x y k Px Hk Ax) as (k2 & G2 & A2 & R1 & R2 & R3). exists k2. split; [exact G2|]. split; [exact A2|].
      split; [exact R1|]. split; [exact R2|]. split; [exact R3|]. congruence.
  Qed.

  (** ** c01 *)
  Lemma src_other k a c : inGrid dims k -> newton3 = false -> In a ps -> ~ at_ k a -> received pid (task k) a c = 0%nat.
  Proof.
    intros Hk Hn Ia Ha. unfold received. apply occ_zero. intros f Hf. unfold task, pushCalls in Hf.
    apply in_map_iff in Hf as ([x y] & <- & Hxy). destruct (Hsrc k x y Hk Hxy) as [Ax Px]. destruct (Hin x y Px) as [Ix _].
    unfold contributes. cbn [fstP sndP n3]. rewrite Hn. cbn [andb]. rewrite orb_false_r. apply andb_false_iff. left. apply Z.eqb_neq.
    intros E. apply Ha. rewrite <- (ids_inj pid ps x a Hids Ix Ia E). exact Ax.
  Qed.

  Lemma c01_every : newton3 = false ->
    everyOwnedPairOnce pid isHalo now cut ps (concat (concat (map (map task) (c01Colors ov dims)))).
  Proof.
    intros Hn a c Ia Ic Hne. rewrite concat_map_map. destruct (grid_enum dims Hpos) as [Gd Gi].
    set (grid := map (fun i => oneToThreeD i dims) (zrange 0 (numCells dims))) in *.
    destruct (Hat a Ia) as (ka & Ga & Aa & Oa).
    assert (Hgrid : forall k, In k (concat (c01Colors ov dims)) -> inGrid dims k).
    { intros k Hk. apply c01_bases in Hk. unfold ownedCell, inGrid, positive in *. lia. }
    assert (Hone : forall ks, NoDup ks -> (forall k, In k ks -> inGrid dims k) -> In ka ks ->
      received pid (flat_map task ks) a c = received pid (task ka) a c).
    { intros ks Hd Hk Hka. unfold received. apply occ_flat_map_unique; [exact Hd|exact Hka|]. intros k Hk' N.
      apply (src_other k a c); auto. intros A. apply N. apply (Huniq k ka a); auto. }
    assert (Hzero : forall ks, (forall k, In k ks -> inGrid dims k) -> ~ In ka ks -> received pid (flat_map task ks) a c = 0%nat).
    { intros ks Hk Hka. unfold received. apply occ_flat_map_zero. intros k Hk'. apply (src_other k a c); auto.
      intros A. apply Hka. rewrite <- (Huniq k ka a); auto. }
    destruct (tasks_every grid Gd Gi a c Ia Ic Hne) as [H1 H2].
    rewrite (Hone grid Gd) in H1, H2; try (intros k; apply Gi); try (apply Gi; exact Ga).
    assert (Hdec : In ka (concat (c01Colors ov dims)) \/ ~ In ka (concat (c01Colors ov dims))).
    { rewrite c01_bases. unfold ownedCell. lia. }
    destruct Hdec as [Hka|Hka].
    - rewrite (Hone _ (c01_bases_NoDup _ _) Hgrid Hka). split; [exact H1|]. intros Ho Hd. apply H2; auto.
    - rewrite Hzero by auto. split; [lia|]. intros Ho Hd. exfalso. apply Hka. apply c01_bases. specialize (Oa Ho).
      unfold ownedCell, haloCovers in *. lia.
  Qed.

  Lemma c01_noShared : newton3 = false -> noSharedWrites (map task (concat (c01Colors ov dims))).
  Proof.
    intros Hn. apply noShared_map; [apply c01_bases_NoDup|]. intros x y p Hx Hy N Wx Wy.
    assert (Hgrid : forall k, In k (concat (c01Colors ov dims)) -> inGrid dims k).
    { intros k Hk. apply c01_bases in Hk. unfold ownedCell, inGrid, positive in *. lia. }
    destruct (task_writes x p (Hgrid x Hx) Wx) as (k1 & G1 & A1 & _ & _ & _ & E1).
    destruct (task_writes y p (Hgrid y Hy) Wy) as (k2 & G2 & A2 & _ & _ & _ & E2).
    rewrite (E1 Hn) in *. rewrite (E2 Hn) in *. apply N. now apply (Huniq x y p).
  Qed.

  (** ** c18 over all cells, C18BasedTraversal.h with allCells *)
  Let c18All := vlcC18Colors dims ov.

  Lemma c18All_stride : positive (mkI3 (2 * ix ov + 1) (2 * iy ov + 1) (iz ov + 1)).
  Proof. unfold positive in *. cbn [ix iy iz]. lia. Qed.

  Lemma c18All_in k : In k (concat c18All) <-> inGrid dims k.
  Proof. unfold c18All, vlcC18Colors. rewrite colorTraversal_in by apply c18All_stride. cbn [ix iy iz]. reflexivity. Qed.

  Lemma c18_all_every : everyPairOnce pid isHalo now cut ps (concat (concat (map (map task) c18All))).
  Proof. apply groups_every; [apply colorTraversal_NoDup, c18All_stride|apply c18All_in]. Qed.

  Lemma c18_all_noShared : Forall noSharedWrites (map (map task) c18All).
  Proof.
    apply Forall_forall. intros tasks Ht. apply in_map_iff in Ht as (col & <- & Hcol).
    apply noShared_map; [eapply colorTraversal_color_NoDup; [apply c18All_stride|exact Hcol]|].
    intros x y p Hx Hy N Wx Wy.
    assert (Hg : forall k, In k col -> inGrid dims k) by (intros k Hk; apply c18All_in, in_concat; eauto).
    destruct (task_writes x p (Hg x Hx) Wx) as (k1 & G1 & A1 & X1 & Y1 & Z1 & _).
    destruct (task_writes y p (Hg y Hy) Wy) as (k2 & G2 & A2 & X2 & Y2 & Z2 & _).
    assert (k1 = k2) by now apply (Huniq k1 k2 p). subst k2.
    destruct (colorTraversal_same_color _ _ _ _ _ _ c18All_stride Hcol Hx Hy) as (kx & ky & kz & Kx & Ky & Kz).
    cbn [ix iy iz] in *. unfold positive in Hov. apply N. apply i3_ext.
    - assert (kx = 0) by nia. nia.
    - assert (ky = 0) by nia. nia.
    - assert (kz = 0) by nia. nia.
  Qed.

  (** ** Layers *)
  (** The calls of one layer. *)
  Definition layerTask (l : Z) : list (Call P) := flat_map task (vlcLayer dims l).

  Lemma layers_every layers : Permutation layers (zrange 0 (comp (dimLong dims) dims)) ->
    everyPairOnce pid isHalo now cut ps (concat (concat (map (map task) (map (vlcLayer dims) layers)))).
  Proof.
    intros Hl. destruct (layers_in dims layers Hl) as [H1 H2]. apply groups_every; rewrite <- flat_map_concat_map; assumption.
  Qed.

  Lemma layers_apart l1 l2 p : 0 <= l1 < comp (dimLong dims) dims -> 0 <= l2 < comp (dimLong dims) dims ->
    vlcSliceOverlap dims ov < l2 - l1 -> writes (layerTask l1) p -> writes (layerTask l2) p -> False.
  Proof.
    intros R1 R2 Hd W1 W2. apply writes_flat in W1 as (x & Hx & Wx). apply writes_flat in W2 as (y & Hy & Wy).
    destruct (layer_inGrid dims l1 x R1 Hx) as [Gx Ex]. destruct (layer_inGrid dims l2 y R2 Hy) as [Gy Ey].
    destruct (task_writes x p Gx Wx) as (k1 & G1 & A1 & X1 & Y1 & Z1 & _).
    destruct (task_writes y p Gy Wy) as (k2 & G2 & A2 & X2 & Y2 & Z2 & _).
    assert (k1 = k2) by now apply (Huniq k1 k2 p). subst k2.
    rewrite <- Ex, <- Ey in Hd. revert Hd. unfold positive in Hov. unfold vlcSliceOverlap.
    destruct (dims_perm dims) as [D|[D|[D|[D|[D|D]]]]]; injection D as -> _ _; unfold comp; cbn [Z.eqb Pos.eqb ix iy iz]; lia.
  Qed.

  (** Slices protected by locks. *)
  Let o2 := vlcSliceOverlap dims ov.
  Lemma o2_pos : 0 < o2.
  Proof.
    unfold o2, vlcSliceOverlap, positive in *. destruct (dims_perm dims) as [D|[D|[D|[D|[D|D]]]]]; injection D as -> _ _; unfold comp; cbn [Z.eqb Pos.eqb ix iy iz]; lia.
  Qed.

  Lemma locked_apart t k d st s1 s2 l1 l2 p : thick (o2 + 1) 1 t ->
    let n := Z.of_nat (length t) in
    reach n (initState (sliceProg t o2)) k d st -> 0 <= s1 < n -> 0 <= s2 < n -> s1 <> s2 ->
    processing st s1 l1 -> processing st s2 l2 ->
    0 <= l1 < comp (dimLong dims) dims -> 0 <= l2 < comp (dimLong dims) dims ->
    writes (layerTask l1) p -> writes (layerTask l2) p -> False.
  Proof.
    cbv zeta. intros Ht Hr R1 R2 N P1 P2 L1 L2 W1 W2.
    destruct (Z_lt_le_dec s1 s2) as [Lt|Le].
    - pose proof (sliced_exclusion_lt t o2 o2_pos Ht k d st s1 s2 l1 l2 Hr R1 R2 Lt P1 P2). now apply (layers_apart l1 l2 p).
    - pose proof (sliced_exclusion_lt t o2 o2_pos Ht k d st s2 s1 l2 l1 Hr R2 R1 ltac:(lia) P2 P1). now apply (layers_apart l2 l1 p).
  Qed.

  (** Even and odd slices. *)
  Lemma c02_apart t m : thick o2 m t -> 0 <= m -> zsum t = comp (dimLong dims) dims ->
    Forall noSharedWrites (map (map (flat_map layerTask)) (c02Tasks t)).
  Proof.
    intros Ht Hm Hsum. pose proof o2_pos as Ho.
    assert (Hposs : forall s, 0 <= s < Z.of_nat (length t) -> 0 <= thicknessOf t s) by (apply (thick_pos o2 m); auto; lia).
    apply Forall_forall. intros tasks Hcol. apply in_map_iff in Hcol as (col & <- & Hcol). unfold c02Tasks in Hcol.
    apply in_map_iff in Hcol as (par & <- & Hpar). apply in_zrange in Hpar. rewrite map_map.
    apply noShared_map; [apply NoDup_zsteps; lia|].
    assert (Main : forall s1 s2 p, In s1 (zsteps par (Z.of_nat (length t)) 2) -> In s2 (zsteps par (Z.of_nat (length t)) 2) -> s1 < s2 ->
      writes (flat_map layerTask (c02SliceLayers t s1)) p -> writes (flat_map layerTask (c02SliceLayers t s2)) p -> False).
    { intros s1 s2 p H1 H2 Hlt A1 A2. apply in_zsteps in H1, H2; try lia.
      assert (Hl : forall s, 0 <= s < Z.of_nat (length t) -> forall l, In l (c02SliceLayers t s) -> 0 <= l < comp (dimLong dims) dims).
      { intros s Hs l Hl. apply in_zrange in Hl. rewrite <- Hsum, <- sliceStart_end.
        pose proof (sliceStart_mono t 0 s Hposs ltac:(lia) ltac:(lia) ltac:(lia)). rewrite sliceStart_0 in *.
        pose proof (sliceStart_mono t (s + 1) (Z.of_nat (length t)) Hposs ltac:(lia) ltac:(lia) ltac:(lia)).
        rewrite sliceStart_succ in * by lia. lia. }
      apply writes_flat in A1 as (l1 & L1 & A1). apply writes_flat in A2 as (l2 & L2 & A2).
      pose proof (Hl s1 ltac:(lia) l1 L1) as R1. pose proof (Hl s2 ltac:(lia) l2 L2) as R2.
      apply (layers_apart l1 l2 p R1 R2); [|exact A1|exact A2]. apply in_zrange in L1, L2.
      pose proof (sliceStart_succ t s1 ltac:(lia)) as S1.
      pose proof (sliceStart_succ t (s1 + 1) ltac:(lia)) as S2.
      pose proof (thick_nth _ _ t (s1 + 1) Ht ltac:(lia)) as T1.
      pose proof (sliceStart_mono t (s1 + 1 + 1) s2 Hposs ltac:(lia) ltac:(lia) ltac:(lia)). fold o2. lia. }
    intros s1 s2 p H1 H2 Hne A1 A2. destruct (Z_lt_le_dec s1 s2); [eapply (Main s1 s2); eauto|].
    apply (Main s2 s1 p); auto. lia.
  Qed.
End Src.
