From Verif.Base Require Import ZRange Occ.
From Verif.Grid Require Import IndexModel IndexSpec IndexProofs.
From Verif.Traversal Require Import CellSpec CellLemmas C08Model C08Proofs C04Model C08Bases SliceModel SliceSpec SliceProofs
  LockModel LockProofs.

Lemma dims_perm dims : 
  (dimLong dims, dimMedium dims, dimShort dims) = (2, 1, 0) \/ (dimLong dims, dimMedium dims, dimShort dims) = (2, 0, 1) \/
  (dimLong dims, dimMedium dims, dimShort dims) = (1, 2, 0) \/ (dimLong dims, dimMedium dims, dimShort dims) = (1, 0, 2) \/
  (dimLong dims, dimMedium dims, dimShort dims) = (0, 1, 2) \/ (dimLong dims, dimMedium dims, dimShort dims) = (0, 2, 1).
Proof.
  unfold dimMedium, dimLong, dimShort. destruct dims as [x y z]; simpl.
  destruct (Z.leb_spec (Z.max x y) z); destruct (Z.leb_spec x (Z.min y z)); destruct (Z.leb_spec y z); destruct (Z.leb_spec x y);
    simpl; try (exfalso; lia); intuition congruence.
Qed.

Lemma dimLong_max dims d : 0 <= d < 3 -> comp d dims <= comp (dimLong dims) dims.
Proof.
  intros Hd. assert (d = 0 \/ d = 1 \/ d = 2) as D by lia. unfold dimLong. destruct dims as [x y z]; simpl.
  destruct (Z.leb_spec (Z.max x y) z); destruct (Z.leb_spec x y); destruct D as [->|[->| ->]]; unfold comp; simpl; lia.
Qed.

Lemma in_layerCells dims ov l c : In c (layerCells dims ov l) <->
  comp (dimLong dims) c = l /\ 0 <= comp (dimMedium dims) c < comp (dimMedium dims) dims - comp (dimMedium dims) ov /\
  0 <= comp (dimShort dims) c < comp (dimShort dims) dims - comp (dimShort dims) ov.
Proof.
  unfold layerCells. cbv zeta. rewrite in_flat_map.
  destruct (dims_perm dims) as [E|[E|[E|[E|[E|E]]]]]; injection E as -> -> ->; unfold setComp, comp; cbn [Z.eqb Pos.eqb ix iy iz];
  (split; [intros (m & Hm & H); apply in_map_iff in H as (s & <- & Hs); apply in_zrange in Hm, Hs; cbn [ix iy iz]; lia
          |destruct c as [x y z]; cbn [ix iy iz]; intros (<- & Hm & Hs)]).
  - exists y. rewrite in_zrange. split; [lia|]. apply in_map_iff. exists x. rewrite in_zrange. split; [reflexivity|lia].
  - exists x. rewrite in_zrange. split; [lia|]. apply in_map_iff. exists y. rewrite in_zrange. split; [reflexivity|lia].
  - exists z. rewrite in_zrange. split; [lia|]. apply in_map_iff. exists x. rewrite in_zrange. split; [reflexivity|lia].
  - exists x. rewrite in_zrange. split; [lia|]. apply in_map_iff. exists z. rewrite in_zrange. split; [reflexivity|lia].
  - exists y. rewrite in_zrange. split; [lia|]. apply in_map_iff. exists z. rewrite in_zrange. split; [reflexivity|lia].
  - exists z. rewrite in_zrange. split; [lia|]. apply in_map_iff. exists y. rewrite in_zrange. split; [reflexivity|lia].
Qed.

Lemma NoDup_layerCells dims ov l : NoDup (layerCells dims ov l).
Proof.
  unfold layerCells. cbv zeta.
  destruct (dims_perm dims) as [E|[E|[E|[E|[E|E]]]]]; injection E as -> -> ->; unfold setComp; cbn [Z.eqb Pos.eqb ix iy iz];
  (apply NoDup_flat_map; [apply NoDup_zrange| |];
   [intros m _; apply NoDup_map_inj; [intros a b _ _ E; congruence|apply NoDup_zrange]
   |intros a b c _ _ H1 H2; apply in_map_iff in H1 as (? & <- & _), H2 as (? & E & _); congruence]).
Qed.

Section Bases.
  Variables (dims ov : I3) (t : list Z).
  Hypothesis Hpos : forall s, 0 <= s < Z.of_nat (length t) -> 0 <= thicknessOf t s.
  Hypothesis Hsum : zsum t = comp (dimLong dims) dims - comp (dimLong dims) ov.

  Lemma layers_eq o : slicedLayers t o = zrange 0 (zsum t).
  Proof.
    unfold slicedLayers. rewrite <- slices_partition by assumption.
    induction (zrange 0 (Z.of_nat (length t))) as [|s l IH]; [reflexivity|]. cbn [flat_map]. now rewrite sliceProg_layers, IH.
  Qed.

  Lemma in_layer_bases c : In c (flat_map (layerCells dims ov) (zrange 0 (zsum t))) <-> c08Box dims ov c.
  Proof.
    rewrite in_flat_map, Hsum. split.
    - intros (l & Hl & H). apply in_zrange in Hl. apply in_layerCells in H. unfold c08Box.
      destruct (dims_perm dims) as [E|[E|[E|[E|[E|E]]]]]; injection E as E1 E2 E3; rewrite E1, E2, E3 in *;
        unfold comp in *; cbn [Z.eqb Pos.eqb] in *; lia.
    - intros H. exists (comp (dimLong dims) c). rewrite in_zrange, in_layerCells. unfold c08Box in H.
      destruct (dims_perm dims) as [E|[E|[E|[E|[E|E]]]]]; injection E as E1 E2 E3; rewrite E1, E2, E3 in *;
        unfold comp in *; cbn [Z.eqb Pos.eqb] in *; lia.
  Qed.

  Lemma NoDup_layer_bases : NoDup (flat_map (layerCells dims ov) (zrange 0 (zsum t))).
  Proof.
    apply NoDup_flat_map; [apply NoDup_zrange|intros; apply NoDup_layerCells|].
    intros l l' c _ _ H1 H2. apply in_layerCells in H1, H2. destruct H1 as [<- _], H2 as [<- _]. reflexivity.
  Qed.

  Lemma lcSliced_perm near : gridFits dims ov -> Permutation (lcSlicedCalls near dims ov t) (c08Calls near dims ov).
  Proof.
    intros Hv. unfold lcSlicedCalls. rewrite layers_eq.
    apply c08_calls_perm; [assumption|apply NoDup_layer_bases|apply in_layer_bases].
  Qed.

  (** c02 *)
  Lemma c02_layers_perm : Permutation (concat (concat (c02Tasks t))) (zrange 0 (zsum t)).
  Proof.
    rewrite <- slices_partition by assumption. unfold c02Tasks. cbn [zrange]. 
    transitivity (flat_map (c02SliceLayers t) (flat_map (fun o => zsteps o (Z.of_nat (length t)) 2) (zrange 0 2))).
    { generalize (zrange 0 2). intros l. induction l as [|o l IH]; [reflexivity|]. cbn [map concat flat_map].
      rewrite concat_app, flat_map_app. apply Permutation_app; [|assumption]. now rewrite flat_map_concat_map. }
    apply Permutation_flat_map. apply NoDup_Permutation.
    - apply NoDup_flat_map; [apply NoDup_zrange|intros; apply NoDup_zsteps; lia|].
      intros x y b Hx Hy H1 H2. apply in_zrange in Hx, Hy. apply in_zsteps in H1, H2; lia.
    - apply NoDup_zrange.
    - intros s. rewrite in_flat_map, in_zrange. split.
      + intros (o & Ho & H). apply in_zrange in Ho. apply in_zsteps in H; lia.
      + intros H. exists (s mod 2). rewrite in_zrange, in_zsteps by lia. lia.
  Qed.

  Lemma lcC02_perm near : gridFits dims ov ->
    Permutation (concat (concat (lcC02Tasks near dims ov t))) (c08Calls near dims ov).
  Proof.
    intros Hv. unfold lcC02Tasks. rewrite concat_tasks.
    transitivity (c08BaseSteps near dims ov (flat_map (layerCells dims ov) (concat (concat (c02Tasks t))))).
    { unfold c08BaseSteps. induction (concat (c02Tasks t)) as [|p l IH]; [reflexivity|]. cbn [flat_map concat].
      rewrite !flat_map_app. now apply Permutation_app. }
    etransitivity; [unfold c08BaseSteps; apply Permutation_flat_map, Permutation_flat_map, c02_layers_perm|].
    apply c08_calls_perm; [assumption|apply NoDup_layer_bases|apply in_layer_bases].
  Qed.
End Bases.

(** cells accessed by one layer *)
Lemma layer_accesses near dims ov layers c : gridFits dims ov ->
  (forall l, In l layers -> 0 <= l < comp (dimLong dims) dims - comp (dimLong dims) ov) ->
  accesses (c08BaseSteps near dims ov (flat_map (layerCells dims ov) layers)) c ->
  exists l p, In l layers /\ inGrid dims p /\ c = threeToOneD p dims /\
    l <= comp (dimLong dims) p <= l + comp (dimLong dims) ov.
Proof.
  intros Hv Hl A. apply c08BaseSteps_accesses in A; [|assumption|].
  - destruct A as (b & p & Hb & G & E & P). apply in_flat_map in Hb as (l & Hl' & Hb). exists l, p.
    repeat split; try assumption; try apply G; apply in_layerCells in Hb as [<- _];
    (destruct (dims_perm dims) as [E'|[E'|[E'|[E'|[E'|E']]]]]; injection E' as -> _ _; unfold comp; cbn [Z.eqb Pos.eqb]; lia).
  - intros b Hb. apply in_flat_map in Hb as (l & Hl' & Hb). specialize (Hl l Hl'). apply in_layerCells in Hb. unfold c08Box.
    destruct (dims_perm dims) as [E'|[E'|[E'|[E'|[E'|E']]]]]; injection E' as E1 E2 E3; rewrite E1, E2, E3 in *;
        unfold comp in *; cbn [Z.eqb Pos.eqb] in *; lia.
Qed.

(** layers further apart than the overlap access different cells *)
Lemma layers_disjoint near dims ov l1 l2 c : gridFits dims ov ->
  0 <= l1 < comp (dimLong dims) dims - comp (dimLong dims) ov ->
  0 <= l2 < comp (dimLong dims) dims - comp (dimLong dims) ov ->
  comp (dimLong dims) ov < Z.abs (l1 - l2) ->
  accesses (c08BaseSteps near dims ov (layerCells dims ov l1)) c ->
  accesses (c08BaseSteps near dims ov (layerCells dims ov l2)) c -> False.
Proof.
  intros Hv H1 H2 Hd A1 A2.
  destruct (layer_accesses near dims ov [l1] c Hv) as (k1 & p1 & [<-|[]] & G1 & E1 & P1).
  { intros l [<-|[]]; assumption. } { cbn [flat_map]. now rewrite app_nil_r. }
  destruct (layer_accesses near dims ov [l2] c Hv) as (k2 & p2 & [<-|[]] & G2 & E2 & P2).
  { intros l [<-|[]]; assumption. } { cbn [flat_map]. now rewrite app_nil_r. }
  assert (p1 = p2) by (apply (threeToOneD_inj dims); congruence). subst. lia.
Qed.

Lemma lcC02_raceFree near dims ov t m' : gridFits dims ov -> 0 <= m' ->
  thick (comp (dimLong dims) ov) m' t ->
  zsum t = comp (dimLong dims) dims - comp (dimLong dims) ov ->
  Forall raceFree (lcC02Tasks near dims ov t).
Proof.
  intros Hv Hm Ht Hsum.
  assert (Ho : 0 < comp (dimLong dims) ov).
  { destruct Hv as ((A & B & C) & _). unfold comp. destruct (dimLong dims =? 0), (dimLong dims =? 1); assumption. }
  assert (Hpos : forall s, 0 <= s < Z.of_nat (length t) -> 0 <= thicknessOf t s).
  { intros s Hs. destruct (Z.eq_dec s (Z.of_nat (length t) - 1)) as [->|Hne].
    - pose proof (thick_nth_last _ _ t _ Ht eq_refl ltac:(lia)). lia.
    - pose proof (thick_nth _ _ t s Ht ltac:(lia)). lia. }
  apply Forall_forall. intros col Hcol. unfold lcC02Tasks, c02Tasks in Hcol.
  rewrite map_map in Hcol. apply in_map_iff in Hcol as (o & <- & Hoo). rewrite map_map. apply in_zrange in Hoo.
  apply raceFree_map; [apply NoDup_zsteps; lia|].
  assert (Main : forall s1 s2 c, In s1 (zsteps o (Z.of_nat (length t)) 2) -> In s2 (zsteps o (Z.of_nat (length t)) 2) -> s1 < s2 ->
     accesses (c08BaseSteps near dims ov (flat_map (layerCells dims ov) (c02SliceLayers t s1))) c ->
     accesses (c08BaseSteps near dims ov (flat_map (layerCells dims ov) (c02SliceLayers t s2))) c -> False).
  { intros s1 s2 c H1 H2 Hlt A1 A2. apply in_zsteps in H1, H2; try lia.
    assert (Hin : forall s, 0 <= s < Z.of_nat (length t) -> forall l, In l (c02SliceLayers t s) ->
        0 <= l < comp (dimLong dims) dims - comp (dimLong dims) ov).
    { intros s Hs l Hl. apply in_zrange in Hl. rewrite <- Hsum, <- sliceStart_end.
      pose proof (sliceStart_mono t 0 s Hpos ltac:(lia) ltac:(lia) ltac:(lia)). rewrite sliceStart_0 in *.
      pose proof (sliceStart_mono t (s + 1) (Z.of_nat (length t)) Hpos ltac:(lia) ltac:(lia) ltac:(lia)).
      rewrite sliceStart_succ in * by lia. lia. }
    apply layer_accesses in A1 as (l1 & p1 & L1 & G1 & E1 & P1); [|assumption|apply Hin; lia].
    apply layer_accesses in A2 as (l2 & p2 & L2 & G2 & E2 & P2); [|assumption|apply Hin; lia].
    assert (p1 = p2) by (apply (threeToOneD_inj dims); congruence). subst p2.
    apply in_zrange in L1, L2.
    pose proof (sliceStart_succ t s1 ltac:(lia)) as S1.
    pose proof (sliceStart_succ t (s1 + 1) ltac:(lia)) as S2.
    pose proof (thick_nth _ _ t (s1 + 1) Ht ltac:(lia)) as T1.
    pose proof (sliceStart_mono t (s1 + 1 + 1) s2 Hpos ltac:(lia) ltac:(lia) ltac:(lia)). lia. }
  intros s1 s2 c H1 H2 Hne A1 A2. destruct (Z_lt_le_dec s1 s2); [eapply (Main s1 s2); eauto|].
  apply (Main s2 s1 c); auto. lia.
Qed.

Lemma sliceStart_cons x t s : 0 <= s -> sliceStart (x :: t) (s + 1) = x + sliceStart t s.
Proof.
  intros Hs. unfold sliceStart. replace (Z.to_nat (s + 1)) with (S (Z.to_nat s)) by lia. reflexivity.
Qed.

Lemma slices_eq_gen t from : concat (slices from t) =
  flat_map (fun s => zrange (from + sliceStart t s) (from + sliceStart t s + thicknessOf t s)) (zrange 0 (Z.of_nat (length t))).
Proof.
  revert from. induction t as [|x t IH]; intros from; [reflexivity|]. cbn [slices concat length].
  rewrite (zrange_cons 0) by lia. cbn [flat_map]. f_equal.
  - unfold sliceStart, thicknessOf. simpl. f_equal; lia.
  - rewrite IH. replace (zrange (0 + 1) (Z.of_nat (S (length t)))) with (map (fun s => s + 1) (zrange 0 (Z.of_nat (length t)))).
    + rewrite !flat_map_concat_map, map_map. f_equal. apply map_ext_in. intros s Hs. apply in_zrange in Hs.
      rewrite sliceStart_cons by lia. unfold thicknessOf.
      replace (Z.to_nat (s + 1)) with (S (Z.to_nat s)) by lia. cbn [nth]. f_equal; lia.
    + unfold zrange. rewrite map_map. replace (Z.of_nat (S (length t)) - (0 + 1)) with (Z.of_nat (length t) - 0) by lia.
      apply map_ext. intros; lia.
Qed.

Lemma slices_partition_layers m m' t : 0 <= m -> 0 <= m' -> thick m m' t -> partitionsLayers t (zsum t).
Proof.
  intros Hm Hm' Ht. unfold partitionsLayers. rewrite slices_eq_gen, <- slices_partition; [reflexivity|].
  intros s Hs. destruct (Z.eq_dec s (Z.of_nat (length t) - 1)) as [->|Hne].
  - pose proof (thick_nth_last _ _ t _ Ht eq_refl ltac:(lia)). lia.
  - pose proof (thick_nth _ _ t s Ht ltac:(lia)). lia.
Qed.

Lemma comp_pos dims ov : gridFits dims ov -> 0 < comp (dimLong dims) ov.
Proof.
  intros ((A & B & C) & _). unfold comp. destruct (dimLong dims =? 0), (dimLong dims =? 1); assumption.
Qed.

Lemma lockSlicing_thick dims ov t : gridFits dims ov -> sliceable dims ov -> lockSlicing dims ov t ->
  let o := comp (dimLong dims) ov in
  t <> [] /\ zsum t = comp (dimLong dims) dims - o /\ thick (o + 1) 1 t.
Proof.
  intros Hv Ha Ht. cbv zeta. pose proof (comp_pos dims ov Hv) as Ho. unfold sliceable in Ha.
  set (o := comp (dimLong dims) ov) in *. set (len := comp (dimLong dims) dims) in *.
  assert (Hl : o + 1 <= len).
  { destruct (Z_lt_le_dec len (o + 1)) as [Hlt|]; [|assumption].
    destruct (Z_lt_le_dec len 0); [pose proof (Z.div_lt_upper_bound len (o + 1) 0 ltac:(lia) ltac:(lia)); lia|].
    rewrite Z.div_small in Ha; lia. }
  destruct Ht as [->|(grow & threads & Hth & E)].
  - fold o len. pose proof (init_thickness len (o + 1) o true ltac:(lia) Hl ltac:(lia)) as H. cbv zeta iota in H.
    replace (o + 1 - o) with 1 in H by lia. exact H.
  - fold o len in E. pose proof (balanced_thickness grow len (o + 1) o true threads ltac:(lia) Hl ltac:(lia) Hth) as (t' & E' & H).
    rewrite E in E'. injection E' as <-. cbv zeta iota in H. replace (o + 1 - o) with 1 in H by lia. exact H.
Qed.

Lemma thick_pos m m' t : 0 <= m -> 0 <= m' -> thick m m' t -> forall s, 0 <= s < Z.of_nat (length t) -> 0 <= thicknessOf t s.
Proof.
  intros Hm Hm' Ht s Hs. destruct (Z.eq_dec s (Z.of_nat (length t) - 1)) as [->|Hne].
  - pose proof (thick_nth_last _ _ t _ Ht eq_refl ltac:(lia)). lia.
  - pose proof (thick_nth _ _ t s Ht ltac:(lia)). lia.
Qed.

Lemma sliced_exclusive near dims ov t k d st s1 s2 l1 l2 c :
  gridFits dims ov -> sliceable dims ov -> lockSlicing dims ov t ->
  let n := Z.of_nat (length t) in
  reach n (initState (sliceProg t (comp (dimLong dims) ov))) k d st ->
  0 <= s1 < n -> 0 <= s2 < n -> s1 <> s2 -> processing st s1 l1 -> processing st s2 l2 ->
  accesses (c08BaseSteps near dims ov (layerCells dims ov l1)) c ->
  accesses (c08BaseSteps near dims ov (layerCells dims ov l2)) c -> False.
Proof.
  intros Hv Ha Ht n Hr H1 H2 Hne P1 P2 A1 A2.
  destruct (lockSlicing_thick dims ov t Hv Ha Ht) as (_ & Hsum & Hth).
  pose proof (comp_pos dims ov Hv) as Ho.
  set (o := comp (dimLong dims) ov) in *.
  pose proof (inv_reach t o Ho Hth k d st Hr) as Hi.
  pose proof (processing_holds t o st s1 l1 Hi H1 P1) as (R1 & _).
  pose proof (processing_holds t o st s2 l2 Hi H2 P2) as (R2 & _).
  pose proof (thick_pos (o + 1) 1 t ltac:(lia) ltac:(lia) Hth) as Hpos.
  assert (B : forall s l, 0 <= s < n -> sliceStart t s <= l < sliceStart t s + thicknessOf t s ->
     0 <= l < comp (dimLong dims) dims - o).
  { intros s l Hs Hl. rewrite <- Hsum, <- sliceStart_end.
    pose proof (sliceStart_mono t 0 s Hpos ltac:(lia) ltac:(lia) ltac:(fold n; lia)). rewrite sliceStart_0 in *.
    pose proof (sliceStart_mono t (s + 1) (Z.of_nat (length t)) Hpos ltac:(lia) ltac:(fold n; lia) ltac:(lia)).
    rewrite sliceStart_succ in * by assumption. lia. }
  assert (D : o < Z.abs (l1 - l2)).
  { destruct (Z_lt_le_dec s1 s2).
    - pose proof (sliced_exclusion_lt t o Ho Hth k d st s1 s2 l1 l2 Hr H1 H2 ltac:(lia) P1 P2). lia.
    - pose proof (sliced_exclusion_lt t o Ho Hth k d st s2 s1 l2 l1 Hr H2 H1 ltac:(lia) P2 P1). lia. }
  apply (layers_disjoint near dims ov l1 l2 c Hv); auto; [apply (B s1)|apply (B s2)]; assumption.
Qed.

Lemma sliced_calls_perm near dims ov t k d st :
  gridFits dims ov -> sliceable dims ov -> lockSlicing dims ov t ->
  let n := Z.of_nat (length t) in
  reach n (initState (sliceProg t (comp (dimLong dims) ov))) k d st -> (forall s ev st', ~ step n st s ev st') ->
  Permutation (c08BaseSteps near dims ov (flat_map (layerCells dims ov) d)) (c08Calls near dims ov).
Proof.
  intros Hv Ha Ht n Hr Hs.
  destruct (lockSlicing_thick dims ov t Hv Ha Ht) as (_ & Hsum & Hth).
  destruct (sliced_stuck_done t _ k d st (comp_pos dims ov Hv) Hth Hr Hs) as [_ P].
  etransitivity; [unfold c08BaseSteps; apply Permutation_flat_map, Permutation_flat_map, P|].
  pose proof (comp_pos dims ov Hv) as Ho.
  apply c08_calls_perm; [assumption| |].
  - apply NoDup_layer_bases.
  - exact (in_layer_bases dims ov t (thick_pos (comp (dimLong dims) ov + 1) 1 t ltac:(lia) ltac:(lia) Hth) Hsum).
Qed.

(** c02 slicing *)
Lemma c02_thick dims ov : gridFits dims ov ->
  let o := comp (dimLong dims) ov in let len := comp (dimLong dims) dims in
  o <= len -> let t := initSliceThickness len o o true in
  zsum t = len - o /\ thick o 0 t.
Proof.
  intros Hv. cbv zeta. intros Hl. pose proof (comp_pos dims ov Hv) as Ho.
  pose proof (init_thickness (comp (dimLong dims) dims) (comp (dimLong dims) ov) (comp (dimLong dims) ov) true Ho Hl ltac:(lia)) as (_ & H1 & H2).
  split; [exact H1|]. rewrite Z.sub_diag in H2. exact H2.
Qed.

(** * Statements of the property files *)
Lemma sliced_partition (len m ov : Z) (fwd : bool) : 0 < m <= len -> 0 <= ov <= m ->
  let o := if fwd then ov else 0 in
  let t := initSliceThickness len m ov fwd in
  t <> [] /\ partitionsLayers t (len - o) /\ thick m (m - o) t.
Proof.
  intros Hm Ho. cbv zeta. destruct (init_thickness len m ov fwd ltac:(lia) ltac:(lia) ltac:(lia)) as (A & B & C).
  split; [assumption|]. split; [|assumption]. rewrite <- B. eapply slices_partition_layers; [| |exact C]; destruct fwd; lia.
Qed.

Lemma balanced_partition grow (len m ov : Z) (fwd : bool) threads : 0 < m <= len -> 0 <= ov <= m -> (0 < threads)%nat ->
  exists t, balancedSliceThickness grow m len threads ov fwd = Some t /\
  let o := if fwd then ov else 0 in
  t <> [] /\ partitionsLayers t (len - o) /\ thick m (m - o) t.
Proof.
  intros Hm Ho Hth. destruct (balanced_thickness grow len m ov fwd threads ltac:(lia) ltac:(lia) ltac:(lia) Hth) as (t & E & A & B & C).
  exists t. split; [assumption|]. cbv zeta.
  split; [assumption|]. split; [|assumption]. rewrite <- B. eapply slices_partition_layers; [| |exact C]; destruct fwd; lia.
Qed.

Lemma sliced_no_deadlock t ov : 0 < ov -> thick (ov + 1) 1 t ->
  let n := Z.of_nat (length t) in
  forall k d st, reach n (initState (sliceProg t ov)) k d st ->
  (forall s, 0 <= s < n -> match todo st s with
      | Lock i :: _ => 0 <= i < numLocks t ov
      | Unlock i :: _ => owner st i = Some s
      | _ => True
      end) /\
  (forall s, 0 <= s < n -> unfinished st s ->
     exists s' ev st', 0 <= s' < n /\ started st s' = true /\ step n st s' ev st').
Proof.
  intros Ho Ht n k d st Hr. split.
  - intros s Hs. exact (sliced_lock_usage t ov Ho Ht k d st s Hr Hs).
  - intros s Hs Hu. destruct (sliced_progress t ov Ho Ht k d st s Hr Hs Hu) as (s' & A & B & ev & st' & C).
    exists s', ev, st'. auto.
Qed.

Lemma sliced_terminates t ov : 0 < ov -> thick (ov + 1) 1 t ->
  let n := Z.of_nat (length t) in
  (exists bound, forall k d st, reach n (initState (sliceProg t ov)) k d st -> (k <= bound)%nat) /\
  (forall k d st, reach n (initState (sliceProg t ov)) k d st -> (forall s ev st', ~ step n st s ev st') ->
     allDone n st /\ Permutation d (zrange 0 (zsum t))).
Proof.
  intros Ho Ht n. split.
  - exists (work (zrange 0 n) (initState (sliceProg t ov))). intros k d st Hr. apply reach_work in Hr. lia.
  - intros k d st. apply sliced_stuck_done; assumption.
Qed.

Lemma sliced_exactly_once near dims ov t k d st h a b :
  gridFits dims ov -> sliceable dims ov -> lockSlicing dims ov t ->
  let n := Z.of_nat (length t) in
  reach n (initState (sliceProg t (comp (dimLong dims) ov))) k d st -> (forall s ev st', ~ step n st s ev st') ->
  let calls := c08BaseSteps near dims ov (flat_map (layerCells dims ov) d) in
  haloCovers h ov -> inGrid dims a -> inGrid dims b ->
  (ownedCell dims h a \/ ownedCell dims h b -> withinReach near ov a b -> timesProcessed dims calls a b = 1%nat) /\
  (timesProcessed dims calls a b <= 1)%nat /\ inBounds dims calls.
Proof.
  intros Hv Ha Ht n Hr Hs calls Hh Ga Gb.
  pose proof (sliced_calls_perm near dims ov t k d st Hv Ha Ht Hr Hs) as P. fold calls in P.
  split; [|split].
  - intros. eapply perm_exactly_once; eauto.
  - eapply perm_at_most_once; eauto.
  - eapply perm_inBounds; eauto.
Qed.

Lemma c02_sliced near dims ov h :
  gridFits dims ov -> haloCovers h ov -> comp (dimLong dims) ov <= comp (dimLong dims) dims ->
  let t := initSliceThickness (comp (dimLong dims) dims) (comp (dimLong dims) ov) (comp (dimLong dims) ov) true in
  let calls := concat (concat (lcC02Tasks near dims ov t)) in
  Forall raceFree (lcC02Tasks near dims ov t) /\
  (forall a b, inGrid dims a -> inGrid dims b -> ownedCell dims h a \/ ownedCell dims h b ->
     withinReach near ov a b -> timesProcessed dims calls a b = 1%nat) /\
  (forall a b, inGrid dims a -> inGrid dims b -> (timesProcessed dims calls a b <= 1)%nat) /\
  inBounds dims calls.
Proof.
  intros Hv Hh Hl t calls. destruct (c02_thick dims ov Hv Hl) as [Hs Ht]. fold t in Hs, Ht.
  pose proof (comp_pos dims ov Hv) as Ho.
  pose proof (thick_pos (comp (dimLong dims) ov) 0 t ltac:(lia) ltac:(lia) Ht) as Hpos.
  pose proof (lcC02_perm dims ov t Hpos Hs near Hv) as P. fold calls in P.
  split; [eapply lcC02_raceFree; eauto; lia|]. split; [|split].
  - intros. eapply perm_exactly_once; eauto.
  - intros. eapply perm_at_most_once; eauto.
  - eapply perm_inBounds; eauto.
Qed.
