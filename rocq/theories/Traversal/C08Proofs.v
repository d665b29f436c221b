From Verif.Base Require Import ZRange Occ.
From Verif.Grid Require Import IndexModel IndexSpec IndexProofs.
From Verif.Traversal Require Import ColorModel ColorProofs CellSpec CellLemmas C08Model.

Lemma in_c08Loop ov x y z d : In (x, y, z, d) (c08Loop ov) <->
  0 <= x <= ix ov /\ 0 <= y <= iy ov /\ 0 <= z <= iz ov.
Proof.
  unfold c08Loop. rewrite in_flat_map. split.
  - intros (x' & Hx & H). rewrite in_flat_map in H. destruct H as (y' & Hy & H).
    rewrite in_flat_map in H. destruct H as (z' & Hz & H).
    apply in_map_iff in H as (d' & E & _). injection E as -> -> -> ->.
    rewrite in_zrange in *. lia.
  - intros (Hx & Hy & Hz). exists x. rewrite in_zrange. split; [lia|].
    rewrite in_flat_map. exists y. rewrite in_zrange. split; [lia|].
    rewrite in_flat_map. exists z. rewrite in_zrange. split; [lia|].
    apply in_map_iff. exists d. split; [reflexivity|]. unfold allDirections; destruct d; simpl; tauto.
Qed.

Lemma NoDup_c08Loop ov : NoDup (c08Loop ov).
Proof.
  unfold c08Loop. apply NoDup_flat_map; [apply NoDup_zrange| |].
  - intros x _. apply NoDup_flat_map; [apply NoDup_zrange| |].
    + intros y _. apply NoDup_flat_map; [apply NoDup_zrange| |].
      * intros z _. apply NoDup_map_inj; [intros; congruence|].
        unfold allDirections. repeat constructor; simpl; intuition discriminate.
      * intros z1 z2 t _ _ H1 H2. apply in_map_iff in H1 as (? & <- & _), H2 as (? & E & _).
        congruence.
    + intros y1 y2 t _ _ H1 H2. rewrite in_flat_map in H1, H2.
      destruct H1 as (? & _ & H1), H2 as (? & _ & H2).
      apply in_map_iff in H1 as (? & <- & _), H2 as (? & E & _). congruence.
  - intros x1 x2 t _ _ H1 H2. rewrite in_flat_map in H1, H2.
    destruct H1 as (? & _ & H1), H2 as (? & _ & H2).
    rewrite in_flat_map in H1, H2. destruct H1 as (? & _ & H1), H2 as (? & _ & H2).
    apply in_map_iff in H1 as (? & <- & _), H2 as (? & E & _). congruence.
Qed.

(** Indexed 3D calls. *)
Definition c08Index near dims ov : list (I3 * (Z * Z * Z * C08Dir)) :=
  flat_map (fun b => map (pair b) (filter (c08Include near ov) (c08Loop ov)))
           (concat (c08Colors dims ov)).
Definition c08Call3 ov (bt : I3 * (Z * Z * Z * C08Dir)) : I3 * I3 :=
  (i3add (fst bt) (c08Offset2 ov (snd bt)), i3add (fst bt) (c08Offset1 (snd bt))).

Lemma c08Calls_index near dims ov :
  c08Calls near dims ov = map (flat2 dims) (map (c08Call3 ov) (c08Index near dims ov)).
Proof.
  unfold c08Calls, c08Tasks. rewrite concat_tasks. unfold c08Index, c08ProcessBaseCell, computePairwiseCellOffsetsC08.
  induction (concat (c08Colors dims ov)) as [|b l IH]; [reflexivity|].
  cbn [flat_map]. rewrite !map_app, IH, !map_map. f_equal.
  apply map_ext. intros t. unfold flat2, c08Call3; cbn [fst snd].
  now rewrite !threeToOneD_add.
Qed.


Lemma c08_stride_pos dims ov : gridFits dims ov -> positive (mkI3 (ix ov + 1) (iy ov + 1) (iz ov + 1)).
Proof. unfold gridFits, positive; simpl; lia. Qed.

Lemma in_c08Index near dims ov b x y z d : gridFits dims ov ->
  In (b, (x, y, z, d)) (c08Index near dims ov) <->
  (0 <= ix b < ix dims - ix ov /\ 0 <= iy b < iy dims - iy ov /\ 0 <= iz b < iz dims - iz ov) /\
  (0 <= x <= ix ov /\ 0 <= y <= iy ov /\ 0 <= z <= iz ov) /\ c08Include near ov (x, y, z, d) = true.
Proof.
  intros Hv. unfold c08Index. rewrite in_flat_map.
  pose proof (c08_stride_pos dims ov Hv) as Hs. split.
  - intros (b' & Hb & H). apply in_map_iff in H as (t & E & Ht).
    injection E as -> ->. apply filter_In in Ht as [Ht Hi].
    apply in_c08Loop in Ht. unfold c08Colors in Hb. apply colorTraversal_in in Hb; [|assumption].
    simpl in Hb. tauto.
  - intros (Hb & Ht & Hi). exists b. split.
    + unfold c08Colors. apply colorTraversal_in; [assumption|]. simpl. lia.
    + apply in_map_iff. exists (x, y, z, d). split; [reflexivity|].
      apply filter_In. split; [now apply in_c08Loop|assumption].
Qed.

Lemma NoDup_c08Index near dims ov : gridFits dims ov -> NoDup (c08Index near dims ov).
Proof.
  intros Hv. pose proof (c08_stride_pos dims ov Hv) as Hs. unfold c08Index.
  apply NoDup_flat_map.
  - unfold c08Colors. now apply colorTraversal_NoDup.
  - intros b _. apply NoDup_map_inj; [intros; congruence|].
    apply NoDup_filter, NoDup_c08Loop.
  - intros b1 b2 t _ _ H1 H2. apply in_map_iff in H1 as (? & <- & _), H2 as (? & E & _). congruence.
Qed.

Lemma include_spec d ov x y z : includeCellPair d ov x y z = true <->
  match d with
  | frontLeft => True
  | backLeft => y <> iy ov /\ z <> 0
  | frontRight => x <> ix ov /\ (y <> 0 \/ z <> 0)
  | backRight => y <> iy ov /\ x <> ix ov /\ z <> 0
  end.
Proof.
  destruct d; simpl; rewrite ?andb_true_iff, ?orb_true_iff, ?negb_true_iff, ?Z.eqb_neq; tauto.
Qed.

Lemma c08Call3_inGrid near dims ov bt : gridFits dims ov -> In bt (c08Index near dims ov) ->
  inGrid dims (fst (c08Call3 ov bt)) /\ inGrid dims (snd (c08Call3 ov bt)).
Proof.
  intros Hv. destruct bt as [b [[[x y] z] d]]. intros H. apply in_c08Index in H; [|assumption].
  destruct H as (Hb & Ht & _). unfold gridFits, positive, inGrid in *.
  unfold c08Call3, i3add; destruct d; simpl; lia.
Qed.

(** The unordered pair of cells determines base cell and offset pair. *)
Lemma c08_unique near dims ov b b' : gridFits dims ov ->
  forall bt1 bt2, In bt1 (c08Index near dims ov) -> In bt2 (c08Index near dims ov) ->
  same3 b b' (c08Call3 ov bt1) = true -> same3 b b' (c08Call3 ov bt2) = true -> bt1 = bt2.
Proof.
  intros Hv [b1 [[[x1 y1] z1] d1]] [b2 [[[x2 y2] z2] d2]] H1 H2 S1 S2.
  apply in_c08Index in H1; [|assumption]. apply in_c08Index in H2; [|assumption].
  destruct H1 as (B1 & T1 & I1), H2 as (B2 & T2 & I2).
  unfold c08Include in I1, I2.
  destruct (toMaskXY d1) as [mx1 my1] eqn:M1. destruct (toMaskXY d2) as [mx2 my2] eqn:M2.
  apply andb_true_iff in I1 as [I1 _], I2 as [I2 _].
  apply include_spec in I1, I2.
  apply same3_true in S1, S2.
  assert (E : (fst (c08Call3 ov (b1, (x1, y1, z1, d1))) = fst (c08Call3 ov (b2, (x2, y2, z2, d2))) /\
               snd (c08Call3 ov (b1, (x1, y1, z1, d1))) = snd (c08Call3 ov (b2, (x2, y2, z2, d2)))) \/
              (fst (c08Call3 ov (b1, (x1, y1, z1, d1))) = snd (c08Call3 ov (b2, (x2, y2, z2, d2))) /\
               snd (c08Call3 ov (b1, (x1, y1, z1, d1))) = fst (c08Call3 ov (b2, (x2, y2, z2, d2))))).
  { destruct S1 as [[]|[]], S2 as [[]|[]]; [left|right|right|left]; split; congruence. }
  clear S1 S2 b b' M1 M2.
  unfold c08Call3, i3add, c08Offset1, c08Offset2 in E; simpl in E.
  unfold gridFits, positive in Hv.
  destruct b1 as [bx1 by1 bz1], b2 as [bx2 by2 bz2], ov as [ox oy oz]; simpl in *.
  destruct d1, d2; simpl in E; destruct E as [[E1 E2]|[E1 E2]];
    injection E1; injection E2; clear E1 E2; intros;
    first [ exfalso; lia
          | (assert (bx1 = bx2) by lia; assert (by1 = by2) by lia; assert (bz1 = bz2) by lia;
             assert (x1 = x2) by lia; assert (y1 = y2) by lia; assert (z1 = z2) by lia;
             subst; reflexivity) ].
Qed.


Lemma c08_exists_oriented near dims ov h p q :
  gridFits dims ov -> haloCovers h ov -> inGrid dims p -> inGrid dims q ->
  (ownedCell dims h p \/ ownedCell dims h q) -> withinReach near ov p q ->
  (iz q < iz p \/ (iz p = iz q /\ ix p <= ix q /\ iy p <= iy q) \/
   (iz p = iz q /\ ix p > ix q /\ iy p < iy q)) ->
  exists bt, In bt (c08Index near dims ov) /\ c08Call3 ov bt = (p, q).
Proof.
  intros Hv Hh Hp Hq Ho (Rx & Ry & Rz & Hn) Hor.
  unfold haloCovers in Hh. unfold inGrid in Hp, Hq. unfold ownedCell in Ho.
  pose proof Hv as Hv'. unfold gridFits, positive in Hv'.
  assert (G : forall d mx my x y,
    toMaskXY d = (mx, my) ->
    includeCellPair d ov x y (iz p - iz q) = true ->
    0 <= x <= ix ov -> 0 <= y <= iy ov ->
    mx * ix ov - x = ix p - ix q -> my * iy ov - y = iy p - iy q ->
    (ix ov - x) * mx + x * (1 - mx) = Z.abs (ix p - ix q) ->
    (iy ov - y) * my + y * (1 - my) = Z.abs (iy p - iy q) ->
    0 <= iz p - iz q ->
    0 <= ix q - x < ix dims - ix ov -> 0 <= iy q - y < iy dims - iy ov -> 0 <= iz q < iz dims - iz ov ->
    exists bt, In bt (c08Index near dims ov) /\ c08Call3 ov bt = (p, q)).
  { intros d mx my x y Hm Hi Bx By Ex Ey Nx Ny Bz Gx Gy Gz.
    exists (mkI3 (ix q - x) (iy q - y) (iz q), (x, y, iz p - iz q, d)). split.
    - apply in_c08Index; [assumption|]. cbn [ix iy iz].
      split; [lia|]. split; [lia|].
      unfold c08Include. rewrite Hm, Hi, Nx, Ny. simpl.
      rewrite (Z.abs_eq (iz p - iz q)) in Hn by lia. exact Hn.
    - unfold c08Call3, c08Offset1, c08Offset2. cbn [fst snd]. rewrite Hm. unfold i3add; simpl.
      f_equal; apply i3_ext; simpl; lia. }
  destruct (Z_le_gt_dec (ix p) (ix q)) as [Cx|Cx], (Z_le_gt_dec (iy p) (iy q)) as [Cy|Cy].
  - apply (G frontLeft 0 0 (ix q - ix p) (iy q - iy p)); try reflexivity; try lia.
  - apply (G backLeft 0 1 (ix q - ix p) (iy ov - (iy p - iy q))); try reflexivity; try lia.
    apply include_spec. lia.
  - apply (G frontRight 1 0 (ix ov - (ix p - ix q)) (iy q - iy p)); try reflexivity; try lia.
    apply include_spec. lia.
  - apply (G backRight 1 1 (ix ov - (ix p - ix q)) (iy ov - (iy p - iy q))); try reflexivity; try lia.
    apply include_spec. lia.
Qed.

Lemma withinReach_sym near ov p q : withinReach near ov p q -> withinReach near ov q p.
Proof.
  unfold withinReach.
  replace (Z.abs (ix q - ix p)) with (Z.abs (ix p - ix q)) by lia.
  replace (Z.abs (iy q - iy p)) with (Z.abs (iy p - iy q)) by lia.
  replace (Z.abs (iz q - iz p)) with (Z.abs (iz p - iz q)) by lia. tauto.
Qed.

Lemma c08_exists near dims ov h a b :
  gridFits dims ov -> haloCovers h ov -> inGrid dims a -> inGrid dims b ->
  (ownedCell dims h a \/ ownedCell dims h b) -> withinReach near ov a b ->
  exists bt, In bt (c08Index near dims ov) /\ same3 a b (c08Call3 ov bt) = true.
Proof.
  intros Hv Hh Ha Hb Ho Hr.
  assert (D : (iz b < iz a \/ (iz a = iz b /\ ix a <= ix b /\ iy a <= iy b) \/
               (iz a = iz b /\ ix a > ix b /\ iy a < iy b)) \/
              (iz a < iz b \/ (iz b = iz a /\ ix b <= ix a /\ iy b <= iy a) \/
               (iz b = iz a /\ ix b > ix a /\ iy b < iy a))) by lia.
  destruct D as [D|D].
  - destruct (c08_exists_oriented near dims ov h a b Hv Hh Ha Hb Ho Hr D) as (bt & Hbt & E).
    exists bt. split; [assumption|]. apply same3_true. rewrite E. auto.
  - apply withinReach_sym in Hr. apply or_comm in Ho.
    destruct (c08_exists_oriented near dims ov h b a Hv Hh Hb Ha Ho Hr D) as (bt & Hbt & E).
    exists bt. split; [assumption|]. apply same3_true. rewrite E. auto.
Qed.

Lemma c08_calls3_inGrid near dims ov : gridFits dims ov ->
  forall c, In c (map (c08Call3 ov) (c08Index near dims ov)) -> inGrid dims (fst c) /\ inGrid dims (snd c).
Proof.
  intros Hv c Hc. apply in_map_iff in Hc as (bt & <- & Hbt). now apply (c08Call3_inGrid near).
Qed.

Lemma c08_timesProcessed near dims ov a b : gridFits dims ov -> inGrid dims a -> inGrid dims b ->
  timesProcessed dims (c08Calls near dims ov) a b =
  occ (fun bt => same3 a b (c08Call3 ov bt)) (c08Index near dims ov).
Proof.
  intros Hv Ha Hb. rewrite c08Calls_index, timesProcessed_flat; auto.
  - now rewrite occ_map.
  - now apply c08_calls3_inGrid.
Qed.

Lemma c08_at_most_once near dims ov a b : gridFits dims ov -> inGrid dims a -> inGrid dims b ->
  (timesProcessed dims (c08Calls near dims ov) a b <= 1)%nat.
Proof.
  intros Hv Ha Hb. rewrite c08_timesProcessed by assumption.
  apply occ_le_one_of_unique; [now apply NoDup_c08Index|].
  intros; eapply c08_unique; eauto.
Qed.

Lemma c08_exactly_once near dims ov h a b :
  gridFits dims ov -> haloCovers h ov -> inGrid dims a -> inGrid dims b ->
  (ownedCell dims h a \/ ownedCell dims h b) -> withinReach near ov a b ->
  timesProcessed dims (c08Calls near dims ov) a b = 1%nat.
Proof.
  intros Hv Hh Ha Hb Ho Hr.
  destruct (c08_exists near dims ov h a b Hv Hh Ha Hb Ho Hr) as (bt & Hbt & Hs).
  pose proof (c08_at_most_once near dims ov a b Hv Ha Hb).
  rewrite c08_timesProcessed in * by assumption.
  pose proof (occ_pos_of_in (fun bt => same3 a b (c08Call3 ov bt)) _ bt Hbt Hs). lia.
Qed.

Lemma c08_only_reach near dims ov a b : gridFits dims ov -> inGrid dims a -> inGrid dims b ->
  (1 <= timesProcessed dims (c08Calls near dims ov) a b)%nat -> withinReach near ov a b.
Proof.
  intros Hv Ha Hb H. rewrite c08_timesProcessed in H by assumption.
  apply occ_pos_in in H as (bt & Hbt & Hs).
  assert (R : withinReach near ov (fst (c08Call3 ov bt)) (snd (c08Call3 ov bt))).
  { clear Hs. destruct bt as [base [[[x y] z] d]]. apply in_c08Index in Hbt as (B & T & I); [|assumption].
    unfold c08Include in I. destruct (toMaskXY d) as [mx my] eqn:M.
    apply andb_true_iff in I as [I N]. unfold withinReach, c08Call3, c08Offset1, c08Offset2, i3add.
    cbn [fst snd]. rewrite M. simpl. unfold gridFits, positive in Hv.
    assert (A : forall o t m, 0 <= t <= o -> m = 0 \/ m = 1 -> forall base,
       Z.abs (base + m * o - (base + t)) = (o - t) * m + t * (1 - m)).
    { intros o t m Ht [->| ->] base'; lia. }
    assert (mx = 0 \/ mx = 1) by (destruct d; injection M; lia).
    assert (my = 0 \/ my = 1) by (destruct d; injection M; lia).
    rewrite !A by (assumption || lia).
    replace (Z.abs (iz base + z - (iz base + 0))) with z by lia.
    repeat split; try lia; try nia. exact N. }
  apply same3_true in Hs as [[<- <-]|[<- <-]]; [exact R|now apply withinReach_sym].
Qed.

Lemma c08_inBounds near dims ov : gridFits dims ov -> inBounds dims (c08Calls near dims ov).
Proof. intros Hv. rewrite c08Calls_index. apply inBounds_flat. now apply c08_calls3_inGrid. Qed.

(** cells accessed by a base cell *)
Lemma c08_accesses near dims ov b c : gridFits dims ov ->
  (0 <= ix b < ix dims - ix ov /\ 0 <= iy b < iy dims - iy ov /\ 0 <= iz b < iz dims - iz ov) ->
  accesses (c08ProcessBaseCell (computePairwiseCellOffsetsC08 near ov dims) (threeToOneD b dims)) c ->
  exists p, inGrid dims p /\ c = threeToOneD p dims /\
    ix b <= ix p <= ix b + ix ov /\ iy b <= iy p <= iy b + iy ov /\ iz b <= iz p <= iz b + iz ov.
Proof.
  intros Hv Hb (call & Hin & Hc). unfold c08ProcessBaseCell, computePairwiseCellOffsetsC08 in Hin.
  rewrite map_map in Hin. apply in_map_iff in Hin as ([[[x y] z] d] & <- & Ht).
  apply filter_In in Ht as [Ht _]. apply in_c08Loop in Ht.
  simpl in Hc. rewrite <- !threeToOneD_add in Hc. unfold gridFits, positive, inGrid in *.
  destruct Hc as [-> | ->]; eexists; (split; [|split; [reflexivity|]]); destruct d; simpl; lia.
Qed.

Lemma c08_raceFree near dims ov : gridFits dims ov -> Forall raceFree (c08Tasks near dims ov).
Proof.
  intros Hv. pose proof (c08_stride_pos dims ov Hv) as Hs.
  apply Forall_forall. intros col Hcol. unfold c08Tasks in Hcol.
  apply in_map_iff in Hcol as (bases & <- & Hb).
  apply raceFree_map; [eapply colorTraversal_color_NoDup; eauto|].
  intros b1 b2 c H1 H2 Hne A1 A2.
  assert (Hin : forall b, In b bases -> 0 <= ix b < ix dims - ix ov /\ 0 <= iy b < iy dims - iy ov /\ 0 <= iz b < iz dims - iz ov).
  { intros b Hbb. apply (colorTraversal_in (mkI3 (ix dims - ix ov) (iy dims - iy ov) (iz dims - iz ov))
       (mkI3 (ix ov + 1) (iy ov + 1) (iz ov + 1)) (mkI3 0 0 0) b Hs).
    apply in_concat. exists bases. split; assumption. }
  apply c08_accesses in A1 as (p1 & G1 & E1 & P1); auto.
  apply c08_accesses in A2 as (p2 & G2 & E2 & P2); auto.
  assert (p1 = p2) by (apply (threeToOneD_inj dims); congruence). subst p2.
  destruct (colorTraversal_same_color _ _ _ _ _ _ Hs Hb H1 H2) as (kx & ky & kz & Kx & Ky & Kz).
  simpl in *. unfold gridFits, positive in Hv.
  apply Hne. apply i3_ext.
  - assert (kx = 0) by nia. nia.
  - assert (ky = 0) by nia. nia.
  - assert (kz = 0) by nia. nia.
Qed.
