From Verif.Base Require Import ZRange Occ OptionM.
From Verif.Grid Require Import IndexModel IndexSpec IndexProofs.
From Verif.Traversal Require Import ColorModel ColorProofs CellSpec CellLemmas C18Model.

Definition lexNonneg (x y z : Z) : Prop := 0 < z \/ (z = 0 /\ (0 < y \/ (y = 0 /\ 0 <= x))).

Lemma flat_offset_sign dims ov x y z : gridFits2x dims ov ->
  -ix ov <= x <= ix ov -> -iy ov <= y <= iy ov -> 0 <= z <= iz ov ->
  0 <= threeToOneD (mkI3 x y z) dims <-> lexNonneg x y z.
Proof.
  intros (Hp & Hx & Hy & Hz) Bx By Bz. unfold threeToOneD, lexNonneg, positive in *; simpl.
  destruct dims as [dx dy dz], ov as [ox oy oz]; simpl in *.
  assert (P1 : forall t, 1 <= t -> dx <= t * dx) by (intros; nia).
  assert (P2 : forall t, t <= -1 -> t * dx <= - dx) by (intros; nia).
  assert (P3 : 1 <= z -> dy <= z * dy) by (intros; nia).
  split.
  - intros H. destruct (Z.eq_dec z 0) as [->|]; [|lia].
    right. split; [reflexivity|].
    destruct (Z.eq_dec y 0) as [->|]; [right; lia|]. left.
    destruct (Z_lt_le_dec 0 y); [assumption|]. specialize (P2 (0 * dy + y) ltac:(lia)). lia.
  - intros [H|[-> [H|[-> H]]]].
    + specialize (P3 ltac:(lia)). specialize (P1 (z * dy + y) ltac:(lia)). lia.
    + specialize (P1 (0 * dy + y) ltac:(lia)). lia.
    + lia.
Qed.

(** The offsets valid at base cell [b], as 3D offsets in loop order. *)
Definition c18Off3 near (ov dims b : I3) : list I3 :=
  filter (fun o => (0 <=? threeToOneD o dims) &&
                   (Z.abs (c18GetIndex (iy b) (iy dims) (iy ov) - iy ov + iy o) <=? iy ov) &&
                   (Z.abs (c18GetIndex (ix b) (ix dims) (ix ov) - ix ov + ix o) <=? ix ov) &&
                   near (Z.abs (ix o)) (Z.abs (iy o)) (Z.abs (iz o)))
    (flat_map (fun z => flat_map (fun y => map (fun x => mkI3 x y z)
       (zrange (- ix ov) (ix ov + 1))) (zrange (- iy ov) (iy ov + 1))) (zrange 0 (iz ov + 1))).

Lemma c18GetIndex_range pos dim ov : 0 < ov -> 2 * ov < dim -> 0 <= pos < dim ->
  0 <= c18GetIndex pos dim ov < 2 * ov + 1.
Proof.
  intros. unfold c18GetIndex. destruct (Z.ltb_spec pos ov); [lia|].
  destruct (Z.ltb_spec pos (dim - ov)); lia.
Qed.

(** The special cases select exactly the offsets that stay in the grid. *)
Lemma c18GetIndex_select pos dim ov o : 0 < ov -> 2 * ov < dim -> 0 <= pos < dim -> - ov <= o <= ov ->
  Z.abs (c18GetIndex pos dim ov - ov + o) <= ov <-> 0 <= pos + o < dim.
Proof.
  intros. unfold c18GetIndex. destruct (Z.ltb_spec pos ov); [lia|].
  destruct (Z.ltb_spec pos (dim - ov)); lia.
Qed.

Lemma flat_map_filter {A B} (f : A -> bool) (g : A -> B) (l : list A) :
  flat_map (fun a => if f a then [g a] else []) l = map g (filter f l).
Proof. induction l as [|a l IH]; [reflexivity|]. simpl. destruct (f a); simpl; now rewrite IH. Qed.

Lemma flat_map_flat_map {A B C} (f : A -> list B) (g : B -> list C) (l : list A) :
  flat_map g (flat_map f l) = flat_map (fun a => flat_map g (f a)) l.
Proof. induction l as [|a l IH]; [reflexivity|]. simpl. now rewrite flat_map_app, IH. Qed.

Lemma flat_map_map {A B C} (f : A -> B) (g : B -> list C) (l : list A) :
  flat_map g (map f l) = flat_map (fun a => g (f a)) l.
Proof. induction l as [|a l IH]; [reflexivity|]. simpl. now rewrite IH. Qed.

Lemma c18ProcessBaseCell_ok near dims ov b : gridFits2x dims ov -> inGrid dims b ->
  c18ProcessBaseCell near dims ov b =
  Some (map (fun o => flat2 dims (b, i3add b o)) (c18Off3 near ov dims b)).
Proof.
  intros (Hp & Hx & Hy & Hz) Hb. unfold inGrid, positive in *.
  unfold c18ProcessBaseCell, c18Offsets.
  pose proof (c18GetIndex_range (iy b) (iy dims) (iy ov)) as Ry.
  pose proof (c18GetIndex_range (ix b) (ix dims) (ix ov)) as Rx.
  set (yi := c18GetIndex (iy b) (iy dims) (iy ov)) in *.
  set (xi := c18GetIndex (ix b) (ix dims) (ix ov)) in *.
  replace ((0 <=? yi) && (yi <? 2 * iy ov + 1) && (0 <=? xi) && (xi <? 2 * ix ov + 1)) with true
    by (symmetry; rewrite !andb_true_iff, !Z.leb_le, !Z.ltb_lt; lia).
  f_equal.
  assert (E : flat_map (fun z => flat_map (fun y => flat_map (fun x =>
        let offset := threeToOneD (mkI3 x y z) dims in
        if offset <? 0 then []
        else if (Z.abs (yi - iy ov + y) <=? iy ov) && (Z.abs (xi - ix ov + x) <=? ix ov) &&
                near (Z.abs x) (Z.abs y) (Z.abs z) then [offset] else [])
        (zrange (- ix ov) (ix ov + 1))) (zrange (- iy ov) (iy ov + 1))) (zrange 0 (iz ov + 1)) =
      map (fun o => threeToOneD o dims) (c18Off3 near ov dims b)).
  { unfold c18Off3. fold yi. fold xi. rewrite <- flat_map_filter, flat_map_flat_map.
    apply flat_map_ext. intros z. rewrite flat_map_flat_map.
    apply flat_map_ext. intros y. rewrite flat_map_map.
    apply flat_map_ext. intros x. simpl.
    destruct (Z.ltb_spec (threeToOneD (mkI3 x y z) dims) 0), (Z.leb_spec 0 (threeToOneD (mkI3 x y z) dims));
      try lia; reflexivity. }
  cbv zeta in E |- *. rewrite E, map_map. apply map_ext. intros o. unfold flat2; simpl. now rewrite threeToOneD_add.
Qed.

Lemma c18_stride_pos dims ov : gridFits2x dims ov -> positive (mkI3 (2 * ix ov + 1) (2 * iy ov + 1) (iz ov + 1)).
Proof. unfold gridFits2x, positive; simpl; lia. Qed.

Lemma c18_bases dims ov b : gridFits2x dims ov ->
  In b (concat (c18Colors dims ov)) <->
  0 <= ix b < ix dims /\ 0 <= iy b < iy dims /\ 0 <= iz b < iz dims - iz ov.
Proof.
  intros Hv. unfold c18Colors. rewrite colorTraversal_in by (now apply (c18_stride_pos dims)). simpl. tauto.
Qed.

Lemma c18_bases_inGrid dims ov b : gridFits2x dims ov -> In b (concat (c18Colors dims ov)) -> inGrid dims b.
Proof. intros Hv Hb. apply c18_bases in Hb; [|assumption]. unfold gridFits2x, positive, inGrid in *. lia. Qed.

Definition c18TasksT near dims ov : list (list (list (Z * Z))) :=
  map (map (fun b => map (fun o => flat2 dims (b, i3add b o)) (c18Off3 near ov dims b))) (c18Colors dims ov).

Lemma c18Tasks_ok near dims ov : gridFits2x dims ov ->
  c18Tasks near dims ov = Some (c18TasksT near dims ov).
Proof.
  intros Hv. unfold c18Tasks, c18TasksT. apply mapM_some. intros col Hcol. apply mapM_some.
  intros b Hb. apply c18ProcessBaseCell_ok; [assumption|].
  eapply c18_bases_inGrid; eauto. apply in_concat; eauto.
Qed.

Lemma in_c18Off3 near ov dims b o : gridFits2x dims ov -> inGrid dims b ->
  In o (c18Off3 near ov dims b) <->
  (- ix ov <= ix o <= ix ov /\ - iy ov <= iy o <= iy ov /\ 0 <= iz o <= iz ov) /\
  lexNonneg (ix o) (iy o) (iz o) /\ 0 <= ix b + ix o < ix dims /\ 0 <= iy b + iy o < iy dims /\
  near (Z.abs (ix o)) (Z.abs (iy o)) (Z.abs (iz o)) = true.
Proof.
  intros Hv Hb. unfold c18Off3. rewrite filter_In, !andb_true_iff, !Z.leb_le.
  assert (L : In o (flat_map (fun z => flat_map (fun y => map (fun x => mkI3 x y z)
       (zrange (- ix ov) (ix ov + 1))) (zrange (- iy ov) (iy ov + 1))) (zrange 0 (iz ov + 1))) <->
     (- ix ov <= ix o <= ix ov /\ - iy ov <= iy o <= iy ov /\ 0 <= iz o <= iz ov)).
  { rewrite in_flat_map. split.
    - intros (z & Hz & H). apply in_flat_map in H as (y & Hy & H). apply in_map_iff in H as (x & <- & Hx).
      rewrite in_zrange in *. simpl. lia.
    - intros H. exists (iz o). rewrite in_zrange. split; [lia|]. apply in_flat_map.
      exists (iy o). rewrite in_zrange. split; [lia|]. apply in_map_iff. exists (ix o).
      rewrite in_zrange. split; [now destruct o|lia]. }
  rewrite L. destruct o as [x y z]; simpl in *. unfold inGrid in Hb.
  pose proof Hv as (Hp & Hx & Hy & Hz). unfold positive in Hp.
  split.
  - intros (B & ((S & Cy) & Cx) & N).
    apply (flat_offset_sign dims ov) in S; [|assumption|lia..].
    apply (c18GetIndex_select (iy b) (iy dims) (iy ov) y) in Cy; [|lia..]. apply (c18GetIndex_select (ix b) (ix dims) (ix ov) x) in Cx; [|lia..]. tauto.
  - intros (B & S & Cx & Cy & N).
    apply (flat_offset_sign dims ov) in S; [|assumption|lia..].
    apply (c18GetIndex_select (iy b) (iy dims) (iy ov) y) in Cy; [|lia..]. apply (c18GetIndex_select (ix b) (ix dims) (ix ov) x) in Cx; [|lia..]. tauto.
Qed.

Lemma NoDup_c18Off3 near ov dims b : NoDup (c18Off3 near ov dims b).
Proof.
  unfold c18Off3. apply NoDup_filter. apply NoDup_flat_map; [apply NoDup_zrange| |].
  - intros z _. apply NoDup_flat_map; [apply NoDup_zrange| |].
    + intros y _. apply NoDup_map_inj; [intros; congruence|apply NoDup_zrange].
    + intros y1 y2 t _ _ H1 H2. apply in_map_iff in H1 as (? & <- & _), H2 as (? & E & _). congruence.
  - intros z1 z2 t _ _ H1 H2. rewrite in_flat_map in H1, H2.
    destruct H1 as (? & _ & H1), H2 as (? & _ & H2).
    apply in_map_iff in H1 as (? & <- & _), H2 as (? & E & _). congruence.
Qed.

Definition c18Index near dims ov : list (I3 * I3) :=
  flat_map (fun b => map (fun o => (b, i3add b o)) (c18Off3 near ov dims b)) (concat (c18Colors dims ov)).

Lemma c18Calls_index near dims ov :
  concat (concat (c18TasksT near dims ov)) = map (flat2 dims) (c18Index near dims ov).
Proof.
  unfold c18TasksT. rewrite concat_tasks. unfold c18Index.
  induction (concat (c18Colors dims ov)) as [|b l IH]; [reflexivity|].
  cbn [flat_map]. now rewrite map_app, map_map, IH.
Qed.

Lemma in_c18Index near dims ov p q : gridFits2x dims ov ->
  In (p, q) (c18Index near dims ov) <->
  inGrid dims p /\ inGrid dims q /\ iz p < iz dims - iz ov /\
  lexNonneg (ix q - ix p) (iy q - iy p) (iz q - iz p) /\ withinReach near ov p q.
Proof.
  intros Hv. unfold c18Index. rewrite in_flat_map. split.
  - intros (b & Hb & H). apply in_map_iff in H as (o & E & Ho). injection E as <- <-.
    pose proof (c18_bases_inGrid dims ov b Hv Hb) as Hg.
    apply c18_bases in Hb; [|assumption].
    apply in_c18Off3 in Ho as (B & L & X & Y & N); [|assumption..].
    unfold inGrid, withinReach, i3add in *; simpl.
    replace (ix b + ix o - ix b) with (ix o) by ring.
    replace (iy b + iy o - iy b) with (iy o) by ring.
    replace (iz b + iz o - iz b) with (iz o) by ring.
    replace (Z.abs (ix b - (ix b + ix o))) with (Z.abs (ix o)) by lia.
    replace (Z.abs (iy b - (iy b + iy o))) with (Z.abs (iy o)) by lia.
    replace (Z.abs (iz b - (iz b + iz o))) with (Z.abs (iz o)) by lia.
    unfold gridFits2x, positive in Hv. repeat split; try lia; assumption.
  - intros (Gp & Gq & Hz & L & Rx & Ry & Rz & N). exists p. split.
    + apply c18_bases; [assumption|]. unfold inGrid in Gp. lia.
    + apply in_map_iff. exists (mkI3 (ix q - ix p) (iy q - iy p) (iz q - iz p)). split.
      * f_equal. apply i3_ext; simpl; ring.
      * apply in_c18Off3; [assumption..|]. unfold inGrid, lexNonneg in *. simpl.
        replace (Z.abs (ix q - ix p)) with (Z.abs (ix p - ix q)) by lia.
        replace (Z.abs (iy q - iy p)) with (Z.abs (iy p - iy q)) by lia.
        replace (Z.abs (iz q - iz p)) with (Z.abs (iz p - iz q)) by lia.
        repeat split; try lia; assumption.
Qed.

Lemma NoDup_c18Index near dims ov : gridFits2x dims ov -> NoDup (c18Index near dims ov).
Proof.
  intros Hv. pose proof (c18_stride_pos dims ov Hv) as Hs. unfold c18Index.
  apply NoDup_flat_map.
  - now apply colorTraversal_NoDup.
  - intros b _. apply NoDup_map_inj; [|apply NoDup_c18Off3].
    intros x y _ _ E. injection E as E1 E2 E3. apply i3_ext; lia.
  - intros b1 b2 t _ _ H1 H2. apply in_map_iff in H1 as (? & <- & _), H2 as (? & E & _). congruence.
Qed.

Lemma c18Index_inGrid near dims ov c : gridFits2x dims ov ->
  In c (c18Index near dims ov) -> inGrid dims (fst c) /\ inGrid dims (snd c).
Proof. intros Hv Hc. destruct c as [p q]. apply in_c18Index in Hc; [|assumption]. simpl; tauto. Qed.

Lemma c18_unique near dims ov a b c1 c2 : gridFits2x dims ov ->
  In c1 (c18Index near dims ov) -> In c2 (c18Index near dims ov) ->
  same3 a b c1 = true -> same3 a b c2 = true -> c1 = c2.
Proof.
  intros Hv H1 H2 S1 S2. destruct c1 as [p1 q1], c2 as [p2 q2].
  apply in_c18Index in H1; [|assumption]. apply in_c18Index in H2; [|assumption].
  destruct H1 as (_ & _ & _ & L1 & _), H2 as (_ & _ & _ & L2 & _).
  apply same3_true in S1, S2. simpl in *. unfold lexNonneg in *.
  destruct S1 as [[-> ->]|[-> ->]], S2 as [[-> ->]|[-> ->]]; try reflexivity;
    f_equal; apply i3_ext; lia.
Qed.

Lemma c18_exactly_once near dims ov h a b :
  gridFits2x dims ov -> haloCovers h ov -> inGrid dims a -> inGrid dims b ->
  (ownedCell dims h a \/ ownedCell dims h b) -> withinReach near ov a b ->
  timesProcessed dims (concat (concat (c18TasksT near dims ov))) a b = 1%nat.
Proof.
  intros Hv Hh Ha Hb Ho Hr. rewrite c18Calls_index, timesProcessed_flat; auto.
  2:{ intros. now apply (c18Index_inGrid near dims ov). }
  assert (Hr' : withinReach near ov b a).
  { unfold withinReach in *.
    replace (Z.abs (ix b - ix a)) with (Z.abs (ix a - ix b)) by lia.
    replace (Z.abs (iy b - iy a)) with (Z.abs (iy a - iy b)) by lia.
    replace (Z.abs (iz b - iz a)) with (Z.abs (iz a - iz b)) by lia. tauto. }
  assert (D : lexNonneg (ix b - ix a) (iy b - iy a) (iz b - iz a) \/
              lexNonneg (ix a - ix b) (iy a - iy b) (iz a - iz b)) by (unfold lexNonneg; lia).
  unfold ownedCell, haloCovers, inGrid in *.
  destruct D as [D|D].
  - apply occ_one_of_unique with (x := (a, b)).
    + now apply NoDup_c18Index.
    + apply in_c18Index; [assumption|]. unfold inGrid. unfold lexNonneg in *. repeat split; try lia; apply Hr.
    + apply same3_true. auto.
    + intros c Hc Hs. apply (c18_unique near dims ov a b); auto.
      * apply in_c18Index; [assumption|]. unfold inGrid. unfold lexNonneg in *. repeat split; try lia; apply Hr.
      * apply same3_true. auto.
  - apply occ_one_of_unique with (x := (b, a)).
    + now apply NoDup_c18Index.
    + apply in_c18Index; [assumption|]. unfold inGrid. unfold lexNonneg in *. repeat split; try lia; apply Hr'.
    + apply same3_true. auto.
    + intros c Hc Hs. apply (c18_unique near dims ov a b); auto.
      * apply in_c18Index; [assumption|]. unfold inGrid. unfold lexNonneg in *. repeat split; try lia; apply Hr'.
      * apply same3_true. auto.
Qed.

Lemma c18_at_most_once near dims ov a b : gridFits2x dims ov -> inGrid dims a -> inGrid dims b ->
  (timesProcessed dims (concat (concat (c18TasksT near dims ov))) a b <= 1)%nat.
Proof.
  intros Hv Ha Hb. rewrite c18Calls_index, timesProcessed_flat; auto.
  2:{ intros. now apply (c18Index_inGrid near dims ov). }
  apply occ_le_one_of_unique; [now apply NoDup_c18Index|].
  intros; eapply c18_unique; eauto.
Qed.

Lemma c18_inBounds near dims ov : gridFits2x dims ov ->
  inBounds dims (concat (concat (c18TasksT near dims ov))).
Proof.
  intros Hv. rewrite c18Calls_index. apply inBounds_flat. intros. now apply (c18Index_inGrid near dims ov).
Qed.

Lemma c18_raceFree near dims ov : gridFits2x dims ov -> Forall raceFree (c18TasksT near dims ov).
Proof.
  intros Hv. pose proof (c18_stride_pos dims ov Hv) as Hs.
  apply Forall_forall. intros col Hcol. unfold c18TasksT in Hcol.
  apply in_map_iff in Hcol as (bases & <- & Hb).
  apply raceFree_map; [eapply colorTraversal_color_NoDup; eauto|].
  intros b1 b2 c H1 H2 Hne A1 A2.
  assert (Hin : forall b, In b bases -> In b (concat (c18Colors dims ov))) by (intros; apply in_concat; eauto).
  assert (Acc : forall b, In b bases ->
     accesses (map (fun o => flat2 dims (b, i3add b o)) (c18Off3 near ov dims b)) c ->
     exists p, inGrid dims p /\ c = threeToOneD p dims /\
       Z.abs (ix p - ix b) <= ix ov /\ Z.abs (iy p - iy b) <= iy ov /\ iz b <= iz p <= iz b + iz ov).
  { intros b Hbb (call & Hc & E). apply in_map_iff in Hc as (o & <- & Ho).
    pose proof (c18_bases_inGrid dims ov b Hv (Hin b Hbb)) as Hg.
    assert (Hi : In (b, i3add b o) (c18Index near dims ov)).
    { unfold c18Index. apply in_flat_map. exists b. split; [now apply Hin|]. apply in_map_iff. eauto. }
    apply in_c18Off3 in Ho as (B & _); [|assumption..].
    apply c18Index_inGrid in Hi as [_ G2]; [|assumption]. simpl in G2.
    unfold gridFits2x, positive in Hv.
    destruct E as [-> | ->]; simpl.
    - exists b. repeat split; try lia; apply Hg.
    - exists (i3add b o). repeat split; try apply G2; unfold i3add; simpl; lia. }
  apply Acc in A1 as (p1 & G1 & E1 & P1); auto.
  apply Acc in A2 as (p2 & G2 & E2 & P2); auto.
  assert (p1 = p2) by (apply (threeToOneD_inj dims); congruence). subst p2.
  destruct (colorTraversal_same_color _ _ _ _ _ _ Hs Hb H1 H2) as (kx & ky & kz & Kx & Ky & Kz).
  simpl in *. unfold gridFits2x, positive in Hv.
  apply Hne. apply i3_ext.
  - assert (kx = 0) by nia. nia.
  - assert (ky = 0) by nia. nia.
  - assert (kz = 0) by nia. nia.
Qed.

Lemma c18_only_reach near dims ov a b : gridFits2x dims ov -> inGrid dims a -> inGrid dims b ->
  (1 <= timesProcessed dims (concat (concat (c18TasksT near dims ov))) a b)%nat -> withinReach near ov a b.
Proof.
  intros Hv Ha Hb. rewrite c18Calls_index, timesProcessed_flat; auto.
  2:{ intros. now apply (c18Index_inGrid near dims ov). }
  intros H. apply occ_pos_in in H as ([p q] & Hc & Hs).
  apply in_c18Index in Hc as (_ & _ & _ & _ & R); [|assumption].
  apply same3_true in Hs as [[<- <-]|[<- <-]]; simpl; [exact R|].
  unfold withinReach in *.
  replace (Z.abs (ix q - ix p)) with (Z.abs (ix p - ix q)) by lia.
  replace (Z.abs (iy q - iy p)) with (Z.abs (iy p - iy q)) by lia.
  replace (Z.abs (iz q - iz p)) with (Z.abs (iz p - iz q)) by lia. tauto.
Qed.
