(** lc_c01_combined_SoA in the linked cells container. *)
From Coq Require Import Reals Lra.
From Flocq Require Import Core.
From Verif.Base Require Import ZRange Occ.
From Verif.Grid Require Import IndexModel IndexSpec IndexProofs CellBlockModel CellBlockSpec CellBlockExact.
From Verif.Traversal Require Import CellSpec CellLemmas C18Proofs C01Model C01Spec C01Proofs.
From Verif.Functor Require Import CellFunctorModel FunctorSpec SortModel SortSpec SortProofs.
From Verif.Container Require Import LinkedCellsModel LinkedCellsSpec LinkedCellsBuild LinkedCellsCount LinkedCellsDir LinkedCellsGeo LinkedCellsProofs
  CombinedC01Model CombinedC01Slices CombinedC01Proofs.
Open Scope Z_scope.

Lemma occ_forall2 {A B} (f : B -> bool) (G : A -> list B) bs css :
  Forall2 (fun b cs => occ f cs = occ f (G b)) bs css -> occ f (concat css) = occ f (flat_map G bs).
Proof. induction 1 as [|b cs bs css E _ IH]; [reflexivity|]. cbn [concat flat_map]. now rewrite !occ_app, E, IH. Qed.

Lemma flat_map_in_ext {A B} (f g : A -> list B) l : (forall x, In x l -> f x = g x) -> flat_map f l = flat_map g l.
Proof.
  induction l as [|x l IH]; intros H; [reflexivity|]. cbn [flat_map]. rewrite (H x) by now left. f_equal. apply IH.
  intros y Hy. apply H. now right.
Qed.

Lemma Forall2_impl_in {A B} (R Q : A -> B -> Prop) l1 l2 : (forall a b, In a l1 -> R a b -> Q a b) -> Forall2 R l1 l2 -> Forall2 Q l1 l2.
Proof.
  intros H F. induction F; constructor; [apply H; [now left|assumption]|]. apply IHF. intros a b Ha. apply H. now right.
Qed.

Section LC.
  Context {P : Type}.
  Variables (pid : P -> Z) (isHalo : P -> bool) (pos old : P -> R3) (view : R3 -> list P -> list P).
  Variables (sorted : list P -> list P) (far : P -> P -> bool) (zeroP : P).
  Variables (cf : CFSettings) (il csf s : R) (bMin bMax : R3) (ps : list P).
  Let b := rebuild rndExact il csf bMin bMax.
  Let dims := blockDims b.
  Let len := blockLength b.
  Let ov := blockOverlap rndExact il b.
  Let near := nearR len il.
  Hypothesis Hgrid : validGrid il csf bMin bMax.
  Hypothesis Hview : forall dir l, isSortedView pos dir l (view dir l).
  Hypothesis Hids : distinctIds pid ps.
  Hypothesis Hps : validParticles isHalo old b bMin bMax ps.
  Hypothesis Hs : (0 <= s <= il)%R.
  Hypothesis Hmoved : movedAtMost old pos s ps.
  Hypothesis Hlay : layout cf = SoA.
  Hypothesis Hn3 : useNewton3 cf = false.
  Hypothesis Hbi : bidirectional cf = false.

  Lemma axis_near : near (ix ov) 0 0 = true.
  Proof.
    destruct Hgrid as (Hil & Hcsf & Hb & _). pose proof (len_pos il csf bMin bMax Hb) as (L1 & _). fold b in L1. fold len in L1.
    unfold near, nearR. destruct (Rle_dec _ _) as [_|H]; [reflexivity|exfalso; apply H]. clear H.
    unfold dot. cbn [rx ry rz]. change (Z.max 0 (0 - 1)) with 0. rewrite !Rmult_0_l, !Rplus_0_r.
    assert (H : (0 <= IZR (Z.max 0 (ix ov - 1)) * rx len <= il)%R).
    { split; [apply Rmult_le_pos; [apply IZR_le; lia|lra]|].
      unfold ov, blockOverlap. cbn [ix]. change (dLen (bX b)) with (rx len).
      destruct (Z_lt_le_dec (overlapOf rndExact il (rx len)) 1) as [Hc|Hc]; [rewrite Z.max_l by lia; lra|].
      rewrite Z.max_r by lia. rewrite minus_IZR.
      assert (Hov : (IZR (overlapOf rndExact il (rx len)) < il / rx len + 1)%R).
      { unfold overlapOf, rndExact, Zceil. rewrite opp_IZR. pose proof (Zfloor_ub (- (il / rx len))). lra. }
      apply (Rmult_le_reg_r (/ rx len)); [now apply Rinv_0_lt_compat|].
      rewrite Rmult_assoc, Rinv_r by lra. unfold Rdiv in Hov. lra. }
    apply Rmult_le_compat; lra.
  Qed.

  Section Cells.
    Variable cells : list (Cell P).
    Hypothesis Hbuilt : built rndExact b old ps cells.
    Notation plainBase := (fun k : I3 => flat_map (cellCall isHalo view pos cf il len cells)
      (map (fun '(o, dir) => (threeToOneD k dims, threeToOneD k dims + o, dir)) (c01AllOffsetsDir near ov dims))).

    Lemma cells_nth i : 0 <= i < numCells dims -> exists c, nth_error cells (Z.to_nat i) = Some c.
    Proof. intros Hi. eexists. apply (built_nth _ b old ps cells i Hbuilt Hi). Qed.

    Lemma base_grid k : ownedCell dims ov k -> inGrid dims k.
    Proof. pose proof (lc_fits2 pos view il csf s bMin bMax ps Hgrid Hview) as (Hp & _). unfold ownedCell, inGrid, positive in *. fold b dims ov in Hp. lia. Qed.

    Lemma base_owned k c : ownedCell dims ov k -> nth_error cells (Z.to_nat (threeToOneD k dims)) = Some c -> mayOwn c = true ->
      plainBase k = plainCalls isHalo sorted far cf near ov dims cells c (threeToOneD k dims).
    Proof.
      intros Hk Ec Hown. unfold plainCalls. rewrite <- c01Dir_offsets, !flat_map_map. apply flat_map_in_ext.
      intros [o dir] Hin. cbn [fst]. unfold cellCall. rewrite Ec.
      apply c01Dir_points in Hin as (v & -> & _ & Rx & Ry & Rz).
      assert (G : inGrid dims (i3add k v)).
      { pose proof (lc_fits2 pos view il csf s bMin bMax ps Hgrid Hview) as (Hp & _). fold b dims ov in Hp.
        unfold ownedCell, inGrid, positive, i3add in *. cbn [ix iy iz]. lia. }
      rewrite <- threeToOneD_add.
      destruct (cells_nth (threeToOneD (i3add k v) dims)) as (d & Ed).
      { exact (threeToOneD_range dims (i3add k v) G). }
      rewrite Ed. rewrite threeToOneD_add in *.
      destruct (Z.eqb_spec (threeToOneD k dims) (threeToOneD k dims + threeToOneD v dims)) as [E|E], (Z.eqb_spec (threeToOneD v dims) 0) as [E0|E0]; try lia.
      - unfold processCell. now rewrite Hlay.
      - unfold processCellPair, processCellPairSoA. rewrite Hown, Hlay, Hn3, Hbi. cbn [negb andb orb].
        unfold cellRows. rewrite Ed. destruct (parts c) as [|p l]; [reflexivity|]. destruct (parts d) as [|q m].
        + now rewrite soaPair_nil.
        + now rewrite app_nil_r.
    Qed.

    Lemma base_halo k c : nth_error cells (Z.to_nat (threeToOneD k dims)) = Some c -> mayOwn c = false -> plainBase k = [].
    Proof.
      intros Ec Hown. cbv beta; rewrite flat_map_map. induction (c01AllOffsetsDir near ov dims) as [|[o dir] l IH]; [reflexivity|].
      cbn [flat_map]. rewrite IH, app_nil_r. unfold cellCall. rewrite Ec.
      destruct (nth_error cells (Z.to_nat (_ + _))) as [d|]; [|reflexivity]. destruct (_ =? _).
      - unfold processCell. rewrite Hown. now destruct (parts c).
      - unfold processCellPair. rewrite Hown, Hn3, Hbi. cbn [negb andb orb]. destruct (parts c); [reflexivity|]. now destruct (parts d).
    Qed.

    Lemma base_received k cs a c : In k (concat (c01Colors ov dims)) -> In a ps -> isHalo a = false ->
      baseCalls isHalo sorted far cf near ov dims cells k cs ->
      occ (contributes pid (pid a) (pid c)) cs = occ (contributes pid (pid a) (pid c)) (plainBase k).
    Proof.
      intros Hk Ia Ha (r & Hr & ->). apply c01_bases in Hk. pose proof (base_grid k Hk) as Gk.
      pose proof (lc_fits2 pos view il csf s bMin bMax ps Hgrid Hview) as Hfit. fold b dims ov in Hfit.
      pose proof (near_mono pos view il csf bMin bMax ps Hgrid Hview) as Hmono. fold b len near in Hmono.
      destruct (cells_nth (threeToOneD k dims) (threeToOneD_range dims k Gk)) as (d & Ed). rewrite Ed.
      destruct (mayOwn d) eqn:Hown.
      - rewrite (base_owned k d Hk Ed Hown). apply occ_perm.
        exact (interact_owned isHalo sorted far zeroP cf near ov dims cells Hfit axis_near Hmono Hlay Hn3 Hbi _ r d Ed Hown Hr).
      - rewrite (base_halo k d Ed Hown). apply occ_zero. intros x Hx.
        destruct (interact_halo isHalo sorted far cf ov Hn3 Hbi r d x Hown Hx) as [Hf Hx3].
        unfold contributes. rewrite Hx3. cbn [andb]. rewrite orb_false_r. apply andb_false_iff. left. apply Z.eqb_neq. intros E.
        rewrite (built_nth _ b old ps cells _ Hbuilt (threeToOneD_range dims k Gk)) in Ed. injection Ed as <-. cbn [parts mayOwn] in *.
        apply filter_In in Hf as [Hf1 Hf2].
        assert (fstP x = a) by (apply (ids_inj pid ps); auto). subst a.
        pose proof (lc_placed isHalo old il csf bMin bMax ps Hgrid Hps) as Hpl. rewrite Forall_forall in Hpl.
        destruct (Hpl _ Hf1) as (i & Ei & _ & Hi). unfold inCell in Hf2. fold b in Ei. rewrite Ei in Hf2. apply Z.eqb_eq in Hf2. subst i.
        fold b in Hi. rewrite Ha in Hi. cbn [negb] in Hi. unfold cellWith in Hown. cbn [mayOwn] in Hown. congruence.
    Qed.

    Lemma c01c_received (threads : list (Ring * list (Z * Z))) a c : Permutation (flat_map snd threads) (c01Lines ov dims) ->
      In a ps -> isHalo a = false ->
      received pid (concat (c01cThreads isHalo sorted far zeroP cf near ov dims cells threads)) a c =
      received pid (lcInteract isHalo view pos cf il len cells (c01CallsDir near ov dims)) a c.
    Proof.
      intros Hperm Ia Ha.
      pose proof (lc_fits2 pos view il csf s bMin bMax ps Hgrid Hview) as Hfit. fold b dims ov in Hfit.
      destruct (threads_bases isHalo sorted far zeroP cf near ov dims cells Hfit axis_near threads) as (css & E & Hf).
      unfold received. rewrite E. clear E. unfold lcInteract, c01CallsDir. rewrite flat_map_flat_map.
      assert (Hb : Permutation (flat_map (c01Line ov dims) (flat_map snd threads)) (concat (c01Colors ov dims))).
      { rewrite Hperm. now rewrite (lines_all near ov dims Hfit axis_near). }
      rewrite (occ_forall2 _ plainBase (flat_map (c01Line ov dims) (flat_map snd threads)) css).
      - apply occ_perm. now apply Permutation_flat_map.
      - revert Hf. apply Forall2_impl_in. intros k cs Hk Hcs. apply base_received; auto. now apply (Permutation_in k Hb).
    Qed.
  End Cells.

  Lemma lc_c01_combined : exists cells, lcAddAll isHalo rndExact b old (lcEmpty b) ps = Some cells /\
    forall (threads : list (Ring * list (Z * Z))), Permutation (flat_map snd threads) (c01Lines ov dims) ->
    forall a c, In a ps -> In c ps -> a <> c -> isHalo a = false -> (dist3 (pos a) (pos c) <= il - s)%R ->
      received pid (concat (c01cThreads isHalo sorted far zeroP cf near ov dims cells threads)) a c = 1%nat.
  Proof.
    destruct (lc_build isHalo old il csf bMin bMax ps Hgrid Hps) as (cells & E & Hbuilt). exists cells. split; [exact E|].
    destruct (lc_c01 pid isHalo pos old view cf il csf s bMin bMax ps Hgrid Hview Hids Hps Hs Hmoved Hn3 Hbi) as (cells' & E' & H).
    unfold b in E. rewrite E in E'. injection E' as <-.
    intros threads Hperm a c Ia Ic Hne Ha Hd. rewrite (c01c_received cells Hbuilt threads a c Hperm Ia Ha). now apply H.
  Qed.
End LC.
