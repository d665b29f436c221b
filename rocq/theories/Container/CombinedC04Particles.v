(** lc_c04_combined_SoA in the linked cells container. *)
From Coq Require Import Reals Lra Permutation.
From Verif.Base Require Import ZRange Occ.
From Verif.Grid Require Import IndexModel IndexSpec IndexProofs CellBlockModel CellBlockSpec CellBlockExact.
From Verif.Traversal Require Import CellSpec CellLemmas C08Model C08Proofs C08Bases.
From Verif.Functor Require Import CellFunctorModel FunctorSpec SortModel SortSpec SortProofs.
From Verif.Container Require Import LinkedCellsModel LinkedCellsSpec LinkedCellsBuild LinkedCellsCount LinkedCellsDir LinkedCellsGeo LinkedCellsProofs
  CombinedC04Model CombinedC04Offsets CombinedC04Sim CombinedC04Handler CombinedC04Spec CombinedC04Count CombinedC04Grid CombinedC04Run.
Open Scope Z_scope.

Section LC.
  Context {P : Type}.
  Variables (pid : P -> Z) (isHalo : P -> bool) (pos old : P -> R3).
  Variables (zeroRow : Row P) (useN3 : bool) (il csf s : R) (bMin bMax : R3) (ps : list P).
  Let b := rebuild rndExact il csf bMin bMax.
  Let dims := blockDims b.
  Let len := blockLength b.
  Let near := nearR len il.
  Hypothesis Hgrid : validGrid il csf bMin bMax.
  Hypothesis Hids : distinctIds pid ps.
  Hypothesis Hps : validParticles isHalo old b bMin bMax ps.
  Hypothesis Hs : (0 <= s <= il)%R.
  Hypothesis Hmoved : movedAtMost old pos s ps.
  Hypothesis Hov : blockOverlap rndExact il b = mkI3 1 1 1.

  Notation one := (mkI3 1 1 1).

  Lemma c04_near x y z : 0 <= x <= 1 -> 0 <= y <= 1 -> 0 <= z <= 1 -> near x y z = true.
  Proof.
    intros Hx Hy Hz. unfold near, nearR. rewrite !Z.max_l by lia. unfold dot. cbn [rx ry rz].
    destruct Hgrid as (Hil & _). match goal with |- (if Rle_dec ?u ?v then _ else _) = _ => destruct (Rle_dec u v) as [H|H] end; [reflexivity|].
    exfalso. apply H. nra.
  Qed.

  Lemma c04_fits : 2 <= ix dims /\ 2 <= iy dims /\ gridFits dims one.
  Proof.
    destruct (lc_haloCovers il csf bMin bMax Hgrid) as ((C1 & C2 & C3) & Hp). fold b in C1, C2, C3, Hp. rewrite Hov in C1, C2, C3, Hp.
    pose proof (exact_N il csf (rx bMin) (rx bMax)). pose proof (exact_N il csf (ry bMin) (ry bMax)). pose proof (exact_N il csf (rz bMin) (rz bMax)).
    assert (E : forall lo hi, dWithHalo (rebuildDim rndExact il csf lo hi) =
      cellsPerDim rndExact (hi - lo) il csf + 2 * cellsPerInteractionLength rndExact csf) by reflexivity.
    unfold gridFits, dims, blockDims, b, rebuild. cbn [bX bY bZ ix iy iz] in *. rewrite !E.
    split; [lia|]. split; [lia|]. split; [|lia]. unfold positive. cbn [ix iy iz]. lia.
  Qed.

  Section Cells.
    Variable cells : list (Cell P).
    Hypothesis Hbuilt : built rndExact b old ps cells.
    Let n := numCells dims.
    Notation L := (soaRows cells).

    Lemma dims_pos : positive dims.
    Proof. destruct c04_fits as (H1 & H2 & Hp & _ & _ & H3). unfold positive in *. cbn [ix iy iz] in *. lia. Qed.

    Lemma rows_in k : 0 <= k < n -> L k = map (fun p => mkRow p []) (filter (inCell rndExact b old k) ps).
    Proof.
      intros Hk. unfold soaRows. replace (k <? 0) with false by (symmetry; apply Z.ltb_ge; lia).
      now rewrite (built_nth rndExact b old ps cells k Hbuilt Hk).
    Qed.

    Lemma rows_got k r : In r (L k) -> got r = [].
    Proof.
      unfold soaRows. destruct (k <? 0); [intros []|]. destruct (nth_error cells (Z.to_nat k)); [|intros []].
      intros H. apply in_map_iff in H as (? & <- & _). reflexivity.
    Qed.

    Lemma rows_cnt a c k : cnt pid a c (L k) = 0%nat.
    Proof.
      unfold cnt. apply occ_zero. intros e He. exfalso. unfold contributions in He. apply in_flat_map in He as (r & Hr & He).
      rewrite (rows_got k r Hr) in He. destruct He.
    Qed.

    Lemma rows_names k : 0 <= k < n -> names L k = filter (inCell rndExact b old k) ps.
    Proof. intros Hk. unfold names. rewrite rows_in, map_map by exact Hk. apply map_id. Qed.

    Lemma rows_out k : ~ 0 <= k < n -> L k = [].
    Proof.
      intros Hk. unfold soaRows. destruct (Z.ltb_spec k 0) as [|H]; [reflexivity|].
      rewrite (proj2 (nth_error_None cells (Z.to_nat k))); [reflexivity|].
      rewrite Hbuilt, map_length, length_zrange. fold dims n. lia.
    Qed.

    Lemma rows_num a ka : In a ps -> inGrid dims ka -> inCell rndExact b old (threeToOneD ka dims) a = true ->
      forall k, num pid a (names L k) = b2n (k =? threeToOneD ka dims).
    Proof.
      intros Ia Ga Ca k. pose proof (threeToOneD_range dims ka Ga) as Hr.
      assert (Hdec : 0 <= k < n \/ ~ 0 <= k < n) by lia. destruct Hdec as [Hk|Hk].
      - rewrite rows_names by exact Hk. unfold num, b2n. destruct (Z.eqb_spec k (threeToOneD ka dims)) as [->|Hne].
        + apply (occ_one_of_unique _ _ a).
          * apply NoDup_filter. apply (NoDup_map_inv pid). exact Hids.
          * apply filter_In. now split.
          * apply Z.eqb_refl.
          * intros p Hp E. apply filter_In in Hp as [Hp _]. apply Z.eqb_eq in E. now apply (ids_inj pid ps).
        + apply occ_zero. intros p Hp. apply filter_In in Hp as [Hp Cp]. apply Z.eqb_neq. intros E.
          assert (p = a) by now apply (ids_inj pid ps). subst p. apply Hne. eapply inCell_unique; eauto.
      - unfold names. rewrite rows_out by exact Hk. unfold b2n.
        replace (k =? threeToOneD ka dims) with false by (symmetry; apply Z.eqb_neq; fold n in Hr; lia). reflexivity.
    Qed.

    Lemma contributions_app (l l' : list (Row P)) : contributions (l ++ l') = contributions l ++ contributions l'.
    Proof. unfold contributions. apply flat_map_app. Qed.

    Lemma stored_sum (F : Z -> list (Row P)) a c ka v : 0 <= ka < n -> (forall k, cnt pid a c (F k) = (b2n (k =? ka)%Z * v)%nat) ->
      stored pid n F a c = v.
    Proof.
      intros Hka HF. unfold stored. 
      assert (G : forall l, NoDup l -> occ (isPair pid a c) (contributions (flat_map F l)) = if in_dec Z.eq_dec ka l then v else O).
      { induction l as [|k l IH]; intros Hnd; [reflexivity|]. inversion Hnd as [|? ? Hni Hnd']; subst.
        cbn [flat_map]. rewrite contributions_app, occ_app, (IH Hnd'). change (occ (isPair pid a c) (contributions (F k))) with (cnt pid a c (F k)). rewrite HF.
        unfold b2n. destruct (Z.eqb_spec k ka) as [->|Hne].
        - destruct (in_dec Z.eq_dec ka l); [contradiction|]. destruct (in_dec Z.eq_dec ka (ka :: l)) as [|H]; [lia|]. exfalso. apply H. now left.
        - destruct (in_dec Z.eq_dec ka l), (in_dec Z.eq_dec ka (k :: l)) as [[E|H]|H]; try contradiction; try lia.
          + exfalso. apply H. now right. }
      rewrite G by apply NoDup_zrange. destruct (in_dec Z.eq_dec ka (zrange 0 n)) as [|H]; [reflexivity|].
      exfalso. apply H. now apply in_zrange.
    Qed.

    (** The rows [F] are the result of the lines [lines], in this order. *)
    Variable F : Z -> list (Row P).
    Variable lines : list (Z * Z).
    Hypothesis HF : forall k, F k = fold_left stepE (flat_map (lineOps dims) lines) L k.

    Lemma final_names k : map rowP (F k) = map rowP (L k).
    Proof. rewrite HF. exact (names_steps _ L k). Qed.

    Lemma final_pairs a c : Permutation lines (concat (c04cColors one dims)) -> In a ps -> In c ps -> a <> c ->
      (stored pid n F a c <= 1)%nat /\
      (isHalo a = false \/ isHalo c = false -> (dist3 (pos a) (pos c) <= il - s)%R -> stored pid n F a c = 1%nat).
    Proof.
      intros Hp Ia Ic Hne. destruct c04_fits as (H1 & H2 & Hfit).
      destruct (lc_cell isHalo old il csf bMin bMax ps Hgrid Hps a Ia) as (ka & Ga & Ca & Ba & Oa).
      destruct (lc_cell isHalo old il csf bMin bMax ps Hgrid Hps c Ic) as (kc & Gc & Cc & Bc & Oc).
      assert (Hid : pid a <> pid c) by (intros E; apply Hne; now apply (ids_inj pid ps)).
      assert (E : stored pid n F a c = timesProcessed dims (flat_map (lineOps dims) lines) ka kc).
      { apply (stored_sum _ a c (threeToOneD ka dims)); [exact (threeToOneD_range dims ka Ga)|]. intros k. rewrite HF.
        rewrite (steps_cnt pid a c (threeToOneD ka dims) (threeToOneD kc dims) _ Hid L).
        - now rewrite rows_cnt.
        - now apply rows_num.
        - now apply rows_num. }
      rewrite E. pose proof (lines_calls near dims H1 H2 c04_near _ Hfit Hp) as Hperm. split.
      - now apply (perm_at_most_once near dims one).
      - intros Ho Hd. destruct (lc_haloCovers il csf bMin bMax Hgrid) as [Hcov _]. fold b in Hcov. rewrite Hov in Hcov.
        eapply (perm_exactly_once near dims one _ Hperm Hfit); eauto; [tauto|].
        pose proof (lc_reach pos old il csf s bMin bMax ps Hgrid Hmoved a c ka kc Ia Ic Ba Bc Hd) as Hr. fold b in Hr. rewrite Hov in Hr. exact Hr.
    Qed.

    Lemma final_self a : In a ps -> stored pid n F a a = O.
    Proof.
      intros Ia. destruct (lc_cell isHalo old il csf bMin bMax ps Hgrid Hps a Ia) as (ka & Ga & Ca & _).
      apply (stored_sum _ a a (threeToOneD ka dims)); [exact (threeToOneD_range dims ka Ga)|]. intros k. rewrite HF.
      rewrite (steps_self pid a (threeToOneD ka dims)) by now apply rows_num. now rewrite rows_cnt, Nat.mul_0_r.
    Qed.
  End Cells.

  Lemma lc_c04_combined : exists cells, lcAddAll isHalo rndExact b old (lcEmpty b) ps = Some cells /\
    forall (bufs : Z -> @Mem P) (evss : list (list (Z * I3))), Forall2 (executes dims) (c04cColors one dims) evss ->
    let final := fst (c04cEvents zeroRow useN3 near one dims (fun k => length (soaRows cells k)) (soaRows cells, bufs) (concat evss)) in
    (forall k, map rowP (final k) = map rowP (soaRows cells k)) /\
    (forall a, In a ps -> stored pid (numCells dims) final a a = O) /\
    (forall a c, In a ps -> In c ps -> a <> c ->
      (stored pid (numCells dims) final a c <= 1)%nat /\
      (isHalo a = false \/ isHalo c = false -> (dist3 (pos a) (pos c) <= il - s)%R -> stored pid (numCells dims) final a c = 1%nat)).
  Proof.
    destruct (lc_build isHalo old il csf bMin bMax ps Hgrid Hps) as (cells & E & Hbuilt). exists cells. split; [exact E|].
    intros bufs evss Hx. cbv zeta. destruct c04_fits as (H1 & H2 & _).
    destruct (colours_run zeroRow useN3 near dims (fun k => length (soaRows cells k)) H1 H2 c04_near (zrange 0 4) evss (soaRows cells) bufs (soaRows cells))
      as (lines & Hp & HF); auto.
    { intros c Hc. now apply in_zrange in Hc. }
    split; [|split].
    - intros k. now apply (final_names cells _ lines).
    - intros a Ia. now apply (final_self cells Hbuilt _ lines).
    - intros a c Ia Ic Hne. now apply (final_pairs cells Hbuilt _ lines).
  Qed.
End LC.
