(** The direct sum container: all pairs and triplets within the cutoff are handed to
    the functor exactly once. *)
From Coq Require Import Reals Lra.
From Verif.Base Require Import ZRange Occ Lists.
From Verif.Grid Require Import IndexModel CellBlockModel CellBlockSpec.
From Verif.Functor Require Import CellFunctorModel FunctorSpec CellFunctorProofs SortModel SortSpec SortProofs
  CellFunctor3BModel Functor3BSpec CellFunctor3BCounts.
From Verif.Container Require Import LinkedCellsModel LinkedCellsSpec LinkedCellsBuild LinkedCellsGeo IteratorContainers
  CellCallsModel CellCallsSpec CellCallsCount.
From Verif.Logic Require Import HandlerModel.
Local Open Scope Z_scope.

Section DS.
  Context {P : Type}.
  Variables (pid : P -> Z) (isHalo : P -> bool) (pos old : P -> R3) (view : R3 -> list P -> list P).
  Variables (lo hi : R3).

  Definition dsAt (p : P) : Z := match dsHaloCell lo hi (old p) with Some i => Z.of_nat i | None => 0 end.
  Definition dsOwn (i : Z) : bool := i =? 0.
  Definition dsBuilt (ps : list P) : list (Cell P) := map (cellAt ps dsAt dsOwn) (zrange 0 7).
  Definition placedDS (p : P) : Prop := isHalo p = false <-> inBox lo hi (old p).

  Lemma inBoxb_true x : inBoxb lo hi x = true <-> inBox lo hi x.
  Proof.
    unfold inBoxb, inBox. rewrite !andb_true_iff.
    destruct (Rle_dec (rx lo) (rx x)), (Rlt_dec (rx x) (rx hi)), (Rle_dec (ry lo) (ry x)), (Rlt_dec (ry x) (ry hi)),
      (Rle_dec (rz lo) (rz x)), (Rlt_dec (rz x) (rz hi)); split; intros H; try tauto; decompose [and] H; discriminate.
  Qed.
  Lemma halo_none x : dsHaloCell lo hi x = None <-> inBox lo hi x.
  Proof.
    unfold dsHaloCell, inBox.
    destruct (Rlt_dec (rx x) (rx lo)), (Rle_dec (rx hi) (rx x)), (Rlt_dec (ry x) (ry lo)), (Rle_dec (ry hi) (ry x)),
      (Rlt_dec (rz x) (rz lo)), (Rle_dec (rz hi) (rz x)); split; intros H; try discriminate; try reflexivity; try (exfalso; lra); repeat split; lra.
  Qed.
  Lemma halo_range x i : dsHaloCell lo hi x = Some i -> (1 <= i <= 6)%nat.
  Proof.
    unfold dsHaloCell.
    destruct (Rlt_dec (rx x) (rx lo)), (Rle_dec (rx hi) (rx x)), (Rlt_dec (ry x) (ry lo)), (Rle_dec (ry hi) (ry x)),
      (Rlt_dec (rz x) (rz lo)), (Rle_dec (rz hi) (rz x)); intros [= <-]; lia.
  Qed.
  Lemma at_range p : 0 <= dsAt p < 7.
  Proof. unfold dsAt. destruct (dsHaloCell lo hi (old p)) as [i|] eqn:E; [apply halo_range in E|]; lia. Qed.
  Lemma at_zero p : dsAt p = 0 <-> inBox lo hi (old p).
  Proof.
    rewrite <- halo_none. unfold dsAt. destruct (dsHaloCell lo hi (old p)) as [i|] eqn:E; [apply halo_range in E|].
    - split; intros H; [lia|discriminate].
    - tauto.
  Qed.
  Lemma at_own p : placedDS p -> dsOwn (dsAt p) = negb (isHalo p).
  Proof.
    unfold placedDS, dsOwn. rewrite <- at_zero. intros H. destruct (Z.eqb_spec (dsAt p) 0), (isHalo p); try reflexivity; cbn.
    - exfalso. apply H in e. discriminate.
    - exfalso. apply n. now apply H.
  Qed.

  Lemma dsEmpty_built : dsBuilt [] = dsEmpty.
  Proof. reflexivity. Qed.

  Lemma dsAdd_built ps p : placedDS p -> dsAdd isHalo lo hi old (dsBuilt ps) p = Some (dsBuilt (ps ++ [p])).
  Proof.
    intros H. pose proof (at_own p H) as O.
    assert (U : updateAt (cellAdd isHalo p) (dsBuilt ps) (Z.to_nat (dsAt p)) = Some (dsBuilt (ps ++ [p]))).
    { pose proof (at_range p) as R. unfold dsBuilt. apply updateAt_map with (i := dsAt p).
      - apply NoDup_zrange.
      - change 7 with (Z.of_nat 7). rewrite nth_error_zrange by lia. now rewrite Z2Nat.id by lia.
      - unfold cellAdd, cellAt, content. cbn [mayOwn parts]. rewrite O, Bool.eqb_reflx. f_equal. f_equal.
        rewrite filter_app. cbn [filter]. rewrite Z.eqb_refl. reflexivity.
      - intros j _ Hj. unfold cellAt, content. f_equal. rewrite filter_app. cbn [filter].
        destruct (Z.eqb_spec (dsAt p) j); [congruence|]. now rewrite app_nil_r. }
    unfold dsAdd. destruct (inBoxb lo hi (old p)) eqn:B.
    - apply inBoxb_true in B. rewrite (proj2 H B). rewrite (proj2 (at_zero p) B) in U. exact U.
    - assert (NB : ~ inBox lo hi (old p)) by (rewrite <- inBoxb_true, B; discriminate).
      destruct (isHalo p) eqn:Eh; [|exfalso; apply NB; now apply H].
      unfold dsAt in U. destruct (dsHaloCell lo hi (old p)) as [i|] eqn:E; [|exfalso; apply NB; now apply halo_none].
      rewrite Nat2Z.id in U. exact U.
  Qed.

  Lemma dsAddAll_built more : forall ps, Forall placedDS more -> dsAddAll isHalo lo hi old (dsBuilt ps) more = Some (dsBuilt (ps ++ more)).
  Proof.
    induction more as [|p more IH]; intros ps H; cbn [dsAddAll]; [now rewrite app_nil_r|].
    inversion H as [|? ? H1 H2]; subst. rewrite dsAdd_built by exact H1. rewrite IH by exact H2. now rewrite <- app_assoc.
  Qed.

  Lemma ds_stored ps i : 0 <= i < 7 -> stored ps dsAt dsOwn (dsBuilt ps) i.
  Proof.
    intros H. unfold stored, dsBuilt. rewrite nth_error_map. change 7 with (Z.of_nat 7).
    rewrite nth_error_zrange by lia. cbn [option_map]. now rewrite Z2Nat.id by lia.
  Qed.

  (** The directions lead out of the box. *)
  Variables (ps : list P) (s cutoff : R).
  Hypothesis Hview : forall dir l, isSortedView pos dir l (view dir l).
  Hypothesis Hids : distinctIds pid ps.
  Hypothesis Hps : validInBox isHalo old lo hi ps.
  Hypothesis Hs : (0 <= s <= cutoff)%R.
  Hypothesis Hmoved : movedAtMost old pos s ps.

  Lemma dir1 : dsDirection 1 = mkR3 (-1) 0 0. Proof. reflexivity. Qed.
  Lemma dir2 : dsDirection 2 = mkR3 1 0 0. Proof. reflexivity. Qed.
  Lemma dir3 : dsDirection 3 = mkR3 0 (-1) 0. Proof. reflexivity. Qed.
  Lemma dir4 : dsDirection 4 = mkR3 0 1 0. Proof. reflexivity. Qed.
  Lemma dir5 : dsDirection 5 = mkR3 0 0 (-1). Proof. reflexivity. Qed.
  Lemma dir6 : dsDirection 6 = mkR3 0 0 1. Proof. reflexivity. Qed.

  Lemma ds_leads i : 1 <= i <= 6 -> leads pos cutoff ps dsAt 0 i (Some (dsDirection i)).
  Proof.
    intros Hi.
    assert (Hd : (dot (dsDirection i) (dsDirection i) <= 1)%R).
    { assert (E : i = 1 \/ i = 2 \/ i = 3 \/ i = 4 \/ i = 5 \/ i = 6) by lia.
      destruct E as [->|[->|[->|[->|[->| ->]]]]]; rewrite ?dir1, ?dir2, ?dir3, ?dir4, ?dir5, ?dir6; unfold dot; cbn [rx ry rz]; lra. }
    split; [exact Hd|]. intros p q Hp Hq. apply content_in in Hp as [Ip Ep]. apply content_in in Hq as [Iq Eq].
    apply at_zero in Ep. unfold movedAtMost in Hmoved. rewrite Forall_forall in Hmoved.
    pose proof (proj_drift (dsDirection i) (pos p) (old p) (s / 2) Hd (Hmoved p Ip)) as Dp.
    pose proof (proj_drift (dsDirection i) (pos q) (old q) (s / 2) Hd (Hmoved q Iq)) as Dq.
    unfold projection.
    assert (X : (dot (old p) (dsDirection i) - dot (old q) (dsDirection i) <= 0)%R); [|lra].
    clear Dp Dq Hd. destruct Ep as (B1 & B2 & B3). unfold dsAt, dsHaloCell in Eq.
    assert (E : i = 1 \/ i = 2 \/ i = 3 \/ i = 4 \/ i = 5 \/ i = 6) by lia.
    destruct (Rlt_dec (rx (old q)) (rx lo)); [|destruct (Rle_dec (rx hi) (rx (old q))); [|destruct (Rlt_dec (ry (old q)) (ry lo));
      [|destruct (Rle_dec (ry hi) (ry (old q))); [|destruct (Rlt_dec (rz (old q)) (rz lo)); [|destruct (Rle_dec (rz hi) (rz (old q)))]]]]];
      destruct E as [->|[->|[->|[->|[->| ->]]]]]; try discriminate Eq;
      rewrite ?dir1, ?dir2, ?dir3, ?dir4, ?dir5, ?dir6; unfold dot; cbn [rx ry rz]; lra.
  Qed.

  Lemma ds_calls : Forall (wellCalled pos cutoff ps dsAt dsOwn (dsBuilt ps)) (dsCalls 7).
  Proof.
    constructor; [now apply ds_stored|]. apply Forall_forall. intros c Hc. apply in_map_iff in Hc as (i & <- & Hi).
    apply in_zrange in Hi. cbn [wellCalled]. split; [now apply ds_stored|]. split; [apply ds_stored; lia|]. split; [lia|].
    apply ds_leads. lia.
  Qed.
  Lemma ds_tripleCalls : Forall (wellCalled pos cutoff ps dsAt dsOwn (dsBuilt ps)) (dsTripleCalls 7).
  Proof.
    apply Forall_forall. intros c Hc. unfold dsTripleCalls in Hc. apply in_flat_map in Hc as (i & Hi & Hc).
    apply in_map_iff in Hc as (j & <- & Hj). apply in_zrange in Hi, Hj. cbn [wellCalled].
    split; [now apply ds_stored|]. split; [apply ds_stored; lia|]. split; [apply ds_stored; lia|].
    split; [lia|]. split; [lia|]. split; [lia|]. apply ds_leads. lia.
  Qed.

  Let Hown p : In p ps -> dsOwn (dsAt p) = negb (isHalo p).
  Proof. intros H. apply at_own. unfold validInBox in Hps. rewrite Forall_forall in Hps. exact (Hps p H). Qed.

  Let range7 k : 0 <= k < 7 -> k = 0 \/ k = 1 \/ k = 2 \/ k = 3 \/ k = 4 \/ k = 5 \/ k = 6.
  Proof. lia. Qed.

  Lemma ds_pair_occ cf a c :
    (occ (handles cf dsAt a c) (dsCalls 7) <= 1)%nat /\
    (isHalo a = false -> In a ps -> occ (handles cf dsAt a c) (dsCalls 7) = 1%nat) /\
    (useNewton3 cf = true -> isHalo c = false -> In c ps -> occ (handles cf dsAt a c) (dsCalls 7) = 1%nat).
  Proof.
    assert (Z0 : forall p, isHalo p = false -> In p ps -> dsAt p = 0).
    { intros p H I. pose proof (Hown p I) as O. rewrite H in O. now apply Z.eqb_eq in O. }
    assert (G : forall n ka kc, 0 <= ka < 7 -> 0 <= kc < 7 ->
      let f := fun call => match call with OneCell k => (ka =? k) && (kc =? k)
                 | TwoCells k1 k2 _ => (ka =? k1) && (kc =? k2) || n && (ka =? k2) && (kc =? k1) | ThreeCells _ _ _ _ => false end in
      (occ f (dsCalls 7) <= 1)%nat /\ (ka = 0 -> occ f (dsCalls 7) = 1%nat) /\ (n = true -> kc = 0 -> occ f (dsCalls 7) = 1%nat)).
    { intros n ka kc Ha Hc. cbv zeta.
      apply range7 in Ha, Hc. unfold dsCalls. rewrite occ_cons, occ_map.
      destruct n; destruct Ha as [->|[->|[->|[->|[->|[->| ->]]]]]]; destruct Hc as [->|[->|[->|[->|[->|[->| ->]]]]]];
        (split; [apply Nat.leb_le; reflexivity|]; split; [intros; try discriminate; reflexivity|intros; try discriminate; reflexivity]). }
    destruct (G (useNewton3 cf) (dsAt a) (dsAt c) (at_range a) (at_range c)) as (G1 & G2 & G3).
    split; [exact G1|]. split; [intros H I; apply G2, Z0; assumption|intros Hn H I; apply (G3 Hn), Z0; assumption].
  Qed.

  Lemma ds_triple_occ cf a b d :
    (occ (handles3 cf dsAt a b d) (dsCalls 7 ++ dsTripleCalls 7) <= 1)%nat /\
    (isHalo a = false -> In a ps -> occ (handles3 cf dsAt a b d) (dsCalls 7 ++ dsTripleCalls 7) = 1%nat).
  Proof.
    assert (Z0 : forall p, isHalo p = false -> In p ps -> dsAt p = 0).
    { intros p H I. pose proof (Hown p I) as O. rewrite H in O. now apply Z.eqb_eq in O. }
    set (f := fun (n : bool) (ka kb kd : Z) (call : CellCall) =>
      match call with
      | OneCell k => (ka =? k) && (kb =? k) && (kd =? k)
      | TwoCells k1 k2 _ =>
          isOneOf k1 k2 ka && isOneOf k1 k2 kb && isOneOf k1 k2 kd &&
          negb ((ka =? kb) && (kb =? kd)) && (n || (ka =? k1))
      | ThreeCells k1 k2 k3 _ =>
          (ka =? k1) && ((kb =? k2) && (kd =? k3) || (kb =? k3) && (kd =? k2)) ||
          n &&
          ((ka =? k2) && ((kb =? k1) && (kd =? k3) || (kb =? k3) && (kd =? k1)) ||
           (ka =? k3) && ((kb =? k1) && (kd =? k2) || (kb =? k2) && (kd =? k1)))
      end).
    (* the same calls without the directions *)
    set (bare := OneCell 0 :: map (fun i => TwoCells 0 i None) (zrange 1 7) ++
      flat_map (fun i => map (fun j => ThreeCells 0 i j None) (zrange (i + 1) 7)) (zrange 1 7)).
    assert (E : forall n ka kb kd, occ (f n ka kb kd) (dsCalls 7 ++ dsTripleCalls 7) = occ (f n ka kb kd) bare).
    { intros n ka kb kd. unfold bare, dsCalls, dsTripleCalls. rewrite <- app_comm_cons, !occ_cons, !occ_app. f_equal. f_equal.
      - now rewrite !occ_map.
      - induction (zrange 1 7) as [|i l IH]; [reflexivity|]. cbn [flat_map]. rewrite !occ_app, IH. f_equal. now rewrite !occ_map. }
    assert (G : forallb (fun n => forallb (fun ka => forallb (fun kb => forallb (fun kd =>
      (occ (f n ka kb kd) bare <=? 1)%nat && (negb (ka =? 0) || (occ (f n ka kb kd) bare =? 1)%nat))
        (zrange 0 7)) (zrange 0 7)) (zrange 0 7)) [true; false] = true) by (vm_compute; reflexivity).
    assert (G' : forall n ka kb kd, 0 <= ka < 7 -> 0 <= kb < 7 -> 0 <= kd < 7 ->
      (occ (f n ka kb kd) bare <= 1)%nat /\ (ka = 0 -> occ (f n ka kb kd) bare = 1%nat)).
    { intros n ka kb kd Ha Hb Hd. apply in_zrange in Ha, Hb, Hd. rewrite forallb_forall in G.
      assert (In n [true; false]) by (destruct n; cbn; auto). specialize (G n H). rewrite forallb_forall in G. specialize (G ka Ha).
      rewrite forallb_forall in G. specialize (G kb Hb). rewrite forallb_forall in G. specialize (G kd Hd).
      apply andb_true_iff in G as [G1 G2]. apply Nat.leb_le in G1. split; [exact G1|]. intros ->. now apply Nat.eqb_eq in G2. }
    destruct (G' (useNewton3 cf) (dsAt a) (dsAt b) (dsAt d) (at_range a) (at_range b) (at_range d)) as [G1 G2].
    rewrite <- E in G1, G2. split; [exact G1|]. intros H I. apply G2, Z0; assumption.
  Qed.

  Lemma ds_pairs lay newton3 threshold :
    exists cells, dsAddAll isHalo lo hi old dsEmpty ps = Some cells /\
    let calls := dsInteract isHalo view pos lay newton3 threshold cutoff lo hi cells in
    forall a c, In a ps -> In c ps -> a <> c ->
      (received pid calls a c <= 1)%nat /\
      (isHalo a = false \/ (newton3 = true /\ isHalo c = false) -> (dist3 (pos a) (pos c) <= cutoff)%R -> received pid calls a c = 1%nat).
  Proof.
    exists (dsBuilt ps). split; [rewrite <- dsEmpty_built; exact (dsAddAll_built ps [] Hps)|].
    cbv zeta. intros a c Ia Ic Hne. unfold dsInteract.
    assert (E7 : Z.of_nat (length (dsBuilt ps)) = 7) by (unfold dsBuilt; now rewrite map_length, length_zrange).
    rewrite E7. set (cf := mkCF lay newton3 false threshold).
    destruct (pair_total pid isHalo pos view cf cutoff (normalize (rsub hi lo)) ps dsAt dsOwn (dsBuilt ps) Hview (normalize_le_1 _)
      Hids Hown eq_refl a c Ia Ic Hne (dsCalls 7) ds_calls) as [T1 T2].
    destruct (ds_pair_occ cf a c) as (O1 & O2 & O3).
    split; [lia|]. intros Ho D. rewrite (T2 Ho D). destruct Ho as [Ho|[Hn Ho]]; auto.
  Qed.

  Lemma ds_triplets lay newton3 threshold :
    exists cells, dsAddAll isHalo lo hi old dsEmpty ps = Some cells /\
    let calls := dsInteract3 isHalo view pos lay newton3 threshold cutoff cells in
    forall a b d, In a ps -> In b ps -> In d ps -> a <> b -> a <> d -> b <> d ->
      (received3 pid calls a b d <= 1)%nat /\
      (isHalo a = false -> pairwiseWithin pos cutoff a b d -> received3 pid calls a b d = 1%nat).
  Proof.
    exists (dsBuilt ps). split; [rewrite <- dsEmpty_built; exact (dsAddAll_built ps [] Hps)|].
    cbv zeta. intros a b d Ia Ib Id N1 N2 N3. unfold dsInteract3.
    assert (E7 : Z.of_nat (length (dsBuilt ps)) = 7) by (unfold dsBuilt; now rewrite map_length, length_zrange).
    rewrite E7. set (cf := mkCF lay newton3 false threshold).
    destruct (triple_total pid isHalo pos view cf cutoff (normalize (mkR3 1 1 1)) ps dsAt dsOwn (dsBuilt ps) Hview (normalize_le_1 _)
      Hids Hown eq_refl a b d Ia Ib Id N1 N2 N3 (dsCalls 7 ++ dsTripleCalls 7)) as [T1 T2].
    { apply Forall_app. split; [exact ds_calls|exact ds_tripleCalls]. }
    destruct (ds_triple_occ cf a b d) as (O1 & O2).
    split; [lia|]. intros Ho D. rewrite (T2 Ho D). auto.
  Qed.
End DS.
