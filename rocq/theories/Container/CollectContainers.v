(** Collecting leaving particles from the direct sum and the linked cells container. *)
From Coq Require Import Reals Lra.
From Verif.Base Require Import ZRange Lists Occ.
From Verif.Grid Require Import IndexModel IndexSpec IndexProofs CellBlockModel CellBlockSpec CellBlockProofs CellBlockExact.
From Verif.Functor Require Import SortModel.
From Verif.Container Require Import LinkedCellsModel LinkedCellsSpec LinkedCellsGeo IteratorModel IteratorContainers IteratorSpec IteratorLemmas IteratorParallel IteratorInstances IteratorRegion
  ParticleModel CollectModel CollectSpec CollectProofs CollectRun.
Import ListNotations.
Open Scope R_scope.

Section Generic.
  Variables (il skin : R) (bMin bMax : R3).
  Hypothesis Hil : 0 <= il.
  Hypothesis Hskin : 0 <= skin.
  Hypothesis Hlen : atLeast skin bMin bMax.
  Definition vols : list (R3 * R3) := map (clampVolume il bMin bMax) (haloVolumes rndExact il skin bMin bMax).

  Definition outsideShell (x : R3) : bool :=
    inBoxb (growLow il bMin) (growHigh il bMax) x && negb (inBoxb (growLow (- (skin / 2)) bMin) (growHigh (- (skin / 2)) bMax) x).

  Lemma in_vols x : existsb (fun v => inBoxb (fst v) (snd v) x) vols = outsideShell x.
  Proof.
    apply Bool.eq_true_iff_eq. unfold outsideShell. rewrite existsb_exists, andb_true_iff, negb_true_iff.
    destruct Hlen as (L1 & L2 & L3).
    assert (C := volumes_cover rndExact il skin bMin bMax x).
    unfold lowerHaloCorner, upperHaloCorner, lowerInnerCorner, upperInnerCorner, maxMisplacement, rndExact in C. cbv zeta in C. cbn [rx ry rz] in C.
    specialize (C ltac:(lra) ltac:(lra) ltac:(lra) ltac:(lra) ltac:(lra) ltac:(lra) ltac:(lra) ltac:(lra) ltac:(lra)).
    assert (G : forall v, inBoxb (fst (clampVolume il bMin bMax v)) (snd (clampVolume il bMin bMax v)) x = true <->
      inBox (fst v) (snd v) x /\ inBox (growLow il bMin) (growHigh il bMax) x).
    { intros v. unfold clampVolume. cbn [fst snd]. rewrite inBoxb_clamp, andb_true_iff, !inBoxb_iff. unfold inBox, shift, growLow, growHigh. cbn [rx ry rz].
      split; intros ((A1 & A2 & A3) & B1 & B2 & B3); repeat split; lra. }
    split.
    - intros (v & Hv & B). unfold vols in Hv. apply in_map_iff in Hv as (w & <- & Hw). apply G in B as (B1 & B2).
      split; [apply inBoxb_iff; exact B2|]. assert (E := proj1 C (ex_intro _ w (conj Hw B1))). destruct E as (_ & E).
      destruct (inBoxb _ _ x) eqn:I; [|reflexivity]. exfalso. apply E. apply inBoxb_iff in I. unfold inBox, growLow, growHigh in *. cbn [rx ry rz] in *. lra.
    - intros (A & N). apply inBoxb_iff in A. destruct (proj2 C) as (w & Hw & B).
      + split; [unfold inBox, growLow, growHigh in *; cbn [rx ry rz] in *; lra|]. intros I.
        assert (T : inBoxb (growLow (- (skin / 2)) bMin) (growHigh (- (skin / 2)) bMax) x = true).
        { apply inBoxb_iff. unfold inBox, growLow, growHigh in *. cbn [rx ry rz] in *. lra. }
        congruence.
      + exists (clampVolume il bMin bMax w). split; [unfold vols; apply in_map; exact Hw|]. apply G. split; assumption.
  Qed.

  (** Which particles are returned and which are marked. *)
  Definition leavingb (p : Particle) : bool :=
    isOwned p && negb (inBoxb bMin bMax (ppos p)) && inBoxb (growLow il bMin) (growHigh il bMax) (ppos p).
  Definition droppedb (p : Particle) : bool := leavingb p || (isHaloP p && outsideShell (ppos p)).
  Definition markDropped (p : Particle) : Particle := if droppedb p then withOwn stDummy p else p.

  Lemma shell_outside p : leavingb p = true -> outsideShell (ppos p) = true.
  Proof.
    unfold leavingb, outsideShell. rewrite !andb_true_iff, !negb_true_iff. intros ((_ & N) & I). split; [exact I|].
    destruct (inBoxb (growLow (- (skin / 2)) bMin) _ _) eqn:J; [|reflexivity]. apply inBoxb_iff in J.
    rewrite <- N. symmetry. apply inBoxb_iff. unfold inBox, growLow, growHigh in *. cbn [rx ry rz] in *. lra.
  Qed.

  Lemma collected_spec (cellsOf : R3 * R3 -> list nat) c p : validState (pown p) ->
    (alive p = true -> reached vols cellsOf c p = outsideShell (ppos p)) ->
    collected bMin bMax vols cellsOf c p = (markDropped p, if leavingb p then [p] else []).
  Proof.
    intros V H. unfold collected, markDropped, droppedb.
    destruct (alive p) eqn:A.
    - rewrite (H eq_refl), andb_true_r. destruct (outsideShell (ppos p)) eqn:S.
      + unfold collectBody. rewrite andb_true_r. destruct (isHaloP p) eqn:Hh.
        * assert (isOwned p = false) as O by (unfold isOwned, isHaloP, stOwned, stHalo in *; lia).
          unfold leavingb. rewrite O. reflexivity.
        * assert (isOwned p = true) as O.
          { unfold isOwned, isHaloP, stOwned, stHalo in *. unfold alive, fulfills in A. destruct V as [V | [V | V]]; rewrite V in *; try reflexivity; discriminate. }
          unfold outsideShell in S. apply andb_prop in S as (S & _). unfold leavingb. rewrite O, S, andb_true_r. cbn [andb orb].
          destruct (inBoxb bMin bMax (ppos p)); reflexivity.
      + rewrite andb_false_r, orb_false_r. assert (L : leavingb p = false).
        { destruct (leavingb p) eqn:L; [|reflexivity]. rewrite (shell_outside p L) in S. discriminate. }
        rewrite L. reflexivity.
    - rewrite andb_false_r. assert (D : isOwned p = false /\ isHaloP p = false).
      { unfold isOwned, isHaloP, stOwned, stHalo. unfold alive, fulfills in A. destruct V as [V | [V | V]]; rewrite V in *; try (split; reflexivity); discriminate. }
      destruct D as (D1 & D2). unfold leavingb. rewrite D1, D2. reflexivity.
  Qed.

  Lemma map_seq_nth {A B} (f : list A -> B) (l : list (list A)) : map (fun c => f (nth c l [])) (seq 0 (length l)) = map f l.
  Proof.
    induction l as [|a l IH]; [reflexivity|]. cbn [length seq map nth]. f_equal. rewrite <- seq_shift, map_map. exact IH.
  Qed.

  Lemma flat_map_filter {A} (f : A -> bool) (l : list A) : flat_map (fun p => if f p then [p] else []) l = filter f l.
  Proof. induction l as [|a l IH]; [reflexivity|]. cbn. destruct (f a); cbn; rewrite IH; reflexivity. Qed.

  Lemma filter_concat {A} (f : A -> bool) (l : list (list A)) : filter f (concat l) = flat_map (filter f) l.
  Proof. induction l as [|a l IH]; [reflexivity|]. cbn. rewrite filter_app, IH. reflexivity. Qed.

  Theorem collect_spec (cellsOf : R3 * R3 -> list nat) cells visits :
    (forall c p, In p (nth c cells []) -> validState (pown p) /\ (alive p = true -> reached vols cellsOf c p = outsideShell (ppos p))) ->
    Permutation visits (regionVisits vols cellsOf cells) ->
    exists out, collectRun bMin bMax visits cells = (map (map markDropped) cells, out) /\
      Permutation out (filter leavingb (concat cells)).
  Proof.
    intros H HP. destruct (collect_any_order bMin bMax vols cellsOf cells visits HP) as (out & E & P). exists out. split.
    - rewrite E. f_equal. rewrite <- (map_seq_nth (map markDropped) cells). apply map_ext. intros c. apply map_ext_in. intros p Hp.
      destruct (H c p Hp) as (V & R). rewrite (collected_spec cellsOf c p V R). reflexivity.
    - rewrite P, filter_concat. rewrite flat_map_concat_map, (flat_map_concat_map _ cells). rewrite <- (map_seq_nth (filter leavingb) cells).
      match goal with |- Permutation ?a ?b => cut (a = b); [intros ->; reflexivity|] end. f_equal. apply map_ext. intros c. rewrite <- flat_map_filter. apply flat_map_ext_in. intros p Hp.
      destruct (H c p Hp) as (V & R). rewrite (collected_spec cellsOf c p V R). reflexivity.
  Qed.

  (** Direct sum. *)
  Theorem ds_collect cells visits : length cells = 7%nat ->
    (forall p, In p (concat cells) -> validState (pown p)) ->
    Permutation visits (regionVisits vols dsRegionCells cells) ->
    exists out, collectRun bMin bMax visits cells = (map (map markDropped) cells, out) /\
      Permutation out (filter leavingb (concat cells)).
  Proof.
    intros L V. apply collect_spec. intros c p Hp.
    assert (C : (c < 7)%nat). { destruct (Nat.lt_ge_cases c 7) as [C|C]; [exact C|]. rewrite nth_overflow in Hp by lia. destruct Hp. }
    split.
    - apply V. apply in_concat. exists (nth c cells []). split; [apply nth_In; lia|exact Hp].
    - intros _. rewrite <- in_vols. unfold reached. apply Bool.eq_true_iff_eq. rewrite !existsb_exists. unfold dsRegionCells. split.
      + intros (v & Hv & B). apply andb_prop in B as (_ & B). exists v. tauto.
      + intros (v & Hv & B). exists v. split; [exact Hv|]. rewrite B, andb_true_r. apply existsb_exists. exists c. split; [apply in_seq; lia|apply Nat.eqb_refl].
  Qed.
End Generic.

Section LinkedCells.
  Variables (il csf skin margin : R) (bMin bMax : R3).
  Hypothesis Hg : validGrid il csf bMin bMax.
  Hypothesis Hskin : 0 <= skin <= il.
  Hypothesis Hmargin : 0 <= margin <= il.
  Let b := rebuild rndExact il csf bMin bMax.
  Variable old : Particle -> R3.

  Lemma lc_region_cell lo hi c x :
    rx lo <= rx bMax + il -> ry lo <= ry bMax + il -> rz lo <= rz bMax + il ->
    rx bMin - il <= rx hi -> ry bMin - il <= ry hi -> rz bMin - il <= rz hi ->
    inBox (getHaloBoxMin b) (getHaloBoxMax b) (old x) -> get1DIndexOfPosition rndExact b (old x) = Some c ->
    movedWithin old ppos margin x -> lcRelevant bhOwnedOrHalo b c = true ->
    inBoxb (clampLow il bMin lo) (clampHigh il bMax hi) (ppos x) = true ->
    In (Z.to_nat c) (lcRegionCells rndExact b margin (clampVolume il bMin bMax (lo, hi))).
  Proof.
    intros Lx Ly Lz Hx Hy Hz HH Hc M Rel F1.
    set (lo' := clampLow il bMin lo) in *. set (hi' := clampHigh il bMax hi) in *.
    pose proof Hg as (G1 & G2 & HB & L1 & L2 & L3 & S1 & S2 & S3). pose proof HB as (B1 & B2 & B3).
    assert (Elo : rx bMin - il <= rx lo' <= rx bMax + il /\ ry bMin - il <= ry lo' <= ry bMax + il /\ rz bMin - il <= rz lo' <= rz bMax + il).
    { unfold lo', clampLow. cbn [rx ry rz].
      assert (Q : forall a c e, a <= e -> c <= e -> c <= Rmax a c <= e) by (intros; split; [apply Rmax_r|now apply Rmax_lub]).
      split; [|split]; apply Q; lra. }
    assert (Ehi : rx bMin - il <= rx hi' <= rx bMax + il /\ ry bMin - il <= ry hi' <= ry bMax + il /\ rz bMin - il <= rz hi' <= rz bMax + il).
    { unfold hi', clampHigh. cbn [rx ry rz].
      assert (Q : forall a c e, e <= a -> e <= c -> e <= Rmin a c <= c) by (intros; split; [now apply Rmin_glb|apply Rmin_r]).
      split; [|split]; apply Q; lra. }
    destruct (index3_defined il csf bMin bMax Hg (shift lo' (- margin))) as (k1 & E1 & K1); try (unfold shift; cbn [rx ry rz]; lra).
    destruct (index3_defined il csf bMin bMax Hg (shift hi' margin)) as (k2 & E2 & K2); try (unfold shift; cbn [rx ry rz]; lra).
    fold b in E1, E2, K1, K2. set (dims := blockDims b) in *.
    unfold lcRegionCells, lcRegionConf, clampVolume, get1DIndexOfPosition. cbn [fst snd]. fold lo' hi'. rewrite E1, E2.
    cbn [relevant startCell endCell]. apply in_map. apply filter_In.
    apply inBoxb_iff in F1. destruct M as (M1 & M2 & M3).
    destruct (exact3_lookup il csf bMin bMax G2 HB (old x) S1 S2 S3 HH) as (k & Ek & Kk & Kb). fold b dims in Ek, Kk, Kb.
    unfold get1DIndexOfPosition in Hc. rewrite Ek in Hc. injection Hc as Hc. fold dims in Hc.
    assert (HM : forall a e, Rabs (a - e) <= margin -> a - margin <= e <= a + margin).
    { intros a e. unfold Rabs. destruct (Rcase_abs _); lra. }
    apply HM in M1, M2, M3. destruct F1 as (F11 & F12 & F13).
    split.
    - apply in_zrange. rewrite <- Hc.
      destruct (exact3_mono il csf bMin bMax G2 HB (shift lo' (- margin)) (old x) k1 k S1 S2 S3) as (m1 & m2 & m3);
        try assumption; try (unfold shift; cbn [rx ry rz]; lra).
      destruct (exact3_mono il csf bMin bMax G2 HB (old x) (shift hi' margin) k k2 S1 S2 S3) as (n1 & n2 & n3);
        try assumption; try (unfold shift; cbn [rx ry rz]; lra).
      pose proof (threeToOneD_mono dims k1 k K1 Kk m1 m2 m3). pose proof (threeToOneD_mono dims k k2 Kk K2 n1 n2 n3). fold dims. lia.
    - rewrite Rel, <- Hc. unfold dims. rewrite oneToThreeD_threeToOneD by exact Kk.
      destruct (getCellBoundingBox rndExact b k) as [cl ch] eqn:Eb. cbn [fst snd] in Kb. destruct Kb as (W1 & W2 & W3).
      rewrite andb_true_l. unfold boxesOverlap, shift. cbn [rx ry rz].
      repeat (destruct (Rlt_dec _ _) as [_|Hn]; [|exfalso; apply Hn; lra]). reflexivity.
  Qed.

  Theorem lc_collect cells visits :
    atLeast skin bMin bMax ->
    (forall c p, In p (nth c cells []) -> validState (pown p) /\
       (pown p <> 0%Z -> inBox (getHaloBoxMin b) (getHaloBoxMax b) (old p) /\
          get1DIndexOfPosition rndExact b (old p) = Some (Z.of_nat c) /\ movedWithin old ppos margin p /\
          (pown p = 1%Z -> cellCanContainOwnedParticles b (Z.of_nat c) = true) /\
          (pown p = 2%Z -> cellCanContainHaloParticles b (Z.of_nat c) = true))) ->
    Permutation visits (regionVisits (vols il skin bMin bMax) (lcRegionCells rndExact b margin) cells) ->
    exists out, collectRun bMin bMax visits cells = (map (map (markDropped il skin bMin bMax)) cells, out) /\
      Permutation out (filter (leavingb il bMin bMax) (concat cells)).
  Proof.
    intros Hlen H. pose proof Hg as (G1 & G2 & HB & L1 & L2 & L3 & S1 & S2 & S3).
    apply collect_spec; try lra. intros c p Hp. destruct (H c p Hp) as (V & Q). split; [exact V|]. intros A.
    assert (N : pown p <> 0%Z). { intros E. unfold alive, fulfills in A. rewrite E in A. discriminate. }
    destruct (Q N) as (HH & Hc & M & P1 & P2).
    rewrite <- (in_vols il skin bMin bMax) by (try lra; exact Hlen). unfold reached. apply Bool.eq_true_iff_eq. rewrite !existsb_exists. split.
    - intros (v & Hv & B). apply andb_prop in B as (_ & B). exists v. tauto.
    - intros (v & Hv & B). exists v. split; [exact Hv|]. rewrite B, andb_true_r. apply existsb_exists. exists c. split; [|apply Nat.eqb_refl].
      unfold vols in Hv. apply in_map_iff in Hv as ((lo, hi) & <- & Hw).
      rewrite <- (Nat2Z.id c).
      assert (Bd : rx lo <= rx bMax + il /\ ry lo <= ry bMax + il /\ rz lo <= rz bMax + il /\ rx bMin - il <= rx hi /\ ry bMin - il <= ry hi /\ rz bMin - il <= rz hi).
      { destruct Hlen as (N1 & N2 & N3). destruct HB as (W1 & W2 & W3).
        unfold haloVolumes in Hw. cbv zeta in Hw. cbn [In] in Hw.
        unfold lowerHaloCorner, upperHaloCorner, lowerInnerCorner, upperInnerCorner, maxMisplacement, rndExact in Hw. cbv zeta in Hw. cbn [rx ry rz] in Hw.
        destruct Hw as [Hw | [Hw | [Hw | [Hw | [Hw | [Hw | []]]]]]]; injection Hw as <- <-; cbn [rx ry rz]; lra. }
      destruct Bd as (D1 & D2 & D3 & D4 & D5 & D6).
      apply lc_region_cell with (x := p); try assumption.
      unfold lcRelevant. destruct V as [V | [V | V]]; [contradiction| |].
      + rewrite (P1 V). reflexivity.
      + rewrite (P2 V). apply orb_true_r.
  Qed.
End LinkedCells.
