From Coq Require Import Reals Lra.
From Verif.Base Require Import ZRange Lists Occ.
From Verif.Grid Require Import IndexModel IndexSpec IndexProofs CellBlockModel CellBlockSpec CellBlockProofs CellBlockFloat CellBlockExact.
From Verif.Functor Require Import SortModel.
From Verif.Container Require Import LinkedCellsModel LinkedCellsSpec LinkedCellsGeo IteratorModel IteratorContainers IteratorSpec IteratorLemmas IteratorInstances IteratorRegion
  ParticleModel CollectSpec CollectRun UpdateModel.
Import ListNotations.
Local Open Scope Z_scope.

Lemma sweep_spec belongs : forall fuel l i out, (length l - i < fuel)%nat -> (forall x, In x (firstn i l) -> belongs x = true) -> (i <= length l)%nat ->
  exists l' out', sweep fuel belongs l i out = Some (l', out ++ out') /\ Permutation l (l' ++ out') /\
    (forall x, In x l' -> belongs x = true) /\ (forall x, In x out' -> belongs x = false).
Proof.
  induction fuel as [|f IH]; intros l i out Hf Hi Hl; [lia|]. cbn [sweep].
  destruct (Nat.ltb_spec i (length l)) as [L|L].
  - destruct (nth_error l i) as [p|] eqn:E; [|apply nth_error_None in E; lia].
    destruct (belongs p) eqn:B.
    + apply IH; [lia| |lia]. intros x Hx.
      assert (F : firstn (S i) l = firstn i l ++ [p]).
      { clear - E. revert i E. induction l as [|a l IHl]; intros [|i] E; cbn in *; try discriminate; [injection E as ->; reflexivity|]. f_equal. apply IHl. exact E. }
      rewrite F in Hx. apply in_app_or in Hx as [Hx|[<-|[]]]; auto.
    + assert (Pm := swapDelete_perm l i p E). assert (Ln := Permutation_length Pm). cbn [length] in Ln.
      destruct (IH (swapDelete l i) i (out ++ [p])) as (l' & out' & E' & P & K1 & K2); [lia| |lia|].
      * intros x Hx. apply Hi. destruct (swapDelete_spec l i p E) as [(b & m & _ & _ & E2 & _)|(_ & _ & E2 & _)]; rewrite E2 in Hx.
        -- rewrite firstn_app in Hx. rewrite firstn_firstn, Nat.min_id in Hx. rewrite firstn_length_le in Hx by lia.
           rewrite Nat.sub_diag in Hx. cbn [firstn] in Hx. rewrite app_nil_r in Hx. exact Hx.
        -- rewrite firstn_firstn, Nat.min_id in Hx. exact Hx.
      * exists l', (p :: out'). rewrite <- app_assoc in E'. split; [exact E'|]. split; [|split; [exact K1|intros x [<-|Hx]; auto]].
        rewrite Pm, P. apply Permutation_middle.
  - exists l, []. rewrite app_nil_r. split; [reflexivity|]. split; [rewrite app_nil_r; reflexivity|]. split; [|intros x []].
    intros x Hx. apply Hi. rewrite firstn_all2 by lia. exact Hx.
Qed.

Lemma sweepCell_spec belongs l : exists l' out, sweepCell belongs l = Some (l', out) /\ Permutation l (l' ++ out) /\
  (forall x, In x l' -> belongs x = true) /\ (forall x, In x out -> belongs x = false).
Proof. unfold sweepCell. destruct (sweep_spec belongs (S (length l)) l 0 []) as (l' & out & H); [lia|intros x []|lia|]. exists l', out. exact H. Qed.

Lemma filter_split {A} (f : A -> bool) l l1 l2 : Permutation l (l1 ++ l2) -> (forall x, In x l1 -> f x = true) -> (forall x, In x l2 -> f x = false) ->
  Permutation l1 (filter f l) /\ Permutation l2 (filter (fun x => negb (f x)) l).
Proof.
  intros P H1 H2. split.
  - rewrite (filter_perm f _ _ P), filter_app, (filter_all f l1 H1), (filter_nil f l2 H2), app_nil_r. reflexivity.
  - rewrite (filter_perm _ _ _ P), filter_app, (filter_nil _ l1), (filter_all _ l2); [reflexivity| |]; intros x Hx; [rewrite (H2 x Hx)|rewrite (H1 x Hx)]; reflexivity.
Qed.

(** Direct sum. *)
Lemma ds_update bMin bMax cells : length cells = 7%nat ->
  (forall c l x, nth_error cells c = Some l -> In x l -> validState (pown x) /\ (c = 0%nat -> pown x <> 2) /\ (c <> 0%nat -> pown x <> 1)) ->
  exists owned out, dsUpdate bMin bMax cells = Some ([owned; []; []; []; []; []; []], out) /\
    Permutation owned (filter (fun p => isOwned p && inBoxb bMin bMax (ppos p)) (concat cells)) /\
    Permutation out (filter (fun p => isOwned p && negb (inBoxb bMin bMax (ppos p))) (concat cells)).
Proof.
  intros L V. destruct cells as [|owned cells]; [discriminate|]. do 6 (destruct cells as [|? cells]; [discriminate|]). destruct cells; [|discriminate].
  unfold dsUpdate. destruct (sweepCell_spec (fun p => inBoxb bMin bMax (ppos p)) (deleteDummies owned)) as (l' & out & E & P & K1 & K2).
  rewrite E. exists l', out. split; [reflexivity|]. destruct (filter_split _ _ _ _ P K1 K2) as (P1 & P2).
  set (all := [owned; l; l0; l1; l2; l3; l4]) in *.
  assert (G : forall f : Particle -> bool, filter (fun p => isOwned p && f p) (concat all) = filter f (deleteDummies owned)).
  { intros f. unfold all. cbn [concat]. rewrite app_nil_r, filter_app.
    match goal with |- _ ++ ?r = _ => assert (N : r = []) end.
    { apply filter_nil. intros x Hx. assert (O : pown x <> 1).
      { repeat (apply in_app_or in Hx; destruct Hx as [Hx|Hx]);
          [apply (V 1%nat l)|apply (V 2%nat l0)|apply (V 3%nat l1)|apply (V 4%nat l2)|apply (V 5%nat l3)|apply (V 6%nat l4)]; auto; discriminate. }
      unfold isOwned, stOwned. destruct (Z.eqb_spec (pown x) 1); [contradiction|reflexivity]. }
    rewrite N, app_nil_r. unfold deleteDummies. assert (V0 := V 0%nat owned). cbn [nth_error] in V0. clear - V0.
    assert (H : forall x, In x owned -> validState (pown x) /\ pown x <> 2) by (intros x Hx; destruct (V0 x eq_refl Hx) as (A & B & _); auto). clear V0.
    induction owned as [|x r IH]; [reflexivity|]. cbn [filter]. rewrite IH by (intros y Hy; apply H; right; exact Hy).
    destruct (H x (or_introl eq_refl)) as (A & B). unfold isOwned, isDummy, stOwned, stDummy.
    destruct A as [A|[A|A]]; rewrite A; cbn [Z.eqb andb negb]; [reflexivity| |congruence]. cbn [filter]. destruct (f x); reflexivity. }
  rewrite !G. split; assumption.
Qed.

  Lemma pushAt_spec : forall cells i p, (i < length cells)%nat -> exists cells', pushAt cells i p = Some cells' /\ length cells' = length cells /\
    Permutation (concat cells') (p :: concat cells) /\
    (forall k q, In q (nth k cells' []) <-> In q (nth k cells []) \/ (k = i /\ q = p)).
  Proof.
    induction cells as [|c r IH]; intros [|i] p H; cbn [length] in H; try lia; cbn [pushAt].
    - exists ((c ++ [p]) :: r). split; [reflexivity|]. split; [reflexivity|]. split.
      + cbn [concat]. rewrite <- app_assoc. symmetry. apply Permutation_middle.
      + intros [|k] q; cbn [nth]; [|split; [tauto|intros [A|(A & _)]; [exact A|discriminate]]].
        rewrite in_app_iff. cbn [In]. split; [intros [A|[A|[]]]; auto|intros [A|(_ & A)]; auto].
    - destruct (IH i p ltac:(lia)) as (r' & E & L & P & Q). rewrite E. exists (c :: r'). split; [reflexivity|]. split; [cbn; congruence|]. split.
      + cbn [concat]. rewrite P. symmetry. apply Permutation_middle.
      + intros [|k] q; cbn [nth]; [split; [tauto|intros [A|(A & _)]; [exact A|discriminate]]|]. rewrite Q. split; intros [A|(A & B)]; auto.
  Qed.

(** Linked cells. *)
Section LC.
  Variable rnd : R -> R.
  Variable b : Block.
  Variables bMin bMax : R3.
  Hypothesis Hh1 : dHalo (bY b) = dHalo (bX b).
  Hypothesis Hh2 : dHalo (bZ b) = dHalo (bX b).
  Hypothesis Hh : 1 <= dHalo (bX b).
  Hypothesis Hc1 : 1 <= dCells (bX b).
  Hypothesis Hc2 : 1 <= dCells (bY b).
  Hypothesis Hc3 : 1 <= dCells (bZ b).
  (** Positions in the box are sorted into cells for owned particles. *)
  Hypothesis Hinside : forall pos, inBox bMin bMax pos -> exists i, get1DIndexOfPosition rnd b pos = Some i /\
    0 <= i < numCells (blockDims b) /\ cellCanContainOwnedParticles b i = true.

  Lemma lcSweep_spec : forall cells i, exists cells' out, lcSweep rnd b i cells = Some (cells', out) /\ length cells' = length cells /\
    Permutation (flat_map deleteDummies cells) (concat cells' ++ out) /\
    (forall k p, In p (nth k cells' []) -> In p (deleteDummies (nth k cells [])) /\
       let bb := getCellBoundingBox rnd b (oneToThreeD (i + Z.of_nat k) (blockDims b)) in inBox (fst bb) (snd bb) (ppos p)) /\
    (forall p, In p out -> exists k, In p (deleteDummies (nth k cells [])) /\
       let bb := getCellBoundingBox rnd b (oneToThreeD (i + Z.of_nat k) (blockDims b)) in ~ inBox (fst bb) (snd bb) (ppos p)).
  Proof.
    induction cells as [|c r IH]; intros i.
    { exists [], []. cbn [lcSweep flat_map concat app]. split; [reflexivity|]. split; [reflexivity|]. split; [reflexivity|]. split; [intros [|k] p []|intros p []]. }
    cbn [lcSweep]. destruct (getCellBoundingBox rnd b (oneToThreeD i (blockDims b))) as (lo, hi) eqn:Eb.
    destruct (sweepCell_spec (fun p => inBoxb lo hi (ppos p)) (deleteDummies c)) as (c' & o & E & P & K1 & K2). rewrite E.
    destruct (IH (i + 1)) as (r' & o' & E' & L & P' & Q1 & Q2). rewrite E'.
    exists (c' :: r'), (o ++ o'). split; [reflexivity|]. split; [cbn; congruence|]. split; [|split].
    - cbn [flat_map concat]. rewrite P, P'. rewrite <- !app_assoc. apply Permutation_app_head. rewrite !app_assoc. apply Permutation_app_tail, Permutation_app_comm.
    - intros [|k] p Hp; cbn [nth] in *.
      + split; [apply (Permutation_in _ (Permutation_sym P)), in_or_app; left; exact Hp|]. rewrite Z.add_0_r, Eb. apply inBoxb_iff, K1, Hp.
      + destruct (Q1 k p Hp) as (A & B). split; [exact A|]. replace (i + Z.of_nat (S k)) with (i + 1 + Z.of_nat k) by lia. exact B.
    - intros p Hp. apply in_app_or in Hp as [Hp|Hp].
      + exists 0%nat. cbn [nth]. split; [apply (Permutation_in _ (Permutation_sym P)), in_or_app; right; exact Hp|]. rewrite Z.add_0_r, Eb. cbn [fst snd].
        intros I. apply inBoxb_iff in I. rewrite (K2 p Hp) in I. discriminate.
      + destruct (Q2 p Hp) as (k & A & B). exists (S k). cbn [nth]. split; [exact A|]. replace (i + Z.of_nat (S k)) with (i + 1 + Z.of_nat k) by lia. exact B.
  Qed.

  Lemma lcReinsert_spec : forall invalid cells, (forall p, In p invalid -> pown p = 1) -> size cells = numCells (blockDims b) ->
    exists cells' out, lcReinsert rnd b bMin bMax cells invalid = Some (cells', out) /\ length cells' = length cells /\
    Permutation (concat cells') (concat cells ++ filter (fun p => inBoxb bMin bMax (ppos p)) invalid) /\
    out = filter (fun p => negb (inBoxb bMin bMax (ppos p))) invalid /\
    (forall k p, In p (nth k cells' []) -> In p (nth k cells []) \/
       (In p invalid /\ inBox bMin bMax (ppos p) /\ get1DIndexOfPosition rnd b (ppos p) = Some (Z.of_nat k) /\ cellCanContainOwnedParticles b (Z.of_nat k) = true)).
  Proof.
    induction invalid as [|p r IH]; intros cells Ho L; cbn [lcReinsert].
    { exists cells, []. cbn [filter]. rewrite app_nil_r. repeat split; auto. }
    cbn [filter]. destruct (inBoxb bMin bMax (ppos p)) eqn:B; cbn [negb].
    - apply inBoxb_iff in B. destruct (Hinside _ B) as (i & E & R & O). unfold lcInsert. rewrite E.
      assert (Hp : isHaloP p = false) by (unfold isHaloP, stHalo; rewrite (Ho p (or_introl eq_refl)); reflexivity).
      rewrite Hp, O. destruct (Z.ltb_spec i 0); [lia|]. cbn [orb negb].
      destruct (pushAt_spec cells (Z.to_nat i) p) as (cs & Ep & Lp & Pp & Qp); [unfold size in L; lia|]. rewrite Ep.
      destruct (IH cs) as (cells' & out & E2 & L2 & P2 & O2 & Q2); [intros q Hq; apply Ho; right; exact Hq|unfold size in *; rewrite Lp; exact L|].
      exists cells', out. split; [exact E2|]. split; [congruence|]. split; [|split; [exact O2|]].
      + rewrite P2, Pp. cbn [app]. apply Permutation_middle.
      + intros k q Hq. destruct (Q2 k q Hq) as [A|(A1 & A2 & A3 & A4)]; [|right; exact (conj (or_intror A1) (conj A2 (conj A3 A4)))].
        apply Qp in A as [A|(-> & ->)]; [left; exact A|right]. rewrite Z2Nat.id by lia. exact (conj (or_introl eq_refl) (conj B (conj E O))).
    - destruct (IH cells) as (cells' & out & E2 & L2 & P2 & O2 & Q2); [intros q Hq; apply Ho; right; exact Hq|exact L|].
      rewrite E2. exists cells', (p :: out). split; [reflexivity|]. split; [exact L2|]. split; [exact P2|]. split; [congruence|].
      intros k q Hq. destruct (Q2 k q Hq) as [A|(A1 & A2)]; [left; exact A|right; split; [right; exact A1|exact A2]].
  Qed.

  Definition placedCells (cells : list (list Particle)) : Prop :=
    size cells = numCells (blockDims b) /\
    forall k p, In p (nth k cells []) -> validState (pown p) /\
      (pown p = 1 -> cellCanContainOwnedParticles b (Z.of_nat k) = true) /\
      (pown p = 2 -> cellCanContainHaloParticles b (Z.of_nat k) = true).

  Theorem lc_update cells : placedCells cells ->
    exists cells1 invalid, lcUpdateSweep rnd b cells = Some (cells1, invalid) /\
    forall order, Permutation order invalid ->
    exists cells' out, lcReinsert rnd b bMin bMax cells1 order = Some (cells', out) /\
      Permutation (filter isOwned (concat cells)) (concat cells' ++ out) /\
      length cells' = length cells /\
      (forall p, In p out -> ~ inBox bMin bMax (ppos p)) /\
      (forall k p, In p (nth k cells' []) -> pown p = 1 /\ cellCanContainOwnedParticles b (Z.of_nat k) = true /\
         ((let bb := getCellBoundingBox rnd b (oneToThreeD (Z.of_nat k) (blockDims b)) in inBox (fst bb) (snd bb) (ppos p)) \/
          (inBox bMin bMax (ppos p) /\ get1DIndexOfPosition rnd b (ppos p) = Some (Z.of_nat k)))) /\
      (forall p, In p out -> exists k, In p (nth k cells []) /\
         let bb := getCellBoundingBox rnd b (oneToThreeD (Z.of_nat k) (blockDims b)) in ~ inBox (fst bb) (snd bb) (ppos p)).
  Proof.
    intros (L & Hp). unfold lcUpdateSweep.
    destruct (clearHaloCells_spec b cells (dHalo (bX b)) eq_refl Hh1 Hh2 Hh Hc1 Hc2 Hc3 L) as (cs & Ec & Lc & Nc). rewrite Ec.
    destruct (lcSweep_spec cs 0) as (cells1 & inv & Es & Ls & Ps & Q1 & Q2). exists cells1, inv. split; [exact Es|].
    assert (K : forall k p, In p (deleteDummies (nth k cs [])) -> pown p = 1 /\ In p (nth k cells []) /\ cellCanContainOwnedParticles b (Z.of_nat k) = true).
    { intros k p H. unfold deleteDummies in H. apply filter_In in H as (H & D).
      assert (k < length cells)%nat as Lk. { destruct (Nat.lt_ge_cases k (length cells)) as [X|X]; [exact X|]. rewrite nth_overflow in H by lia. destruct H. }
      rewrite (Nc k Lk) in H. destruct (cellCanContainHaloParticles b (Z.of_nat k)) eqn:Hb; [destruct H|].
      destruct (Hp k p H) as (V & V1 & V2). unfold isDummy, stDummy in D. destruct V as [V|[V|V]].
      - rewrite V in D. discriminate.
      - repeat split; auto.
      - rewrite (V2 V) in Hb. discriminate. }
    assert (PO : Permutation (filter isOwned (concat cells)) (concat cells1 ++ inv)).
    { rewrite <- Ps. clear - K Nc Lc Hp L. rewrite (flat_map_seq deleteDummies cs).
      assert (E : filter isOwned (concat cells) = flat_map (fun k => filter isOwned (nth k cells [])) (seq 0 (length cells))).
      { rewrite <- (flat_map_seq (filter isOwned) cells). clear. induction cells as [|c r IH]; [reflexivity|]. cbn. rewrite filter_app, IH. reflexivity. }
      rewrite E, Lc. match goal with |- Permutation ?a ?c => cut (a = c); [intros ->; reflexivity|] end. apply flat_map_ext_in. intros k Hk. apply in_seq in Hk.
      assert (Lk : (k < length cells)%nat) by lia. rewrite (Nc k Lk). destruct (cellCanContainHaloParticles b (Z.of_nat k)) eqn:Hb.
      - apply filter_nil. intros p H. destruct (Hp k p H) as (V & V1 & V2). unfold isOwned, stOwned. destruct (Z.eqb_spec (pown p) 1) as [O|O]; [|reflexivity].
        apply V1 in O. unfold cellCanContainOwnedParticles in O. rewrite Hb in O. discriminate.
      - unfold deleteDummies. apply filter_ext_in. intros p H. destruct (Hp k p H) as (V & V1 & V2). unfold isOwned, isDummy, stOwned, stDummy.
        destruct V as [V|[V|V]]; rewrite V; try reflexivity. rewrite (V2 V) in Hb. discriminate. }
    intros order Ho.
    destruct (lcReinsert_spec order cells1) as (cells' & out & Er & Lr & Pr & Or & Qr).
    { intros p H. apply (Permutation_in _ Ho) in H. destruct (Q2 p H) as (k & A & _). apply (K k p A). }
    { unfold size in *. rewrite Ls, Lc. exact L. }
    exists cells', out. split; [exact Er|]. split; [|split; [congruence|split; [|split]]].
    - rewrite PO, Pr, Or, <- app_assoc. apply Permutation_app_head. rewrite <- Ho.
      clear. induction order as [|p r IH]; [reflexivity|]. cbn [filter]. destruct (inBoxb bMin bMax (ppos p)); cbn [negb app].
      + constructor. exact IH.
      + rewrite <- Permutation_middle. constructor. exact IH.
    - intros p H. rewrite Or in H. apply filter_In in H as (_ & H). intros I. apply inBoxb_iff in I. rewrite I in H. discriminate.
    - intros k p H. destruct (Qr k p H) as [A|(A1 & A2 & A3 & A4)].
      + destruct (Q1 k p A) as (B1 & B2). destruct (K k p B1) as (C1 & C2 & C3). split; [exact C1|]. split; [exact C3|]. left. exact B2.
      + apply (Permutation_in _ Ho) in A1. destruct (Q2 p A1) as (k' & B & _). split; [apply (K k' p B)|]. split; [exact A4|]. right. split; assumption.
    - intros p H. rewrite Or in H. apply filter_In in H as (H & _). apply (Permutation_in _ Ho) in H. destruct (Q2 p H) as (k & A & B). exists k.
      split; [apply (K k p A)|exact B].
  Qed.
End LC.

(** Exact arithmetic. *)
Section Exact.
  Variables (il csf : R) (bMin bMax : R3).
  Hypothesis Hg : validGrid il csf bMin bMax.
  Let b := rebuild rndExact il csf bMin bMax.

  Lemma box_in_halo pos : inBox bMin bMax pos -> inBox (getHaloBoxMin b) (getHaloBoxMax b) pos.
  Proof.
    destruct Hg as (G1 & G2 & (B1 & B2 & B3) & L1 & L2 & L3 & _).
    destruct (exact_halo_dim il csf _ _ G1 G2 B1 L1) as (X1 & X2 & _).
    destruct (exact_halo_dim il csf _ _ G1 G2 B2 L2) as (Y1 & Y2 & _).
    destruct (exact_halo_dim il csf _ _ G1 G2 B3 L3) as (Z1 & Z2 & _).
    unfold inBox, getHaloBoxMin, getHaloBoxMax, b, rebuild. cbn [rx ry rz bX bY bZ]. lra.
  Qed.

  Lemma exact_inside pos : inBox bMin bMax pos -> exists i, get1DIndexOfPosition rndExact b pos = Some i /\
    0 <= i < numCells (blockDims b) /\ cellCanContainOwnedParticles b i = true.
  Proof.
    intros H. pose proof Hg as (G1 & G2 & HB & L1 & L2 & L3 & S1 & S2 & S3).
    destruct (exact3_lookup il csf bMin bMax G2 HB pos S1 S2 S3 (box_in_halo pos H)) as (k & E & K & B). fold b in E, K, B.
    exists (threeToOneD k (blockDims b)). unfold get1DIndexOfPosition. rewrite E. split; [reflexivity|]. split; [apply threeToOneD_range; exact K|].
    apply (owned_cell il csf bMin bMax G2 HB k pos K); [|exact H]. apply (geo_bounds il csf bMin bMax G2 HB k pos K). exact B.
  Qed.

  (** The bounding box of a cell for owned particles is inside the box, and its
      positions are sorted into this cell. *)
  Lemma exact_owned_bounds k pos : 0 <= k < numCells (blockDims b) -> cellCanContainOwnedParticles b k = true ->
    (let bb := getCellBoundingBox rndExact b (oneToThreeD k (blockDims b)) in inBox (fst bb) (snd bb) pos) ->
    inBox bMin bMax pos /\ get1DIndexOfPosition rndExact b pos = Some k.
  Proof.
    intros Hk Ho H. cbv zeta in H. pose proof Hg as (G1 & G2 & HB & L1 & L2 & L3 & S1 & S2 & S3).
    pose proof (grid_pos il csf bMin bMax G2) as Hp. fold b in Hp.
    set (k3 := oneToThreeD k (blockDims b)) in *.
    assert (K3 : inGrid (blockDims b) k3) by (apply oneToThreeD_inGrid; assumption).
    assert (E3 : threeToOneD k3 (blockDims b) = k) by (apply threeToOneD_oneToThreeD; assumption).
    assert (I : inBox bMin bMax pos).
    { apply (owned_cell il csf bMin bMax G2 HB k3 pos K3); [apply (geo_bounds il csf bMin bMax G2 HB k3 pos K3); exact H|]. fold b. rewrite E3. exact Ho. }
    split; [exact I|].
    destruct (exact3_lookup il csf bMin bMax G2 HB pos S1 S2 S3 (box_in_halo pos I)) as (q & E & Q & B). fold b in E, Q, B.
    assert (q = k3) by (apply (exact3_disjoint il csf bMin bMax G2 HB q k3 pos); assumption). subst q.
    unfold get1DIndexOfPosition. rewrite E, E3. reflexivity.
  Qed.

  Theorem lc_update_exact cells : placedCells b cells ->
    exists cells1 invalid, lcUpdateSweep rndExact b cells = Some (cells1, invalid) /\
    forall order, Permutation order invalid ->
    exists cells' out, lcReinsert rndExact b bMin bMax cells1 order = Some (cells', out) /\
      length cells' = length cells /\
      Permutation (concat cells') (filter (fun p => isOwned p && inBoxb bMin bMax (ppos p)) (concat cells)) /\
      Permutation out (filter (fun p => isOwned p && negb (inBoxb bMin bMax (ppos p))) (concat cells)) /\
      (forall k p, In p (nth k cells' []) -> get1DIndexOfPosition rndExact b (ppos p) = Some (Z.of_nat k)).
  Proof.
    intros Hpl. pose proof Hg as (G1 & G2 & HB & _).
    assert (h1 : 1 <= dHalo (bX b)) by (apply (exact_h csf G2)).
    destruct (lc_update rndExact b bMin bMax eq_refl eq_refl h1 (exact_N il csf _ _) (exact_N il csf _ _) (exact_N il csf _ _) exact_inside cells Hpl)
      as (cells1 & inv & E & F). exists cells1, inv. split; [exact E|]. intros order Ho. destruct (F order Ho) as (cells' & out & E' & P & L & N & K & _).
    exists cells', out. split; [exact E'|]. split; [exact L|].
    assert (Kin : forall k p, In p (nth k cells' []) -> inBox bMin bMax (ppos p) /\ get1DIndexOfPosition rndExact b (ppos p) = Some (Z.of_nat k)).
    { intros k p H. destruct (K k p H) as (A & B & [C|C]); [|exact C].
      apply exact_owned_bounds; [|exact B|exact C]. split; [lia|]. destruct Hpl as (Ls & _). unfold size in Ls. rewrite <- Ls, <- L.
      destruct (Nat.lt_ge_cases k (length cells')) as [X|X]; [lia|]. rewrite nth_overflow in H by lia. destruct H. }
    destruct (filter_split (fun p => inBoxb bMin bMax (ppos p)) _ _ _ P) as (P1 & P2).
    - intros p H. apply inBoxb_iff. apply in_concat in H as (l & Hl & H). apply In_nth with (d := []) in Hl as (k & _ & <-). apply (Kin k p H).
    - intros p H. destruct (inBoxb bMin bMax (ppos p)) eqn:I; [|reflexivity]. apply inBoxb_iff in I. destruct (N p H I).
    - assert (FF : forall f : Particle -> bool, filter f (filter isOwned (concat cells)) = filter (fun p => isOwned p && f p) (concat cells)).
      { intros f. clear. induction (concat cells) as [|x l IH]; [reflexivity|]. cbn [filter]. destruct (isOwned x); cbn [andb filter]; [destruct (f x)|]; rewrite IH; reflexivity. }
      rewrite FF in P1, P2. split; [exact P1|]. split; [exact P2|]. intros k p H. apply (Kin k p H).
  Qed.
End Exact.

(** In terms of the specification. *)
Lemma kept_reflect bMin bMax : (forall p, isOwned p && inBoxb bMin bMax (ppos p) = true <-> pown p = 1 /\ inBox bMin bMax (ppos p)) /\
  (forall p, isOwned p && negb (inBoxb bMin bMax (ppos p)) = true <-> pown p = 1 /\ ~ inBox bMin bMax (ppos p)).
Proof.
  split; intros p; rewrite andb_true_iff, ?negb_true_iff; unfold isOwned, stOwned; rewrite Z.eqb_eq; [rewrite inBoxb_iff; tauto|].
  rewrite <- not_true_iff_false, inBoxb_iff. tauto.
Qed.

Lemma ds_update_props bMin bMax cells : length cells = 7%nat ->
  (forall c l x, nth_error cells c = Some l -> In x l -> validState (pown x) /\ (c = 0%nat -> pown x <> 2) /\ (c <> 0%nat -> pown x <> 1)) ->
  exists stays leaves owned out,
    (forall p, stays p = true <-> pown p = 1 /\ inBox bMin bMax (ppos p)) /\
    (forall p, leaves p = true <-> pown p = 1 /\ ~ inBox bMin bMax (ppos p)) /\
    dsUpdate bMin bMax cells = Some ([owned; []; []; []; []; []; []], out) /\
    Permutation owned (filter stays (concat cells)) /\ Permutation out (filter leaves (concat cells)).
Proof.
  intros L V. destruct (ds_update bMin bMax cells L V) as (owned & out & H). eexists _, _, owned, out.
  split; [apply kept_reflect|]. split; [apply kept_reflect|]. exact H.
Qed.

Lemma lc_update_props il csf bMin bMax cells :
  let b := rebuild rndExact il csf bMin bMax in
  validGrid il csf bMin bMax -> Z.of_nat (length cells) = numCells (blockDims b) ->
  (forall k p, In p (nth k cells []) -> validState (pown p) /\
     (pown p = 1 -> cellCanContainOwnedParticles b (Z.of_nat k) = true) /\
     (pown p = 2 -> cellCanContainHaloParticles b (Z.of_nat k) = true)) ->
  exists stays leaves cells1 moved,
    (forall p, stays p = true <-> pown p = 1 /\ inBox bMin bMax (ppos p)) /\
    (forall p, leaves p = true <-> pown p = 1 /\ ~ inBox bMin bMax (ppos p)) /\
    lcUpdateSweep rndExact b cells = Some (cells1, moved) /\
    forall order, Permutation order moved ->
    exists cells' out, lcReinsert rndExact b bMin bMax cells1 order = Some (cells', out) /\
      length cells' = length cells /\
      Permutation (concat cells') (filter stays (concat cells)) /\
      Permutation out (filter leaves (concat cells)) /\
      (forall k p, In p (nth k cells' []) -> get1DIndexOfPosition rndExact b (ppos p) = Some (Z.of_nat k)).
Proof.
  intros b G L V. destruct (lc_update_exact il csf bMin bMax G cells (conj L V)) as (cells1 & inv & H). eexists _, _, cells1, inv.
  split; [apply kept_reflect|]. split; [apply kept_reflect|]. exact H.
Qed.

Lemma lc_update_double il csf bMin bMax cells :
  let b := rebuild rndDouble il csf bMin bMax in
  floatGrid il csf bMin bMax -> Z.of_nat (length cells) = numCells (blockDims b) ->
  (forall k p, In p (nth k cells []) -> validState (pown p) /\
     (pown p = 1 -> cellCanContainOwnedParticles b (Z.of_nat k) = true) /\
     (pown p = 2 -> cellCanContainHaloParticles b (Z.of_nat k) = true)) ->
  exists owned cells1 moved,
    (forall p, owned p = true <-> pown p = 1) /\
    lcUpdateSweep rndDouble b cells = Some (cells1, moved) /\
    forall order, Permutation order moved ->
    exists cells' out, lcReinsert rndDouble b bMin bMax cells1 order = Some (cells', out) /\
      length cells' = length cells /\
      Permutation (concat cells' ++ out) (filter owned (concat cells)) /\
      (forall p, In p out -> ~ inBox bMin bMax (ppos p)) /\
      (forall k p, In p (nth k cells' []) -> cellCanContainOwnedParticles b (Z.of_nat k) = true /\
         (get1DIndexOfPosition rndDouble b (ppos p) = Some (Z.of_nat k) \/
          let box := getCellBoundingBox rndDouble b (oneToThreeD (Z.of_nat k) (blockDims b)) in inBox (fst box) (snd box) (ppos p))).
Proof.
  intros b G L V.
  destruct (lc_update rndDouble b bMin bMax eq_refl eq_refl (float_h il csf bMin bMax G)
     (N_pos il csf (rx bMin) (rx bMax)) (N_pos il csf (ry bMin) (ry bMax)) (N_pos il csf (rz bMin) (rz bMax))) with (cells := cells) as (cells1 & inv & E & H).
  - intros pos I. destruct (float_inside il csf bMin bMax G pos I) as (i & A & B & C & _). exists i. auto.
  - exact (conj L V).
  - exists isOwned, cells1, inv. split; [intros p; unfold isOwned, stOwned; apply Z.eqb_eq|]. split; [exact E|]. intros order Ho.
    destruct (H order Ho) as (cells' & out & E' & P & L' & N & K & _). exists cells', out. split; [exact E'|]. split; [exact L'|].
    split; [symmetry; exact P|]. split; [exact N|]. intros k p Hp. destruct (K k p Hp) as (A & B & C). split; [exact B|]. destruct C as [C|(_ & C)]; auto.
Qed.
