From Coq Require Import Reals Lra.
From Flocq Require Import Core.
From Verif.Base Require Import ZRange Lists Occ OptionM.
From Verif.Grid Require Import IndexModel IndexSpec IndexProofs CellBlockModel CellBlockSpec CellBlockProofs CellBlockFloat CellBlockExact.
From Verif.Functor Require Import SortModel.
From Verif.Container Require Import LinkedCellsModel LinkedCellsSpec LinkedCellsGeo IteratorModel IteratorContainers IteratorSpec IteratorLemmas IteratorInstances IteratorRegion
  ParticleModel CollectSpec CollectRun ForEachModel.
Import ListNotations.
Local Open Scope Z_scope.

(** The behaviours for which IteratorBehavior::contains is defined. *)
Definition lambdaBehavior (behavior : Z) : Prop := behavior = 1 \/ behavior = 2 \/ behavior = 3 \/ behavior = 4 \/ behavior = 7.

Lemma contains_wanted behavior p : lambdaBehavior behavior -> validState (pown p) -> behaviorContains behavior p = Some (wantedb behavior (pown p)).
Proof.
  intros B V. unfold behaviorContains, isDummy, isHaloP, isOwned, stDummy, stOwned, stHalo.
  destruct B as [-> | [-> | [-> | [-> | ->]]]]; destruct V as [-> | [-> | ->]]; reflexivity.
Qed.

Definition visitedb (behavior : Z) (region : R3 -> bool) (p : Particle) : bool := wantedb behavior (pown p) && region (ppos p).

Lemma cellForEach_spec behavior region cell : lambdaBehavior behavior -> (forall p, In p cell -> validState (pown p)) ->
  cellForEach behavior region cell = Some (filter (visitedb behavior region) cell).
Proof.
  intros B. induction cell as [|p r IH]; intros V; [reflexivity|]. cbn [cellForEach filter].
  rewrite contains_wanted by (auto; apply V; left; reflexivity). rewrite IH by (intros q Hq; apply V; right; exact Hq). reflexivity.
Qed.

Section LC.
  Variable b : Block.
  Variable cells : list (list Particle).
  Hypothesis Hplaced : forall k p, In p (nth k cells []) -> validState (pown p) /\
     (pown p = 1 -> cellCanContainOwnedParticles b (Z.of_nat k) = true) /\
     (pown p = 2 -> cellCanContainHaloParticles b (Z.of_nat k) = true).

  (** Particles in ignored cells are not wanted. *)
  Lemma ignore_spec behavior k p : lambdaBehavior behavior -> ignoreCellForIteration b (Z.of_nat k) behavior = true ->
    In p (nth k cells []) -> wantedb behavior (pown p) = false.
  Proof.
    intros B I H. destruct (Hplaced k p H) as (V & V1 & V2). unfold ignoreCellForIteration in I.
    assert (O : cellCanContainOwnedParticles b (Z.of_nat k) = true \/ pown p <> 1) by (destruct (Z.eq_dec (pown p) 1); auto).
    assert (D : cellCanContainHaloParticles b (Z.of_nat k) = true \/ pown p <> 2) by (destruct (Z.eq_dec (pown p) 2); auto).
    revert I O D. generalize (cellCanContainOwnedParticles b (Z.of_nat k)) (cellCanContainHaloParticles b (Z.of_nat k)). intros o h I O D.
    destruct V as [V|[V|V]]; rewrite V in O, D |- *; destruct B as [-> | [-> | [-> | [-> | ->]]]]; destruct o, h; try reflexivity; exfalso;
      try (vm_compute in I; discriminate); try (destruct O as [O|O]; [discriminate|apply O; reflexivity]); (destruct D as [D|D]; [discriminate|apply D; reflexivity]).
  Qed.

  Lemma visitCells_spec behavior region is : lambdaBehavior behavior -> (forall i, In i is -> 0 <= i < size cells) ->
    visitCells b behavior region cells is = Some (flat_map (fun i => filter (visitedb behavior region) (nth (Z.to_nat i) cells [])) is).
  Proof.
    intros B R. unfold visitCells. rewrite (mapM_some _ (fun i => filter (visitedb behavior region) (nth (Z.to_nat i) cells []))).
    - rewrite flat_map_concat_map. reflexivity.
    - intros i Hi. specialize (R i Hi). unfold size in R.
      destruct (ignoreCellForIteration b i behavior) eqn:I.
      + f_equal. symmetry. apply filter_nil. intros p Hp. unfold visitedb. rewrite <- (Z2Nat.id i) in I by lia.
        rewrite (ignore_spec behavior _ p B I Hp). reflexivity.
      + unfold at_. destruct (Z.ltb_spec i 0); [lia|]. rewrite (nth_error_nth' _ []) by lia.
        apply cellForEach_spec; [exact B|]. intros p Hp. apply (Hplaced _ p Hp).
  Qed.

  Lemma lc_for_each behavior : lambdaBehavior behavior ->
    lcForEach b behavior cells = Some (filter (fun p => wantedb behavior (pown p)) (concat cells)).
  Proof.
    intros B. unfold lcForEach. destruct (Z.eqb_spec behavior bhAll) as [->|N].
    - f_equal. symmetry. apply filter_all. intros p Hp. apply in_concat in Hp as (l & Hl & Hp). apply In_nth with (d := []) in Hl as (k & _ & <-).
      destruct (Hplaced k p Hp) as ([V|[V|V]] & _); rewrite V; reflexivity.
    - rewrite visitCells_spec; [|exact B|intros i Hi; apply in_zrange in Hi; exact Hi]. f_equal.
      unfold zrange. rewrite Z.sub_0_r. unfold size. rewrite Nat2Z.id. rewrite flat_map_concat_map, map_map.
      rewrite (map_ext_in _ (fun k => filter (visitedb behavior (fun _ => true)) (nth k cells []))) by (intros k Hk; f_equal; f_equal; lia).
      rewrite <- flat_map_concat_map, <- (flat_map_seq (filter (visitedb behavior (fun _ => true))) cells).
      clear. induction cells as [|c r IH]; [reflexivity|]. cbn [flat_map concat]. rewrite filter_app, IH. f_equal.
      apply filter_ext. intros p. unfold visitedb. apply andb_true_r.
  Qed.
End LC.

(** A region, in exact arithmetic. *)
Section Region.
  Variables (il csf : R) (bMin bMax : R3).
  Hypothesis Hg : validGrid il csf bMin bMax.
  Let b := rebuild rndExact il csf bMin bMax.
  Variable cells : list (list Particle).
  Hypothesis Hsize : size cells = numCells (blockDims b).
  Hypothesis Hplaced : forall k p, In p (nth k cells []) -> validState (pown p) /\
     (pown p = 1 -> cellCanContainOwnedParticles b (Z.of_nat k) = true) /\
     (pown p = 2 -> cellCanContainHaloParticles b (Z.of_nat k) = true).
  Variables (skin : R) (old : Particle -> R3).
  Hypothesis Hold : forall k p, In p (nth k cells []) -> pown p <> 0 ->
     inBox (getHaloBoxMin b) (getHaloBoxMax b) (old p) /\ get1DIndexOfPosition rndExact b (old p) = Some (Z.of_nat k) /\
     movedWithin old ppos skin p.

  Definition regionIndices (start stop : I3) : list Z :=
    flat_map (fun z => flat_map (fun y => map (fun x => threeToOneD (mkI3 x y z) (blockDims b)) (zrange (ix start) (ix stop + 1)))
                                     (zrange (iy start) (iy stop + 1))) (zrange (iz start) (iz stop + 1)).
  Lemma in_regionIndices start stop i : In i (regionIndices start stop) <->
    exists k, threeToOneD k (blockDims b) = i /\ ix start <= ix k <= ix stop /\ iy start <= iy k <= iy stop /\ iz start <= iz k <= iz stop.
  Proof.
    unfold regionIndices. rewrite in_flat_map. split.
    - intros (z & Hz & H). apply in_flat_map in H as (y & Hy & H). apply in_map_iff in H as (x & <- & Hx).
      apply in_zrange in Hx, Hy, Hz. exists (mkI3 x y z). cbn [ix iy iz]. repeat split; lia.
    - intros ([x y z] & <- & Hx & Hy & Hz). cbn [ix iy iz] in *. exists z. split; [apply in_zrange; lia|].
      apply in_flat_map. exists y. split; [apply in_zrange; lia|]. apply in_map_iff. exists x. split; [reflexivity|apply in_zrange; lia].
  Qed.
  Lemma NoDup_regionIndices start stop : inGrid (blockDims b) start -> inGrid (blockDims b) stop -> NoDup (regionIndices start stop).
  Proof.
    intros (S1 & S2 & S3) (T1 & T2 & T3). unfold regionIndices. apply NoDup_flat_map; [apply NoDup_zrange| |].
    - intros z Hz. apply in_zrange in Hz. apply NoDup_flat_map; [apply NoDup_zrange| |].
      + intros y Hy. apply in_zrange in Hy. apply NoDup_map_inj; [|apply NoDup_zrange]. intros x x' Hx Hx' E. apply in_zrange in Hx, Hx'.
        apply threeToOneD_inj in E; [congruence| |]; repeat split; cbn [ix iy iz]; lia.
      + intros y y' i Hy Hy' Hi Hi'. apply in_zrange in Hy, Hy'. apply in_map_iff in Hi as (x & <- & Hx). apply in_map_iff in Hi' as (x' & E & Hx').
        apply in_zrange in Hx, Hx'. apply threeToOneD_inj in E; [congruence| |]; repeat split; cbn [ix iy iz]; lia.
    - intros z z' i Hz Hz' Hi Hi'. apply in_zrange in Hz, Hz'. apply in_flat_map in Hi as (y & Hy & Hi). apply in_flat_map in Hi' as (y' & Hy' & Hi').
      apply in_map_iff in Hi as (x & <- & Hx). apply in_map_iff in Hi' as (x' & E & Hx').
      apply in_zrange in Hx, Hx', Hy, Hy'. apply threeToOneD_inj in E; [congruence| |]; repeat split; cbn [ix iy iz]; lia.
  Qed.

  Lemma flat_map_sub {A} (f : nat -> list A) n is : NoDup is -> (forall i, In i is -> 0 <= i < Z.of_nat n) ->
    (forall k, (k < n)%nat -> ~ In (Z.of_nat k) is -> f k = []) ->
    Permutation (flat_map (fun i => f (Z.to_nat i)) is) (flat_map f (seq 0 n)).
  Proof.
    intros Hn Hi Hf.
    assert (P : Permutation (map Z.to_nat is) (filter (fun k => existsb (Z.eqb (Z.of_nat k)) is) (seq 0 n))).
    { apply NoDup_Permutation.
      - apply NoDup_map_inj; [|exact Hn]. intros x y Hx Hy E. apply Hi in Hx, Hy. lia.
      - apply NoDup_filter, seq_NoDup.
      - intros k. rewrite in_map_iff, filter_In, in_seq, existsb_exists. split.
        + intros (i & <- & H). specialize (Hi i H). split; [lia|]. exists i. split; [exact H|]. rewrite Z2Nat.id by lia. apply Z.eqb_refl.
        + intros (_ & i & H & E). apply Z.eqb_eq in E. exists i. split; [lia|exact H]. }
    assert (E : flat_map f (seq 0 n) = flat_map f (filter (fun k => existsb (Z.eqb (Z.of_nat k)) is) (seq 0 n))).
    { assert (G : forall k, In k (seq 0 n) -> existsb (Z.eqb (Z.of_nat k)) is = false -> f k = []).
      { intros k Hk E. apply Hf; [apply in_seq in Hk; lia|]. intros H. assert (existsb (Z.eqb (Z.of_nat k)) is = true); [|congruence].
        apply existsb_exists. exists (Z.of_nat k). split; [exact H|apply Z.eqb_refl]. }
      clear P. induction (seq 0 n) as [|k r IH]; [reflexivity|]. cbn [flat_map filter]. destruct (existsb _ is) eqn:E; cbn [flat_map].
      - f_equal. apply IH. intros k' Hk'. apply G. right. exact Hk'.
      - rewrite (G k (or_introl eq_refl) E). apply IH. intros k' Hk'. apply G. right. exact Hk'. }
    rewrite E, <- P, !flat_map_concat_map, map_map. reflexivity.
  Qed.

  Theorem lc_for_each_in_region behavior lo hi : lambdaBehavior behavior -> behavior <> 4 -> behavior <> 7 ->
    (rx bMin - 2 * il <= rx lo - skin)%R -> (ry bMin - 2 * il <= ry lo - skin)%R -> (rz bMin - 2 * il <= rz lo - skin)%R ->
    (rx hi + skin <= rx bMax + 2 * il)%R -> (ry hi + skin <= ry bMax + 2 * il)%R -> (rz hi + skin <= rz bMax + 2 * il)%R ->
    (rx lo - skin <= rx hi + skin)%R -> (ry lo - skin <= ry hi + skin)%R -> (rz lo - skin <= rz hi + skin)%R ->
    exists l, lcForEachInRegion rndExact b skin behavior lo hi cells = Some l /\
      Permutation l (filter (visitedb behavior (inBoxb lo hi)) (concat cells)).
  Proof.
    intros B N4 N7 A1 A2 A3 A4 A5 A6 A7 A8 A9.
    set (lo' := mkR3 (rx lo - skin) (ry lo - skin) (rz lo - skin)). set (hi' := mkR3 (rx hi + skin) (ry hi + skin) (rz hi + skin)).
    assert (EL : lcForEachInRegion rndExact b skin behavior lo hi cells =
      match get3DIndexOfPosition rndExact b lo', get3DIndexOfPosition rndExact b hi' with
      | Some start, Some stop => visitCells b behavior (inBoxb lo hi) cells (regionIndices start stop)
      | _, _ => None
      end) by reflexivity. rewrite EL. clear EL.
    pose proof Hg as (G1 & G2 & HB & L1 & L2 & L3 & S1 & S2 & S3). pose proof HB as (B1 & B2 & B3).
    destruct (index3_defined il csf bMin bMax Hg lo') as (k1 & E1 & K1); try (unfold lo'; cbn [rx ry rz]; lra).
    destruct (index3_defined il csf bMin bMax Hg hi') as (k2 & E2 & K2); try (unfold hi'; cbn [rx ry rz]; lra).
    fold b in E1, E2, K1, K2. rewrite E1, E2.
    assert (HR : forall i, In i (regionIndices k1 k2) -> 0 <= i < numCells (blockDims b)).
    { intros i Hi. apply in_regionIndices in Hi as (k & <- & H1 & H2 & H3). apply threeToOneD_range.
      destruct K1 as (? & ? & ?), K2 as (? & ? & ?). repeat split; lia. }
    rewrite (visitCells_spec b cells Hplaced behavior (inBoxb lo hi) (regionIndices k1 k2) B) by (intros i Hi; rewrite Hsize; apply HR; exact Hi).
    eexists. split; [reflexivity|].
    assert (E : filter (visitedb behavior (inBoxb lo hi)) (concat cells) =
                flat_map (fun k => filter (visitedb behavior (inBoxb lo hi)) (nth k cells [])) (seq 0 (length cells))).
    { rewrite <- (flat_map_seq (filter (visitedb behavior (inBoxb lo hi))) cells). clear. induction cells as [|c r IH]; [reflexivity|].
      cbn. rewrite filter_app, IH. reflexivity. }
    rewrite E. apply (flat_map_sub (fun k => filter (visitedb behavior (inBoxb lo hi)) (nth k cells []))).
    - apply NoDup_regionIndices; assumption.
    - intros i Hi. unfold size in Hsize. rewrite Hsize. apply HR. exact Hi.
    - intros k Hk Hn. apply filter_nil. intros p Hp. destruct (visitedb behavior (inBoxb lo hi) p) eqn:Hv; [|reflexivity]. exfalso. apply Hn.
      unfold visitedb in Hv. apply andb_prop in Hv as (W & I). apply inBoxb_iff in I as (I1 & I2 & I3).
      assert (O : pown p <> 0) by (intros O; rewrite O in W; destruct B as [-> | [-> | [-> | [-> | ->]]]]; try discriminate; contradiction).
      destruct (Hold k p Hp O) as (HH & Hc & M1 & M2 & M3).
      destruct (exact3_lookup il csf bMin bMax G2 HB (old p) S1 S2 S3 HH) as (q & Eq & Kq & Kb). fold b in Eq, Kq, Kb.
      unfold get1DIndexOfPosition in Hc. rewrite Eq in Hc. injection Hc as Hc.
      assert (HM : forall u v : R, (Rabs (u - v) <= skin -> u - skin <= v <= u + skin)%R) by (intros u v; unfold Rabs; destruct (Rcase_abs _); lra).
      apply HM in M1, M2, M3.
      destruct (exact3_mono il csf bMin bMax G2 HB lo' (old p) k1 q S1 S2 S3) as (m1 & m2 & m3);
        try assumption; try (unfold lo'; cbn [rx ry rz]; lra).
      destruct (exact3_mono il csf bMin bMax G2 HB (old p) hi' q k2 S1 S2 S3) as (n1 & n2 & n3);
        try assumption; try (unfold hi'; cbn [rx ry rz]; lra).
      apply in_regionIndices. exists q. split; [exact Hc|]. lia.
  Qed.
End Region.

(** Direct sum. *)
Lemma ds_for_each_in_region behavior lo hi cells : lambdaBehavior behavior -> behavior <> 4 -> behavior <> 7 -> length cells = 7%nat ->
  (forall k p, In p (nth k cells []) -> validState (pown p) /\ (k = 0%nat -> pown p <> 2) /\ (k <> 0%nat -> pown p <> 1)) ->
  exists l, dsForEachInRegion behavior lo hi cells = Some l /\ Permutation l (filter (visitedb behavior (inBoxb lo hi)) (concat cells)).
Proof.
  intros B N4 N7 L V. destruct cells as [|owned halo]; [discriminate|]. unfold dsForEachInRegion.
  assert (F : hasFlag behavior bhOwnedOrHalo = true) by (destruct B as [-> | [-> | [-> | [-> | ->]]]]; try reflexivity; contradiction).
  rewrite F. cbn [negb].
  assert (V0 : forall p, In p owned -> validState (pown p) /\ pown p <> 2) by (intros p Hp; destruct (V 0%nat p Hp) as (A & C & _); auto).
  assert (V1 : forall c p, In c halo -> In p c -> validState (pown p) /\ pown p <> 1).
  { intros c p Hc Hp. apply In_nth with (d := []) in Hc as (k & _ & <-). destruct (V (S k) p Hp) as (A & _ & D). split; [exact A|]. apply D. discriminate. }
  rewrite (mapM_some _ (fun c => filter (visitedb behavior (inBoxb lo hi)) c)).
  - eexists. split; [reflexivity|]. cbn [concat]. rewrite filter_app.
    assert (C : forall l : list (list Particle), concat (map (filter (visitedb behavior (inBoxb lo hi))) l) = filter (visitedb behavior (inBoxb lo hi)) (concat l)).
    { clear. induction l as [|c r IH]; [reflexivity|]. cbn. rewrite filter_app, IH. reflexivity. }
    rewrite map_app, concat_app. destruct B as [-> | [-> | [-> | [-> | ->]]]]; try contradiction; cbn [hasFlag].
    + change (hasFlag 1 bhOwned) with true. change (hasFlag 1 bhHalo) with false. cbn [map concat]. rewrite !app_nil_r.
      rewrite (filter_nil _ (concat halo)), app_nil_r; [reflexivity|]. intros p Hp. apply in_concat in Hp as (c & Hc & Hp). destruct (V1 c p Hc Hp) as ([O|[O|O]] & N); unfold visitedb; rewrite O; try reflexivity; congruence.
    + change (hasFlag 2 bhOwned) with false. change (hasFlag 2 bhHalo) with true. cbn [map concat app]. rewrite C.
      rewrite (filter_nil _ owned); [reflexivity|]. intros p Hp. destruct (V0 p Hp) as ([O|[O|O]] & N); unfold visitedb; rewrite O; try reflexivity; congruence.
    + change (hasFlag 3 bhOwned) with true. change (hasFlag 3 bhHalo) with true. cbn [map concat app]. rewrite C, app_nil_r. reflexivity.
  - intros c Hc. apply cellForEach_spec; [exact B|]. intros p Hp. apply in_app_or in Hc as [Hc|Hc].
    + destruct (hasFlag behavior bhOwned); [|destruct Hc]. destruct Hc as [<-|[]]. apply (V0 p Hp).
    + destruct (hasFlag behavior bhHalo); [|destruct Hc]. apply (V1 c p Hc Hp).
Qed.

(** DirectSum::forEach does not test the particles, only chooses the cells. *)
Lemma ds_for_each behavior cells : behavior = 1 \/ behavior = 2 \/ behavior = 3 \/ behavior = 7 -> length cells = 7%nat ->
  (forall k p, In p (nth k cells []) -> validState (pown p) /\ (k = 0%nat -> pown p <> 2) /\ (k <> 0%nat -> pown p <> 1) /\ (behavior <> 7 -> pown p <> 0)) ->
  dsForEach behavior cells = Some (filter (fun p => wantedb behavior (pown p)) (concat cells)).
Proof.
  intros B L V. destruct cells as [|owned halo]; [discriminate|]. unfold dsForEach. cbn [concat]. rewrite filter_app.
  assert (V0 : forall p, In p owned -> validState (pown p) /\ pown p <> 2 /\ (behavior <> 7 -> pown p <> 0)) by (intros p Hp; destruct (V 0%nat p Hp) as (A & C & _ & D); auto).
  assert (V1 : forall p, In p (concat halo) -> validState (pown p) /\ pown p <> 1 /\ (behavior <> 7 -> pown p <> 0)).
  { intros p Hp. apply in_concat in Hp as (c & Hc & Hp). apply In_nth with (d := []) in Hc as (k & _ & <-).
    destruct (V (S k) p Hp) as (A & _ & D & E). auto. }
  assert (A : forall f (l : list Particle), (forall p, In p l -> f p = true) -> filter f l = l).
  { clear. induction l as [|p l IH]; intros H; [reflexivity|]. cbn [filter]. rewrite H by now left. f_equal. apply IH. intros; apply H; now right. }
  clear V L. destruct B as [-> | [-> | [-> | ->]]]; cbn [hasFlag negb]; change (hasFlag 1 bhOwned) with true; change (hasFlag 1 bhHalo) with false;
    change (hasFlag 2 bhOwned) with false; change (hasFlag 2 bhHalo) with true; change (hasFlag 3 bhOwned) with true; change (hasFlag 3 bhHalo) with true;
    change (hasFlag 7 bhOwned) with true; change (hasFlag 7 bhHalo) with true;
    change (hasFlag 1 bhOwnedOrHalo) with true; change (hasFlag 2 bhOwnedOrHalo) with true; change (hasFlag 3 bhOwnedOrHalo) with true;
    change (hasFlag 7 bhOwnedOrHalo) with true; cbn [negb]; do 2 f_equal; symmetry.
  all: try (apply A; intros p Hp); try (apply filter_nil; intros p Hp);
    first [destruct (V0 p Hp) as ([O|[O|O]] & N & D)|destruct (V1 p Hp) as ([O|[O|O]] & N & D)]; rewrite O; try reflexivity; try congruence;
    exfalso; (apply D; [discriminate|exact O]).
Qed.
