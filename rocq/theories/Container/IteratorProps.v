(** The theorems about iterators in their final form. *)
From Coq Require Import Reals.
From Verif.Base Require Import ZRange.
From Verif.Grid Require Import IndexModel IndexSpec CellBlockModel CellBlockSpec CellBlockFloat.
From Verif.Functor Require Import CellFunctorModel SortModel.
From Verif.Container Require Import LinkedCellsModel LinkedCellsSpec IteratorModel IteratorContainers IteratorSpec
  IteratorLemmas IteratorInstances IteratorRegion IteratorRestart IteratorGrid IteratorExample.
Open Scope Z_scope.

Section Props.
  Context {P : Type}.
  Variable ownership : P -> Z.

  Lemma lc_delete (il csf : R) (bMin bMax : R3) behavior numThreads nOwned T marks decide (st : Store P) schedule :
    let b := rebuild rndDouble il csf bMin bMax in
    (0 < csf)%R -> loopThreads behavior numThreads T ->
    lcPlaced ownership b (cells st) -> validBuffers ownership nOwned (buffers st) ->
    (forall m, marks = Some m -> forall x, ownership (m x) = 0) ->
    gather behavior nOwned st <> [] -> allowedSchedule decide T schedule ->
    iterationCorrect ownership behavior nOwned T (fun _ => true)
      (lcConf ownership behavior numThreads b (size (cells st)) marks) marks decide st schedule.
  Proof.
    intros b Hc HL Hp Hb Hm Hg Ha. destruct (double_dims il csf bMin bMax Hc) as [Hh Hpos]. fold b in Hh, Hpos.
    apply lc_iterate; auto; [destruct Hpos; lia|]. now apply (placed_nonempty ownership b).
  Qed.

  Lemma lc_delete_empty (il csf : R) (bMin bMax : R3) behavior numThreads nOwned T marks d (st : Store P) schedule :
    let b := rebuild rndDouble il csf bMin bMax in
    (0 < csf)%R -> loopThreads behavior numThreads T ->
    lcPlaced ownership b (cells st) -> validBuffers ownership nOwned (buffers st) ->
    (forall m, marks = Some m -> (behavior <> 7 /\ behavior <> 15) /\ forall x, ownership (m x) = 0) ->
    gather behavior nOwned st = [] ->
    iterationOrRestart ownership behavior nOwned T (fun _ => true)
      (lcConf ownership behavior numThreads b (size (cells st)) marks) marks d st schedule.
  Proof.
    intros b Hc HL Hp Hb Hm Hg. destruct (double_dims il csf bMin bMax Hc) as [Hh Hpos]. fold b in Hh, Hpos.
    apply lc_restart; auto; [destruct Hpos; lia|]. now apply (placed_nonempty ownership b).
  Qed.

  Lemma lc_visits_all (il csf : R) (bMin bMax : R3) behavior numThreads nOwned T (st : Store P) schedule :
    let b := rebuild rndDouble il csf bMin bMax in
    (0 < csf)%R -> loopThreads behavior numThreads T ->
    lcPlaced ownership b (cells st) -> validBuffers ownership nOwned (buffers st) ->
    exists ths,
      runParallel (lcConf ownership behavior numThreads b (size (cells st)) None) (gather behavior nOwned)
        (fun _ _ _ => false) schedule st (repeat NotStarted T) = Some (st, ths) /\
      (fairSchedule T st schedule -> Forall finished ths) /\
      (Forall finished ths ->
       Permutation (visited T ths) (filter (fun x => wantedb behavior (ownership x)) (contents st))).
  Proof.
    intros b Hc HL Hp Hb. destruct (double_dims il csf bMin bMax Hc) as [Hh Hpos]. fold b in Hh, Hpos.
    destruct (lc_iterate ownership b Hh ltac:(destruct Hpos; lia) behavior numThreads nOwned T None (fun _ _ _ => false) st schedule)
      as (st' & ths & E & Hf & Hv & Hs & _); auto.
    - now apply (placed_nonempty ownership b).
    - discriminate.
    - now left.
    - rewrite (Hs (fun _ _ _ => eq_refl)) in E. exists ths. auto.
  Qed.

  Lemma lc_added_visits_all (pos : P -> R3) (il csf : R) (bMin bMax : R3) behavior numThreads nOwned T ps bufs schedule :
    let b := rebuild rndDouble il csf bMin bMax in
    floatGrid il csf bMin bMax ->
    (forall p, In p ps -> (ownership p = 1 /\ inBox bMin bMax (pos p)) \/
       (ownership p = 2 /\ ~ inBox bMin bMax (pos p) /\ get1DIndexOfPosition rndDouble b (pos p) <> None)) ->
    numCells (blockDims b) < sizeMax -> size ps < sizeMax ->
    loopThreads behavior numThreads T -> validBuffers ownership nOwned bufs ->
    exists cs, lcAddAll (fun p => ownership p =? 2) rndDouble b pos (lcEmpty b) ps = Some cs /\
    let st := mkStore (map (@parts P) cs) bufs in
    exists ths,
      runParallel (lcConf ownership behavior numThreads b (size (cells st)) None) (gather behavior nOwned)
        (fun _ _ _ => false) schedule st (repeat NotStarted T) = Some (st, ths) /\
      (fairSchedule T st schedule -> Forall finished ths) /\
      (Forall finished ths ->
       Permutation (visited T ths) (filter (fun x => wantedb behavior (ownership x)) (ps ++ concat bufs))).
  Proof.
    intros b G Hps Hn Hsz HL Hb.
    destruct (added_cells ownership pos il csf bMin bMax G ps Hps Hn Hsz) as (cs & E & Hp & Hperm).
    exists cs. split; [exact E|]. intros st.
    destruct (lc_visits_all il csf bMin bMax behavior numThreads nOwned T st schedule) as (ths & Er & Hf & Hv); auto.
    { now destruct G as (_ & _ & _ & H & _). }
    exists ths. split; [exact Er|]. split; [exact Hf|]. intros H. rewrite (Hv H). apply filter_perm.
    unfold contents, st. cbn [cells buffers]. now apply Permutation_app_tail.
  Qed.

  Lemma ds_delete behavior numThreads nOwned T decide (st : Store P) schedule :
    loopThreads behavior numThreads T ->
    dsPlaced ownership (cells st) -> validBuffers ownership nOwned (buffers st) ->
    gather behavior nOwned st <> [] -> allowedSchedule decide T schedule ->
    iterationCorrect ownership behavior nOwned T (fun _ => true)
      (dsConf ownership behavior numThreads (size (cells st))) None decide st schedule.
  Proof. intros. apply (ds_iterate ownership behavior numThreads); auto. Qed.

  Lemma ds_delete_empty behavior numThreads nOwned T d (st : Store P) schedule :
    loopThreads behavior numThreads T ->
    dsPlaced ownership (cells st) -> validBuffers ownership nOwned (buffers st) ->
    gather behavior nOwned st = [] ->
    iterationOrRestart ownership behavior nOwned T (fun _ => true)
      (dsConf ownership behavior numThreads (size (cells st))) None d st schedule.
  Proof. intros. apply (ds_restart ownership behavior numThreads); auto. Qed.

  Lemma ds_visits_all behavior numThreads nOwned T (st : Store P) schedule :
    loopThreads behavior numThreads T ->
    dsPlaced ownership (cells st) -> validBuffers ownership nOwned (buffers st) ->
    exists ths,
      runParallel (dsConf ownership behavior numThreads (size (cells st))) (gather behavior nOwned)
        (fun _ _ _ => false) schedule st (repeat NotStarted T) = Some (st, ths) /\
      (fairSchedule T st schedule -> Forall finished ths) /\
      (Forall finished ths ->
       Permutation (visited T ths) (filter (fun x => wantedb behavior (ownership x)) (contents st))).
  Proof.
    intros HL Hp Hb.
    destruct (ds_iterate ownership behavior numThreads nOwned T (fun _ => true) (dsConf ownership behavior numThreads (size (cells st)))
      (fun _ _ _ => false) st schedule) as (st' & ths & E & Hf & Hv & Hs & _); auto.
    - now left.
    - rewrite (Hs (fun _ _ _ => eq_refl)) in E. exists ths. auto.
  Qed.

  Lemma region_iff (pos : P -> R3) il bMin bMax lo hi x :
    inBoxb lo hi (pos x) && inBoxb (shift bMin (- il)) (shift bMax il) (pos x) = true <->
    inBox lo hi (pos x) /\ inBox (shift bMin (- il)) (shift bMax il) (pos x).
  Proof. now rewrite andb_true_iff, !inBoxb_iff. Qed.

  Lemma lc_region_visits (old pos : P -> R3) (il csf : R) (bMin bMax : R3)
      behavior numThreads nOwned T marks decide (st : Store P) schedule margin (lo hi : R3) :
    let b := rebuild rndExact il csf bMin bMax in
    validGrid il csf bMin bMax -> loopThreads behavior numThreads T ->
    lcPlaced ownership b (cells st) -> validBuffers ownership nOwned (buffers st) ->
    (forall m, marks = Some m -> forall x, ownership (m x) = 0) ->
    gather behavior nOwned st <> [] \/ (forall t seen x, decide t seen x = false) ->
    allowedSchedule decide T schedule ->
    (0 <= margin <= il)%R ->
    (rx lo <= rx bMax + il)%R -> (ry lo <= ry bMax + il)%R -> (rz lo <= rz bMax + il)%R ->
    (rx bMin - il <= rx hi)%R -> (ry bMin - il <= ry hi)%R -> (rz bMin - il <= rz hi)%R ->
    (forall c l x, at_ (cells st) c = Some l -> In x l -> wantedb behavior (ownership x) = true ->
       inBox (getHaloBoxMin b) (getHaloBoxMax b) (old x) /\
       get1DIndexOfPosition rndExact b (old x) = Some c /\ movedWithin old pos margin x) ->
    exists conf,
      (forall t, lcRegionConf ownership behavior numThreads pos rndExact b margin
                   (clampLow il bMin lo) (clampHigh il bMax hi) marks t = Some (conf t)) /\
      exists region, (forall x, region x = true <-> inBox lo hi (pos x) /\ inBox (shift bMin (- il)) (shift bMax il) (pos x)) /\
        iterationCorrect ownership behavior nOwned T region conf marks decide st schedule.
  Proof.
    intros b Hg HL Hp Hb Hm Hvs Ha Hmar H1 H2 H3 H4 H5 H6 Hl.
    destruct (lc_region il csf bMin bMax Hg ownership old pos behavior numThreads nOwned T marks decide st schedule margin lo hi)
      as (conf & Hc & Hi); auto.
    exists conf. split; [exact Hc|]. eexists. split; [|exact Hi]. intros x. apply region_iff.
  Qed.

  Lemma lc_region_visits_any (old pos : P -> R3) (il csf : R) (bMin bMax : R3)
      behavior numThreads nOwned T marks decide (st : Store P) schedule margin (lo hi : R3) :
    let b := rebuild rndExact il csf bMin bMax in
    validGrid il csf bMin bMax -> loopThreads behavior numThreads T ->
    lcPlaced ownership b (cells st) -> validBuffers ownership nOwned (buffers st) ->
    (forall m, marks = Some m -> forall x, ownership (m x) = 0) ->
    gather behavior nOwned st <> [] \/ (forall t seen x, decide t seen x = false) ->
    allowedSchedule decide T schedule ->
    get1DIndexOfPosition rndExact b (shift (clampLow il bMin lo) (- margin)) <> None ->
    get1DIndexOfPosition rndExact b (shift (clampHigh il bMax hi) margin) <> None ->
    (forall c l x, at_ (cells st) c = Some l -> In x l -> wantedb behavior (ownership x) = true ->
       inBox (getHaloBoxMin b) (getHaloBoxMax b) (old x) /\
       get1DIndexOfPosition rndExact b (old x) = Some c /\ movedWithin old pos margin x) ->
    exists conf,
      (forall t, lcRegionConf ownership behavior numThreads pos rndExact b margin
                   (clampLow il bMin lo) (clampHigh il bMax hi) marks t = Some (conf t)) /\
      exists region, (forall x, region x = true <-> inBox lo hi (pos x) /\ inBox (shift bMin (- il)) (shift bMax il) (pos x)) /\
        iterationCorrect ownership behavior nOwned T region conf marks decide st schedule.
  Proof.
    intros b Hg HL Hp Hb Hm Hvs Ha H1 H2 Hl.
    destruct (lc_region_defined il csf bMin bMax Hg ownership old pos behavior numThreads nOwned T marks decide st schedule margin lo hi)
      as (conf & Hc & Hi); auto.
    exists conf. split; [exact Hc|]. eexists. split; [|exact Hi]. intros x. apply region_iff.
  Qed.

  Lemma ds_region_visits (pos : P -> R3) (il : R) (bMin bMax : R3)
      behavior numThreads nOwned T decide (st : Store P) schedule (lo hi : R3) :
    loopThreads behavior numThreads T ->
    dsPlaced ownership (cells st) -> validBuffers ownership nOwned (buffers st) ->
    gather behavior nOwned st <> [] \/ (forall t seen x, decide t seen x = false) ->
    allowedSchedule decide T schedule ->
    exists region, (forall x, region x = true <-> inBox lo hi (pos x) /\ inBox (shift bMin (- il)) (shift bMax il) (pos x)) /\
      iterationCorrect ownership behavior nOwned T region
        (dsRegionConf ownership behavior numThreads pos (size (cells st)) (clampLow il bMin lo) (clampHigh il bMax hi))
        None decide st schedule.
  Proof.
    intros HL Hp Hb Hvs Ha. exists (fun x => inBoxb (clampLow il bMin lo) (clampHigh il bMax hi) (pos x)). split.
    - intros x. rewrite inBoxb_clamp. apply region_iff.
    - apply (ds_iterate ownership behavior numThreads); auto.
  Qed.
End Props.

Lemma ex_empty :
  loopThreads 1 1 1 /\ dsPlaced exOwner (cells exEmpty) /\ validBuffers exOwner 2 (buffers exEmpty) /\ gather 1 2 exEmpty = [] /\
  contents exEmpty = [1; 2].
Proof.
  split; [split; [lia|]; left; split; [now left|reflexivity]|]. split; [|split; [|split; reflexivity]].
  - split; [reflexivity|]. intros c l H. apply at_some in H. destruct H as [Hr H]. unfold size in Hr. cbn in Hr.
    assert (Hc : c = 0 \/ c = 1 \/ c = 2 \/ c = 3 \/ c = 4 \/ c = 5 \/ c = 6) by lia.
    destruct Hc as [->|[->|[->|[->|[->|[->| ->]]]]]]; cbn in H; injection H as <-;
      (split; [reflexivity|]); intros x Hx; cbn in Hx; repeat (destruct Hx as [<-|Hx]); try contradiction;
      unfold exOwner, validState; cbn; repeat split; intros; try lia; auto.
  - split; [cbn; lia|]. split; [reflexivity|]. split.
    + intros l [<-|[<-|[<-|[<-|[]]]]]; reflexivity.
    + intros k l x E Hx. destruct k as [|[|[|[|k]]]]; cbn in E; try (injection E as <-); try (destruct k; discriminate); destruct Hx.
Qed.

Lemma restart_refuted : exists (ownership : Z -> Z) (decide : Z -> list Z -> Z -> bool) (st : Store Z) (schedule : list nat),
  loopThreads 1 1 1 /\ dsPlaced ownership (cells st) /\ validBuffers ownership 2 (buffers st) /\
  allowedSchedule decide 1 schedule /\
  exists st' ths, runParallel (dsConf ownership 1 1 (size (cells st))) (gather 1 2) decide schedule st
      (repeat NotStarted 1) = Some (st', ths) /\ Forall finished ths /\
    exists x, NoDup (contents st) /\ In x (contents st') /\ count_occ Z.eq_dec (visited 1 ths) x = 2%nat.
Proof.
  exists exOwner, (fun _ _ x => x =? 2), exEmpty, (repeat 0%nat 6).
  destruct ex_empty as (H1 & H2 & H3 & _ & H5). split; [exact H1|]. split; [exact H2|]. split; [exact H3|].
  split; [right; exists [0%nat], (repeat 0%nat 5); split; reflexivity|].
  eexists. eexists. split; [vm_compute; reflexivity|]. split; [repeat constructor|].
  exists 1. rewrite H5. split; [repeat constructor; cbn; lia|]. split; [cbn; auto|]. reflexivity.
Qed.

Lemma late_begin_refuted : exists (ownership : Z -> Z) (decide : Z -> list Z -> Z -> bool) (st : Store Z) (schedule : list nat),
  loopThreads 1 2 2 /\ dsPlaced ownership (cells st) /\ validBuffers ownership 3 (buffers st) /\ gather 1 3 st <> [] /\
  fairSchedule 2 st schedule /\
  exists st' ths, runParallel (dsConf ownership 1 2 (size (cells st))) (gather 1 3) decide schedule st
      (repeat NotStarted 2) = Some (st', ths) /\ Forall finished ths /\
    exists x, ownership x = 1 /\ In x (contents st') /\ ~ In x (visited 2 ths).
Proof.
  exists exOwner, (fun _ _ x => x =? 5), (mkStore (repeat [] 7) [[5]; [6]; [7]; []; []; []]), (repeat 0%nat 6 ++ repeat 1%nat 6).
  split; [split; [lia|]; left; split; [now left|reflexivity]|]. split; [|split; [|split; [discriminate|split]]].
  - split; [reflexivity|]. intros c l H. apply at_some in H. destruct H as [_ H]. cbn [cells] in H.
    apply nth_error_In, (repeat_spec 7 (@nil Z)) in H. subst l. split; [reflexivity|]. intros x [].
  - split; [cbn; lia|]. split; [reflexivity|]. split.
    + intros l [<-|[<-|[<-|[<-|[<-|[<-|[]]]]]]]; reflexivity.
    + intros k l x E Hx. destruct k as [|[|[|[|[|[|k]]]]]]; cbn in E; try (injection E as <-); try (destruct k; discriminate);
        cbn in Hx; repeat (destruct Hx as [<-|Hx]); try contradiction; unfold exOwner, validState; cbn; repeat split; intros; try lia; auto.
  - intros [|[|t]] Ht; cbn; lia.
  - eexists. eexists. split; [vm_compute; reflexivity|]. split; [repeat constructor|].
    exists 6. split; [reflexivity|]. split; [cbn; auto|]. cbn. lia.
Qed.
