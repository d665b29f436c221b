(** The towers after a rebuild, and the final forms of the theorems about iteration. *)
From Coq Require Import Reals Lra Psatz Permutation.
From Verif.Base Require Import ZRange OptionM Lists.
From Verif.Functor Require Import SortModel.
From Verif.Grid Require Import CellBlockSpec.
From Verif.Container Require Import IteratorModel IteratorContainers IteratorSpec IteratorLemmas IteratorRegion IteratorProps ParticleModel.
From Verif.Cluster Require Import TowerModel TowerSpec BlockModel BlockGeo BlockBuild ClusterContainerModel ClusterContainerSpec ClusterGeo ClusterIterate ClusterUpdate.
Local Open Scope Z_scope.

Section Rebuilt.
  Variable sortZ : list Particle -> list Particle.
  Variable cs : nat.
  Variables (bMin bMax : R3) (il opt : R).
  Variables (old : list Tower) (toAdd : list Particle).
  Hypothesis srt : sortsByZ sortZ.
  Hypothesis cpos : (0 < cs)%nat.
  Hypothesis box_ok : below bMin bMax.
  Hypothesis il_pos : (0 < il)%R.
  Hypothesis opt_pos : (0 < opt)%R.
  Hypothesis same_halo : haloTowers il (sideLength (rx bMax - rx bMin) opt) = haloTowers il (sideLength (ry bMax - ry bMin) opt).
  Let g := estimatedGrid bMin bMax il opt.
  Let rebuilt := map (finalTower sortZ cs g old toAdd) (seq 0 (numNew g)).

  Lemma regular : regularGrid g.
  Proof using box_ok il_pos opt_pos same_halo. exists bMin, bMax, il, opt. auto 6. Qed.
  Lemma nx3 : 3 <= gNX g.
  Proof using box_ok il_pos opt_pos same_halo. now apply nx_pos. Qed.
  Lemma ny3 : 3 <= gNY g.
  Proof using box_ok il_pos opt_pos same_halo. now apply ny_pos. Qed.

  Lemma filled_box i p : (i < numNew g)%nat -> In p (tParts (filledTower g old toAdd i)) ->
    inBox (towerLo g (xOf g i) (yOf g i)) (towerHi g (xOf g i) (yOf g i)) (ppos p).
  Proof using box_ok il_pos opt_pos same_halo.
    intros L I. unfold filledTower in I. cbn [withParts tParts] in I. apply in_app_or in I. destruct I as [I|I].
    - unfold collected, collectOutOfBoundsParticles in I. cbn [fst withParts tParts] in I. apply filter_In in I. destruct I as [_ H].
      now apply inBoxb_iff.
    - unfold sortedInto in I. apply filter_In in I. destruct I as [_ H]. apply andb_true_iff in H. destruct H as [H1 H2].
      apply andb_true_iff in H2. destruct H2 as [X Y]. apply Z.eqb_eq in X, Y.
      destruct (at_inTower bMin bMax il opt box_ok il_pos opt_pos same_halo (ppos p) H1) as [T _]. fold g in T. rewrite X, Y in T.
      destruct T as [[X1 X2] [Y1 Y2]]. rewrite !plus_IZR, !minus_IZR in *. fold g in X1, X2, Y1, Y2. apply inBoxb_iff in H1. destruct H1 as (_ & _ & HZ).
      unfold inBox. cbn [towerLo towerHi rx ry rz]. replace (gMin g) with bMin by reflexivity.
      split; [split; nra|]. split; [split; nra|]. exact HZ.
  Qed.

  Lemma final_actual i p : (i < numNew g)%nat -> In p (actual (finalTower sortZ cs g old toAdd i)) ->
    In p (tParts (filledTower g old toAdd i)) /\ In p (before old toAdd).
  Proof using srt cpos box_ok il_pos opt_pos same_halo.
    intros L I. assert (NX := nx3). assert (NY := ny3).
    destruct (tower_steps sortZ cs g old toAdd srt cpos i) as (_ & P & _ & _ & _ & _ & _ & _ & _ & _ & _ & _ & _ & A & _).
    rewrite A in I. assert (F : In p (tParts (filledTower g old toAdd i))) by (eapply Permutation_in; [symmetry; exact P|exact I]).
    split; [exact F|]. apply (filled_before g old toAdd ltac:(lia) ltac:(lia) i); auto.
  Qed.

  Lemma rebuilt_padded : Forall padded rebuilt.
  Proof using srt cpos.
    apply Forall_forall. intros t H. unfold rebuilt in H. apply in_map_iff in H. destruct H as (i & <- & _).
    destruct (tower_steps sortZ cs g old toAdd srt cpos i) as (_ & _ & _ & _ & _ & _ & _ & _ & _ & _ & _ & _ & (_ & _ & F3 & F4) & _).
    split; assumption.
  Qed.

  Lemma length_flat {A B} (f : A -> list B) l a : In a l -> (length (f a) <= length (flat_map f l))%nat.
  Proof.
    induction l as [|b l IH]; intros H; [destruct H|]. cbn [flat_map]. rewrite app_length. destruct H as [->|H]; [lia|]. apply IH in H. lia.
  Qed.

  Lemma rebuilt_keeps : exists lost, Forall (fun p => ~ inBox (haloMin g) (haloMax g) (ppos p)) lost /\
    Permutation (concat (map collectAllActualParticles rebuilt) ++ lost) (before old toAdd).
  Proof using srt cpos box_ok il_pos opt_pos same_halo.
    assert (NX := nx3). assert (NY := ny3).
    destruct (rebuild_keeps sortZ cs g old toAdd srt cpos ltac:(lia) ltac:(lia)) as [P D].
    exists (dropped g old toAdd). split; [exact D|]. rewrite P. unfold rebuilt. rewrite map_map, flat_map_concat_map. reflexivity.
  Qed.

  Variable ownership : Particle -> Z.
  Hypothesis states : forall p, In p (before old toAdd) -> validState (ownership p) /\ (ownership p = 1 -> inBox bMin bMax (ppos p)).
  Hypothesis towers_fit : gNX g * gNY g < sizeMax.
  Hypothesis parts_fit : size (before old toAdd) < sizeMax.

  Lemma rebuilt_inTowers : inTowers ownership ppos g (map collectAllActualParticles rebuilt).
  Proof using srt cpos box_ok il_pos opt_pos same_halo states towers_fit parts_fit.
    assert (NX := nx3). assert (NY := ny3). left. split; [exact regular|].
    assert (Sz : size (map collectAllActualParticles rebuilt) = gNX g * gNY g).
    { unfold size, rebuilt. rewrite !map_length, seq_length. unfold numNew. rewrite Z2Nat.id; [reflexivity|nia]. }
    split; [exact Sz|]. split; [rewrite Sz; exact towers_fit|]. intros c l E. apply at_some in E. destruct E as [C E].
    unfold rebuilt in E. rewrite map_map, nth_error_map in E. destruct (nth_error (seq 0 (numNew g)) (Z.to_nat c)) as [i|] eqn:N; [|discriminate].
    cbn in E. injection E as <-.
    assert (I : i = Z.to_nat c /\ (i < numNew g)%nat).
    { assert (K : (Z.to_nat c < length (seq 0 (numNew g)))%nat) by (apply nth_error_Some; congruence). rewrite seq_length in K.
      apply nth_error_nth with (d := 0%nat) in N. rewrite seq_nth in N by exact K. lia. }
    destruct I as [I L]. split.
    - destruct rebuilt_keeps as (lost & _ & P). apply Permutation_length in P. rewrite app_length in P.
      assert (K := length_flat (fun i => collectAllActualParticles (finalTower sortZ cs g old toAdd i)) (seq 0 (numNew g)) i ltac:(apply in_seq; lia)).
      rewrite flat_map_concat_map in K. unfold rebuilt in P. rewrite map_map in P. unfold size in *. lia.
    - intros x Hx. destruct (final_actual i x L Hx) as [F B]. destruct (states x B) as [V O]. split; [exact V|]. split; [|exact O].
      assert (X := filled_box i x L F). unfold xOf, yOf in X. replace (Z.of_nat i) with c in X by lia. exact X.
  Qed.
End Rebuilt.

Section Props.
  Context {P : Type}.
  Variable ownership : P -> Z.

  (** C23. *)
  Lemma vcl_visits_all (old : P -> R3) g behavior numThreads nOwned nHandler T valid mark (st : Store P) schedule :
    loopThreads behavior numThreads T -> inTowers ownership old g (cells st) ->
    vclBuffers ownership nOwned nHandler valid (buffers st) -> (forall x, ownership (mark x) = 0) ->
    exists ths,
      runParallel (vclConf ownership behavior numThreads g (size (cells st)) mark) (vclGather behavior nOwned nHandler valid)
        (fun _ _ _ => false) schedule st (repeat NotStarted T) = Some (st, ths) /\
      (fairSchedule T st schedule -> Forall finished ths) /\
      (Forall finished ths ->
       Permutation (visited T ths) (filter (fun x => wantedb behavior (ownership x)) (contents st))).
  Proof.
    intros HL It Vb Hm.
    destruct (vcl_iterate ownership old g behavior numThreads nOwned nHandler T valid mark (fun _ _ _ => false) st schedule)
      as (st' & ths & E & Hf & Hv & Hs & _); auto.
    - left. now left.
    - rewrite (Hs (fun _ _ _ => eq_refl)) in E. exists ths. auto.
  Qed.

  (** C25. *)
  Lemma vcl_region_visits (old pos : P -> R3) g behavior numThreads nOwned nHandler T valid mark decide (st : Store P) schedule margin lo hi :
    loopThreads behavior numThreads T -> inTowers ownership old g (cells st) ->
    vclBuffers ownership nOwned nHandler valid (buffers st) -> (forall x, ownership (mark x) = 0) ->
    vclGather behavior nOwned nHandler valid st <> [] \/ (forall t seen x, decide t seen x = false) ->
    allowedSchedule decide T schedule ->
    (forall l x, In l (cells st) -> In x l -> movedWithin old pos margin x) ->
    exists region, (forall x, region x = true <-> inBox lo hi (pos x) /\ inBox (shift (gMin g) (- gIL g)) (shift (gMax g) (gIL g)) (pos x)) /\
      iterationCorrectBy (vclGather behavior nOwned nHandler valid) ownership behavior T region
        (vclRegionConf ownership behavior numThreads g (size (cells st)) mark pos margin (clampLow (gIL g) (gMin g) lo) (clampHigh (gIL g) (gMax g) hi))
        (Some mark) decide st schedule.
  Proof.
    intros HL It Vb Hm Hg Ha Hmv. exists (fun x => inBoxb (clampLow (gIL g) (gMin g) lo) (clampHigh (gIL g) (gMax g) hi) (pos x)). split.
    - intros x. rewrite inBoxb_clamp. apply region_iff.
    - apply (vcl_region ownership old); auto.
  Qed.
End Props.

Lemma no_toAdd n : forall (ls : list (list Particle)), (forall l, In l (repeat (@nil Particle) n ++ ls) -> In l ls \/ l = []).
Proof. intros ls l H. apply in_app_or in H. destruct H as [H|H]; [right; now apply repeat_spec in H|now left]. Qed.

Lemma rebuilt_buffers ownership nOwned (bufs : list (list Particle)) n : validBuffers ownership nOwned bufs ->
  size bufs + Z.of_nat n < sizeMax -> vclBuffers ownership nOwned (length bufs) true (bufs ++ repeat [] n).
Proof.
  intros V F. unfold vclBuffers. rewrite firstn_app, Nat.sub_diag, firstn_all, skipn_app, Nat.sub_diag, skipn_all. cbn [firstn skipn app].
  rewrite app_nil_r. split; [exact V|]. split; [rewrite app_length; lia|]. split.
  { unfold size in *. rewrite app_length, repeat_length. lia. }
  split; [|split].
  - intros l H. apply in_app_or in H. destruct H as [H|H]; [now apply V|]. apply repeat_spec in H. now subst l.
  - intros l x H X. apply repeat_spec in H. subst l. destruct X.
  - intros _ l H. now apply repeat_spec in H.
Qed.
Lemma repeat_nil_concat n : concat (repeat (@nil Particle) n) = [].
Proof. induction n; [reflexivity|]. cbn. assumption. Qed.

(** C23 and C25 from the particles before the rebuild. *)
Lemma rebuilt_visits_all sortZ cs bMin bMax il opt old toAdd behavior numThreads nOwned T n bufs schedule :
  let g := estimatedGrid bMin bMax il opt in
  let towers := map (finalTower sortZ cs g old toAdd) (seq 0 (numNew g)) in
  let st := mkStore (map collectAllActualParticles towers) (bufs ++ repeat [] n) in
  sortsByZ sortZ -> (0 < cs)%nat -> below bMin bMax -> (0 < il)%R -> (0 < opt)%R ->
  haloTowers il (sideLength (rx bMax - rx bMin) opt) = haloTowers il (sideLength (ry bMax - ry bMin) opt) ->
  (forall p, In p (before old toAdd) -> validState (pown p) /\ (pown p = 1 -> inBox bMin bMax (ppos p))) ->
  gNX g * gNY g < sizeMax -> size (before old toAdd) < sizeMax -> size bufs + Z.of_nat n < sizeMax ->
  loopThreads behavior numThreads T -> validBuffers pown nOwned bufs ->
  exists ths lost,
    runParallel (vclConf pown behavior numThreads g (size (cells st)) markDeleted) (vclGather behavior nOwned (length bufs) true)
      (fun _ _ _ => false) schedule st (repeat NotStarted T) = Some (st, ths) /\
    (fairSchedule T st schedule -> Forall finished ths) /\
    (Forall finished ths ->
     Permutation (visited T ths ++ lost) (filter (fun x => wantedb behavior (pown x)) (before old toAdd ++ concat bufs))) /\
    Forall (fun p => ~ inBox (haloMin g) (haloMax g) (ppos p)) lost.
Proof.
  intros g towers st S C B I O Sh St F1 F2 F3 HL Vb.
  assert (It : inTowers pown ppos g (cells st)) by (apply rebuilt_inTowers; auto).
  destruct (vcl_visits_all pown ppos g behavior numThreads nOwned (length bufs) T true markDeleted st schedule HL It) as (ths & E & Hf & Hv).
  { apply rebuilt_buffers; assumption. }
  { reflexivity. }
  destruct (rebuilt_keeps sortZ cs bMin bMax il opt old toAdd S C B I O Sh) as (lost & Fl & Pm). fold g towers in Fl, Pm.
  exists ths, (filter (fun x => wantedb behavior (pown x)) lost). split; [exact E|]. split; [exact Hf|]. split.
  - intros H. rewrite (Hv H). rewrite <- filter_app. apply filter_perm. unfold contents, st. cbn [cells buffers].
    rewrite concat_app, repeat_nil_concat, app_nil_r. rewrite <- Pm. rewrite <- !app_assoc. apply Permutation_app_head, Permutation_app_comm.
  - apply Forall_forall. intros p H. apply filter_In in H. destruct H as [H _]. rewrite Forall_forall in Fl. auto.
Qed.

Lemma rebuilt_region_visits sortZ cs bMin bMax il opt old toAdd (now : Particle -> Particle) behavior numThreads nOwned T n bufs schedule margin lo hi :
  let g := estimatedGrid bMin bMax il opt in
  let towers := map (finalTower sortZ cs g old toAdd) (seq 0 (numNew g)) in
  let st := mkStore (map collectAllActualParticles towers) (bufs ++ repeat [] n) in
  let ownership p := pown (now p) in
  sortsByZ sortZ -> (0 < cs)%nat -> below bMin bMax -> (0 < il)%R -> (0 < opt)%R ->
  haloTowers il (sideLength (rx bMax - rx bMin) opt) = haloTowers il (sideLength (ry bMax - ry bMin) opt) ->
  (forall p, In p (before old toAdd) -> validState (ownership p) /\ (ownership p = 1 -> inBox bMin bMax (ppos p))) ->
  gNX g * gNY g < sizeMax -> size (before old toAdd) < sizeMax -> size bufs + Z.of_nat n < sizeMax ->
  loopThreads behavior numThreads T -> validBuffers ownership nOwned bufs ->
  (forall p, In p (before old toAdd) -> movedWithin ppos (fun p => ppos (now p)) margin p) ->
  (forall p, pown p = 0 -> pown (now p) = 0) ->
  exists ths lost region,
    (forall p, region p = true <-> inBox lo hi (ppos (now p)) /\ inBox (haloMin g) (haloMax g) (ppos (now p))) /\
    runParallel (vclRegionConf ownership behavior numThreads g (size (cells st)) markDeleted (fun p => ppos (now p)) margin
        (clampLow il bMin lo) (clampHigh il bMax hi)) (vclGather behavior nOwned (length bufs) true)
      (fun _ _ _ => false) schedule st (repeat NotStarted T) = Some (st, ths) /\
    (fairSchedule T st schedule -> Forall finished ths) /\
    (Forall finished ths ->
     Permutation (visited T ths ++ lost) (filter (fun x => region x && wantedb behavior (ownership x)) (before old toAdd ++ concat bufs))) /\
    Forall (fun p => ~ inBox (haloMin g) (haloMax g) (ppos p)) lost.
Proof.
  intros g towers st ownership S C B I O Sh Sta F1 F2 F3 HL Vb Mv Mk0. assert (Mk : forall x, ownership (markDeleted x) = 0) by (intros x; apply Mk0; reflexivity).
  assert (It : inTowers ownership ppos g (cells st)) by (apply rebuilt_inTowers; auto).
  destruct (rebuilt_keeps sortZ cs bMin bMax il opt old toAdd S C B I O Sh) as (lost & Fl & Pm). fold g towers in Fl, Pm.
  destruct (vcl_region_visits ownership ppos (fun p => ppos (now p)) g behavior numThreads nOwned (length bufs) T true markDeleted (fun _ _ _ => false) st schedule margin lo hi HL It)
    as (region & Rg & st' & ths & E & Hf & Hv & Hs & _); auto.
  { apply rebuilt_buffers; assumption. }
  { now left. }
  { intros l x L X. apply Mv. apply (Permutation_in _ Pm). apply in_or_app. left. apply in_concat. now exists l. }
  rewrite (Hs (fun _ _ _ => eq_refl)) in E.
  exists ths, (filter (fun x => region x && wantedb behavior (ownership x)) lost), region. split; [|split; [exact E|split; [exact Hf|split]]].
  - intros p. rewrite Rg. unfold haloMin, haloMax, shift. cbn [g estimatedGrid gMin gMax gIL rx ry rz]. unfold inBox. cbn [rx ry rz]. lra.
  - intros H. rewrite (Hv H). rewrite <- filter_app. apply filter_perm. unfold contents, st. cbn [cells buffers].
    rewrite concat_app, repeat_nil_concat, app_nil_r. rewrite <- Pm. rewrite <- !app_assoc. apply Permutation_app_head, Permutation_app_comm.
  - apply Forall_forall. intros p H. apply filter_In in H. destruct H as [H _]. rewrite Forall_forall in Fl. auto.
Qed.
