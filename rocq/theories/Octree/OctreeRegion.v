(** Which nodes are relevant for the octree iterator, with and without a region. *)
From Coq Require Import Reals Lra.
From Verif.Base Require Import ZRange Lists.
From Verif.Functor Require Import SortModel SortSpec.
From Verif.Grid Require Import CellBlockModel CellBlockSpec.
From Verif.Container Require Import IteratorModel IteratorContainers IteratorSpec IteratorLemmas IteratorSearch IteratorSteps IteratorParallel IteratorInstances IteratorRegion
  IteratorRestart IteratorGenericModel IteratorGeneric IteratorPadded.
From Verif.Cluster Require Import ClusterIterate.
From Verif.Octree Require Import DirectionModel OctreeModel OctreeSpec OctreeBase OctreeInsert OctreeTouch OctreeIteratorModel OctreeIterateSpec OctreeWalk OctreeNumbers OctreeIterate.
Local Open Scope Z_scope.

Section Trees.
  Context {P : Type}.
  Notation Tree := (Tree P).

  Lemma changeBelow_changed f : (forall ps, incl (f ps) ps) -> forall (t : Tree) k t', changeBelow t k f = Some t' -> changed t t'.
  Proof.
    intros Hf. fix IH 1. intros [lo hi ps|lo hi cs] k t' E.
    - injection E as <-. now constructor.
    - rewrite changeBelow_inner in E.
      assert (G : forall n c, nth_error cs n = Some c -> forall c', changeBelow c (k / 10) f = Some c' -> changed c c').
      { clear E. revert cs. fix IHc 1. intros [|c0 cs] [|n] c E; cbn in E; try discriminate; [injection E as <-; intros c'; apply IH|now apply (IHc cs n)]. }
      destruct (nth_error cs (Z.to_nat (k mod 10))) as [c|] eqn:Ec; [|discriminate].
      destruct (changeBelow c (k / 10) f) as [c'|] eqn:E'; [|discriminate]. injection E as <-. apply (changedInner _ _ _ _ c); [exact Ec|]. now apply (G _ _ Ec).
  Qed.

  Lemma setAt_nth {A} (l : list A) i y j z : nth_error (setAt l i y) j = Some z -> (i = j /\ z = y) \/ nth_error l j = Some z.
  Proof.
    revert i j. induction l as [|a l IH]; intros [|i] [|j] E; cbn in E; try discriminate; auto.
    - injection E as <-. now left.
    - destruct (IH i j E) as [[-> ->]|H]; auto.
  Qed.

  (** The numbers of the leaves. *)
  Lemma depth_paths (t : Tree) : full t -> forall idx q ps, In (q, ps) (leafList t idx) -> (length q <= length idx + depth t)%nat.
  Proof using.
    induction 1 as [l0 h0 ps0|lo hi cs L F IH]; intros idx q ps I.
    - destruct I as [I|[]]. injection I as <- <-. rewrite ?rev_length. lia.
    - rewrite leafList_inner in I. cbn [depth]. clear L.
      assert (G : forall i, In (q, ps) (childLists idx cs i) -> (length q <= S (length idx) + fold_right (fun c n => Nat.max (depth c) n) 0%nat cs)%nat).
      { clear I. induction cs as [|c cs IHc]; intros i I; [destruct I|]. cbn [childLists fold_right] in *. apply in_app_or in I. destruct I as [I|I].
        - apply (IH c (or_introl eq_refl)) in I. cbn [length] in I. lia.
        - apply IHc in I; [lia| |]; intros d D; [apply F|apply IH]; now right. }
      specialize (G _ I). lia.
  Qed.

  Lemma fits_paths T (ts : Trees P) : fullTrees ts -> otFits T ts ->
    depthOk ts /\ (forall q ps, In (q, ps) (allLeaves ts) -> size ps < sizeMax) /\ Z.of_nat T * Z.of_nat (length (allLeaves ts)) < sizeMax.
  Proof using.
    intros [F1 F2] (D1 & D2 & S1 & S2 & M). split; [|split].
    - intros q ps I. unfold allLeaves in I. apply in_app_or in I. destruct I as [I|I]; apply depth_paths in I; auto; cbn [length] in I; lia.
    - assert (G : forall (t : Tree) idx q ps, full t -> In (q, ps) (leafList t idx) -> size ps <= size (collectAllParticles t)).
      { intros t idx q ps F I. rewrite <- (leafList_collect t idx F). apply (in_map snd) in I. cbn in I. unfold size. apply in_split in I. destruct I as (a & b & ->).
        rewrite concat_app. cbn [concat]. rewrite !app_length. lia. }
      intros q ps I. unfold allLeaves in I. apply in_app_or in I. destruct I as [I|I]; apply G in I; auto; lia.
    - unfold allLeaves. rewrite app_length, <- (countLeaves_list _ [0%nat] F1), <- (countLeaves_list _ [1%nat] F2). exact M.
  Qed.

  Lemma nonEmpty_good fulfilling (t : Tree) : full t -> good nonEmptyNode fulfilling t.
  Proof using.
    induction 1 as [lo hi ps|lo hi cs L F IH].
    - constructor. intros x X _. unfold nonEmptyNode. cbn [nodeSize]. destruct ps; [destruct X|]. cbn. lia.
    - assert (E : nodeSize (Inner lo hi cs) = size (flat_map collectAllParticles cs)) by (exact (nodeSize_collect (Inner lo hi cs) ltac:(now constructor))).
      constructor; auto.
      + intros x X _. unfold nonEmptyNode. rewrite E. destruct (flat_map _ cs); [destruct X|]. cbn. lia.
      + unfold nonEmptyNode at 1. rewrite E. intros H. destruct (flat_map collectAllParticles cs) as [|x l] eqn:Ef; [discriminate H|].
        assert (X : In x (flat_map collectAllParticles cs)) by (rewrite Ef; now left). apply in_flat_map in X. destruct X as (c & C & X).
        exists c. split; [exact C|]. unfold nonEmptyNode. rewrite nodeSize_collect by now apply F. destruct (collectAllParticles c); [destruct X|]. cbn. lia.
  Qed.

  Lemma changedTrees_full (ts ts' : Trees P) : fullTrees ts -> changedTrees ts ts' -> fullTrees ts'.
  Proof using.
    intros [F1 F2] [[C1 C2]|[C1 C2]]; split.
    - now apply (changed_full (fst ts)).
    - now rewrite C2.
    - now rewrite C1.
    - now apply (changed_full (snd ts)).
  Qed.

  Variable rnd : R -> R.
  Variable il : R.
  Lemma changed_wf (t t' : Tree) : changed t t' -> wf rnd il t -> wf rnd il t'.
  Proof.
    induction 1 as [|lo hi cs i c c' E C IH]; intros W; [constructor|]. inversion W as [|? ? ? L B Wc T]; subst. constructor.
    - now rewrite setAt_length.
    - intros j d D. apply setAt_nth in D. destruct D as [[-> ->]|D]; [|now apply B]. destruct (changed_box c c' C) as [-> ->]. now apply B.
    - intros j d D. apply setAt_nth in D. destruct D as [[-> ->]|D]; [apply IH; now apply (Wc j)|now apply (Wc j)].
    - exact T.
  Qed.
  Lemma changed_placed (pos : P -> R3) (t t' : Tree) : changed t t' -> placed pos t -> placed pos t'.
  Proof.
    induction 1 as [lo hi ps ps' I|lo hi cs i c c' E C IH]; intros Pl.
    - inversion Pl as [? ? ? F|]; subst. constructor. rewrite Forall_forall in *. intros x X. apply F. now apply I.
    - inversion Pl as [|? ? ? F]; subst. constructor. rewrite Forall_forall in *. intros d D. apply setAt_in in D. destruct D as [->|D]; [|now apply F].
      apply IH, F. now apply nth_error_In in E.
  Qed.
  Lemma wf_full (t : Tree) : wf rnd il t -> full t.
  Proof.
    induction 1 as [|lo hi cs L B W IH T]; constructor; [exact L|]. intros c C. apply In_nth_error in C. destruct C as [i E]. now apply (IH i).
  Qed.

  Lemma stored_good pos threshold lo hi (t : Tree) : storedIn pos rnd threshold il lo hi t ->
    wf rnd il t /\ placed pos t /\ boxMin t = lo /\ boxMax t = hi.
  Proof.
    induction 1 as [|t p fuel t' S (W & Pl & A & B) I E|t k i t' S (W & Pl & A & B) E].
    - repeat split; constructor; constructor.
    - destruct (insert_preserves pos rnd threshold il fuel _ _ _ W E) as (W' & A' & B'). rewrite <- A, <- B in I.
      destruct (insert_keeps pos rnd threshold il fuel _ _ _ W Pl I E) as (Pl' & _). repeat split; congruence || assumption.
    - apply (changeBelow_changed _ (fun ps => swapDelete_incl ps i)) in E. destruct (changed_box _ _ E) as [A' B'].
      split; [now apply (changed_wf t)|]. split; [now apply (changed_placed pos t)|]. split; congruence.
  Qed.
  Lemma grown_good threshold lo hi (t : Tree) : grownIn rnd threshold il lo hi t -> wf rnd il t.
  Proof.
    induction 1 as [|pos t p fuel t' S W E|t k i t' S W E].
    - constructor.
    - now destruct (insert_preserves pos rnd threshold il fuel _ _ _ W E) as (W' & A' & B').
    - apply (changeBelow_changed _ (fun ps => swapDelete_incl ps i)) in E. now apply (changed_wf t).
  Qed.

  (** ** Regions *)
  Variable M eps : R.
  Variable old pos : P -> R3.
  Variable margin : R.
  Variable hMin hMax lo hi : R3.
  Hypothesis Hm : (0 <= margin)%R.
  Hypothesis Hlh : below lo hi.
  Notation rlo := (regionLow hMin lo).
  Notation rhi := (regionHigh hMax hi).

  Lemma overlap_iff a b c d : boxesOverlap a b c d = true <->
    (rx c < rx b /\ rx a < rx d /\ ry c < ry b /\ ry a < ry d /\ rz c < rz b /\ rz a < rz d)%R.
  Proof using.
    unfold boxesOverlap. repeat match goal with |- context [Rlt_dec ?u ?v] => destruct (Rlt_dec u v) end; cbn; split; intros H; try discriminate H; try reflexivity; lra.
  Qed.

  Lemma side (a b c l h hl hh : R) : (hl <= a)%R -> (b <= hh)%R -> (a < c < b)%R -> (l < h)%R ->
    (Rmax l hl + - margin < b)%R -> (a < Rmin h hh + margin)%R ->
    (Rmax l hl + - margin < c)%R \/ (c < Rmin h hh + margin)%R.
  Proof using Hm.
    intros. unfold Rmax, Rmin in *. destruct (Rle_dec l hl), (Rle_dec h hh); lra.
  Qed.

  Lemma region_good (fulfilling : P -> bool) (t : Tree) :
    (forall x, fulfilling x = true -> inBox rlo rhi (pos x)) ->
    (forall x, In x (collectAllParticles t) -> movedWithin old pos margin x) ->
    wf rnd il t -> solidLeaves t -> placed old t -> within (boxMin t) (boxMax t) hMin hMax ->
    good (overlappingNode margin rlo rhi) fulfilling t.
  Proof using Hm Hlh.
    intros Hf Hmv W. induction W as [blo bhi ps|blo bhi cs L B W IH T]; intros So Pl Wi.
    - constructor. intros x X Fx. inversion Pl as [? ? ? F|]; subst. rewrite Forall_forall in F. unfold overlappingNode. cbn [boxMin boxMax].
      destruct (moved_corners old pos margin x _ _ (Hmv x X) (Hf x Fx)) as (K1 & _ & K2). apply (overlap_at _ _ _ _ (old x)); auto.
    - pose proof (wfInner rnd il blo bhi cs L B W T) as Wt. constructor; [exact L| | |].
      + intros x X Fx. unfold overlappingNode. cbn [boxMin boxMax]. destruct (moved_corners old pos margin x _ _ (Hmv x X) (Hf x Fx)) as (K1 & _ & K2).
        apply (overlap_at _ _ _ _ (old x)); auto. apply (placed_in old rnd il (Inner blo bhi cs)); auto.
      + unfold overlappingNode at 1. rewrite overlap_iff. cbn [boxMin boxMax]. unfold shift, regionLow, regionHigh. cbn [rx ry rz].
        intros (A1 & A2 & A3 & A4 & A5 & A6). destruct (solid_inner rnd il blo bhi cs Wt So) as (Cx & Cy & Cz). destruct Wi as (Wx & Wy & Wz). destruct Hlh as (Bx & By & Bz).
        cbn [boxMin boxMax] in *.
        assert (Sx := side _ _ _ _ _ _ _ (proj1 Wx) (proj2 Wx) Cx Bx A1 A2).
        assert (Sy := side _ _ _ _ _ _ _ (proj1 Wy) (proj2 Wy) Cy By A3 A4).
        assert (Sz := side _ _ _ _ _ _ _ (proj1 Wz) (proj2 Wz) Cz Bz A5 A6).
        assert (exists v, (if vx v then center rnd (rx blo) (rx bhi) < Rmin (rx hi) (rx hMax) + margin else Rmax (rx lo) (rx hMin) + - margin < center rnd (rx blo) (rx bhi))%R /\
          (if vy v then center rnd (ry blo) (ry bhi) < Rmin (ry hi) (ry hMax) + margin else Rmax (ry lo) (ry hMin) + - margin < center rnd (ry blo) (ry bhi))%R /\
          (if vz v then center rnd (rz blo) (rz bhi) < Rmin (rz hi) (rz hMax) + margin else Rmax (rz lo) (rz hMin) + - margin < center rnd (rz blo) (rz bhi))%R) as (v & Vx & Vy & Vz).
        { destruct Sx as [Sx|Sx], Sy as [Sy|Sy], Sz as [Sz|Sz];
          [exists LDB|exists LDF|exists LUB|exists LUF|exists RDB|exists RDF|exists RUB|exists RUF]; cbn [vx vy vz]; auto. }
        destruct (son_exists rnd il blo bhi cs v Wt) as (c & Ec). cbn [SON] in Ec. destruct (B _ _ Ec) as [B1 B2].
        exists c. split; [now apply nth_error_In in Ec|]. unfold overlappingNode. rewrite overlap_iff, B1, B2. unfold childMin, childMax, shift. cbn [rx ry rz].
        destruct (index_bits v) as (-> & -> & ->). destruct (vx v), (vy v), (vz v); cbv iota in *; lra.
      + intros c C. apply In_nth_error in C. destruct C as [i E]. assert (Hi : (i < 8)%nat) by (rewrite <- L; apply nth_error_Some; congruence).
        destruct (index_surj i Hi) as [v <-]. assert (Es : SON (Inner blo bhi cs) v = Some c) by exact E.
        apply (IH _ _ E).
        * intros x X. apply Hmv. cbn [collectAllParticles]. apply in_flat_map. exists c. split; [now apply nth_error_In in E|exact X].
        * exact (solid_son _ c v So Es).
        * inversion Pl as [|? ? ? F]; subst. rewrite Forall_forall in F. apply F. now apply nth_error_In in E.
        * pose proof (son_within rnd il _ c v Wt So Es) as K. unfold within in *. lra.
  Qed.
End Trees.

Section Theorems.
  Context {P : Type}.
  Variable ownership : P -> Z.

  Theorem octree_iterates rnd threshold il bMin bMax hMin hMax behavior numThreads nOwned T decide (st : GStore P (Trees P)) schedule :
    loopThreads behavior numThreads T ->
    grownIn rnd threshold il bMin bMax (fst (gContainer st)) -> grownIn rnd threshold il hMin hMax (snd (gContainer st)) ->
    otPlaced ownership (gContainer st) -> otFits T (gContainer st) -> validBuffers ownership nOwned (gBuffers st) ->
    gatherBuffers behavior nOwned (gBuffers st) <> [] \/ (forall t seen x, decide t seen x = false) -> allowedSchedule decide T schedule ->
    otIterationCorrect ownership behavior nOwned T (fun _ => true) (otAccess ownership behavior) (otConf ownership behavior numThreads) decide st schedule.
  Proof.
    intros HL G1 G2 Pl Fi Vb Hg Ha. destruct st as [ts bufs]. cbn [gContainer gBuffers] in *.
    assert (F : fullTrees ts) by (split; eapply wf_full, grown_good; eassumption). destruct (fits_paths T ts F Fi) as (D & Sm & Mx).
    apply (ot_iterate behavior numThreads T HL nonEmptyNode (fun x => fulfills behavior true (ownership x)) fullTrees) with (ts0 := ts); auto.
    - intros ts1 [A B]. split; now apply nonEmpty_good.
    - exact changedTrees_full.
  Qed.

  Theorem octree_visits rnd threshold il bMin bMax hMin hMax behavior numThreads nOwned T (st : GStore P (Trees P)) schedule :
    loopThreads behavior numThreads T ->
    grownIn rnd threshold il bMin bMax (fst (gContainer st)) -> grownIn rnd threshold il hMin hMax (snd (gContainer st)) ->
    otPlaced ownership (gContainer st) -> otFits T (gContainer st) -> validBuffers ownership nOwned (gBuffers st) ->
    exists ths,
      gRunParallel (otAccess ownership behavior) (otConf ownership behavior numThreads) (gatherBuffers behavior nOwned)
        (fun _ _ _ => false) schedule st (repeat NotStarted T) = Some (st, ths) /\
      ((forall t, (t < T)%nat -> (length (otContents st) + 1 < count_occ Nat.eq_dec schedule t)%nat) -> Forall finished ths) /\
      (Forall finished ths -> Permutation (visited T ths) (filter (fun x => wantedb behavior (ownership x)) (otContents st))).
  Proof.
    intros HL G1 G2 Pl Fi Vb.
    destruct (octree_iterates rnd threshold il bMin bMax hMin hMax behavior numThreads nOwned T (fun _ _ _ => false) st schedule HL G1 G2 Pl Fi Vb) as (st' & ths & E & R1 & R2 & R3 & _).
    - right. reflexivity.
    - left. reflexivity.
    - rewrite (R3 (fun _ _ _ => eq_refl)) in E. exists ths. auto.
  Qed.

  Theorem octree_restarts rnd threshold il bMin bMax hMin hMax behavior numThreads nOwned T d (st : GStore P (Trees P)) schedule :
    loopThreads behavior numThreads T ->
    grownIn rnd threshold il bMin bMax (fst (gContainer st)) -> grownIn rnd threshold il hMin hMax (snd (gContainer st)) ->
    otPlaced ownership (gContainer st) -> otFits T (gContainer st) -> validBuffers ownership nOwned (gBuffers st) ->
    gatherBuffers behavior nOwned (gBuffers st) = [] ->
    otIterationOrRestart ownership behavior nOwned T (fun _ => true) (otAccess ownership behavior) (otConf ownership behavior numThreads) d st schedule.
  Proof.
    intros HL G1 G2 Pl Fi Vb Hg. destruct st as [ts bufs]. cbn [gContainer gBuffers] in *.
    assert (F : fullTrees ts) by (split; eapply wf_full, grown_good; eassumption). destruct (fits_paths T ts F Fi) as (D & Sm & Mx).
    apply (ot_restart behavior numThreads T HL nonEmptyNode (fun x => fulfills behavior true (ownership x)) fullTrees) with (ts0 := ts); auto.
    - intros ts1 [A B]. split; now apply nonEmpty_good.
    - exact changedTrees_full.
  Qed.

  Lemma clamp_region hMin hMax lo hi x : inBoxb (regionLow hMin lo) (regionHigh hMax hi) x = inBoxb lo hi x && inBoxb hMin hMax x.
  Proof.
    pose proof (inBoxb_clamp 0 hMin hMax lo hi x) as E. unfold clampLow, clampHigh, shift in E. rewrite Ropp_0, !Rplus_0_r, !Rminus_0_r in E.
    destruct hMin, hMax. exact E.
  Qed.

  Theorem octree_region rnd M eps threshold il (old pos : P -> R3) bMin bMax hMin hMax behavior numThreads nOwned T decide (st : GStore P (Trees P)) schedule margin lo hi :
    loopThreads behavior numThreads T ->
    precise rnd M eps il bMin bMax -> precise rnd M eps il hMin hMax -> inClosedBox hMin hMax bMin -> inClosedBox hMin hMax bMax ->
    storedIn old rnd threshold il bMin bMax (fst (gContainer st)) -> storedIn old rnd threshold il hMin hMax (snd (gContainer st)) ->
    otPlaced ownership (gContainer st) -> otFits T (gContainer st) -> validBuffers ownership nOwned (gBuffers st) ->
    gatherBuffers behavior nOwned (gBuffers st) <> [] \/ (forall t seen x, decide t seen x = false) -> allowedSchedule decide T schedule ->
    (0 <= margin)%R -> below lo hi ->
    (forall x, In x (collectAllParticles (fst (gContainer st)) ++ collectAllParticles (snd (gContainer st))) -> movedWithin old pos margin x) ->
    exists region, (forall x, region x = true <-> inBox lo hi (pos x) /\ inBox hMin hMax (pos x)) /\
      otIterationCorrect ownership behavior nOwned T region
        (otRegionAccess ownership behavior pos margin (regionLow hMin lo) (regionHigh hMax hi))
        (otRegionConf ownership behavior numThreads pos (regionLow hMin lo) (regionHigh hMax hi)) decide st schedule.
  Proof.
    intros HL P1 P2 L1 L2 S1 S2 Pl Fi Vb Hg Ha Hm Hlh Hmv. destruct st as [ts bufs]. cbn [gContainer gBuffers] in *.
    destruct (stored_good rnd il old threshold _ _ _ S1) as (W1 & Q1 & A1 & B1). destruct (stored_good rnd il old threshold _ _ _ S2) as (W2 & Q2 & A2 & B2).
    assert (F : fullTrees ts) by (split; eapply wf_full; eassumption). destruct (fits_paths T ts F Fi) as (D & Sm & Mx).
    exists (fun x => inBoxb (regionLow hMin lo) (regionHigh hMax hi) (pos x)). split.
    { intros x. rewrite clamp_region, andb_true_iff, !OctreeInsert.inBoxb_iff. reflexivity. }
    destruct P1 as (Ac & E1 & E2 & E3 & U1 & D1). destruct P2 as (_ & _ & _ & _ & U2 & D2).
    set (sound := fun t : Tree P => wf rnd il t /\ placed old t /\ forall x, In x (collectAllParticles t) -> movedWithin old pos margin x).
    assert (Ch : forall t t', changed t t' -> sound t -> sound t').
    { intros t t' C (X & Y & Z). split; [now apply (changed_wf rnd il t)|]. split; [now apply (changed_placed old t)|]. intros x I. apply Z. exact (changed_incl t t' C x I). }
    set (Inv := fun u : Trees P => (sound (fst u) /\ boxMin (fst u) = bMin /\ boxMax (fst u) = bMax) /\ (sound (snd u) /\ boxMin (snd u) = hMin /\ boxMax (snd u) = hMax)).
    apply (ot_iterate behavior numThreads T HL (overlappingNode margin (regionLow hMin lo) (regionHigh hMax hi))
      (fun x => fulfills behavior (inBoxb (regionLow hMin lo) (regionHigh hMax hi) (pos x)) (ownership x)) Inv) with (ts0 := ts); auto.
    - assert (Hf : forall x, fulfills behavior (inBoxb (regionLow hMin lo) (regionHigh hMax hi) (pos x)) (ownership x) = true ->
        inBox (regionLow hMin lo) (regionHigh hMax hi) (pos x)).
      { intros x Fx. apply OctreeInsert.inBoxb_iff. unfold fulfills in Fx. destruct (inBoxb _ _ _); [reflexivity|discriminate]. }
      intros u (((X1 & Y1 & Z1) & K1 & K2) & ((X2 & Y2 & Z2) & K3 & K4)). split; apply (region_good rnd il old pos); auto.
      + apply (wf_precise rnd il M eps); auto; rewrite K1, K2; assumption.
      + rewrite K1, K2. unfold within, inClosedBox in *. lra.
      + apply (wf_precise rnd il M eps); auto; rewrite K3, K4; assumption.
      + rewrite K3, K4. unfold within. lra.
    - intros u u' ((X1 & Y1 & Z1) & X2 & Y2 & Z2) [[C1 C2]|[C1 C2]].
      + destruct (changed_box _ _ C1) as [E4 E5]. rewrite <- E4 in Y1. rewrite <- E5 in Z1. unfold Inv. rewrite C2. pose proof (Ch _ _ C1 X1). exact (conj (conj H (conj Y1 Z1)) (conj X2 (conj Y2 Z2))).
      + destruct (changed_box _ _ C2) as [E4 E5]. rewrite <- E4 in Y2. rewrite <- E5 in Z2. unfold Inv. rewrite C1. pose proof (Ch _ _ C2 X2). exact (conj (conj X1 (conj Y1 Z1)) (conj H (conj Y2 Z2))).
    - assert (M1 : sound (fst ts)) by (split; [assumption|split; [assumption|]]; intros x I; apply Hmv, in_or_app; now left).
      assert (M2 : sound (snd ts)) by (split; [assumption|split; [assumption|]]; intros x I; apply Hmv, in_or_app; now right).
      exact (conj (conj M1 (conj A1 B1)) (conj M2 (conj A2 B2))).
  Qed.
End Theorems.
