(** Iteration over an octree with a particle that left its leaf, and over a degenerate region. *)
From Coq Require Import Reals Lra Permutation.
From Verif.Base Require Import ZRange OptionM.
From Verif.Functor Require Import SortModel SortSpec.
From Verif.Grid Require Import CellBlockModel CellBlockSpec.
From Verif.Container Require Import IteratorModel IteratorContainers IteratorSpec ParticleModel IteratorGenericModel.
From Verif.Octree Require Import DirectionModel OctreeModel OctreeSpec OctreeBase OctreeAxis OctreeTouch OctreeInsert OctreeDouble OctreeProps OctreeExample
  OctreeContainerModel OctreeContainer OctreeContainerExample OctreeIteratorModel OctreeIterateSpec OctreeWalk OctreeRegion.
Local Open Scope Z_scope.

Lemma built_stored {P} (pos : P -> R3) rnd threshold il lo hi ps t : builtBy pos rnd threshold il lo hi ps t -> storedIn pos rnd threshold il lo hi t.
Proof. induction 1; econstructor; eassumption. Qed.
Lemma stored_grown {P} (pos : P -> R3) rnd threshold il lo hi t : storedIn pos rnd threshold il lo hi t -> grownIn rnd threshold il lo hi t.
Proof. induction 1; econstructor; eassumption. Qed.

Definition oxC : Particle := mkParticle 3 (exP (9 / 2)) 2 0.
Definition oxOuter : Tree Particle := Leaf (exP (-1)) (exP 5) [oxC].
Lemma outer_built : builtBy ppos rndExact 1 1 (exP (-1)) (exP 5) [oxC] oxOuter.
Proof.
  apply (builtInsert ppos rndExact 1 1 (exP (-1)) (exP 5) [] (Leaf (exP (-1)) (exP 5) []) oxC 5); [constructor|unfold oxC, inBox, exP; cbn; lra|reflexivity].
Qed.
(** A tree from which the particle was deleted again. *)
Lemma ox_stored : storedIn ppos rndExact 1 1 exLo exHi oxTree /\ exists t, changeBelow oxTree 0 (fun ps => swapDelete ps 0) = Some t /\ storedIn ppos rndExact 1 1 exLo exHi t /\
  collectAllParticles t = [oxB].
Proof.
  pose proof (built_stored _ _ _ _ _ _ _ _ ox_built) as H. split; [exact H|]. eexists. split; [reflexivity|]. split; [|reflexivity].
  apply (storedDelete ppos rndExact 1 1 exLo exHi oxTree 0 0); [exact H|reflexivity].
Qed.

Definition oxStore : GStore Particle (Trees Particle) := mkGStore (oxTree, oxOuter) [[mkParticle 4 (exP 1) 1 0]; []].

Lemma ox_fits T : (T <= 8)%nat -> otFits T (oxTree, oxOuter).
Proof.
  intros H. unfold otFits, sizeMax. cbn [fst snd]. change (countLeaves oxTree + countLeaves oxOuter)%nat with 9%nat. change (depth oxTree) with 1%nat.
  change (depth oxOuter) with 0%nat. change (size (collectAllParticles oxTree)) with 2. change (size (collectAllParticles oxOuter)) with 1. unfold sizeMod. repeat split; lia.
Qed.
Lemma ox_placed : otPlaced pown (oxTree, oxOuter).
Proof.
  split; cbn [fst snd]; intros x I; cbn in I.
  - destruct I as [<-|[<-|[]]]; cbn; unfold validState; lia.
  - destruct I as [<-|[]]; cbn; unfold validState; lia.
Qed.

Lemma ox_iterate : loopThreads 3 2 2 /\ grownIn rndExact 1 1 exLo exHi (fst (gContainer oxStore)) /\
  grownIn rndExact 1 1 (exP (-1)) (exP 5) (snd (gContainer oxStore)) /\ otPlaced pown (gContainer oxStore) /\ otFits 2 (gContainer oxStore) /\
  validBuffers pown 1 (gBuffers oxStore) /\ gatherBuffers 3 1 (gBuffers oxStore) <> [] /\
  allowedSchedule (fun _ _ p => pid p =? 1) 2 ([1; 0] ++ concat (repeat [0; 1] 8))%nat.
Proof.
  split; [split; [lia|]; left; split; [unfold plainBehavior; tauto|reflexivity]|].
  split; [apply (stored_grown ppos), ox_stored|]. split; [apply (stored_grown ppos), (built_stored _ _ _ _ _ _ _ _ outer_built)|].
  split; [exact ox_placed|]. split; [apply ox_fits; lia|]. split.
  - split; [cbn; lia|]. split; [reflexivity|]. split.
    + intros l [<-|[<-|[]]]; reflexivity.
    + intros b l p E I. destruct b as [|[|b]]; cbn in E; [| |destruct b; discriminate]; injection E as <-; [|destruct I].
      destruct I as [<-|[]]. cbn. unfold validState. lia.
  - split; [discriminate|]. right. exists [1; 0]%nat, (concat (repeat [0; 1] 8))%nat. split; [cbn; apply perm_swap|reflexivity].
Qed.

Lemma ox_region_moved : exists M, precise rndExact M 0 1 exLo exHi /\ precise rndExact M 0 1 (exP (-1)) (exP 5) /\
  inClosedBox (exP (-1)) (exP 5) exLo /\ inClosedBox (exP (-1)) (exP 5) exHi /\
  storedIn ppos rndExact 1 1 exLo exHi (fst (gContainer oxStore)) /\ storedIn ppos rndExact 1 1 (exP (-1)) (exP 5) (snd (gContainer oxStore)) /\
  (forall p, In p (collectAllParticles (fst (gContainer oxStore)) ++ collectAllParticles (snd (gContainer oxStore))) ->
     movedWithin ppos (fun p => ppos (oxMove p)) (1 / 4) p) /\
  below (exP 2) (exP (5 / 2)) /\ In oxA (otContents oxStore) /\ inBox (exP 2) (exP (5 / 2)) (ppos (oxMove oxA)) /\ ~ inBox (exP 2) (exP (5 / 2)) (ppos oxA).
Proof.
  exists 5%R. assert (A : accurate rndExact 5 0).
  { intros x _. unfold rndExact. replace (x - x)%R with 0%R by lra. rewrite Rabs_R0. lra. }
  split; [split; [exact A|]; unfold boxUpTo, below, exLo, exHi; cbn; lra|].
  split; [split; [exact A|]; unfold boxUpTo, below, exP; cbn; lra|].
  split; [unfold inClosedBox, exLo, exP; cbn; lra|]. split; [unfold inClosedBox, exHi, exP; cbn; lra|].
  split; [apply ox_stored|]. split; [exact (built_stored _ _ _ _ _ _ _ _ outer_built)|]. split.
  - assert (Ab : forall x y : R, (- (1 / 4) <= x - y <= 1 / 4)%R -> (Rabs (x - y) <= 1 / 4)%R) by (intros; apply Rabs_le; lra).
    intros p I. cbn in I. destruct I as [<-|[<-|[<-|[]]]]; unfold movedWithin, oxMove, oxA, oxB, oxC, exP; cbn [pid ppos rx ry rz Z.eqb Pos.eqb]; repeat split; apply Ab; lra.
  - split; [unfold below, exP; cbn; lra|]. split; [now left|]. unfold inBox, oxMove, oxA, exP; cbn [pid ppos rx ry rz Z.eqb Pos.eqb]. lra.
Qed.

(** ** A region without volume *)
Definition oxD : Particle := mkParticle 5 (exP (- (1 / 2))) 2 0.
Definition outerLeaf (i : nat) (ps : list Particle) : Tree Particle := Leaf (childMin rndExact (exP (-1)) (exP 5) i) (childMax rndExact (exP (-1)) (exP 5) i) ps.
Definition outerTree : Tree Particle :=
  Inner (exP (-1)) (exP 5) [outerLeaf 0 [oxD]; outerLeaf 1 []; outerLeaf 2 []; outerLeaf 3 []; outerLeaf 4 []; outerLeaf 5 []; outerLeaf 6 []; outerLeaf 7 [oxC]].
Ltac solveBoxO := unfold oxC, oxD, inBox, childMin, childMax, center, rndExact, exP; cbn [ppos rx ry rz Nat.testbit Nat.odd Nat.even Nat.div2 negb]; lra.
Ltac evalO := repeat (
  lazy beta iota zeta delta [insert insertFirst foldInsert newInner map seq boxMin boxMax length Nat.ltb Nat.leb app andb orb];
  match goal with
  | |- context [inBoxb ?l ?h ?x] => first [rewrite (inBoxb_f l h x) by solveBoxO | rewrite (inBoxb_t l h x) by solveBoxO]
  | |- context [tooSmall rndExact ?i ?l ?h] => first [rewrite (tooSmall_f i l h) by solveBoxO | rewrite (tooSmall_t i l h) by solveBoxO]
  end).
Lemma outerTree_built : builtBy ppos rndExact 1 1 (exP (-1)) (exP 5) [oxD; oxC] outerTree.
Proof.
  apply (builtInsert ppos rndExact 1 1 (exP (-1)) (exP 5) [oxD] (Leaf (exP (-1)) (exP 5) [oxD]) oxC 5); [|solveBoxO|].
  - apply (builtInsert ppos rndExact 1 1 (exP (-1)) (exP 5) [] (Leaf (exP (-1)) (exP 5) []) oxD 5); [constructor|solveBoxO|]. evalO. reflexivity.
  - evalO. reflexivity.
Qed.

Lemma no_relevant_child (rel : Tree Particle -> bool) ful : rel outerTree = true ->
  (forall i ps, (i < 8)%nat -> rel (outerLeaf i ps) = false) ->
  otGetParticle 3 rel ful 0 (Leaf exLo exHi [], outerTree) 0 0 = None.
Proof.
  intros H1 H2. unfold otGetParticle. cbn [Z.ltb Z.compare andb]. change (hasFlag 3 bhOwned) with true. cbn [negb andb Z.eqb].
  change (getLeafCellByIndex (Leaf exLo exHi [], outerTree) 0) with (Some ([0%nat], @nil Particle)). cbn [size length Z.of_nat Z.leb Z.compare].
  change (S (Z.to_nat (nodeSize (fst (Leaf exLo exHi (@nil Particle), outerTree)) + nodeSize (snd (Leaf exLo exHi [], outerTree))))) with 3%nat.
  cbn [otAdvance]. change (treesFuel (Leaf exLo exHi [], outerTree)) with 10%nat. cbn [findLeaf nodeOf]. cbn.
  rewrite H1. cbn. fold outerTree. unfold outerTree. cbn [descend]. rewrite !H2 by lia. reflexivity.
Qed.

Lemma degenerate_region : exists (st : GStore Particle (Trees Particle)) lo hi schedule,
  loopThreads 3 1 1 /\ storedIn ppos rndExact 1 1 exLo exHi (fst (gContainer st)) /\ storedIn ppos rndExact 1 1 (exP (-1)) (exP 5) (snd (gContainer st)) /\
  otPlaced pown (gContainer st) /\ otFits 1 (gContainer st) /\ validBuffers pown 1 (gBuffers st) /\
  (rx lo <= rx hi /\ ry lo < ry hi /\ rz lo < rz hi)%R /\ inBox (exP (-1)) (exP 5) lo /\ inBox (exP (-1)) (exP 5) hi /\
  gRunParallel (otRegionAccess pown 3 ppos 0 (regionLow (exP (-1)) lo) (regionHigh (exP 5) hi))
    (otRegionConf pown 3 1 ppos (regionLow (exP (-1)) lo) (regionHigh (exP 5) hi)) (gatherBuffers 3 1) (fun _ _ _ => false) schedule st (repeat NotStarted 1) = None.
Proof.
  exists (mkGStore (Leaf exLo exHi [], outerTree) [[]; []]), (mkR3 2 0 0), (mkR3 2 1 1), [0%nat]. cbn [gContainer gBuffers fst snd].
  split; [split; [lia|]; left; split; [unfold plainBehavior; tauto|reflexivity]|]. split; [constructor|].
  split; [exact (built_stored _ _ _ _ _ _ _ _ outerTree_built)|].
  split. { split; cbn [fst snd]; intros x I; cbn in I; [destruct I|]. destruct I as [<-|[<-|[]]]; cbn; unfold validState; lia. }
  split. { unfold otFits, sizeMax, sizeMod. cbn [fst snd]. change (countLeaves outerTree) with 8%nat. change (depth outerTree) with 1%nat.
           change (size (collectAllParticles outerTree)) with 2. cbn. repeat split; lia. }
  split. { split; [cbn; lia|]. split; [reflexivity|]. split.
    - intros l [<-|[<-|[]]]; reflexivity.
    - intros b l p E I. destruct b as [|[|b]]; cbn in E; [| |destruct b; discriminate]; injection E as <-; destruct I. }
  split; [cbn; lra|]. split; [unfold inBox, exP; cbn; lra|]. split; [unfold inBox, exP; cbn; lra|].
  assert (Hmax : forall a b : R, (b <= a)%R -> Rmax a b = a) by (intros; now apply Rmax_left).
  assert (Hmin : forall a b : R, (a <= b)%R -> Rmin a b = a) by (intros; now apply Rmin_left).
  assert (E1 : regionLow (exP (-1)) (mkR3 2 0 0) = mkR3 2 0 0) by (unfold regionLow, exP; cbn [rx ry rz]; rewrite !Hmax by lra; reflexivity).
  assert (E2 : regionHigh (exP 5) (mkR3 2 1 1) = mkR3 2 1 1) by (unfold regionHigh, exP; cbn [rx ry rz]; rewrite !Hmin by lra; reflexivity).
  rewrite E1, E2. cbn [gRunParallel repeat nth_error]. unfold gThreadStep, gBegin. cbn [Z.of_nat].
  assert (N : acGet (otRegionAccess pown 3 ppos 0 (mkR3 2 0 0) (mkR3 2 1 1) 0) (Leaf exLo exHi [], outerTree) 0 0 = None).
  { cbn [otRegionAccess acGet]. apply no_relevant_child.
    - unfold overlappingNode, outerTree. rewrite overlap_iff. unfold shift, exP. cbn [boxMin boxMax rx ry rz]. lra.
    - intros i ps Hi. unfold overlappingNode. apply Bool.not_true_iff_false. rewrite overlap_iff. unfold outerLeaf, childMin, childMax, shift, center, rndExact, exP.
      cbn [boxMin boxMax rx ry rz]. destruct (Nat.testbit i 2); lra. }
  unfold gFetch. cbn [inVectors vecIdx partIdx gContainer]. rewrite N. reflexivity.
Qed.
