(** An octree in which a particle moved, and one with a deleted particle. *)
From Coq Require Import Reals Lra Permutation.
From Verif.Base Require Import ZRange OptionM.
From Verif.Functor Require Import SortModel SortSpec.
From Verif.Grid Require Import CellBlockModel CellBlockSpec.
From Verif.Container Require Import IteratorModel IteratorContainers IteratorSpec LinkedCellsSpec ParticleModel ForEachModel ForEachProofs.
From Verif.Octree Require Import DirectionModel OctreeModel OctreeSpec OctreeBase OctreeAxis OctreeTouch OctreeInsert OctreeDouble OctreeProps OctreeContainerModel OctreeContainer OctreeExample.
Local Open Scope R_scope.

Definition oxA : Particle := mkParticle 1 (exP (15 / 8)) 1 0.
Definition oxB : Particle := mkParticle 2 (exP 3) 1 0.
(** [oxA] moves over the centre of the box. *)
Definition oxMove (p : Particle) : Particle := if (pid p =? 1)%Z then mkParticle 1 (exP (17 / 8)) (pown p) (pdata p) else p.
Definition oxHalo : Tree Particle := Leaf (exP (-1)) (exP 5) [].

Ltac solveBoxP := unfold oxA, oxB, inBox, childMin, childMax, center, rndExact, exLo, exHi, exP; cbn [ppos rx ry rz Nat.testbit Nat.odd Nat.even Nat.div2 negb]; lra.
Ltac evalP := repeat (
  lazy beta iota zeta delta [insert insertFirst foldInsert newInner map seq boxMin boxMax length Nat.ltb Nat.leb app andb orb];
  match goal with
  | |- context [inBoxb ?l ?h ?x] => first [rewrite (inBoxb_f l h x) by solveBoxP | rewrite (inBoxb_t l h x) by solveBoxP]
  | |- context [tooSmall rndExact ?i ?l ?h] => first [rewrite (tooSmall_f i l h) by solveBoxP | rewrite (tooSmall_t i l h) by solveBoxP]
  end).

Definition oxLeaf (i : nat) (ps : list Particle) : Tree Particle := Leaf (childMin rndExact exLo exHi i) (childMax rndExact exLo exHi i) ps.
Definition oxTree : Tree Particle :=
  Inner exLo exHi [oxLeaf 0 [oxA]; oxLeaf 1 []; oxLeaf 2 []; oxLeaf 3 []; oxLeaf 4 []; oxLeaf 5 []; oxLeaf 6 []; oxLeaf 7 [oxB]].

Lemma ox_built : builtBy ppos rndExact 1 1 exLo exHi [oxA; oxB] oxTree.
Proof.
  apply (builtInsert ppos rndExact 1 1 exLo exHi [oxA] (Leaf exLo exHi [oxA]) oxB 5); [|solveBoxP|].
  - apply (builtInsert ppos rndExact 1 1 exLo exHi [] (Leaf exLo exHi []) oxA 5); [constructor|solveBoxP|]. evalP. reflexivity.
  - evalP. reflexivity.
Qed.

Lemma encloses_f a b lo hi : rx b <= rx lo -> enclosesVolume rndExact a b lo hi = false.
Proof.
  intros H. unfold enclosesVolume, overlaps1, rndExact. destruct (Rlt_dec _ _) as [L|_]; [|reflexivity]. exfalso.
  revert L. unfold Rmin, Rmax. destruct (Rle_dec (rx b) (rx hi)), (Rle_dec (rx a) (rx lo)); lra.
Qed.

Lemma ox_moved : exists threshold il lo hi hlo hhi ps owned halo now,
  0 < il /\ below lo hi /\ below hlo hhi /\
  builtBy ppos rndExact threshold il lo hi ps owned /\ builtBy ppos rndExact threshold il hlo hhi [] halo /\
  (forall p, In p ps -> pown (now p) = 1%Z /\ movedWithin ppos (fun p => ppos (now p)) (il / 4) p) /\
  exists rlo rhi p, In p (map now ps) /\ inBox rlo rhi (ppos p) /\
    otForEachInRegion rndExact 1 rlo rhi (treeMap now owned) (treeMap now halo) = Some [].
Proof.
  exists 1%nat, 1, exLo, exHi, (exP (-1)), (exP 5), [oxA; oxB], oxTree, oxHalo, oxMove.
  split; [lra|]. split; [unfold below, exLo, exHi; cbn; lra|]. split; [unfold below, exP; cbn; lra|].
  split; [exact ox_built|]. split; [constructor|]. split.
  - assert (Ab : forall x y : R, - (1 / 4) <= x - y <= 1 / 4 -> Rabs (x - y) <= 1 / 4) by (intros; apply Rabs_le; lra).
    intros p [<-|[<-|[]]]; (split; [reflexivity|]); unfold movedWithin, oxMove, oxA, oxB, exP; cbn [pid ppos rx ry rz Z.eqb Pos.eqb]; repeat split; try apply Ab; lra.
  - exists (exP 2), (exP (5 / 2)), (oxMove oxA). split; [now left|]. split; [unfold inBox, oxMove, oxA, exP; cbn; lra|].
    unfold otForEachInRegion, oxTree, oxHalo. cbn [negb treeMap map nodeForEachInRegion oxLeaf boxMin boxMax].
    change (negb (hasFlag 1 bhOwnedOrHalo)) with false. change (hasFlag 1 bhOwned) with true. change (hasFlag 1 bhHalo) with false. cbv iota.
    rewrite (encloses_f (childMin rndExact exLo exHi 0)) by (unfold childMax, center, rndExact, exLo, exHi, exP; cbn; lra).
    assert (E7 : cellForEach bhOwnedOrHalo (inBoxb (exP 2) (exP (5 / 2))) [oxMove oxB] = Some []).
    { cbn. rewrite inBoxb_f by (unfold inBox, exP; cbn; lra). reflexivity. }
    rewrite E7. cbn [cellForEach].
    assert (If : forall (b : bool) (x : option (list Particle)), (if b then x else x) = x) by (intros []; reflexivity).
    rewrite !If. reflexivity.
Qed.

Lemma ox_dummy : exists owned halo p, builtBy ppos rndExact 1 1 exLo exHi [oxA; oxB] owned /\ builtBy ppos rndExact 1 1 (exP (-1)) (exP 5) [] halo /\
  let now := fun q => if (pid q =? 1)%Z then withOwn 0 q else q in
  p = now oxA /\ otForEach 1 (treeMap now owned) (treeMap now halo) = Some [p; oxB] /\ wantedb 1 (pown p) = false.
Proof.
  exists oxTree, oxHalo, (withOwn 0 oxA). split; [exact ox_built|]. split; [constructor|]. repeat split; reflexivity.
Qed.

(** One particle has left the box, one is deleted. *)
Definition oxNow (p : Particle) : Particle := if (pid p =? 1)%Z then mkParticle 1 (exP 6) 1 0 else withOwn 0 p.
Lemma ox_update : exists M, precise rndExact M 0 1 exLo exHi /\
  let t := treeMap oxNow oxTree in boxMin t = exLo /\ boxMax t = exHi /\ (length (collectAllParticles t) = 2)%nat /\
  (forall p, In p (collectAllParticles t) -> validState (pown p) /\ pown p <> 2%Z).
Proof.
  destruct (exact_precise 1 exLo exHi) as (M & H); [lra|unfold below, exLo, exHi; cbn; lra|]. exists M. split; [exact H|].
  split; [reflexivity|]. split; [reflexivity|]. split; [reflexivity|]. intros p I. cbn in I. destruct I as [<-|[<-|[]]]; cbn; unfold validState; lia.
Qed.

(** [oxA] moves within its leaf, [oxB] is deleted. *)
Definition oxShift (p : Particle) : Particle := if (pid p =? 1)%Z then mkParticle 1 (exP 1) 1 0 else withOwn 0 p.
Lemma ox_region : 0 < 1 /\ below exLo exHi /\ below (exP (-1)) (exP 5) /\
  builtBy ppos rndExact 1 1 exLo exHi [oxA; oxB] oxTree /\ builtBy ppos rndExact 1 1 (exP (-1)) (exP 5) [] oxHalo /\
  (forall p, In p [oxA; oxB] -> validState (pown (oxShift p)) /\ pown (oxShift p) <> 2%Z) /\
  (forall path l h c p, leafAt oxTree path l h c -> In p c -> pown (oxShift p) <> 0%Z -> inBox l h (ppos (oxShift p))).
Proof.
  split; [lra|]. split; [unfold below, exLo, exHi; cbn; lra|]. split; [unfold below, exP; cbn; lra|]. split; [exact ox_built|]. split; [constructor|]. split.
  - intros p [<-|[<-|[]]]; cbn; unfold validState; lia.
  - intros path l h c p L I N. unfold leafAt in L. destruct (list_eq_dec vertex_dec path []) as [->|Np]; [discriminate|].
    destruct (exists_last Np) as (m & v & ->). rewrite nodeAt_last in L.
    assert (m = []) as ->.
    { destruct (list_eq_dec vertex_dec m []) as [->|Nm]; [reflexivity|]. destruct (exists_last Nm) as (m' & w & ->). exfalso.
      destruct v; cbn [SON oxTree nth_error vertexToIndex] in L; rewrite nodeAt_last in L; discriminate. }
    destruct v; cbn [SON oxTree nth_error vertexToIndex nodeAt] in L; injection L as <- <- <-; try destruct I; try contradiction.
    + subst p. unfold oxShift, oxA. cbn [pid ppos Z.eqb Pos.eqb]. solveBoxP.
    + subst p. now contradiction N.
Qed.
