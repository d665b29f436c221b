(** Concrete containers: before the first rebuild, and after one. *)
From Coq Require Import Reals Lra Lia Psatz Permutation.
From Flocq Require Import Core.
From Verif.Base Require Import ZRange Lists.
From Verif.Functor Require Import SortModel.
From Verif.Grid Require Import CellBlockSpec.
From Verif.Container Require Import ParticleModel IteratorModel IteratorContainers IteratorSpec IteratorLemmas.
From Verif.Cluster Require Import TowerModel TowerSpec TowerExample BlockModel BlockGeo BlockBuild ListsExample
  ClusterContainerModel ClusterContainerSpec ClusterUpdate ClusterRebuilt.
Local Open Scope Z_scope.

(** Nothing built yet: an owned particle, one that has left the box, a halo particle and a
    deleted one wait in the vectors of particles to add. *)
Definition vIn : Particle := lP 1 (9 / 10) 1 1 stOwned.
Definition vOut : Particle := lP 2 (41 / 10) 1 1 stOwned.
Definition vAdd : list (list Particle) := [[vIn; vOut]; [lP 3 (-1 / 10) 1 1 stHalo; lP 4 1 1 1 stDummy]].

Lemma vExample : let g := initialGrid lMin lMax 1 in
  loopThreads 1 2 2 /\ Forall padded [emptyTower] /\ inTowers pown ppos g (map collectAllActualParticles [emptyTower]) /\
  vclBuffers pown 0 0 false vAdd /\ vAdd <> [] /\ vclGather 1 0 0 false (mkStore [[]] vAdd) <> [] /\
  inBox lMin lMax (ppos vIn) /\ ~ inBox lMin lMax (ppos vOut).
Proof.
  cbv zeta. split; [split; [lia|]; left; split; [now left|reflexivity]|].
  split; [repeat constructor|]. split; [right; split; [reflexivity|]; exists lMin, lMax, 1%R; now left|].
  split; [|split; [discriminate|]].
  - split; [|split; [cbn; lia|split; [reflexivity|split; [|split]]]].
    + split; [cbn; lia|]. split; [reflexivity|]. split; [intros l []|]. intros b l x E. destruct b; discriminate E.
    + intros l [<-|[<-|[]]]; reflexivity.
    + intros l x [<-|[<-|[]]] X; cbn in X; repeat (destruct X as [<-|X]); try contradiction; unfold validState; cbn; auto.
    + discriminate.
  - split; [discriminate|]. unfold inBox, lMin, lMax, vIn, vOut, lP. cbn [ppos rx ry rz]. lra.
Qed.

(** After a rebuild with the particles of [lAdd]; all particles then move by 1/2 in x, the
    first one into the region. *)
Definition vNow (p : Particle) : Particle := mkParticle (pid p) (mkR3 (rx (ppos p) + 1 / 2) (ry (ppos p)) (rz (ppos p))) (pown p) (pdata p).

Lemma vGrid : gNX (estimatedGrid lMin lMax 1 1) = 6 /\ gNY (estimatedGrid lMin lMax 1 1) = 6.
Proof.
  assert (O : ownedTowers (4 - 0) 1 = 4).
  { unfold ownedTowers. replace ((4 - 0) / 1)%R with (IZR 4) by field. apply Zceil_IZR. }
  assert (H : haloTowers 1 (sideLength (4 - 0) 1) = 1).
  { unfold haloTowers, sideLength. rewrite O. replace (1 / ((4 - 0) / 4))%R with (IZR 1) by field. apply Zceil_IZR. }
  unfold estimatedGrid, numTowers, lMin, lMax. cbn [gNX gNY rx ry]. rewrite O, H. split; reflexivity.
Qed.

Lemma vRebuilt : let g := estimatedGrid lMin lMax 1 1 in
  sortsByZ insertionSort /\ below lMin lMax /\
  haloTowers 1 (sideLength (rx lMax - rx lMin) 1) = haloTowers 1 (sideLength (ry lMax - ry lMin) 1) /\
  (forall p, In p (before [] lAdd) -> validState (pown (vNow p)) /\ (pown (vNow p) = 1 -> inBox lMin lMax (ppos p))) /\
  gNX g * gNY g < sizeMax /\ size (before [] lAdd) < sizeMax /\
  (forall p, In p (before [] lAdd) -> movedWithin ppos (fun p => ppos (vNow p)) (1 / 2) p) /\
  (forall p, pown p = 0 -> pown (vNow p) = 0) /\
  (forall p, In p lAdd -> inBox (haloMin g) (haloMax g) (ppos p)) /\
  let p := lP 1 (9 / 10) 1 1 stOwned in In p lAdd /\ inBox (mkR3 1 0 0) (mkR3 2 2 2) (ppos (vNow p)) /\ ~ inBox (mkR3 1 0 0) (mkR3 2 2 2) (ppos p).
Proof.
  destruct lExample as (S & B & H & ND & OI & HB & _). cbv zeta. split; [exact S|]. split; [exact B|]. split; [exact H|].
  split; [|split; [|split; [reflexivity|split; [|split; [intros p E; exact E|split; [exact HB|]]]]]].
  - intros p I. assert (I' := I). cbn [before flat_map app lAdd In] in I'.
    split; [destruct I' as [<-|[<-|[<-|[]]]]; unfold validState; cbn; auto|].
    intros O. apply (OI p I). unfold isOwned, stOwned. apply Z.eqb_eq. exact O.
  - destruct vGrid as [-> ->]. reflexivity.
  - intros p _. unfold movedWithin, vNow. cbn [ppos rx ry rz].
    replace (rx (ppos p) + 1 / 2 - rx (ppos p))%R with (1 / 2)%R by ring. replace (ry (ppos p) - ry (ppos p))%R with 0%R by ring.
    replace (rz (ppos p) - rz (ppos p))%R with 0%R by ring. rewrite Rabs_R0, Rabs_pos_eq by lra. lra.
  - split; [now left|]. unfold inBox, vNow, lP. cbn [ppos rx ry rz]. lra.
Qed.

Lemma vRebuiltTowers : let g := estimatedGrid lMin lMax 1 1 in
  let towers := map (finalTower insertionSort 4 g [] lAdd) (seq 0 (numNew g)) in
  loopThreads 1 2 2 /\ inTowers pown ppos g (map collectAllActualParticles towers) /\ Forall padded towers /\
  vclBuffers pown 0 0 true [[]] /\ Permutation (concat (map collectAllActualParticles towers)) lAdd.
Proof.
  cbv zeta. set (g := estimatedGrid lMin lMax 1 1).
  destruct vRebuilt as (S & B & H & St & F1 & F2 & _ & _ & HB & _). fold g in F1, HB.
  split; [split; [lia|]; left; split; [now left|reflexivity]|]. split; [|split; [|split]].
  - apply rebuilt_inTowers; auto; lra || lia.
  - apply rebuilt_padded; [exact S|lia].
  - split; [|split; [cbn; lia|split; [reflexivity|split; [|split]]]].
    + split; [cbn; lia|]. split; [reflexivity|]. split; [intros l []|]. intros b l x E. destruct b; discriminate E.
    + intros l [<-|[]]; reflexivity.
    + intros l x [<-|[]] [].
    + intros _ l [<-|[]]. reflexivity.
  - destruct (rebuilt_keeps insertionSort 4 lMin lMax 1 1 [] lAdd S ltac:(lia) B ltac:(lra) ltac:(lra) H) as (lost & Fl & P). fold g in Fl, P.
    assert (E : lost = []).
    { destruct lost as [|p r]; [reflexivity|]. exfalso. inversion Fl as [|? ? N _]; subst. apply N. apply HB.
      apply (Permutation_in _ P). apply in_or_app. right. now left. }
    rewrite E, app_nil_r in P. exact P.
Qed.
