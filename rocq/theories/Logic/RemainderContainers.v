(** The remainder traversal with linked cells and direct sum. *)
From Coq Require Import Reals Lra.
From Flocq Require Import Core.
From Verif.Base Require Import ZRange Lists Occ OptionM.
From Verif.Grid Require Import IndexModel IndexSpec CellBlockModel CellBlockSpec CellBlockFloat CellBlockExact.
From Verif.Functor Require Import SortModel.
From Verif.Container Require Import LinkedCellsModel LinkedCellsSpec IteratorModel IteratorContainers IteratorSpec IteratorRegion IteratorExample
  ParticleModel CollectSpec UpdateExample ForEachModel ForEachProofs.
From Verif.Logic Require Import RemainderModel RemainderSpec RemainderProofs.
Import ListNotations.
Local Open Scope Z_scope.

Lemma cube_box cutoff p q : inBoxb (low rndExact cutoff p) (high rndExact cutoff p) q = true <-> inCube cutoff (ppos p) q.
Proof. rewrite inBoxb_iff. unfold inBox, inCube, low, high, rndExact. cbn [rx ry rz]. reflexivity. Qed.

Section Any.
  Variables (cutoff : R) (contained : list Particle) (bufs halos : list (list Particle)).
  Hypothesis Hcut : (0 <= cutoff)%R.
  Hypothesis Hall : NoDup (concat bufs ++ concat halos ++ contained).
  Hypothesis Hb : forall p, In p (concat bufs) -> pown p = 1.
  Hypothesis Hh : forall p, In p (concat halos) -> pown p = 2.
  Hypothesis Hlen : length bufs = length halos.
  Hypothesis Hvalid : forall q, In q contained -> validState (pown q).
  Variable inRegion : Z -> R3 -> R3 -> option (list Particle).
  Hypothesis Hreg : forall p behavior, In p (concat bufs ++ concat halos) -> (behavior = 1 \/ behavior = 3) ->
    exists l, inRegion behavior (low rndExact cutoff p) (high rndExact cutoff p) = Some l /\
      Permutation l (filter (visitedb behavior (inBoxb (low rndExact cutoff p) (high rndExact cutoff p))) contained).

  Lemma remainder_any newton3 numLocks : (length bufs <= numLocks)%nat ->
    exists calls, remainder2B rndExact newton3 cutoff inRegion numLocks bufs halos = Some calls /\
      remainderCorrect cutoff (concat bufs ++ concat halos) contained (flat_map forces calls).
  Proof.
    intros Hl. set (around := fun b p => match inRegion b (low rndExact cutoff p) (high rndExact cutoff p) with Some l => l | None => [] end).
    destruct (remainder2B_correct newton3 cutoff inRegion contained bufs halos around numLocks) as (calls & E & N & I); auto.
    { intros p b Hp B. destruct (Hreg p b Hp B) as (l & El & Pl). assert (Ea : around b p = l) by (unfold around; rewrite El; reflexivity). rewrite Ea. split; [exact El|]. split.
      - apply (Permutation_NoDup (Permutation_sym Pl)). apply NoDup_filter.
        rewrite app_assoc in Hall. apply NoDup_app_inv in Hall. apply Hall.
      - intros q. split.
        + intros H. apply (Permutation_in _ Pl) in H. apply filter_In in H as (H1 & H2). unfold visitedb in H2. apply andb_prop in H2 as (H2 & H3).
          apply cube_box in H3. auto.
        + intros (H1 & H2 & H3). apply (Permutation_in _ (Permutation_sym Pl)). apply filter_In. split; [exact H1|]. unfold visitedb. rewrite H2. apply cube_box in H3. rewrite H3. reflexivity. }
    exists calls. split; [exact E|]. split; [exact N|]. split; [|intros p Op X; apply (I p p Op) in X; apply (proj1 X); reflexivity]. intros t s Ht Hs Hne Ot Os Hcl. rewrite (I t s Ot), !in_app_iff.
    destruct (closer_inCube cutoff _ _ Hcut Hcl) as (C1 & C2). rewrite !in_app_iff in Ht, Hs.
    assert (Th : ~ In t (concat halos)) by (intros H; rewrite (Hh t H) in Ot; discriminate).
    split; [tauto|]. intros [[H|H]|H]; [|contradiction|].
    - split; [exact Hne|]. destruct Hs as [Hs|Hs]; [left; tauto|right; left; tauto].
    - split; [exact Hne|]. destruct Ht as [[Ht|Ht]|Ht]; [left; tauto|contradiction|]. right. right. tauto.
  Qed.
End Any.

Theorem remainder_linked_cells cutoff skin csf bMin bMax cells old bufs halos newton3 numLocks :
  let il := (cutoff + skin)%R in let b := rebuild rndExact il csf bMin bMax in
  validGrid il csf bMin bMax -> (0 < cutoff)%R -> (0 <= skin)%R ->
  size cells = numCells (blockDims b) ->
  (forall k p, In p (nth k cells []) -> validState (pown p) /\
     (pown p = 1 -> cellCanContainOwnedParticles b (Z.of_nat k) = true) /\
     (pown p = 2 -> cellCanContainHaloParticles b (Z.of_nat k) = true) /\
     (pown p <> 0 -> inBox (getHaloBoxMin b) (getHaloBoxMax b) (old p) /\
        get1DIndexOfPosition rndExact b (old p) = Some (Z.of_nat k) /\ movedWithin old ppos skin p)) ->
  NoDup (concat bufs ++ concat halos ++ concat cells) ->
  (forall p, In p (concat bufs) -> pown p = 1 /\ inGrownBox il bMin bMax (ppos p)) ->
  (forall p, In p (concat halos) -> pown p = 2 /\ inGrownBox il bMin bMax (ppos p)) ->
  length bufs = length halos -> (length bufs <= numLocks)%nat ->
  exists calls,
    remainder2B rndExact newton3 cutoff (fun behavior lo hi => lcForEachInRegion rndExact b skin behavior lo hi cells) numLocks bufs halos = Some calls /\
    remainderCorrect cutoff (concat bufs ++ concat halos) (concat cells) (flat_map forces calls).
Proof.
  intros il b Hg Hc Hs Hsize Hpl Hall Hb Hh Hlen Hlocks. apply remainder_any; auto; try lra.
  - intros p Hp. apply Hb, Hp.
  - intros p Hp. apply Hh, Hp.
  - intros q Hq. apply in_concat in Hq as (l & Hl & Hq). apply In_nth with (d := []) in Hl as (k & _ & <-). apply (Hpl k q Hq).
  - intros p behavior Hp B.
    assert (G : inGrownBox il bMin bMax (ppos p)) by (apply in_app_or in Hp as [Hp|Hp]; [apply Hb|apply Hh]; exact Hp).
    destruct G as (G1 & G2 & G3). unfold growLow, growHigh in *. cbn [rx ry rz] in *.
    apply (lc_for_each_in_region il csf bMin bMax Hg cells Hsize) with (old := old).
    + intros k q Hq. destruct (Hpl k q Hq) as (A1 & A2 & A3 & _). auto.
    + intros k q Hq O. destruct (Hpl k q Hq) as (_ & _ & _ & A). auto.
    + destruct B as [->| ->]; unfold lambdaBehavior; auto.
    + destruct B as [->| ->]; discriminate.
    + destruct B as [->| ->]; discriminate.
    + unfold low, rndExact, il in *. cbn [rx ry rz] in *. lra.
    + unfold low, rndExact, il in *. cbn [rx ry rz] in *. lra.
    + unfold low, rndExact, il in *. cbn [rx ry rz] in *. lra.
    + unfold high, rndExact, il in *. cbn [rx ry rz] in *. lra.
    + unfold high, rndExact, il in *. cbn [rx ry rz] in *. lra.
    + unfold high, rndExact, il in *. cbn [rx ry rz] in *. lra.
    + unfold low, high, rndExact. cbn [rx ry rz]. lra.
    + unfold low, high, rndExact. cbn [rx ry rz]. lra.
    + unfold low, high, rndExact. cbn [rx ry rz]. lra.
Qed.

Theorem remainder_direct_sum cutoff cells bufs halos newton3 numLocks :
  (0 < cutoff)%R -> length cells = 7%nat ->
  (forall k p, In p (nth k cells []) -> validState (pown p) /\ (k = 0%nat -> pown p <> 2) /\ (k <> 0%nat -> pown p <> 1)) ->
  NoDup (concat bufs ++ concat halos ++ concat cells) ->
  (forall p, In p (concat bufs) -> pown p = 1) -> (forall p, In p (concat halos) -> pown p = 2) ->
  length bufs = length halos -> (length bufs <= numLocks)%nat ->
  exists calls,
    remainder2B rndExact newton3 cutoff (fun behavior lo hi => dsForEachInRegion behavior lo hi cells) numLocks bufs halos = Some calls /\
    remainderCorrect cutoff (concat bufs ++ concat halos) (concat cells) (flat_map forces calls).
Proof.
  intros Hc H7 Hpl Hall Hb Hh Hlen Hlocks. apply remainder_any; auto; try lra.
  - intros q Hq. apply in_concat in Hq as (l & Hl & Hq). apply In_nth with (d := []) in Hl as (k & _ & <-). apply (Hpl k q Hq).
  - intros p behavior Hp B. apply ds_for_each_in_region; auto.
    + destruct B as [->| ->]; unfold lambdaBehavior; auto.
    + destruct B as [->| ->]; discriminate.
    + destruct B as [->| ->]; discriminate.
Qed.

(** At distance exactly the cutoff, the functors' test is dr2 <= cutoff2, but the
    region around a buffered particle is half open. *)
Definition exBuf : Particle := mkParticle 11 (mkR3 1 1 1) 1 0.
Definition exAtCutoff : Particle := mkParticle 12 (mkR3 2 1 1) 1 0.
Definition exAtCutoffBelow : Particle := mkParticle 13 (mkR3 0 1 1) 1 0.
Lemma remainder_boundary :
  let cells := [[exAtCutoff; exAtCutoffBelow]; []; []; []; []; []; []] in
  exists calls, remainder2B rndExact true 1 (fun behavior lo hi => dsForEachInRegion behavior lo hi cells) 1 [[exBuf]] [[]] = Some calls /\
    flat_map forces calls = [(exBuf, exAtCutoffBelow); (exAtCutoffBelow, exBuf)].
Proof.
  intros cells. unfold remainder2B. cbn -[dsForEachInRegion low high bufferContainer bufferBuffer bufferHaloBuffer BalanceModel.balanceVectors].
  assert (E1 : BalanceModel.balanceVectors 1 [[exBuf]] = Some [[exBuf]]) by reflexivity.
  assert (E2 : BalanceModel.balanceVectors 1 ([[]] : list (list Particle)) = Some [[]]) by reflexivity.
  rewrite E1, E2.
  assert (E3 : dsForEachInRegion bhOwnedOrHalo (low rndExact 1 exBuf) (high rndExact 1 exBuf) cells = Some [exAtCutoffBelow]).
  { unfold dsForEachInRegion, cells. cbn -[inBoxb low high].
    assert (A : inBoxb (low rndExact 1 exBuf) (high rndExact 1 exBuf) (mkR3 2 1 1) = false).
    { destruct (inBoxb _ _ _) eqn:E; [|reflexivity]. apply cube_box in E. unfold inCube in E. cbn [ppos exBuf rx ry rz] in E. lra. }
    assert (B : inBoxb (low rndExact 1 exBuf) (high rndExact 1 exBuf) (mkR3 0 1 1) = true).
    { apply cube_box. unfold inCube. cbn [ppos exBuf rx ry rz]. lra. }
    rewrite A, B. reflexivity. }
  unfold bufferContainer, flatM, bufferParticle. cbn -[dsForEachInRegion low high bufferBuffer bufferHaloBuffer bhOwnedOrHalo]. rewrite E3.
  eexists. split; reflexivity.
Qed.
