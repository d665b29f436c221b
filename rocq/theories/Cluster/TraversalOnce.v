(** Processing every cluster once computes every pair within the interaction length exactly once. *)
From Coq Require Import Reals Lra Lia Psatz Permutation.
From Verif.Base Require Import ZRange Occ Lists.
From Verif.Functor Require Import SortModel SortSpec CellFunctorModel FunctorSpec.
From Verif.Grid Require Import CellBlockSpec.
From Verif.Container Require Import ParticleModel IteratorModel IteratorContainers.
From Verif.Cluster Require Import TowerModel TowerSpec TowerProofs TowerProps BlockModel BlockGeo BlockBuild ListsCount ListsSpec ListsProofs ListsExample.
From Verif.Cluster Require Import ClusterTraversalModel TraversalSpec TraversalCount TraversalIds.
Local Open Scope nat_scope.

Lemma occ_ids (i : Z) l m : map pid l = map pid m -> occ (fun x => (pid x =? i)%Z) l = occ (fun x => (pid x =? i)%Z) m.
Proof.
  intros E. rewrite <- (occ_map (fun j => (j =? i)%Z) pid l), <- (occ_map (fun j => (j =? i)%Z) pid m), E. reflexivity.
Qed.
Lemma occ_member {A} (eqb : A -> A -> bool) (spec : forall x y, eqb x y = true <-> x = y) l a : NoDup l -> (In a l /\ occ (eqb a) l = 1) \/ (~ In a l /\ occ (eqb a) l = 0).
Proof.
  induction l as [|b l IH]; intros ND; [right; split; [tauto|reflexivity]|]. inversion ND as [|? ? NI ND']; subst. rewrite occ_cons.
  destruct (eqb a b) eqn:E.
  - apply spec in E. subst b. left. split; [now left|]. destruct (IH ND') as [[I _]|[_ ->]]; [contradiction|reflexivity].
  - destruct (IH ND') as [[I ->]|[I ->]]; [left; split; [now right|reflexivity]|right]. split; [|reflexivity]. intros [->|J]; [|contradiction].
    rewrite (proj2 (spec a a) eq_refl) in E. discriminate.
Qed.

Section Once.
  Variable sortZ : list Particle -> list Particle.
  Variable cs : nat.
  Variables (bMin bMax : R3) (il opt : R).
  Variable old : list Tower.
  Variable toAdd : list Particle.
  Variable newton3 : bool.
  Variable layout : Layout.
  Hypothesis srt : sortsByZ sortZ.
  Hypothesis cpos : 0 < cs.
  Hypothesis box_ok : below bMin bMax.
  Hypothesis il_pos : (0 < il)%R.
  Hypothesis opt_pos : (0 < opt)%R.
  Hypothesis same_halo : haloTowers il (sideLength (rx bMax - rx bMin) opt) = haloTowers il (sideLength (ry bMax - ry bMin) opt).
  Let g := estimatedGrid bMin bMax il opt.
  Hypothesis no_dummies : Forall (fun p => isDummy p = false) toAdd.
  Hypothesis owned_inside : forall p, In p (before old toAdd) -> (isOwned p = true <-> inBox bMin bMax (ppos p)).
  Hypothesis ids : distinctIds pid (before old toAdd).
  Hypothesis noMax : Forall (fun p => pid p <> (2 ^ 64 - 1)%Z) (before old toAdd).
  Notation moved := (movedTower sortZ cs g old toAdd).
  Notation final := (finalTower sortZ cs g old toAdd).
  Notation nlist := (neighborList cs g (byXY g moved) newton3).
  Variable now : ClusterId -> list Particle.
  Hypothesis same : sameParticles cs g final now.
  Variable order : list ClusterId.
  Hypothesis all : processesAll g final newton3 order.
  Notation calls := (callsOf newton3 layout now nlist (haloOf g final) order).

  Lemma grid_x1 : (1 <= gNX g)%Z.
  Proof using All. (assert (X := BlockGeo.nx_pos bMin bMax il opt box_ok il_pos opt_pos same_halo); fold g in X; lia). Qed.
  Lemma grid_y1 : (1 <= gNY g)%Z.
  Proof using All. (assert (X := BlockGeo.ny_pos bMin bMax il opt box_ok il_pos opt_pos same_halo); fold g in X; lia). Qed.

  Lemma sound a b : isCluster g final a ->
    occ (eqCluster b) (nlist a) <= 1 /\ (occ (eqCluster b) (nlist a) = 1 -> isCluster g final b /\ a <> b) /\
    (newton3 = true -> isCluster g final b -> occ (eqCluster b) (nlist a) + occ (eqCluster a) (nlist b) <= 1).
  Proof using All. exact (lists_sound sortZ cs bMin bMax il opt old toAdd newton3 srt cpos box_ok il_pos opt_pos same_halo no_dummies owned_inside a b). Qed.

  Lemma eqc_refl c : eqCluster c c = true.
  Proof using. exact (proj2 (eqCluster_spec c c) eq_refl). Qed.

  Lemma now_occ p a c : In p (before old toAdd) -> inCluster cs g final a p -> isCluster g final c ->
    occ (fun x => (pid x =? pid p)%Z) (now c) = if eqCluster c a then 1 else 0.
  Proof using All.
    intros I A C. rewrite <- (content_occ sortZ cs g old toAdd srt cpos grid_x1 grid_y1 ids noMax p a c I A C).
    apply occ_ids. destruct c as [[x y] k]. apply same. exact C.
  Qed.

  Lemma count p q a b : In p (before old toAdd) -> In q (before old toAdd) -> pid p <> pid q -> inCluster cs g final a p -> inCluster cs g final b q ->
    received pid calls p q = (if eqCluster a b && negb (haloOf g final a) then occ (eqCluster a) order else 0) +
      (occ (eqCluster a) order * occ (eqCluster b) (nlist a) + (if newton3 then occ (eqCluster b) order * occ (eqCluster a) (nlist b) else 0)).
  Proof using All.
    intros IP IQ NE A B. apply (received_all newton3 layout now nlist p q a b (isCluster g final)).
    - intros c d C D. apply (proj1 (proj2 (sound c d C))). destruct (sound c d C) as [L _].
      assert (1 <= occ (eqCluster d) (nlist c)) by (apply (occ_pos_of_in _ _ d); [exact D|apply eqc_refl]). lia.
    - intros c C. now apply now_occ.
    - intros c C. now apply now_occ.
    - exact NE.
    - intros c C. apply all in C. apply C.
  Qed.

  Lemma order_occ a : isCluster g final a -> (newton3 = true \/ inOwnedRange g final a) -> occ (eqCluster a) order = 1.
  Proof using All.
    intros C O. destruct (occ_member eqCluster eqCluster_spec order a (proj1 all)) as [[_ E]|[N _]]; [exact E|]. exfalso. apply N. apply all. auto.
  Qed.
  Lemma order_le a : occ (eqCluster a) order <= 1.
  Proof using All. destruct (occ_member eqCluster eqCluster_spec order a (proj1 all)) as [[_ E]|[_ E]]; lia. Qed.

  Lemma in_isCluster a p : inCluster cs g final a p -> isCluster g final a.
  Proof using. destruct a as [[x y] k]. intros A. apply A. Qed.

  Lemma owned_final a p : inCluster cs g final a p -> isOwned p = true -> haloOf g final a = false /\ inOwnedRange g final a.
  Proof using All.
    destruct a as [[x y] k]. intros A O.
    destruct (owned_cluster sortZ cs bMin bMax il opt old toAdd newton3 srt cpos box_ok il_pos opt_pos same_halo no_dummies owned_inside x y k p A O) as [H R].
    fold g in H, R. unfold byXY in *. set (i := Z.to_nat (tower1D g x y)) in *.
    destruct (moved_clusters sortZ cs bMin bMax il opt old toAdd newton3 srt cpos box_ok il_pos opt_pos same_halo no_dummies owned_inside i) as (MC & MF & MT & _).
    fold g in MC, MF, MT. unfold haloOf, inOwnedRange, byXY, isHaloCluster in *. fold i. rewrite MF, MT in *. auto.
  Qed.

  Theorem at_most_once p q a b : In p (before old toAdd) -> In q (before old toAdd) -> pid p <> pid q -> inCluster cs g final a p -> inCluster cs g final b q ->
    received pid calls p q <= 1.
  Proof using All.
    intros IP IQ NE A B. rewrite (count p q a b IP IQ NE A B). assert (CA := in_isCluster a p A). assert (CB := in_isCluster b q B).
    assert (OA := order_le a). assert (OB := order_le b). destruct (sound a b CA) as (L & S & N). destruct (sound b a CB) as (L' & S' & _).
    assert (OA' := occ_member eqCluster eqCluster_spec order a (proj1 all)). assert (OB' := occ_member eqCluster eqCluster_spec order b (proj1 all)).
    destruct (eqCluster a b) eqn:E.
    - apply eqCluster_spec in E. subst b. assert (Z : occ (eqCluster a) (nlist a) = 0). { destruct (occ (eqCluster a) (nlist a)) as [|[|n]] eqn:Z; [reflexivity| |lia]. destruct (S eq_refl). congruence. }
      rewrite Z. destruct (negb _), newton3; cbn [andb]; lia.
    - cbn [andb]. clear S S'. destruct newton3.
      + specialize (N eq_refl CB). nia.
      + nia.
  Qed.

  Theorem exactly_once p q a b : In p (before old toAdd) -> In q (before old toAdd) -> pid p <> pid q -> inCluster cs g final a p -> inCluster cs g final b q ->
    isOwned p = true -> (dist3 (ppos p) (ppos q) <= il)%R -> received pid calls p q = 1.
  Proof using All.
    intros IP IQ NE A B O D. rewrite (count p q a b IP IQ NE A B). assert (CA := in_isCluster a p A). assert (CB := in_isCluster b q B).
    destruct (owned_final a p A O) as [HA RA]. rewrite HA. rewrite (order_occ a CA (or_intror RA)).
    destruct (eqCluster a b) eqn:E.
    - apply eqCluster_spec in E. subst b. destruct (sound a a CA) as (L & S & N).
      assert (Z : occ (eqCluster a) (nlist a) = 0). { destruct (occ (eqCluster a) (nlist a)) as [|[|n]] eqn:Z; [reflexivity| |lia]. destruct (S eq_refl). congruence. }
      rewrite Z. cbn [andb negb]. destruct newton3; lia.
    - cbn [andb]. assert (AB : a <> b) by (intros ->; rewrite eqc_refl in E; discriminate).
      destruct (bool_dec newton3 true) as [N|N].
      + assert (X := lists_complete_n3 sortZ cs bMin bMax il opt old toAdd newton3 srt cpos box_ok il_pos opt_pos same_halo no_dummies owned_inside a b p q N AB A B (or_introl O) D).
        fold g in X. rewrite (order_occ b CB (or_introl N)). revert X. generalize (occ (eqCluster b) (nlist a)), (occ (eqCluster a) (nlist b)). rewrite N. intros; lia.
      + apply not_true_is_false in N.
        assert (X := lists_complete sortZ cs bMin bMax il opt old toAdd newton3 srt cpos box_ok il_pos opt_pos same_halo no_dummies owned_inside a b p q N AB A B O D).
        fold g in X. rewrite X. generalize (occ (eqCluster b) order * occ (eqCluster a) (nlist b)). rewrite N. intros; lia.
  Qed.
End Once.
