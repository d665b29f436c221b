(** Concrete towers. *)
From Coq Require Import Reals Lra Lia Sorted Permutation.
From Verif.Base Require Import ZRange.
From Verif.Functor Require Import SortModel SortSpec SortProofs.
From Verif.Container Require Import ParticleModel IteratorModel LinkedCellsExample.
From Verif.Cluster Require Import TowerModel TowerSpec TowerProofs TowerProps.
Local Open Scope nat_scope.

(** Insertion sort by z is one of the sorting functions. *)
Definition insertionSort : list Particle -> list Particle := sortBy ppos (mkR3 0 0 1).
Lemma insertionSort_ok : sortsByZ insertionSort.
Proof.
  intros l. destruct (sortBy_sorted ppos (mkR3 0 0 1) l) as [A B]. split; [exact A|].
  unfold zSorted, insertionSort. revert B. generalize (sortBy ppos (mkR3 0 0 1) l). clear. intros m B.
  induction B as [|a m B IH F]; constructor.
  - exact IH.
  - eapply Forall_impl; [|exact F]. intros q H. unfold projection, dot in H. cbn [rx ry rz] in H. lra.
Qed.

(** Strictly sorted lists are their own sorted permutation. *)
Lemma sorted_unique l m : StronglySorted (fun p q => (rz (ppos p) < rz (ppos q))%R) l -> Permutation l m -> zSorted m -> m = l.
Proof.
  revert m; induction l as [|a l IH]; intros m S P Z.
  - now apply Permutation_nil.
  - inversion S as [|? ? S1 S2]; subst. destruct m as [|b m]; [symmetry in P; apply Permutation_nil in P; discriminate|].
    inversion Z as [|? ? Z1 Z2]; subst. rewrite Forall_forall in S2, Z2.
    assert (E : b = a).
    { assert (I : In b (a :: l)) by (eapply Permutation_in; [symmetry; exact P|now left]). destruct I as [|I]; auto.
      assert (J : In a (b :: m)) by (eapply Permutation_in; [exact P|now left]). destruct J as [|J]; auto.
      specialize (S2 b I). specialize (Z2 a J). lra. }
    subst b. f_equal. apply IH; auto. eapply Permutation_cons_inv; eauto.
Qed.
Lemma sorts_to sortZ l m : sortsByZ sortZ -> Permutation l m ->
  StronglySorted (fun p q => (rz (ppos p) < rz (ppos q))%R) m -> sortZ l = m.
Proof.
  intros S P M. destruct (S l) as [A B]. apply sorted_unique; auto. rewrite <- A. symmetry. exact P.
Qed.

Definition exP (id : Z) (z : R) (own : Z) : Particle := mkParticle id (mkR3 0 0 z) own 0.
(** Two owned particles in the box, a halo particle below and one above, not sorted. *)
Definition exTower : Tower :=
  mkTower [exP 1 5 stOwned; exP 2 (-1) stHalo; exP 3 2 stOwned; exP 4 11 stHalo; exP 5 7 stOwned] 0 0 0 0.
Lemma exTower_together : ownedTogether (tParts exTower).
Proof.
  intros p q r P Q R OP OR Z.
  cbn [tParts exTower In] in P, Q, R.
  repeat match goal with H : _ \/ _ |- _ => destruct H as [<-|H] | H : False |- _ => destruct H end;
    try reflexivity; try discriminate OP; try discriminate OR; exfalso; cbn [ppos exP rz] in Z; lra.
Qed.

(** Owned, halo, owned: the last owned cluster is taken for a halo cluster. *)
Definition mixedTower : Tower := mkTower [exP 1 0 stOwned; exP 2 1 stHalo; exP 3 2 stOwned] 0 0 0 0.
Lemma mixed_refuted sortZ : sortsByZ sortZ -> exists t1 t2, generateClusters sortZ 1 mixedTower = Some t1 /\
  setDummyValues 1 0 1 t1 = Some t2 /\ 2 < tClusters t2 /\
  (exists p, In p (clusterOf 1 t2 2) /\ isOwned p = true) /\ ~ (tFirstOwned t2 <= 2 < tFirstTail t2).
Proof.
  intros S. unfold generateClusters.
  rewrite (sorts_to sortZ (tParts mixedTower) (tParts mixedTower) S); [|reflexivity|].
  - eexists. eexists. split; [reflexivity|]. split; [reflexivity|]. split; [cbn; lia|]. split.
    + exists (exP 3 2 stOwned). split; [left; reflexivity|reflexivity].
    + cbn. lia.
  - repeat constructor; cbn; lra.
Qed.
