(** The properties of the octree. *)
From Coq Require Import Reals Lra Permutation.
From Verif.Base Require Import ZRange.
From Verif.Functor Require Import SortModel SortSpec.
From Verif.Grid Require Import CellBlockModel CellBlockSpec.
From Verif.Container Require Import IteratorModel IteratorContainers.
From Verif.Octree Require Import DirectionModel OctreeModel OctreeSpec OctreeBase OctreeAxis OctreeNeighbor OctreeTouch OctreeInsert OctreeDouble.
Local Open Scope R_scope.

Section Props.
  Context {P : Type}.
  Variable pos : P -> R3.
  Variable rnd : R -> R.
  Variable threshold : nat.
  Variable il : R.

  Lemma built_leaves lo hi ps t M eps : precise rnd M eps il lo hi -> builtBy pos rnd threshold il lo hi ps t ->
    solidLeaves t /\
    (forall x, inBox lo hi x -> exists! path, exists l h c, leafAt t path l h c /\ inBox l h x) /\
    (forall path l h c, leafAt t path l h c -> Permutation c (filter (fun p => inBoxb l h (pos p)) ps)) /\
    (forall path l h c, leafAt t path l h c -> path <> [] -> wideBox (il - 3 * eps) l h).
  Proof.
    intros (Acc & He & H8 & Hil & U & D) B. destruct (built_good pos rnd threshold il lo hi ps t B) as (W & Pl & <- & <- & Q).
    destruct (wf_precise rnd il M eps Acc He H8 Hil t W U D) as (S & Wd). split; [exact S|]. split; [|split].
    - intros x Ix. destruct (leaf_cover rnd il t x W Ix) as (q & l & h & c & Lq & Iq). exists q. split; [now exists l, h, c|].
      intros q' (l' & h' & c' & Lq' & Iq'). exact (leaf_unique rnd il t x W S q l h c q' l' h' c' Lq Iq Lq' Iq').
    - intros path l h c Lc. rewrite <- (leaf_contents pos rnd il t W S Pl path l h c Lc).
      clear - Q. induction Q; cbn; auto.
      + destruct (inBoxb l h (pos x)); auto.
      + destruct (inBoxb l h (pos x)), (inBoxb l h (pos y)); auto. apply perm_swap.
      + etransitivity; eassumption.
    - exact Wd.
  Qed.

  Lemma built_total lo hi ps M eps : precise rnd M eps il lo hi -> Forall (fun p => inBox lo hi (pos p)) ps ->
    exists t, builtBy pos rnd threshold il lo hi ps t.
  Proof.
    intros (Acc & He & H8 & Hil & U & D). induction ps as [|p ps IH] using rev_ind; intros F.
    - eexists. apply builtEmpty.
    - apply Forall_app in F as [F Fp]. inversion Fp as [|? ? Ip _]; subst. destruct (IH F) as (t & B).
      destruct (built_good pos rnd threshold il lo hi ps t B) as (W & Pl & E1 & E2 & Q).
      destruct (insert_terminates pos rnd threshold il M eps Acc He H8 Hil t p W) as (fuel & t' & E); [now rewrite E1, E2|now rewrite E1, E2|].
      exists t'. exact (builtInsert pos rnd threshold il lo hi ps t p fuel t' B Ip E).
  Qed.

  (** The result does not depend on the fuel: the tree is determined by the sequence. *)
  Lemma built_unique lo hi ps t t' : builtBy pos rnd threshold il lo hi ps t -> builtBy pos rnd threshold il lo hi ps t' -> t = t'.
  Proof.
    intros B. revert t'. induction B as [|ps t p fuel t1 B IH I E]; intros t' B'.
    - inversion B' as [|ps' ? ? ? ? ? ? ? Eq]; subst; [reflexivity|]. destruct ps'; discriminate.
    - inversion B' as [Eq|ps' u p' fuel' u' B1 I1 E1 Eq]; subst; [destruct ps; discriminate|].
      apply app_inj_tail in Eq as [<- <-]. rewrite <- (IH _ B1) in E1.
      pose proof (insert_mono pos rnd threshold il fuel (Nat.max fuel fuel') _ _ _ (Nat.le_max_l _ _) E).
      pose proof (insert_mono pos rnd threshold il fuel' (Nat.max fuel fuel') _ _ _ (Nat.le_max_r _ _) E1). congruence.
  Qed.

  Lemma built_keeps lo hi ps t : builtBy pos rnd threshold il lo hi ps t ->
    Permutation (collectAllParticles t) ps /\
    (forall path l h c p, leafAt t path l h c -> In p c -> inBox l h (pos p)).
  Proof.
    intros B. destruct (built_good pos rnd threshold il lo hi ps t B) as (W & Pl & _ & _ & Q). split; [exact Q|].
    intros path l h c p L I. clear - Pl L I. unfold leafAt in L.
    assert (H : forall t (n : Tree P), placed pos t -> nodeAt t path = Some n -> placed pos n).
    { clear. induction path as [|v q IH]; intros t n Pl E; [now injection E as <-|]. cbn in E. destruct (nodeAt t q) as [f|] eqn:F; [|discriminate].
      specialize (IH t f Pl F). destruct IH as [|l h cs Fc]; [discriminate|]. cbn in E. apply nth_error_In in E. rewrite Forall_forall in Fc. auto. }
    specialize (H t _ Pl L). inversion H as [? ? ? F|]; subst. rewrite Forall_forall in F. now apply F.
  Qed.

  Lemma built_neighbors lo hi ps t M eps p q l h c : precise rnd M eps il lo hi -> builtBy pos rnd threshold il lo hi ps t -> leafAt t p l h c ->
    (In q (getNeighborLeaves t p) <-> q <> p /\ exists l' h' c', leafAt t q l' h' c' /\ touching l h l' h').
  Proof.
    intros Pr B L. destruct (built_leaves lo hi ps t M eps Pr B) as (S & _). destruct (built_good pos rnd threshold il lo hi ps t B) as (W & _).
    exact (neighbors_touch rnd il t p q l h c W S L).
  Qed.

  (** A particle outside of the box of an inner node is dropped without notice. *)
  Lemma insert_outside_dropped fuel lo hi cs p t' : wf rnd il (Inner lo hi cs) -> solidLeaves (Inner lo hi cs) ->
    ~ inBox lo hi (pos p) -> insert pos rnd threshold il (S fuel) (Inner lo hi cs) p = Some t' -> t' = Inner lo hi cs.
  Proof.
    intros W S N E. cbn [insert] in E. destruct (insertFirst _ _ cs) as [cs'|] eqn:F; [|discriminate]. injection E as <-.
    apply insertFirst_spec in F as [(l1 & c & l2 & c' & -> & -> & I & J)|[-> _]]; [|reflexivity]. exfalso. apply N.
    assert (C : nth_error (l1 ++ c :: l2) (length l1) = Some c) by (rewrite nth_error_app2, Nat.sub_diag by lia; reflexivity).
    inversion W as [|? ? ? L B X T]; subst. assert (Li : (length l1 < 8)%nat) by (rewrite <- L; apply nth_error_Some; congruence).
    destruct (index_surj _ Li) as (v & Ev). rewrite <- Ev in C.
    pose proof (son_within rnd il (Inner lo hi (l1 ++ c :: l2)) c v W S C) as A. exact (within_in _ _ _ _ _ A J).
  Qed.
End Props.
