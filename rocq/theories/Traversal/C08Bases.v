(** Traversals that execute the c08 base step for every base cell once, in any
    order, process the same pairs of cells as c08. *)
From Verif.Base Require Import ZRange Occ.
From Verif.Grid Require Import IndexModel IndexSpec IndexProofs.
From Verif.Traversal Require Import ColorModel ColorProofs CellSpec CellLemmas C08Model C08Proofs C04Model.

Definition c08Box (dims ov b : I3) : Prop :=
  0 <= ix b < ix dims - ix ov /\ 0 <= iy b < iy dims - iy ov /\ 0 <= iz b < iz dims - iz ov.

Lemma c08_bases_perm dims ov bases : gridFits dims ov -> NoDup bases ->
  (forall b, In b bases <-> c08Box dims ov b) -> Permutation bases (concat (c08Colors dims ov)).
Proof.
  intros Hv Hnd Hin. pose proof (c08_stride_pos dims ov Hv) as Hs.
  apply NoDup_Permutation; [assumption|now apply colorTraversal_NoDup|].
  intros b. rewrite Hin. unfold c08Colors. rewrite colorTraversal_in by assumption. reflexivity.
Qed.

Lemma perm_flat_map {A B} (f : A -> list B) l1 l2 : Permutation l1 l2 -> Permutation (flat_map f l1) (flat_map f l2).
Proof. intros H. now apply Permutation_flat_map. Qed.

Lemma c08_calls_perm near dims ov bases : gridFits dims ov -> NoDup bases ->
  (forall b, In b bases <-> c08Box dims ov b) ->
  Permutation (c08BaseSteps near dims ov bases) (c08Calls near dims ov).
Proof.
  intros Hv Hnd Hin. unfold c08BaseSteps, c08Calls, c08Tasks. rewrite concat_tasks.
  apply perm_flat_map. now apply c08_bases_perm.
Qed.

Section Perm.
  Variables (near : Z -> Z -> Z -> bool) (dims ov : I3) (calls : list (Z * Z)).
  Hypothesis Hp : Permutation calls (c08Calls near dims ov).
  Hypothesis Hv : gridFits dims ov.

  Lemma perm_exactly_once h a b : haloCovers h ov -> inGrid dims a -> inGrid dims b ->
    ownedCell dims h a \/ ownedCell dims h b -> withinReach near ov a b ->
    timesProcessed dims calls a b = 1%nat.
  Proof.
    intros. unfold timesProcessed. rewrite (occ_perm _ _ _ Hp). now apply (c08_exactly_once near dims ov h).
  Qed.

  Lemma perm_at_most_once a b : inGrid dims a -> inGrid dims b ->
    (timesProcessed dims calls a b <= 1)%nat /\
    ((1 <= timesProcessed dims calls a b)%nat -> withinReach near ov a b).
  Proof.
    intros. unfold timesProcessed. rewrite (occ_perm _ _ _ Hp). split.
    - now apply c08_at_most_once.
    - now apply c08_only_reach.
  Qed.

  Lemma perm_inBounds : inBounds dims calls.
  Proof.
    intros c1 c2 H. apply (c08_inBounds near dims ov Hv). eapply Permutation_in; eauto.
  Qed.
End Perm.

(** cells accessed by the base steps of a list of base cells *)
Lemma c08BaseSteps_accesses near dims ov bases c : gridFits dims ov ->
  (forall b, In b bases -> c08Box dims ov b) ->
  accesses (c08BaseSteps near dims ov bases) c ->
  exists b p, In b bases /\ inGrid dims p /\ c = threeToOneD p dims /\
    ix b <= ix p <= ix b + ix ov /\ iy b <= iy p <= iy b + iy ov /\ iz b <= iz p <= iz b + iz ov.
Proof.
  intros Hv Hb (call & Hin & Hc). apply in_flat_map in Hin as (b & Hbb & Hin).
  destruct (c08_accesses near dims ov b c Hv (Hb b Hbb)) as (p & Hp); [exists call; auto|].
  exists b, p. tauto.
Qed.

(** tasks of packs *)
Lemma c08_tasks_concat near dims ov (packs : list (list (list I3))) :
  concat (concat (map (map (c08BaseSteps near dims ov)) packs)) = c08BaseSteps near dims ov (concat (concat packs)).
Proof.
  rewrite concat_tasks. unfold c08BaseSteps. rewrite flat_map_concat_map.
  induction (concat packs) as [|p l IH]; [reflexivity|]. cbn [concat map].
  rewrite flat_map_app, IH. reflexivity.
Qed.
