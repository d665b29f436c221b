(** After a rebuild every particle is in exactly one place of the clusters. *)
From Coq Require Import Reals Lra Lia Psatz Permutation.
From Verif.Base Require Import ZRange Occ Lists.
From Verif.Functor Require Import SortModel FunctorSpec.
From Verif.Grid Require Import CellBlockSpec.
From Verif.Container Require Import ParticleModel IteratorModel IteratorContainers.
From Verif.Cluster Require Import TowerModel TowerSpec TowerProofs TowerProps BlockModel BlockGeo BlockBuild ListsCount ListsSpec ListsProofs ListsExample.
Local Open Scope nat_scope.

Lemma cluster_succ cs l k : cluster cs l (S k) = cluster cs (skipn cs l) k.
Proof.
  apply nth_error_ext. intros i. rewrite !cluster_nth, nth_error_skipn'. destruct (i <? cs); [|reflexivity]. f_equal. lia.
Qed.
Lemma chunks cs n : forall l, length l = cs * n -> concat (map (cluster cs l) (seq 0 n)) = l.
Proof.
  induction n as [|n IH]; intros l L; [destruct l; [reflexivity|cbn in L; lia]|].
  cbn [seq map concat]. rewrite <- seq_shift, map_map.
  rewrite (map_ext _ (cluster cs (skipn cs l))) by (intros; apply cluster_succ).
  rewrite IH by (rewrite skipn_length; nia). unfold cluster at 1. rewrite Nat.mul_0_r. cbn [skipn]. apply firstn_skipn.
Qed.

Lemma occ_two {A B} (f : B -> bool) (h : A -> list B) l x y : NoDup l -> In x l -> In y l -> x <> y ->
  1 <= occ f (h x) -> 1 <= occ f (h y) -> 2 <= occ f (flat_map h l).
Proof.
  induction l as [|z l IH]; intros ND IX IY NE X Y; [destruct IX|]. inversion ND as [|? ? NI ND']; subst. cbn [flat_map]. rewrite occ_app.
  assert (G : forall w, In w l -> 1 <= occ f (h w) -> 1 <= occ f (flat_map h l)).
  { clear. intros w. induction l as [|v l IH]; [intros []|]. intros [->|I] H; cbn [flat_map]; rewrite occ_app; [lia|]. specialize (IH I H). lia. }
  destruct IX as [->|IX]; destruct IY as [->|IY].
  - congruence.
  - specialize (G y IY Y). lia.
  - specialize (G x IX X). lia.
  - specialize (IH ND' IX IY NE X Y). lia.
Qed.

Lemma occ_id_one l p : distinctIds pid l -> In p l -> occ (fun x => (pid x =? pid p)%Z) l = 1.
Proof.
  unfold distinctIds. induction l as [|a l IH]; intros ND I; [destruct I|]. cbn [map] in ND. inversion ND as [|? ? NI ND']; subst. rewrite occ_cons.
  destruct I as [->|I].
  - rewrite Z.eqb_refl, occ_zero; [reflexivity|]. intros x X. apply Z.eqb_neq. intros E. apply NI. rewrite <- E. now apply in_map.
  - rewrite IH by auto. destruct (Z.eqb_spec (pid a) (pid p)) as [E|]; [|reflexivity]. exfalso. apply NI. rewrite E. now apply in_map.
Qed.
Lemma distinct_eq l p q : distinctIds pid l -> In p l -> In q l -> pid p = pid q -> p = q.
Proof.
  unfold distinctIds. induction l as [|a l IH]; intros ND P Q E; [destruct P|]. cbn [map] in ND. inversion ND as [|? ? NI ND']; subst.
  destruct P as [->|P]; destruct Q as [->|Q]; auto.
  - exfalso. apply NI. rewrite E. now apply in_map.
  - exfalso. apply NI. rewrite <- E. now apply in_map.
Qed.

Section Ids.
  Variable sortZ : list Particle -> list Particle.
  Variable cs : nat.
  Variable g : Grid.
  Variable old : list Tower.
  Variable toAdd : list Particle.
  Hypothesis srt : sortsByZ sortZ.
  Hypothesis cpos : 0 < cs.
  Hypothesis nx1 : (1 <= gNX g)%Z.
  Hypothesis ny1 : (1 <= gNY g)%Z.
  Notation final := (finalTower sortZ cs g old toAdd).
  Hypothesis ids : distinctIds pid (before old toAdd).
  Hypothesis noMax : Forall (fun p => pid p <> (2 ^ 64 - 1)%Z) (before old toAdd).

  Definition content (c : ClusterId) : list Particle := let '(x, y, k) := c in clusterOf cs (byXY g final x y) k.

  Lemma padding_ids i : Forall (fun p => pid p = (2 ^ 64 - 1)%Z) (padding (final i)).
  Proof using srt cpos.
    clear nx1 ny1 ids noMax. destruct (tower_steps sortZ cs g old toAdd srt cpos i) as (F & P & Z & G & S & L2 & A & D' & C & _).
    destruct F as (F1 & F2 & F3 & _).
    assert (LB : length (tParts (movedTower sortZ cs g old toAdd i)) = length (tParts (builtTower sortZ cs g old toAdd i))) by (rewrite L2, C; auto).
    destruct (setDummyValues_ok cs (1000 * rx (haloMax g) + INR i * (gIL g * 2)) (gIL g * 2) (movedTower sortZ cs g old toAdd i) cpos L2) as (t & E & _ & _ & _ & _ & _ & _ & PP).
    - rewrite D'. exact F2.
    - rewrite D', LB. exact F3.
    - unfold finalTower. rewrite E. cbn [orEmpty]. eapply Forall_impl; [|exact PP]. intros p [X _]. exact X.
  Qed.

  Definition gridClusters : list ClusterId :=
    flat_map (fun i => map (fun k => (xOf g i, yOf g i, k)) (seq 0 (tClusters (final i)))) (seq 0 (numNew g)).

  Lemma gridClusters_NoDup : NoDup gridClusters.
  Proof using nx1.
    clear srt cpos ny1 ids noMax. apply NoDup_flat_map; [apply seq_NoDup| |].
    - intros i _. apply FinFun.Injective_map_NoDup; [intros k k' E; congruence|apply seq_NoDup].
    - intros i j c I J C D. apply in_map_iff in C, D. destruct C as (k & <- & _). destruct D as (k' & E & _). injection E as E1 E2 _.
      apply in_seq in I, J. rewrite (proj2 (of_index g nx1 i ltac:(lia))) || idtac.
      assert (X := proj2 (of_index g nx1 i ltac:(lia))). assert (Y := proj2 (of_index g nx1 j ltac:(lia))). rewrite <- X, <- Y, E1, E2. reflexivity.
  Qed.
  Lemma in_gridClusters c : In c gridClusters <-> isCluster g final c.
  Proof using nx1.
    clear srt cpos ny1 ids noMax. unfold gridClusters. rewrite in_flat_map. destruct c as [[x y] k]. unfold isCluster, byXY. split.
    - intros (i & I & H). apply in_seq in I. apply in_map_iff in H. destruct H as (k' & E & K). injection E as <- <- <-. apply in_seq in K.
      destruct (of_index g nx1 i ltac:(lia)) as [[GX GY] E]. rewrite E. split; [exact GX|]. split; [exact GY|]. lia.
    - intros (X & Y & K). destruct (index_of g x y (conj X Y)) as (A & B & C). exists (Z.to_nat (tower1D g x y)). split; [apply in_seq; lia|].
      apply in_map_iff. exists k. rewrite B, C. split; [reflexivity|]. apply in_seq. lia.
  Qed.

  Lemma content_all : flat_map content gridClusters = flat_map (fun i => tParts (final i)) (seq 0 (numNew g)).
  Proof using srt cpos nx1.
    clear ny1 ids noMax. unfold gridClusters.
    assert (G : forall l, (forall i, In i l -> i < numNew g) -> flat_map content (flat_map (fun i => map (fun k => (xOf g i, yOf g i, k)) (seq 0 (tClusters (final i)))) l) = flat_map (fun i => tParts (final i)) l).
    { induction l as [|i l IH]; intros H; [reflexivity|]. specialize (IH (fun j J => H j (or_intror J))).
      change (flat_map (fun i => tParts (final i)) (i :: l)) with (tParts (final i) ++ flat_map (fun i => tParts (final i)) l). rewrite <- IH.
      match goal with |- flat_map content (flat_map ?h (i :: l)) = _ => change (flat_map h (i :: l)) with (h i ++ flat_map h l) end.
      rewrite flat_map_app. f_equal. cbv beta.
      rewrite flat_map_concat_map, map_map. unfold content, byXY. rewrite (proj2 (of_index g nx1 i (H i (or_introl eq_refl)))).
      apply chunks. destruct (tower_steps sortZ cs g old toAdd srt cpos i) as (_ & _ & _ & _ & _ & _ & _ & _ & _ & _ & _ & _ & F & _). apply F. }
    apply G. intros i I. apply in_seq in I. lia.
  Qed.

  Lemma total_one p : In p (before old toAdd) -> (exists c, inCluster cs g final c p) -> occ (fun x => (pid x =? pid p)%Z) (flat_map content gridClusters) = 1.
  Proof using All.
    intros I [c C]. rewrite content_all. set (isP := fun x => _).
    destruct (rebuild_keeps sortZ cs g old toAdd srt cpos nx1 ny1) as [P _].
    assert (T := occ_id_one _ p ids I). fold isP in T. rewrite (occ_perm _ _ _ P), occ_app in T.
    assert (E : occ isP (flat_map (fun i => tParts (final i)) (seq 0 (numNew g))) = occ isP (flat_map (fun i => actual (final i)) (seq 0 (numNew g)))).
    { clear P T. induction (seq 0 (numNew g)) as [|i l IH]; [reflexivity|]. cbn [flat_map]. rewrite !occ_app, IH. f_equal. rewrite (actual_padding (final i)) at 1. rewrite occ_app.
      rewrite (occ_zero isP (padding (final i))); [lia|]. intros x X. assert (F := padding_ids i). rewrite Forall_forall in F. rewrite Forall_forall in noMax.
      unfold isP. rewrite (F x X). apply Z.eqb_neq. intros Q. apply (noMax p I). symmetry. exact Q. }
    rewrite E in *. assert (1 <= occ isP (flat_map (fun i => actual (final i)) (seq 0 (numNew g)))); [|lia]. rewrite <- E, <- content_all.
    apply (occ_pos_of_in isP _ p); [|unfold isP; apply Z.eqb_refl]. apply in_flat_map. exists c. split.
    - apply in_gridClusters. destruct c as [[x y] k]. apply C.
    - destruct c as [[x y] k]. apply C.
  Qed.

  Lemma content_occ p a c : In p (before old toAdd) -> inCluster cs g final a p -> isCluster g final c ->
    occ (fun x => (pid x =? pid p)%Z) (content c) = if eqCluster c a then 1 else 0.
  Proof using All.
    intros I A C. assert (T := total_one p I (ex_intro _ a A)). set (isP := fun x => (pid x =? pid p)%Z) in *.
    assert (GA : In a gridClusters) by (apply in_gridClusters; destruct a as [[x y] k]; apply A).
    assert (GC : In c gridClusters) by (apply in_gridClusters; exact C).
    assert (OA : 1 <= occ isP (content a)).
    { apply (occ_pos_of_in isP _ p); [destruct a as [[x y] k]; apply A|unfold isP; apply Z.eqb_refl]. }
    destruct (eqCluster c a) eqn:E.
    - apply eqCluster_spec in E. subst c.
      assert (U : occ isP (content a) <= occ isP (flat_map content gridClusters)).
      { clear - GA. induction gridClusters as [|v l IH]; [destruct GA|]. cbn [flat_map]. rewrite occ_app. destruct GA as [->|G]; [lia|]. specialize (IH G). lia. }
      lia.
    - destruct (occ isP (content c)) eqn:OC; [reflexivity|]. exfalso.
      assert (2 <= occ isP (flat_map content gridClusters)); [|lia].
      apply (occ_two isP content gridClusters a c gridClusters_NoDup GA GC); [|exact OA|lia]. intros Q. subst c.
      rewrite (proj2 (eqCluster_spec a a) eq_refl) in E. discriminate.
  Qed.
End Ids.
