(** How often a cluster is in the neighbour list of another one. *)
From Coq Require Import Reals Lra Lia Psatz.
From Flocq Require Import Core.
From Verif.Base Require Import ZRange Occ.
From Verif.Container Require Import ParticleModel IteratorModel.
From Verif.Cluster Require Import TowerModel BlockModel.
Local Open Scope Z_scope.

Lemma eqCluster_spec a b : eqCluster a b = true <-> a = b.
Proof.
  destruct a as [[xa ya] ka]; destruct b as [[xb yb] kb]. unfold eqCluster. rewrite !andb_true_iff, !Z.eqb_eq, Nat.eqb_eq.
  split; [intros [[-> ->] ->]; reflexivity|intros E; injection E as -> -> ->; auto].
Qed.

Section Count.
  Variable cs : nat.
  Variable g : Grid.
  Variable tower : Z -> Z -> Tower.
  Variable newton3 : bool.
  Notation neighborList := (neighborList cs g tower newton3).

  (** The condition under which [b] is in the list of [a]. *)
  Definition listed (a b : ClusterId) : bool :=
    let '(xa, ya, ka) := a in let '(xb, yb, kb) := b in
    let ta := tower xa ya in let tb := tower xb yb in
    hasList newton3 ta ka &&
    ((Z.abs (xa - xb) <=? gNIL g) && (Z.abs (ya - yb) <=? gNIL g)) &&
    ((0 <=? xb) && (xb <? gNX g) && ((0 <=? yb) && (yb <? gNY g))) &&
    (negb newton3 || isForward g xa ya xb yb) && towersNear g xa ya xb yb &&
    negb (clusterEmpty (clusterOf cs ta ka)) && negb (clusterEmpty (clusterOf cs tb kb)) &&
    (kb <? tClusters tb)%nat &&
    negb ((xa =? xb) && (ya =? yb) && (if newton3 then (kb <=? ka)%nat else (ka =? kb)%nat)) &&
    negb (isHaloCluster ta ka && isHaloCluster tb kb) &&
    clustersNear g (clusterOf cs ta ka) (clusterOf cs tb kb).

  Lemma occ_if_one (f : ClusterId -> bool) (c : bool) x : occ f (if c then [x] else []) = if c && f x then 1%nat else 0%nat.
  Proof. destruct c; cbn [andb]; [rewrite occ_cons, occ_nil; destruct (f x); reflexivity|reflexivity]. Qed.

  Lemma occ_inTower xa ya ka xb yb xc yc kc :
    occ (eqCluster (xc, yc, kc)) (neighborsInTower cs g tower newton3 xa ya ka xb yb) =
    if (xc =? xb) && (yc =? yb) &&
       (negb (clusterEmpty (clusterOf cs (tower xa ya) ka)) && negb (clusterEmpty (clusterOf cs (tower xb yb) kc)) &&
        (kc <? tClusters (tower xb yb))%nat &&
        negb ((xa =? xb) && (ya =? yb) && (if newton3 then (kc <=? ka)%nat else (ka =? kc)%nat)) &&
        negb (isHaloCluster (tower xa ya) ka && isHaloCluster (tower xb yb) kc) &&
        clustersNear g (clusterOf cs (tower xa ya) ka) (clusterOf cs (tower xb yb) kc))
    then 1%nat else 0%nat.
  Proof.
    unfold neighborsInTower. set (ta := tower xa ya). set (tb := tower xb yb). set (same := (xa =? xb) && (ya =? yb)).
    destruct (clusterEmpty (clusterOf cs ta ka)) eqn:EA; cbn [negb andb].
    { rewrite andb_false_r. reflexivity. }
    set (start := if same && newton3 then S ka else 0%nat).
    set (body := fun kb => _). 
    assert (BE : forall kb, body kb = if negb (same && (ka =? kb)%nat) && negb (isHaloCluster ta ka && isHaloCluster tb kb) && negb (clusterEmpty (clusterOf cs tb kb)) &&
        clustersNear g (clusterOf cs ta ka) (clusterOf cs tb kb) then [(xb, yb, kb)] else []).
    { intros kb. unfold body. destruct (same && (ka =? kb)%nat); [reflexivity|].
      destruct (isHaloCluster ta ka && isHaloCluster tb kb); [reflexivity|]. destruct (clusterEmpty (clusterOf cs tb kb)); reflexivity. }
    assert (BO : forall kb, occ (eqCluster (xc, yc, kc)) (body kb) =
       if (negb (same && (ka =? kb)%nat) && negb (isHaloCluster ta ka && isHaloCluster tb kb) && negb (clusterEmpty (clusterOf cs tb kb)) &&
        clustersNear g (clusterOf cs ta ka) (clusterOf cs tb kb)) && ((xc =? xb) && (yc =? yb) && (kc =? kb)%nat) then 1%nat else 0%nat).
    { intros kb. rewrite BE, occ_if_one. reflexivity. }
    destruct (Nat.leb_spec start kc) as [L1|L1]; [destruct (Nat.ltb_spec kc (tClusters tb)) as [L2|L2]|].
    - rewrite (occ_flat_map_unique _ _ _ kc); [|apply seq_NoDup|apply in_seq; lia|].
      + rewrite BO, Nat.eqb_refl, andb_true_r.
        assert (SE : same && (ka =? kc)%nat = same && (if newton3 then (kc <=? ka)%nat else (ka =? kc)%nat)).
        { destruct same eqn:SM; [|reflexivity]. cbn [andb]. destruct newton3; [|reflexivity]. cbn [andb] in start. unfold start in L1.
          destruct (Nat.eqb_spec ka kc); destruct (Nat.leb_spec kc ka); auto; lia. }
        rewrite SE. fold same. cbv zeta.
        generalize (same && (if newton3 then (kc <=? ka)%nat else (ka =? kc)%nat)), ((xc =? xb) && (yc =? yb)),
          (clusterEmpty (clusterOf cs tb kc)), (clustersNear g (clusterOf cs ta ka) (clusterOf cs tb kc)), (isHaloCluster ta ka && isHaloCluster tb kc).
        intros [|] [|] [|] [|] [|]; reflexivity.
      + intros kb _ NE. rewrite BO. destruct (Nat.eqb_spec kc kb); [congruence|]. rewrite !andb_false_r. reflexivity.
    - rewrite occ_flat_map_zero.
      + rewrite !andb_false_r. cbn [andb]. rewrite ?andb_false_r. reflexivity.
      + intros kb I. apply in_seq in I. rewrite BO. destruct (Nat.eqb_spec kc kb); [lia|]. rewrite !andb_false_r. reflexivity.
    - rewrite occ_flat_map_zero.
      + unfold start in L1. destruct same eqn:SM; [|cbn [andb] in L1; lia]. destruct newton3; [|cbn [andb] in L1; lia]. cbn [andb] in L1.
        destruct (Nat.leb_spec kc ka); [|lia]. cbn [negb andb]. rewrite !andb_false_r. cbn [andb]. rewrite ?andb_false_r. reflexivity.
      + intros kb I. apply in_seq in I. rewrite BO. destruct (Nat.eqb_spec kc kb); [lia|]. rewrite !andb_false_r. reflexivity.
  Qed.

  Lemma occ_list a b : occ (eqCluster b) (neighborList a) = if listed a b then 1%nat else 0%nat.
  Proof.
    destruct a as [[xa ya] ka]; destruct b as [[xb yb] kb]. unfold BlockModel.neighborList, listed.
    destruct (hasList newton3 (tower xa ya) ka); cbn [andb]; [|reflexivity].
    set (cell := fun ny nx => if newton3 && negb (isForward g xa ya nx ny) then [] else if towersNear g xa ya nx ny then neighborsInTower cs g tower newton3 xa ya ka nx ny else []).
    assert (CO : forall ny nx, ny <> yb \/ nx <> xb -> occ (eqCluster (xb, yb, kb)) (cell ny nx) = 0%nat).
    { intros ny nx NE. unfold cell. destruct (newton3 && _); [reflexivity|]. destruct (towersNear g xa ya nx ny); [|reflexivity].
      rewrite occ_inTower. destruct (Z.eqb_spec xb nx); destruct (Z.eqb_spec yb ny); try reflexivity. lia. }
    change (occ (eqCluster (xb, yb, kb)) (flat_map (fun ny => flat_map (fun nx => cell ny nx)
        (zrange (Z.max (xa - gNIL g) 0) (Z.min (xa + gNIL g) (gNX g - 1) + 1)))
        (zrange (Z.max (ya - gNIL g) 0) (Z.min (ya + gNIL g) (gNY g - 1) + 1))) = (if
     ((Z.abs (xa - xb) <=? gNIL g) && (Z.abs (ya - yb) <=? gNIL g)) &&
    ((0 <=? xb) && (xb <? gNX g) && ((0 <=? yb) && (yb <? gNY g))) &&
    (negb newton3 || isForward g xa ya xb yb) && towersNear g xa ya xb yb &&
    negb (clusterEmpty (clusterOf cs (tower xa ya) ka)) && negb (clusterEmpty (clusterOf cs (tower xb yb) kb)) &&
    (kb <? tClusters (tower xb yb))%nat &&
    negb ((xa =? xb) && (ya =? yb) && (if newton3 then (kb <=? ka)%nat else (ka =? kb)%nat)) &&
    negb (isHaloCluster (tower xa ya) ka && isHaloCluster (tower xb yb) kb) &&
    clustersNear g (clusterOf cs (tower xa ya) ka) (clusterOf cs (tower xb yb) kb) then 1%nat else 0%nat)).
    set (R := (Z.abs (xa - xb) <=? gNIL g) && (Z.abs (ya - yb) <=? gNIL g) && ((0 <=? xb) && (xb <? gNX g) && ((0 <=? yb) && (yb <? gNY g)))).
    assert (RS : R = true <-> (In xb (zrange (Z.max (xa - gNIL g) 0) (Z.min (xa + gNIL g) (gNX g - 1) + 1)) /\
        In yb (zrange (Z.max (ya - gNIL g) 0) (Z.min (ya + gNIL g) (gNY g - 1) + 1)))).
    { unfold R. rewrite !andb_true_iff, !Z.leb_le, !Z.ltb_lt, !in_zrange. lia. }
    destruct R.
    - destruct (proj1 RS eq_refl) as [IX IY]. cbn [andb].
      rewrite (occ_flat_map_unique _ _ _ yb); [|apply NoDup_zrange|exact IY|].
      + rewrite (occ_flat_map_unique _ _ _ xb); [|apply NoDup_zrange|exact IX|intros; apply CO; auto].
        unfold cell. assert (EF : negb newton3 || isForward g xa ya xb yb = negb (newton3 && negb (isForward g xa ya xb yb))).
        { rewrite negb_andb, negb_involutive. reflexivity. }
        rewrite EF. destruct (newton3 && negb (isForward g xa ya xb yb)); cbn [negb andb]; [reflexivity|].
        destruct (towersNear g xa ya xb yb); [|reflexivity]. rewrite occ_inTower, !Z.eqb_refl. cbn [andb]. reflexivity.
      + intros ny _ NE. apply occ_flat_map_zero. intros nx _. apply CO. auto.
    - rewrite occ_flat_map_zero; [reflexivity|]. intros ny IY. apply occ_flat_map_zero. intros nx IX.
      apply CO. destruct (Z.eq_dec ny yb) as [->|]; auto. destruct (Z.eq_dec nx xb) as [->|]; auto.
      exfalso. assert (false = true) by (apply RS; auto). discriminate.
  Qed.
End Count.

(** Exactly one of two different towers is a forward neighbour of the other. *)
Lemma forward_one g xa ya xb yb : 1 <= gNX g -> 0 <= xa < gNX g -> 0 <= xb < gNX g -> (xa, ya) <> (xb, yb) ->
  isForward g xa ya xb yb = negb (isForward g xb yb xa ya).
Proof.
  intros N A B NE. unfold isForward.
  set (ca := interactionCell g xa ya). set (cb := interactionCell g xb yb).
  destruct (Z.ltb_spec ca cb); destruct (Z.ltb_spec cb ca); try reflexivity; try lia.
  assert (tower1D g xa ya <> tower1D g xb yb).
  { unfold tower1D. intros E. apply NE. assert (ya = yb) by nia. subst. f_equal. lia. }
  destruct (Z.leb_spec (tower1D g xa ya) (tower1D g xb yb)); destruct (Z.leb_spec (tower1D g xb yb) (tower1D g xa ya)); try reflexivity; lia.
Qed.
Lemma forward_refl g x y : isForward g x y x y = true.
Proof. unfold isForward. rewrite Z.ltb_irrefl. apply Z.leb_refl. Qed.
Lemma towersNear_sym g xa ya xb yb : towersNear g xa ya xb yb = towersNear g xb yb xa ya.
Proof.
  unfold towersNear. replace (Z.abs (yb - ya)) with (Z.abs (ya - yb)) by lia. replace (Z.abs (xb - xa)) with (Z.abs (xa - xb)) by lia. reflexivity.
Qed.
