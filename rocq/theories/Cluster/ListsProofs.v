(** The neighbour lists of a rebuild are complete and without duplicates. *)
From Coq Require Import Reals Lra Lia Psatz Permutation Sorted.
From Flocq Require Import Core.
From Verif.Base Require Import ZRange Occ Lists.
From Verif.Functor Require Import SortModel SortSpec.
From Verif.Grid Require Import CellBlockSpec.
From Verif.Container Require Import ParticleModel IteratorModel IteratorContainers LinkedCellsGeo.
From Verif.Cluster Require Import TowerModel TowerSpec TowerProofs TowerProps BlockModel BlockGeo BlockBuild ListsCount ListsSpec.
Local Open Scope nat_scope.

(** Particles of a tower whose dummies are copies of the last particle are sorted. *)
Lemma sorted_with_copies t : zSorted (actual t) -> (forall p, In p (padding t) -> nth_error (actual t) (numActual t - 1) = Some p) ->
  zSorted (tParts t).
Proof.
  intros S C. rewrite (actual_padding t). revert C. generalize (padding t). intros pad C.
  assert (K : forall p q, In p (actual t) -> In q pad -> (rz (ppos p) <= rz (ppos q))%R).
  { intros p q P Q. apply In_nth_error in P. destruct P as [i P]. specialize (C q Q).
    apply (sorted_nth _ S i (numActual t - 1) p q); auto. assert (nth_error (actual t) i <> None) by congruence.
    apply nth_error_Some in H. rewrite actual_length in H. lia. }
  assert (E : forall p q, In p pad -> In q pad -> (rz (ppos p) <= rz (ppos q))%R).
  { intros p q P Q. apply C in P, Q. rewrite P in Q. injection Q as ->. lra. }
  clear C. revert K S. generalize (actual t). intros l K S. induction S as [|a l S IH F]; cbn [app].
  - clear K. induction pad as [|b pad IH]; constructor.
    + apply IH. intros; apply E; now right.
    + apply Forall_forall. intros q Q. apply E; [now left|now right].
  - constructor; [apply IH; intros; apply K; [now right|auto]|]. apply Forall_app. split; [exact F|].
    apply Forall_forall. intros q Q. apply K; [now left|exact Q].
Qed.

(** The bounding box of a cluster of a sorted tower contains the cluster. *)
Lemma cluster_box cs t k : 0 < cs -> length (tParts t) = cs * tClusters t -> zSorted (tParts t) -> k < tClusters t ->
  exists lo hi, boundingBox (clusterOf cs t k) = Some (lo, hi) /\ forall p, In p (clusterOf cs t k) -> inClosedBox lo hi (ppos p).
Proof.
  intros C L SS K. assert (B : cs * S k <= length (tParts t)) by nia.
  assert (CL := cluster_length cs (tParts t) k B). fold (clusterOf cs t k) in CL. unfold boundingBox.
  destruct (nth_error (clusterOf cs t k) 0) as [a|] eqn:EA; [|apply nth_error_None in EA; lia].
  destruct (nth_error (clusterOf cs t k) (length (clusterOf cs t k) - 1)) as [z|] eqn:EZ; [|apply nth_error_None in EZ; lia].
  destruct (bb_fold (clusterOf cs t k) (ppos a, ppos z)) as [(_ & _ & Z1 & _ & _ & Z2) XY]. cbv zeta in Z1, Z2, XY.
  set (r := fold_left bbStep (clusterOf cs t k) (ppos a, ppos z)) in *. exists (fst r), (snd r). split; [rewrite <- surjective_pairing; reflexivity|].
  intros p P. destruct (XY p P) as [X Y]. cbn [fst snd] in Z1, Z2. split; [exact X|]. split; [exact Y|]. rewrite Z1, Z2.
  apply In_nth_error in P. destruct P as [i P].
  assert (Hi : i < cs). { assert (nth_error (clusterOf cs t k) i <> None) by congruence. apply nth_error_Some in H. lia. }
  unfold clusterOf in *. rewrite cluster_nth in P, EA, EZ. destruct (Nat.ltb_spec i cs); [|lia]. destruct (Nat.ltb_spec 0 cs); [|lia].
  destruct (Nat.ltb_spec (length (cluster cs (tParts t) k) - 1) cs); [|discriminate].
  split; eapply (sorted_nth _ SS); [|exact EA|exact P| |exact P|exact EZ]; lia.
Qed.

Section Lists.
  Variable sortZ : list Particle -> list Particle.
  Variable cs : nat.
  Variables (bMin bMax : R3) (il opt : R).
  Variable old : list Tower.
  Variable toAdd : list Particle.
  Variable newton3 : bool.
  Hypothesis srt : sortsByZ sortZ.
  Hypothesis cpos : 0 < cs.
  Hypothesis box_ok : below bMin bMax.
  Hypothesis il_pos : (0 < il)%R.
  Hypothesis opt_pos : (0 < opt)%R.
  Hypothesis same_halo : haloTowers il (sideLength (rx bMax - rx bMin) opt) = haloTowers il (sideLength (ry bMax - ry bMin) opt).
  Let g := estimatedGrid bMin bMax il opt.
  Hypothesis no_dummies : Forall (fun p => isDummy p = false) toAdd.
  Hypothesis owned_inside : forall p, In p (before old toAdd) -> (isOwned p = true <-> inBox bMin bMax (ppos p)).
  Notation moved := (movedTower sortZ cs g old toAdd).
  Notation final := (finalTower sortZ cs g old toAdd).
  Notation nlist := (neighborList cs g (byXY g moved) newton3).

  Lemma nx1 : (1 <= gNX g)%Z.
  Proof using All. assert (X := nx_pos bMin bMax il opt box_ok il_pos opt_pos same_halo). fold g in X. lia. Qed.
  Lemma ny1 : (1 <= gNY g)%Z.
  Proof using All. assert (X := ny_pos bMin bMax il opt box_ok il_pos opt_pos same_halo). fold g in X. lia. Qed.

  (** The particles of a cluster are in its slots while the lists are made. *)
  Lemma final_moved i k p : isDummy p = false -> In p (clusterOf cs (final i) k) -> In p (clusterOf cs (moved i) k) /\ In p (actual (moved i)).
  Proof using All.
    intros D I. destruct (tower_steps sortZ cs g old toAdd srt cpos i) as (F & P & Z & G & S & L2 & A & D' & C & FO & FT & PD & F' & A' & D'' & C' & FO' & FT').
    apply In_nth_error in I. destruct I as [j E]. unfold clusterOf in E. rewrite cluster_nth in E. destruct (Nat.ltb_spec j cs) as [J|J]; [|discriminate].
    assert (NF : numActual (final i) = numActual (moved i)). { rewrite <- !actual_length. congruence. }
    assert (B : cs * k + j < numActual (final i)).
    { destruct (Nat.lt_ge_cases (cs * k + j) (numActual (final i))) as [|B]; auto. exfalso. destruct F' as (_ & _ & _ & F4). rewrite Forall_forall in F4.
      assert (In p (padding (final i))). { apply nth_error_In with (cs * k + j - numActual (final i)). unfold padding. rewrite nth_error_skipn'. rewrite <- E. f_equal. lia. }
      rewrite (F4 p H) in D. discriminate. }
    assert (EA : nth_error (actual (moved i)) (cs * k + j) = Some p).
    { rewrite A, <- A'. unfold actual. rewrite nth_error_firstn'. destruct (Nat.ltb_spec (cs * k + j) (numActual (final i))); [exact E|lia]. }
    split; [|eapply nth_error_In; exact EA]. apply nth_error_In with j. unfold clusterOf. rewrite cluster_nth. destruct (Nat.ltb_spec j cs); [|lia].
    unfold actual in EA. rewrite nth_error_firstn' in EA. destruct (Nat.ltb_spec (cs * k + j) (numActual (moved i))); [exact EA|discriminate].
  Qed.

  Lemma moved_clusters i : tClusters (moved i) = tClusters (final i) /\ tFirstOwned (moved i) = tFirstOwned (final i) /\ tFirstTail (moved i) = tFirstTail (final i) /\
    length (tParts (moved i)) = cs * tClusters (moved i) /\ zSorted (tParts (moved i)).
  Proof using All.
    destruct (tower_steps sortZ cs g old toAdd srt cpos i) as (F & P & Z & G & S & L2 & A & D' & C & FO & FT & PD & F' & A' & D'' & C' & FO' & FT').
    split; [congruence|]. split; [congruence|]. split; [congruence|]. split; [exact L2|]. apply sorted_with_copies; [rewrite A; exact Z|exact PD].
  Qed.

  Lemma not_empty c p : In p c -> isDummy p = false -> clusterEmpty c = false.
  Proof using. intros I D. unfold clusterEmpty. apply not_true_is_false. intros H. rewrite forallb_forall in H. rewrite (H p I) in D. discriminate. Qed.

  (** Everything about two clusters with particles [p] and [q] within the interaction length. *)
  Lemma near_clusters x y k p x' y' k' q : inCluster cs g final (x, y, k) p -> inCluster cs g final (x', y', k') q -> (dist3 (ppos p) (ppos q) <= il)%R ->
    (Z.abs (x - x') <= gNIL g)%Z /\ (Z.abs (y - y') <= gNIL g)%Z /\ towersNear g x y x' y' = true /\
    clusterEmpty (clusterOf cs (byXY g moved x y) k) = false /\ clusterEmpty (clusterOf cs (byXY g moved x' y') k') = false /\
    clustersNear g (clusterOf cs (byXY g moved x y) k) (clusterOf cs (byXY g moved x' y') k') = true /\
    k < tClusters (byXY g moved x y) /\ k' < tClusters (byXY g moved x' y').
  Proof using All.
    intros ((X & Y & K) & DP & IP) ((X' & Y' & K') & DQ & IQ) DD.
    destruct (index_of g x y (conj X Y)) as (N & XO & YO). destruct (index_of g x' y' (conj X' Y')) as (N' & XO' & YO').
    unfold byXY in *. set (i := Z.to_nat (tower1D g x y)) in *. set (i' := Z.to_nat (tower1D g x' y')) in *.
    destruct (final_moved i k p DP IP) as [MP AP]. destruct (final_moved i' k' q DQ IQ) as [MQ AQ].
    assert (TP := filled_inTower bMin bMax il opt old toAdd box_ok il_pos opt_pos same_halo i p N (actual_filled sortZ cs g old toAdd srt cpos i p AP)).
    assert (TQ := filled_inTower bMin bMax il opt old toAdd box_ok il_pos opt_pos same_halo i' q N' (actual_filled sortZ cs g old toAdd srt cpos i' q AQ)).
    fold g in TP, TQ. rewrite XO, YO in TP. rewrite XO', YO' in TQ.
    destruct (near_towers bMin bMax il opt box_ok il_pos opt_pos same_halo _ _ _ _ _ _ TP TQ DD) as (NX & NY & NT). fold g in NX, NY, NT.
    destruct (moved_clusters i) as (MC & _ & _ & ML & MS). destruct (moved_clusters i') as (MC' & _ & _ & ML' & MS').
    rewrite MC in ML |- *. rewrite MC' in ML' |- *. rewrite <- MC in ML. rewrite <- MC' in ML'.
    destruct (cluster_box cs (moved i) k cpos ML MS ltac:(lia)) as (lo & hi & E & BB). destruct (cluster_box cs (moved i') k' cpos ML' MS' ltac:(lia)) as (lo' & hi' & E' & BB').
    split; [exact NX|]. split; [exact NY|]. split; [exact NT|]. split; [eapply not_empty; eauto|]. split; [eapply not_empty; eauto|]. split; [|split; [exact K|exact K']].
    unfold clustersNear. rewrite E, E'. replace (gIL g) with il by reflexivity.
    assert (LE := boxDistance_le lo hi lo' hi' _ _ (BB p MP) (BB' q MQ)). assert (D0 : (0 <= dist3 (ppos p) (ppos q))%R) by (unfold dist3; apply sqrt_pos).
    assert (SQ : (dist3 (ppos p) (ppos q) * dist3 (ppos p) (ppos q) <= il * il)%R) by (apply Rmult_le_compat; auto).
    destruct (Rle_dec (boxDistanceSquared lo hi lo' hi') (il * il)) as [|n]; [reflexivity|]. exfalso. apply n. lra.
  Qed.

  (** An owned particle makes its cluster an owned cluster. *)
  Lemma owned_cluster x y k p : inCluster cs g final (x, y, k) p -> isOwned p = true ->
    isHaloCluster (byXY g moved x y) k = false /\ tFirstOwned (byXY g moved x y) <= k < tFirstTail (byXY g moved x y).
  Proof using All.
    intros ((X & Y & K) & DP & IP) O. destruct (index_of g x y (conj X Y)) as (N & XO & YO). unfold byXY in *. set (i := Z.to_nat (tower1D g x y)) in *.
    assert (R := proj1 (final_owned_range sortZ cs bMin bMax il opt old toAdd srt cpos box_ok il_pos opt_pos same_halo owned_inside i k N K) (ex_intro _ p (conj IP O))).
    destruct (moved_clusters i) as (MC & MF & MT & _). fold g in R. rewrite MF, MT. split; [|exact R]. unfold isHaloCluster. rewrite MF, MT.
    destruct (Nat.ltb_spec k (tFirstOwned (final i))); [lia|]. destruct (Nat.leb_spec (tFirstTail (final i)) k); [lia|]. reflexivity.
  Qed.

  (** Without Newton 3: the cluster of an owned particle lists the clusters of all
      particles within the interaction length. *)
  Theorem lists_complete a b p q : newton3 = false -> a <> b -> inCluster cs g final a p -> inCluster cs g final b q ->
    isOwned p = true -> (dist3 (ppos p) (ppos q) <= il)%R -> occ (eqCluster b) (nlist a) = 1.
  Proof using All.
    intros N3 NE P Q O D. destruct a as [[x y] k]; destruct b as [[x' y'] k']. rewrite occ_list. unfold listed.
    destruct (near_clusters _ _ _ _ _ _ _ _ P Q D) as (AX & AY & TN & E1 & E2 & CN & K & K').
    destruct (owned_cluster _ _ _ _ P O) as [HC OR]. destruct P as ((X & Y & _) & _). destruct Q as ((X' & Y' & _) & _).
    rewrite TN, E1, E2, CN, HC. rewrite N3. cbn [negb orb andb]. unfold hasList.
    destruct (Nat.leb_spec (tFirstOwned (byXY g moved x y)) k); [|lia]. destruct (Nat.ltb_spec k (tFirstTail (byXY g moved x y))); [|lia].
    destruct (Z.leb_spec (Z.abs (x - x')) (gNIL g)); [|lia]. destruct (Z.leb_spec (Z.abs (y - y')) (gNIL g)); [|lia].
    destruct (Z.leb_spec 0 x'); [|lia]. destruct (Z.ltb_spec x' (gNX g)); [|lia]. destruct (Z.leb_spec 0 y'); [|lia]. destruct (Z.ltb_spec y' (gNY g)); [|lia].
    destruct (Nat.ltb_spec k' (tClusters (byXY g moved x' y'))); [|lia].
    destruct (Z.eqb_spec x x'); destruct (Z.eqb_spec y y'); destruct (Nat.eqb_spec k k'); cbn [negb orb andb]; try reflexivity. exfalso. apply NE. congruence.
  Qed.

  (** With Newton 3: exactly one of the two clusters lists the other one, once. *)
  Theorem lists_complete_n3 a b p q : newton3 = true -> a <> b -> inCluster cs g final a p -> inCluster cs g final b q ->
    (isOwned p = true \/ isOwned q = true) -> (dist3 (ppos p) (ppos q) <= il)%R ->
    occ (eqCluster b) (nlist a) + occ (eqCluster a) (nlist b) = 1.
  Proof using All.
    intros N3 NE P Q O D. destruct a as [[x y] k]; destruct b as [[x' y'] k']. rewrite !occ_list. unfold listed.
    destruct (near_clusters _ _ _ _ _ _ _ _ P Q D) as (AX & AY & TN & E1 & E2 & CN & K & K').
    assert (HC : isHaloCluster (byXY g moved x y) k && isHaloCluster (byXY g moved x' y') k' = false).
    { destruct O as [O|O]; [rewrite (proj1 (owned_cluster _ _ _ _ P O)); reflexivity|rewrite (proj1 (owned_cluster _ _ _ _ Q O)); apply andb_false_r]. }
    destruct P as ((X & Y & _) & _). destruct Q as ((X' & Y' & _) & _).
    rewrite (towersNear_sym g x' y'), (clustersNear_sym g (clusterOf cs (byXY g moved x' y') k')), (andb_comm (isHaloCluster (byXY g moved x' y') k')).
    rewrite TN, E1, E2, CN, HC. rewrite N3. cbn [negb orb andb]. unfold hasList.
    replace (Z.abs (x' - x)) with (Z.abs (x - x')) by lia. replace (Z.abs (y' - y)) with (Z.abs (y - y')) by lia.
    destruct (Nat.ltb_spec k (tClusters (byXY g moved x y))); [|lia]. destruct (Nat.ltb_spec k' (tClusters (byXY g moved x' y'))); [|lia].
    destruct (Z.leb_spec (Z.abs (x - x')) (gNIL g)); [|lia]. destruct (Z.leb_spec (Z.abs (y - y')) (gNIL g)); [|lia].
    destruct (Z.leb_spec 0 x'); [|lia]. destruct (Z.ltb_spec x' (gNX g)); [|lia]. destruct (Z.leb_spec 0 y'); [|lia]. destruct (Z.ltb_spec y' (gNY g)); [|lia].
    destruct (Z.leb_spec 0 x); [|lia]. destruct (Z.ltb_spec x (gNX g)); [|lia]. destruct (Z.leb_spec 0 y); [|lia]. destruct (Z.ltb_spec y (gNY g)); [|lia].
    cbn [negb orb andb]. rewrite !andb_true_r.
    rewrite (Z.eqb_sym x' x), (Z.eqb_sym y' y).
    destruct (Z.eqb_spec x x') as [EX|EX]; destruct (Z.eqb_spec y y') as [EY|EY]; cbn [negb andb].
    1: { subst x' y'. rewrite forward_refl. cbn [andb]. destruct (Nat.leb_spec k' k); destruct (Nat.leb_spec k k'); cbn [negb]; try lia. exfalso. apply NE. f_equal. lia. }
    all: rewrite !andb_true_r, (forward_one g x y x' y'); [destruct (isForward g x' y' x y); reflexivity|apply nx1|lia|lia|congruence].
  Qed.

  (** No list has an entry twice, only existing clusters are listed, and never the
      cluster itself.  With Newton 3 no two clusters list each other. *)
  Theorem lists_sound a b : isCluster g final a ->
    occ (eqCluster b) (nlist a) <= 1 /\ (occ (eqCluster b) (nlist a) = 1 -> isCluster g final b /\ a <> b) /\
    (newton3 = true -> isCluster g final b -> occ (eqCluster b) (nlist a) + occ (eqCluster a) (nlist b) <= 1).
  Proof using All.
    intros A. rewrite !occ_list. split; [destruct (listed _ _ _ _ a b); lia|]. split.
    - destruct (listed cs g (byXY g moved) newton3 a b) eqn:E; [|discriminate]. intros _. destruct a as [[x y] k]; destruct b as [[x' y'] k'].
      unfold listed in E. rewrite !andb_true_iff in E. destruct E as [[[[[[[[[[_ _] RG] _] _] _] _] KC] SM] _] _].
      destruct RG as [[G1 G2] [G3 G4]]. apply Z.leb_le in G1, G3. apply Z.ltb_lt in G2, G4. apply Nat.ltb_lt in KC.
      split.
      + unfold isCluster. split; [lia|]. split; [lia|]. unfold byXY in *. destruct (moved_clusters (Z.to_nat (tower1D g x' y'))) as (<- & _). exact KC.
      + intros EQ. injection EQ as <- <- <-. rewrite !Z.eqb_refl in SM. rewrite Nat.leb_refl, Nat.eqb_refl in SM. destruct newton3; discriminate.
    - intros N3 B. destruct (listed cs g (byXY g moved) newton3 a b) eqn:E; [|destruct (listed _ _ _ _ b a); lia].
      destruct (listed cs g (byXY g moved) newton3 b a) eqn:E'; [|lia]. exfalso.
      destruct a as [[x y] k]; destruct b as [[x' y'] k']. destruct A as (X & Y & _). destruct B as (X' & Y' & _).
      unfold listed in E, E'. rewrite !andb_true_iff in E, E'. rewrite N3 in E, E'. cbn [negb orb] in E, E'.
      destruct E as [[[[[[[[_ FW] _] _] _] _] SM] _] _]. destruct E' as [[[[[[[[_ FW'] _] _] _] _] SM'] _] _].
      destruct (Z.eq_dec x x') as [->|NX]; [destruct (Z.eq_dec y y') as [->|NY]|].
      + rewrite !Z.eqb_refl in SM, SM'. cbn [andb] in SM, SM'. apply negb_true_iff in SM, SM'. apply Nat.leb_gt in SM, SM'. lia.
      + rewrite (forward_one g x' y x' y' nx1) in FW by (auto || congruence). rewrite FW' in FW. discriminate.
      + rewrite (forward_one g x y x' y' nx1) in FW by (auto || congruence). rewrite FW' in FW. discriminate.
  Qed.
End Lists.
