(** How often a particle receives the contribution of another one when a list of clusters
    is processed. *)
From Coq Require Import Reals Lia.
From Verif.Base Require Import ZRange Occ.
From Verif.Functor Require Import SortModel CellFunctorModel FunctorSpec.
From Verif.Container Require Import ParticleModel.
From Verif.Cluster Require Import TowerModel BlockModel ListsCount ClusterTraversalModel.
Local Open Scope nat_scope.

Lemma occ_product {A B} (f : B -> bool) (h : A -> A -> B) (u v : A -> bool) l1 l2 :
  (forall x y, f (h x y) = u x && v y) -> occ f (flat_map (fun x => map (h x) l2) l1) = occ u l1 * occ v l2.
Proof.
  intros H. induction l1 as [|x l1 IH]; [reflexivity|]. cbn [flat_map]. rewrite occ_app, occ_cons, IH, occ_map.
  destruct (u x) eqn:U; [rewrite (occ_ext _ v)|rewrite occ_zero]; try (intros; rewrite H, U; reflexivity); lia.
Qed.

Lemma occ_or {A} (f u v : A -> bool) l : (forall x, f x = u x || v x) -> (forall x, u x && v x = false) -> occ f l = occ u l + occ v l.
Proof.
  intros H D. induction l as [|x l IH]; [reflexivity|]. rewrite !occ_cons, H, IH. specialize (D x). destruct (u x), (v x); try discriminate; cbn; lia.
Qed.

(** Pairs of list elements in list order of which one is [u] and the other [v]. *)
Lemma occ_laterPairs {A} (u v : A -> bool) (l : list A) : (forall x, u x && v x = false) ->
  occ (fun '(x, y) => (u x && v y) || (u y && v x)) (laterPairs (fun _ l => l) l) = occ u l * occ v l.
Proof.
  intros D. induction l as [|x l IH]; [reflexivity|]. cbn [laterPairs]. rewrite occ_app, IH, !occ_cons, occ_map.
  specialize (D x). destruct (u x) eqn:U; destruct (v x) eqn:V; try discriminate.
  - rewrite (occ_ext _ v); [lia|]. intros y _. cbn [andb orb]. rewrite andb_false_r, orb_false_r. reflexivity.
  - rewrite (occ_ext _ u); [lia|]. intros y _. cbn [andb orb]. rewrite andb_true_r. reflexivity.
  - rewrite occ_zero; [lia|]. intros y _. cbn [andb orb]. rewrite andb_false_r. reflexivity.
Qed.

Lemma occ_flat_sum {A B} (f : B -> bool) (h : A -> list B) (w : A -> bool) n l :
  (forall x, In x l -> occ f (h x) = if w x then n else 0) -> occ f (flat_map h l) = n * occ w l.
Proof.
  induction l as [|x l IH]; intros H; [cbn; lia|]. cbn [flat_map]. rewrite occ_app, occ_cons, (H x (or_introl eq_refl)), IH by (intros; apply H; now right).
  destruct (w x); lia.
Qed.

Section Count.
  Variable newton3 : bool.
  Variable layout : Layout.
  Variable content : ClusterId -> list Particle.
  Variable neighbors : ClusterId -> list ClusterId.
  Variables (p q : Particle) (a b : ClusterId).
  Variable ok : ClusterId -> Prop.
  Hypothesis Hn : forall c d, ok c -> In d (neighbors c) -> ok d.
  Hypothesis Hp : forall c, ok c -> occ (fun x => (pid x =? pid p)%Z) (content c) = if eqCluster c a then 1 else 0.
  Hypothesis Hq : forall c, ok c -> occ (fun x => (pid x =? pid q)%Z) (content c) = if eqCluster c b then 1 else 0.
  Hypothesis pq : pid p <> pid q.
  Notation isP := (fun x => (pid x =? pid p)%Z).
  Notation isQ := (fun x => (pid x =? pid q)%Z).

  Lemma disjPQ x : isP x && isQ x = false.
  Proof. cbv beta. destruct (Z.eqb_spec (pid x) (pid p)); destruct (Z.eqb_spec (pid x) (pid q)); try reflexivity. congruence. Qed.

  Lemma contrib_n3 x y : contributes pid (pid p) (pid q) (mkCall x y true) = (isP x && isQ y) || (isP y && isQ x).
  Proof. unfold contributes. cbn [fstP sndP n3 andb]. f_equal. apply andb_comm. Qed.
  Lemma contrib_no x y : contributes pid (pid p) (pid q) (mkCall x y false) = isP x && isQ y.
  Proof. unfold contributes. cbn [fstP sndP n3 andb]. apply orb_false_r. Qed.

  Lemma later_count l : occ (fun '(x, y) => (isP x && isQ y) || (isP y && isQ x)) (laterPairs (fun _ l => l) l) = occ isP l * occ isQ l.
  Proof. apply occ_laterPairs. exact disjPQ. Qed.

  Lemma received_self c : ok c -> received pid (traverseCluster newton3 layout content c) p q = if eqCluster c a && eqCluster c b then 1 else 0.
  Proof.
    intros K. assert (E : occ isP (content c) * occ isQ (content c) = if eqCluster c a && eqCluster c b then 1 else 0).
    { rewrite Hp, Hq by exact K. destruct (eqCluster c a), (eqCluster c b); reflexivity. }
    rewrite <- E, <- later_count. unfold received, traverseCluster. clear E. destruct layout.
    - induction (laterPairs (fun _ l => l) (content c)) as [|[x y] l IH]; [reflexivity|]. cbn [flat_map]. rewrite occ_app, IH, occ_cons. f_equal.
      destruct newton3.
      + rewrite occ_cons, occ_nil, contrib_n3. lia.
      + rewrite !occ_cons, occ_nil, !contrib_no. assert (X := disjPQ x). cbv beta in X.
        destruct (pid x =? pid p)%Z; destruct (pid x =? pid q)%Z; try discriminate; destruct (pid y =? pid p)%Z; destruct (pid y =? pid q)%Z; reflexivity.
    - unfold soaSingle. rewrite occ_map. apply occ_ext. intros [x y] _. apply contrib_n3.
  Qed.

  Lemma received_pair c d : ok c -> ok d -> received pid (traverseClusterPair newton3 layout content c d) p q =
    (if eqCluster c a && eqCluster d b then 1 else 0) + (if newton3 && (eqCluster c b && eqCluster d a) then 1 else 0).
  Proof.
    intros KC KD. assert (G : forall n, received pid (flat_map (fun x => map (fun y => mkCall x y n) (content d)) (content c)) p q =
      (if eqCluster c a && eqCluster d b then 1 else 0) + (if n && (eqCluster c b && eqCluster d a) then 1 else 0)).
    { intros n. unfold received.
      rewrite (occ_or _ (fun k => isP (fstP k) && isQ (sndP k)) (fun k => n3 k && (isQ (fstP k) && isP (sndP k)))).
      - rewrite (occ_product _ (fun x y => mkCall x y n) isP isQ) by reflexivity. rewrite (Hp c KC), (Hq d KD).
        f_equal; [destruct (eqCluster c a), (eqCluster d b); reflexivity|]. destruct n.
        + rewrite (occ_product _ (fun x y => mkCall x y true) isQ isP) by reflexivity. rewrite (Hp d KD), (Hq c KC). destruct (eqCluster c b), (eqCluster d a); reflexivity.
        + rewrite occ_flat_map_zero; [reflexivity|]. intros x _. rewrite occ_map. apply occ_zero. reflexivity.
      - intros [x y n']. unfold contributes. cbn [fstP sndP n3]. rewrite andb_assoc. reflexivity.
      - intros [x y n']. cbn [fstP sndP n3]. assert (X := disjPQ x). cbv beta in X.
        destruct (pid x =? pid p)%Z; destruct (pid x =? pid q)%Z; try discriminate; cbn [andb]; rewrite ?andb_false_r; reflexivity. }
    unfold traverseClusterPair, soaPair. destruct layout; apply G.
  Qed.

  Lemma received_list c l : ok c -> (forall d, In d l -> ok d) -> received pid (flat_map (traverseClusterPair newton3 layout content c) l) p q =
    (if eqCluster c a then occ (eqCluster b) l else 0) + (if newton3 && eqCluster c b then occ (eqCluster a) l else 0).
  Proof.
    intros K. induction l as [|d l IH]; intros KL; [cbn; destruct (eqCluster c a), (newton3 && eqCluster c b); reflexivity|].
    assert (IH' := IH (fun x I => KL x (or_intror I))). assert (R := received_pair c d K (KL d (or_introl eq_refl))). unfold received in *. cbn [flat_map]. rewrite occ_app, IH', R, !occ_cons.
    assert (S : forall x y, eqCluster x y = eqCluster y x).
    { intros x y. destruct (eqCluster x y) eqn:E; symmetry; [apply eqCluster_spec in E; subst; apply eqCluster_spec; reflexivity|].
      destruct (eqCluster y x) eqn:E'; [|reflexivity]. apply eqCluster_spec in E'. subst. rewrite (proj2 (eqCluster_spec _ _) eq_refl) in E. discriminate. }
    rewrite (S d b), (S d a). destruct (eqCluster c a), (eqCluster c b), (eqCluster b d), (eqCluster a d), newton3; cbn [andb]; lia.
  Qed.

  Lemma received_cluster c h : ok c -> received pid (processCluster newton3 layout content neighbors c h) p q =
    (if negb h && (eqCluster c a && eqCluster c b) then 1 else 0) +
    ((if eqCluster c a then occ (eqCluster b) (neighbors c) else 0) + (if newton3 && eqCluster c b then occ (eqCluster a) (neighbors c) else 0)).
  Proof.
    intros K. unfold processCluster. assert (L := received_list c (neighbors c) K (fun d => Hn c d K)). assert (T := received_self c K). unfold received in *. rewrite occ_app, L. f_equal.
    destruct h; cbn [negb andb]; [reflexivity|exact T].
  Qed.

  (** All clusters of a list. *)
  Lemma received_all halo order : (forall c, In c order -> ok c) ->
    received pid (flat_map (fun c => processCluster newton3 layout content neighbors c (halo c)) order) p q =
    (if eqCluster a b && negb (halo a) then occ (eqCluster a) order else 0) +
    (occ (eqCluster a) order * occ (eqCluster b) (neighbors a) + (if newton3 then occ (eqCluster b) order * occ (eqCluster a) (neighbors b) else 0)).
  Proof.
    induction order as [|c l IH]; intros K; [destruct (_ && _), newton3; reflexivity|].
    assert (R := received_cluster c (halo c) (K c (or_introl eq_refl))). unfold received in *. cbn [flat_map].
    rewrite occ_app, IH by (intros; apply K; now right). rewrite R, !occ_cons.
    destruct (eqCluster c a) eqn:CA; [apply eqCluster_spec in CA; subst c|]; [|destruct (eqCluster c b) eqn:CB; [apply eqCluster_spec in CB; subst c|]].
    - rewrite (proj2 (eqCluster_spec a a) eq_refl). destruct (eqCluster a b) eqn:AB.
      + apply eqCluster_spec in AB. subst b. rewrite (proj2 (eqCluster_spec a a) eq_refl). destruct (halo a), newton3; cbn [negb andb]; lia.
      + destruct (eqCluster b a) eqn:BA; [apply eqCluster_spec in BA; subst b; rewrite (proj2 (eqCluster_spec a a) eq_refl) in AB; discriminate|].
        destruct (halo a), newton3; cbn [negb andb]; lia.
    - rewrite (proj2 (eqCluster_spec b b) eq_refl). destruct (eqCluster a b) eqn:AB; [apply eqCluster_spec in AB; subst b; rewrite (proj2 (eqCluster_spec a a) eq_refl) in CA; discriminate|].
      cbn [andb]. rewrite andb_false_r. destruct newton3; cbn [andb]; lia.
    - assert (AC : eqCluster a c = false). { destruct (eqCluster a c) eqn:E; [|reflexivity]. apply eqCluster_spec in E. subst c. rewrite (proj2 (eqCluster_spec a a) eq_refl) in CA. discriminate. }
      assert (BC : eqCluster b c = false). { destruct (eqCluster b c) eqn:E; [|reflexivity]. apply eqCluster_spec in E. subst c. rewrite (proj2 (eqCluster_spec b b) eq_refl) in CB. discriminate. }
      rewrite AC, BC. cbn [andb]. rewrite !andb_false_r. destruct (eqCluster a b && negb (halo a)), newton3; lia.
  Qed.
End Count.
