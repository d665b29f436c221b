(** Proofs about the towers. *)
From Coq Require Import Reals Lra Sorted Permutation Lia.
From Verif.Base Require Import ZRange.
From Verif.Functor Require Import SortModel.
From Verif.Container Require Import ParticleModel IteratorModel IteratorContainers.
From Verif.Cluster Require Import TowerModel TowerSpec.
Local Open Scope nat_scope.

(** Lists *)
Lemma nth_error_ext {A} (l m : list A) : (forall i, nth_error l i = nth_error m i) -> l = m.
Proof.
  revert m; induction l as [|a l IH]; intros [|b m] H; auto.
  - specialize (H 0); discriminate.
  - specialize (H 0); discriminate.
  - pose proof (H 0) as E; cbn in E; injection E as ->. f_equal. apply IH. intros i; apply (H (S i)).
Qed.
Lemma nth_error_firstn' {A} (l : list A) n i : nth_error (firstn n l) i = if i <? n then nth_error l i else None.
Proof.
  revert l i; induction n as [|n IH]; intros l i.
  - cbn. destruct i; reflexivity.
  - destruct l as [|a l]; [rewrite firstn_nil; destruct (Nat.ltb i (S n)), i; reflexivity|].
    destruct i; [reflexivity|]. cbn [firstn nth_error]. rewrite IH. reflexivity.
Qed.
Lemma nth_error_skipn' {A} (l : list A) n i : nth_error (skipn n l) i = nth_error l (n + i).
Proof.
  revert l; induction n as [|n IH]; intros l; [reflexivity|].
  destruct l as [|a l]; [cbn; destruct i; reflexivity|]. cbn [skipn nth_error plus]. apply IH.
Qed.
Lemma setNth_spec l i v l' : setNth l i v = Some l' ->
  length l' = length l /\ i < length l /\ forall j, nth_error l' j = if j =? i then Some v else nth_error l j.
Proof.
  revert i l'; induction l as [|a l IH]; intros i l' E; [discriminate|].
  destruct i as [|i]; cbn [setNth] in E.
  - injection E as <-. cbn. repeat split; try lia. intros [|j]; reflexivity.
  - destruct (setNth l i v) as [r|] eqn:F; [|discriminate]. injection E as <-.
    destruct (IH _ _ F) as (A & B & C). cbn. repeat split; try lia. intros [|j]; [reflexivity|]. apply C.
Qed.
Lemma setNth_some l i v : i < length l -> exists l', setNth l i v = Some l'.
Proof.
  revert i; induction l as [|a l IH]; intros i H; [cbn in H; lia|].
  destruct i as [|i]; cbn; [eauto|]. destruct (IH i) as [r E]; [cbn in H; lia|]. rewrite E. eauto.
Qed.
Lemma swapNth_spec l i j l' : swapNth l i j = Some l' -> exists a b, nth_error l i = Some a /\ nth_error l j = Some b /\
  length l' = length l /\ (forall k, nth_error l' k = if k =? j then Some a else if k =? i then Some b else nth_error l k).
Proof.
  unfold swapNth. destruct (nth_error l i) as [a|] eqn:A; [|discriminate]. destruct (nth_error l j) as [b|] eqn:B; [|discriminate].
  destruct (setNth l i b) as [m|] eqn:M; [|discriminate]. intros E.
  destruct (setNth_spec _ _ _ _ M) as (L1 & _ & N1). destruct (setNth_spec _ _ _ _ E) as (L2 & _ & N2).
  exists a, b. repeat split; auto; try lia. intros k. rewrite N2, N1. reflexivity.
Qed.
Lemma swapNth_some l i j : i < length l -> j < length l -> exists l', swapNth l i j = Some l'.
Proof.
  intros Hi Hj. unfold swapNth.
  destruct (nth_error l i) eqn:A; [|apply nth_error_None in A; lia]. destruct (nth_error l j) eqn:B; [|apply nth_error_None in B; lia].
  destruct (setNth_some l i p0 Hi) as [m M]. rewrite M. apply setNth_some. destruct (setNth_spec _ _ _ _ M); lia.
Qed.
Lemma swapNth_perm l i j l' : swapNth l i j = Some l' -> Permutation l l'.
Proof.
  intros E. destruct (swapNth_spec _ _ _ _ E) as (a & b & A & B & L & N).
  (* a transposition of indices *)
  set (f := fun k => if k =? j then i else if k =? i then j else k).
  assert (Hi : i < length l) by (apply nth_error_Some; congruence).
  assert (Hj : j < length l) by (apply nth_error_Some; congruence).
  apply Permutation_nth_error. split; [lia|]. exists f. split.
  - intros x y. unfold f.
    destruct (Nat.eqb_spec x j), (Nat.eqb_spec y j), (Nat.eqb_spec x i), (Nat.eqb_spec y i); lia.
  - intros k. unfold f. rewrite N.
    destruct (Nat.eqb_spec k j); [congruence|]. destruct (Nat.eqb_spec k i); congruence.
Qed.

(** The loops over the dummies *)
Lemma assignDummies_spec cs t from f : forall d s ps, 0 < cs -> from + s + d <= cs -> 1 <= s -> cs * (tClusters t - 1) + cs <= length ps ->
  exists p0, nth_error ps (cs * (tClusters t - 1) + from) = Some p0 /\
  exists ps', assignDummies cs t from f ps (seq s d) = Some ps' /\ length ps' = length ps /\
  forall j, nth_error ps' j =
    let e := cs * (tClusters t - 1) + cs in
    if (e - (s + d) <? j) && (j <=? e - s) then Some (f (e - j) p0) else nth_error ps j.
Proof.
  set (b := cs * (tClusters t - 1)).
  induction d as [|d IH]; intros s ps C B S1 L.
  - destruct (nth_error ps (b + from)) as [p0|] eqn:E; [|apply nth_error_None in E; lia].
    exists p0. split; [reflexivity|]. exists ps. split; [reflexivity|]. split; [reflexivity|]. intros j. cbv zeta.
    replace (s + 0) with s by lia. destruct (Nat.ltb_spec (b + cs - s) j); destruct (Nat.leb_spec j (b + cs - s)); cbn [andb]; try reflexivity; lia.
  - cbn [seq assignDummies]. unfold assignDummy. fold b.
    destruct (nth_error ps (b + from)) as [p0|] eqn:E; [|apply nth_error_None in E; lia].
    exists p0. split; [reflexivity|].
    destruct (setNth_some ps (b + (cs - s)) (f s p0)) as [m M]; [lia|]. rewrite M.
    destruct (setNth_spec _ _ _ _ M) as (L1 & _ & N1).
    destruct (IH (S s) m) as (q0 & Q & ps' & A & L2 & N2); try lia.
    assert (q0 = p0) as ->.
    { rewrite N1 in Q. destruct (Nat.eqb_spec (b + from) (b + (cs - s))); [lia|]. congruence. }
    exists ps'. rewrite A. repeat split; try lia. intros j. rewrite N2, N1.
    cbv zeta.
    destruct (Nat.ltb_spec (b + cs - (S s + d)) j); destruct (Nat.leb_spec j (b + cs - S s)); cbn [andb];
      destruct (Nat.ltb_spec (b + cs - (s + S d)) j); destruct (Nat.leb_spec j (b + cs - s)); cbn [andb]; try lia;
      try reflexivity; destruct (Nat.eqb_spec j (b + (cs - s))); try lia; auto; subst; do 2 f_equal; lia.
Qed.

Lemma firstn_same {A} (l m : list A) n : (forall j, j < n -> nth_error l j = nth_error m j) -> firstn n l = firstn n m.
Proof.
  intros H. apply nth_error_ext. intros j. rewrite !nth_error_firstn'. destruct (Nat.ltb_spec j n); auto.
Qed.
Lemma Forall_nth_error {A} (Q : A -> Prop) l : (forall i x, nth_error l i = Some x -> Q x) -> Forall Q l.
Proof. intros H. apply Forall_forall. intros x I. apply In_nth_error in I. destruct I as [i E]. eauto. Qed.

(** setDummyValues keeps the particles and makes the padding dummies. *)
Lemma setDummyValues_ok cs x dz t : 0 < cs -> length (tParts t) = cs * tClusters t -> tDummies t < cs -> tDummies t <= length (tParts t) ->
  exists t', setDummyValues cs x dz t = Some t' /\ fullClusters cs t' /\ actual t' = actual t /\
    tDummies t' = tDummies t /\ tClusters t' = tClusters t /\ tFirstOwned t' = tFirstOwned t /\ tFirstTail t' = tFirstTail t /\
    Forall (fun p => pid p = (2 ^ 64 - 1)%Z /\ rx (ppos p) = x) (padding t').
Proof.
  intros C L D D2. unfold setDummyValues.
  destruct (Nat.eq_dec (tClusters t) 0) as [Z|Z].
  - assert (tParts t = []) as PE by (destruct (tParts t); [reflexivity|rewrite Z in L; cbn in L; lia]).
    assert (tDummies t = 0) as DE by (rewrite PE in D2; cbn in D2; lia). rewrite DE. cbn [seq assignDummies option_map].
    exists (withParts t (tParts t)). split; [reflexivity|]. unfold fullClusters, padding, actual, numActual. cbn. rewrite PE, Z, DE. cbn. repeat split; auto; lia.
  - destruct (assignDummies_spec cs t 0 (dummyFrom x dz) (tDummies t) 1 (tParts t)) as (p0 & P0 & ps' & A & L' & N); try lia.
    { rewrite L. nia. }
    rewrite A. cbn [option_map]. exists (withParts t ps'). split; [reflexivity|].
    assert (E : cs * (tClusters t - 1) + cs = length (tParts t)) by (rewrite L; nia).
    assert (E' : cs <= length (tParts t)) by (rewrite L; nia).
    cbv zeta in N. rewrite E in N.
    assert (K : numActual (withParts t ps') = numActual t) by (unfold numActual; cbn; lia).
    assert (Q : forall j p, nth_error (padding (withParts t ps')) j = Some p -> exists i, p = dummyFrom x dz i p0).
    { intros j p. unfold padding. rewrite K. cbn [tParts withParts]. rewrite nth_error_skipn', N.
      unfold numActual. intros H.
      assert (B : length (tParts t) - tDummies t + j < length ps').
      { assert (nth_error ps' (length (tParts t) - tDummies t + j) <> None); [rewrite N; congruence|]. apply nth_error_Some; auto. }
      destruct (Nat.ltb_spec (length (tParts t) - (1 + tDummies t)) (length (tParts t) - tDummies t + j));
        destruct (Nat.leb_spec (length (tParts t) - tDummies t + j) (length (tParts t) - 1)); cbn [andb] in H; try lia.
      injection H as <-. eauto. }
    unfold fullClusters. cbn [tParts tClusters tDummies withParts tFirstOwned tFirstTail]. repeat split; auto; try lia.
    + apply Forall_nth_error. intros i p H. destruct (Q _ _ H) as [k ->]. reflexivity.
    + unfold actual. rewrite K. cbn [tParts withParts]. apply firstn_same. intros j H. rewrite N. unfold numActual in H.
      destruct (Nat.ltb_spec (length (tParts t) - (1 + tDummies t)) j); cbn [andb]; [lia|reflexivity].
    + apply Forall_nth_error. intros i p H. destruct (Q _ _ H) as [k ->]. split; reflexivity.
Qed.

(** setDummyParticlesToLastActualParticle makes the padding copies of the last particle. *)
Lemma toLast_ok cs t : length (tParts t) = cs * tClusters t -> tDummies t < cs -> tDummies t <= length (tParts t) ->
  exists t', setDummyParticlesToLastActualParticle cs t = Some t' /\ length (tParts t') = length (tParts t) /\ actual t' = actual t /\
    tDummies t' = tDummies t /\ tClusters t' = tClusters t /\ tFirstOwned t' = tFirstOwned t /\ tFirstTail t' = tFirstTail t /\
    (forall p, In p (padding t') -> nth_error (actual t') (numActual t' - 1) = Some p).
Proof.
  intros L D D2. unfold setDummyParticlesToLastActualParticle.
  destruct (Nat.ltb_spec 0 (tDummies t)) as [H|H].
  - assert (Z : tClusters t <> 0). { intros Z. rewrite Z in L. lia. }
    destruct (assignDummies_spec cs t (cs - tDummies t - 1) (fun _ p => p) (tDummies t) 1 (tParts t)) as (p0 & P0 & ps' & A & L' & N); try lia.
    { rewrite L. nia. }
    rewrite A. cbn [option_map]. exists (withParts t ps'). split; [reflexivity|].
    assert (E : cs * (tClusters t - 1) + cs = length (tParts t)) by (rewrite L; nia).
    assert (E' : cs <= length (tParts t)) by (rewrite L; nia).
    cbv zeta in N. rewrite E in N.
    assert (K : numActual (withParts t ps') = numActual t) by (unfold numActual; cbn; lia).
    assert (AC : actual (withParts t ps') = actual t).
    { unfold actual. rewrite K. cbn [tParts withParts]. apply firstn_same. intros j J. rewrite N. unfold numActual in J.
      destruct (Nat.ltb_spec (length (tParts t) - (1 + tDummies t)) j); cbn [andb]; [lia|reflexivity]. }
    cbn [tParts tClusters tDummies withParts tFirstOwned tFirstTail]. repeat split; auto.
    intros p I. apply In_nth_error in I. destruct I as [j I]. unfold padding in I. rewrite K in I. cbn [tParts withParts] in I.
    rewrite nth_error_skipn', N in I. unfold numActual in I.
    assert (B : length (tParts t) - tDummies t + j < length ps').
    { assert (nth_error ps' (length (tParts t) - tDummies t + j) <> None); [rewrite N; congruence|]. apply nth_error_Some; auto. }
    destruct (Nat.ltb_spec (length (tParts t) - (1 + tDummies t)) (length (tParts t) - tDummies t + j));
      destruct (Nat.leb_spec (length (tParts t) - tDummies t + j) (length (tParts t) - 1)); cbn [andb] in I; try lia.
    injection I as <-. rewrite AC, K. unfold actual, numActual. rewrite nth_error_firstn'.
    replace (cs * (tClusters t - 1) + (cs - tDummies t - 1)) with (length (tParts t) - tDummies t - 1) in P0 by lia.
    destruct (Nat.ltb_spec (length (tParts t) - tDummies t - 1) (length (tParts t) - tDummies t)); [exact P0|].
    exfalso. assert (length (tParts t) - tDummies t = 0) by lia.
    assert (cs * tClusters t >= cs) by nia. lia.
  - exists t. repeat split; auto. intros p I. unfold padding, numActual in I.
    assert (tDummies t = 0) as DE by lia. rewrite DE, Nat.sub_0_r, skipn_all in I. destruct I.
Qed.

(** generateClusters *)
Lemma ownedRange_some cls i fo ft : forall b, ft = Some b -> fo <> None -> ownedRange cls i fo ft = (fo, ft).
Proof.
  revert i; induction cls as [|c r IH]; intros i b E F; [reflexivity|].
  subst ft. cbn. destruct fo as [a|]; [|congruence]. eapply IH; [reflexivity|congruence].
Qed.

Section Gen.
  Variable sortZ : list Particle -> list Particle.
  Variable cs : nat.
  Hypothesis srt : sortsByZ sortZ.
  Hypothesis cpos : 0 < cs.

  Lemma gen_empty t : numActual t = 0 -> generateClusters sortZ cs t = Some (mkTower (tParts t) (tDummies t) 0 0 0).
  Proof using. intros E. unfold generateClusters. rewrite E. reflexivity. Qed.

  Lemma gen_ok t : tDummies t = 0 ->
    exists t', generateClusters sortZ cs t = Some t' /\ fullClusters cs t' /\ Permutation (tParts t) (actual t') /\ zSorted (actual t') /\
    (forall p, In p (padding t') -> exists q, nth_error (actual t') (numActual t' - 1) = Some q /\ p = withOwn stDummy q) /\
    (tFirstOwned t', tFirstTail t') =
      (let '(fo, ft) := ownedRange (map (cluster cs (tParts t')) (seq 0 (tClusters t'))) 0 None None in
       let orEnd o := match o with Some i => i | None => tClusters t' end in (orEnd fo, orEnd ft)).
  Proof using srt cpos.
    intros D. destruct (Nat.eq_dec (length (tParts t)) 0) as [Z|Z].
    - assert (tParts t = []) as PE by (destruct (tParts t); [reflexivity|cbn in Z; lia]).
      rewrite gen_empty by (unfold numActual; lia). eexists. split; [reflexivity|].
      rewrite PE, D. unfold fullClusters, padding, actual, numActual. cbn.
      split; [repeat split; auto; lia|]. split; [constructor|]. split; [constructor|]. split; [tauto|reflexivity].
    - unfold generateClusters.
      assert (NA : numActual t = length (tParts t)) by (unfold numActual; lia). rewrite NA.
      destruct (Nat.eqb_spec (length (tParts t)) 0); [lia|]. destruct (Nat.eqb_spec cs 0); [lia|].
      destruct (srt (tParts t)) as [SP SS]. set (ps := sortZ (tParts t)) in *.
      assert (LP : length ps = length (tParts t)) by (symmetry; apply Permutation_length; exact SP).
      destruct (nth_error ps (length ps - 1)) as [lp|] eqn:E; [|apply nth_error_None in E; lia].
      set (sl := length ps mod cs).
      assert (SL : sl < cs) by (apply Nat.mod_upper_bound; lia).
      set (nd := if sl =? 0 then 0 else cs - sl).
      assert (ND : nd < cs) by (unfold nd; destruct (Nat.eqb_spec sl 0); lia).
      set (padded := ps ++ repeat (withOwn stDummy lp) nd).
      assert (LL : length padded = length ps + nd) by (unfold padded; rewrite app_length, repeat_length; reflexivity).
      assert (DV : length padded = cs * (length padded / cs)).
      { assert (DM := Nat.div_mod (length ps) cs ltac:(lia)). fold sl in DM.
        apply Nat.div_exact; [lia|]. rewrite LL. unfold nd. destruct (Nat.eqb_spec sl 0) as [Z0|Z0].
        - rewrite Nat.add_0_r. exact Z0.
        - rewrite DM. replace (cs * (length ps / cs) + sl + (cs - sl)) with ((length ps / cs + 1) * cs) by lia. apply Nat.mod_mul. lia. }
      destruct (ownedRange (map (cluster cs padded) (seq 0 (length padded / cs))) 0 None None) as [fo ft] eqn:OR.
      eexists. split; [reflexivity|].
      set (t' := mkTower _ _ _ _ _).
      assert (NA' : numActual t' = length ps) by (unfold numActual, t'; cbn [tParts tDummies]; lia).
      assert (AC : actual t' = ps).
      { unfold actual. rewrite NA'. cbn [tParts t']. unfold padded. rewrite firstn_app, Nat.sub_diag, firstn_all. cbn. apply app_nil_r. }
      assert (PD : padding t' = repeat (withOwn stDummy lp) nd).
      { unfold padding. rewrite NA'. cbn [tParts t']. unfold padded. rewrite skipn_app, Nat.sub_diag, skipn_all. reflexivity. }
      unfold fullClusters. rewrite AC, PD. cbn [tParts tClusters tDummies t' tFirstOwned tFirstTail].
      split; [split; [exact DV|split; [exact ND|split; [lia|]]]|].
      { apply Forall_forall. intros p I. apply repeat_spec in I. subst p. reflexivity. }
      split; [exact SP|]. split; [exact SS|]. split.
      + intros p I. apply repeat_spec in I. exists lp. rewrite NA'. split; auto.
      + rewrite OR. reflexivity.
  Qed.
End Gen.

(** Every cluster has a particle that is no padding. *)
Lemma cluster_nth cs ps k i : nth_error (cluster cs ps k) i = if i <? cs then nth_error ps (cs * k + i) else None.
Proof. unfold cluster. rewrite nth_error_firstn', nth_error_skipn'. reflexivity. Qed.
Lemma cluster_length cs ps k : cs * S k <= length ps -> length (cluster cs ps k) = cs.
Proof. intros H. unfold cluster. rewrite firstn_length, skipn_length. nia. Qed.

Lemma cluster_has_actual cs t k : 0 < cs -> fullClusters cs t -> k < tClusters t -> exists p, In p (clusterOf cs t k) /\ In p (actual t).
Proof.
  intros C (L & D & D2 & _) K.
  assert (B : cs * k + 0 < numActual t) by (unfold numActual; nia).
  destruct (nth_error (tParts t) (cs * k + 0)) as [p|] eqn:E; [|apply nth_error_None in E; unfold numActual in B; lia].
  exists p. split.
  - apply nth_error_In with 0. unfold clusterOf. rewrite cluster_nth. destruct (Nat.ltb_spec 0 cs); [exact E|lia].
  - apply nth_error_In with (cs * k + 0). unfold actual. rewrite nth_error_firstn'. destruct (Nat.ltb_spec (cs * k + 0) (numActual t)); [exact E|lia].
Qed.
Lemma in_some_cluster cs t p : 0 < cs -> fullClusters cs t -> In p (tParts t) -> exists k, k < tClusters t /\ In p (clusterOf cs t k).
Proof.
  intros C (L & _) I. apply In_nth_error in I. destruct I as [i E].
  assert (B : i < length (tParts t)) by (apply nth_error_Some; congruence).
  exists (i / cs). split; [apply Nat.div_lt_upper_bound; lia|].
  apply nth_error_In with (i mod cs). unfold clusterOf. rewrite cluster_nth.
  assert (M := Nat.mod_upper_bound i cs ltac:(lia)). destruct (Nat.ltb_spec (i mod cs) cs); [|lia].
  rewrite <- (Nat.div_mod i cs) by lia. exact E.
Qed.

(** The range of owned clusters *)
Lemma anyOwned_true c : anyOwned c = true <-> exists p, In p c /\ isOwned p = true.
Proof. unfold anyOwned. rewrite existsb_exists. tauto. Qed.

Section Range.
  (** [own k]: cluster k contains an owned particle. *)
  Variable f : nat -> list Particle.
  Lemma range_tail : forall m i a, (forall x y z, i <= x -> x < i + m -> x <= y -> y < z -> z < i + m -> anyOwned (f x) = false -> anyOwned (f z) = true -> False) ->
    ownedRange (map f (seq i m)) i (Some a) None =
    (Some a, match find (fun k => negb (anyOwned (f k))) (seq i m) with Some k => Some k | None => None end).
  Proof.
    induction m as [|m IH]; intros i a H; [reflexivity|].
    cbn [seq map ownedRange find]. destruct (anyOwned (f i)) eqn:E; cbn [negb].
    - apply IH. intros x y z. intros. apply (H x y z); try lia; auto.
    - apply ownedRange_some with i; [reflexivity|congruence].
  Qed.
  Lemma range_head : forall m i,
    ownedRange (map f (seq i m)) i None None =
    match find (fun k => anyOwned (f k)) (seq i m) with
    | None => (None, None)
    | Some a => ownedRange (map f (seq (S a) (i + m - S a))) (S a) (Some a) None
    end.
  Proof.
    induction m as [|m IH]; intros i; [reflexivity|].
    cbn [seq map ownedRange find]. destruct (anyOwned (f i)) eqn:E.
    - replace (i + S m - S i) with m by lia. reflexivity.
    - rewrite IH. destruct (find _ _); [|reflexivity]. replace (i + S m - S n) with (S i + m - S n) by lia. reflexivity.
  Qed.
  Lemma find_seq_some p i m k : find p (seq i m) = Some k -> i <= k < i + m /\ p k = true /\ forall j, i <= j < k -> p j = false.
  Proof.
    revert i; induction m as [|m IH]; intros i E; [discriminate|]. cbn in E. destruct (p i) eqn:Q.
    - injection E as ->. repeat split; auto; lia.
    - destruct (IH _ E) as (A & B & C). repeat split; auto; try lia. intros j J. destruct (Nat.eq_dec j i); [congruence|]. apply C; lia.
  Qed.
  Lemma find_seq_none p i m : find p (seq i m) = None -> forall j, i <= j < i + m -> p j = false.
  Proof.
    intros E j J. apply find_none with (x := j) in E; auto. apply in_seq. lia.
  Qed.

  Lemma range_spec n : (forall x y z, x <= y -> y <= z -> z < n -> anyOwned (f x) = true -> anyOwned (f z) = true -> anyOwned (f y) = true) ->
    let '(fo, ft) := ownedRange (map f (seq 0 n)) 0 None None in
    let orEnd o := match o with Some i => i | None => n end in
    forall k, k < n -> (anyOwned (f k) = true <-> orEnd fo <= k < orEnd ft).
  Proof.
    intros H. rewrite range_head. destruct (find _ (seq 0 n)) as [a|] eqn:F.
    - destruct (find_seq_some _ _ _ _ F) as (A & B & C).
      rewrite range_tail.
      + destruct (find (fun k => negb (anyOwned (f k))) (seq (S a) (0 + n - S a))) as [b|] eqn:G.
        * destruct (find_seq_some _ _ _ _ G) as (A' & B' & C'). cbv zeta. intros k K. split.
          -- intros O. split; [destruct (Nat.le_gt_cases a k); [lia|rewrite C in O by lia; discriminate]|].
             destruct (Nat.lt_ge_cases k b); [lia|]. exfalso.
             assert (X : anyOwned (f b) = true) by (apply (H a b k); auto; lia). rewrite X in B'. discriminate.
          -- intros [K1 K2]. destruct (Nat.eq_dec k a) as [->|]; [exact B|].
             specialize (C' k ltac:(lia)). apply negb_false_iff in C'. exact C'.
        * cbv zeta. intros k K. split.
          -- intros O. split; [destruct (Nat.le_gt_cases a k); [lia|rewrite C in O by lia; discriminate]|lia].
          -- intros [K1 K2]. destruct (Nat.eq_dec k a) as [->|]; [exact B|].
             assert (G' := find_seq_none _ _ _ G k ltac:(lia)). apply negb_false_iff in G'. exact G'.
      + intros x y z X1 X2 Y Z1 Z2 N O. enough (anyOwned (f x) = true) by congruence.
        apply (H a x z); auto; lia.
    - assert (G := find_seq_none _ _ _ F). cbv zeta. intros k K. rewrite G by lia. split; [discriminate|lia].
  Qed.
End Range.

(** Order of particles in z along the indices *)
Lemma sorted_nth l : zSorted l -> forall i j p q, i <= j -> nth_error l i = Some p -> nth_error l j = Some q -> (rz (ppos p) <= rz (ppos q))%R.
Proof.
  induction 1 as [|a l S IH F]; intros i j p q L P Q.
  - destruct i; discriminate.
  - destruct i as [|i]; destruct j as [|j]; cbn in P, Q; try lia.
    + injection P as ->. injection Q as ->. lra.
    + injection P as ->. rewrite Forall_forall in F. apply F. eapply nth_error_In; eauto.
    + apply (IH i j); auto. lia.
Qed.
