From Coq Require Import ZArith List Bool Lia Reals Lra.
From Verif.Tuning Require Import DistributeModel DistributeSpec DistributeProofs.
Import ListNotations.
Local Open Scope nat_scope.

Lemma combine_snoc {A B} (l : list A) : forall (m : list B) x y, length l = length m -> combine (l ++ [x]) (m ++ [y]) = combine l m ++ [(x, y)].
Proof. induction l as [|a l IH]; intros [|b m] x y H; try discriminate; [reflexivity|]. cbn. rewrite IH; auto. Qed.

Section Top.
  Variable o : Options.
  Hypothesis U : usableOptions o.
  Variable P : nat.
  Hypothesis HP : 0 < P.
  Let N := length (allConfigs o).

  Lemma N_pos : 0 < N.
  Proof.
    destruct (opts_cons o U) as (c & l & E). destruct (start_at o U c l E) as (i & SE & OK & R).
    cbn [skipn] in R. unfold N. rewrite <- R. 
    assert (NE : rest o (mkIts (containers o) (csfs o) (traversals o c) i (layouts o) (newton3s o)) <> []).
    { apply rest_nonempty; [exact OK|]. cbn. rewrite E. discriminate. }
    destruct (rest o _); [congruence|cbn; lia].
  Qed.
  Lemma distribute_eq r : distribute o P r = generate o N P r.
  Proof. unfold distribute. rewrite size_all. fold N. pose proof N_pos. destruct N; [lia|reflexivity]. Qed.

  Lemma firstn_add {A} (l : list A) : forall a b, firstn (a + b) l = firstn a l ++ firstn b (skipn a l).
  Proof. induction l as [|x l IH]; intros [|a] b; cbn; auto; [now rewrite firstn_nil|]. now rewrite IH. Qed.
  Lemma skipn_nonempty {A} (l : list A) a b : a < length l -> 0 < b -> firstn b (skipn a l) <> [].
  Proof. revert a. induction l as [|x l IH]; intros [|a] L B; cbn in *; try lia; [destruct b; [lia|discriminate]|apply IH; lia]. Qed.

  Definition sizesA := map (bsize P N) (seq 0 P).

  Lemma bsize_balanced s b n : balanced (map (bsize s b) n).
  Proof.
    intros x y X Y. apply in_map_iff in X as (i & <- & _). apply in_map_iff in Y as (j & <- & _). unfold bsize.
    destruct ((1 <=? i) && (i <=? left_ s b)), ((1 <=? j) && (j <=? left_ s b)); lia.
  Qed.

  Lemma rankA r : P <= N -> r < P -> distribute o P r = Some (firstn (bsize P N r) (skipn (bstart P N r) (allConfigs o)), r, base P N).
  Proof. intros H R. rewrite distribute_eq. exact (generateA o U P HP N_pos H r R). Qed.
  Lemma concatA : P <= N -> forall n, n <= P -> concat (map (assigned o P) (seq 0 n)) = firstn (bstart P N n) (allConfigs o).
  Proof.
    intros H. induction n as [|n IH]; intros L; [reflexivity|]. rewrite seq_S, map_app, concat_app, IH by lia. cbn [map concat Nat.add].
    unfold assigned. rewrite (rankA n H ltac:(lia)), app_nil_r, bstart_S. symmetry. apply firstn_add.
  Qed.
  Lemma lengthA r : P <= N -> r < P -> length (assigned o P r) = bsize P N r.
  Proof.
    intros H R. unfold assigned. rewrite (rankA r H R). rewrite firstn_length, skipn_length. fold N.
    pose proof (bstart_in P N HP r (bsize P N r - 1) R). pose proof (bsize_pos P N HP H r). lia.
  Qed.
  Lemma rankB c k : N < P -> c < N -> k < bsize N P c -> exists x, nth_error (allConfigs o) c = Some x /\ distribute o P (bstart N P c + k) = Some ([x], k, base N P).
  Proof.
    intros H C K. destruct (nth_error (allConfigs o) c) as [x|] eqn:E; [|apply nth_error_None in E; fold N in E; lia].
    exists x. split; [reflexivity|]. rewrite distribute_eq. exact (generateB o U P HP N_pos H c k x C K E).
  Qed.
  Lemma concatB : N < P -> forall n, n <= N -> concat (map (assigned o P) (seq 0 (bstart N P n))) = expand (firstn n (allConfigs o)) (map (bsize N P) (seq 0 n)).
  Proof.
    intros H. induction n as [|n IH]; intros L; [reflexivity|].
    rewrite bstart_S, seq_app, map_app, concat_app, IH by lia.
    destruct (nth_error (allConfigs o) n) as [x|] eqn:E; [|apply nth_error_None in E; fold N in E; lia].
    assert (F : firstn (S n) (allConfigs o) = firstn n (allConfigs o) ++ [x]).
    { replace (S n) with (n + 1) by lia. rewrite firstn_add. f_equal. rewrite (nth_firstn_skipn _ _ 0 _ E). reflexivity. }
    rewrite F, seq_S, map_app. unfold expand. cbn [map]. rewrite combine_snoc by (rewrite firstn_length, map_length, seq_length; fold N; lia). rewrite flat_map_app.
    f_equal. cbn [Nat.add map combine flat_map fst snd]. rewrite app_nil_r.
    assert (G : forall m s, bstart N P n <= s -> s + m <= bstart N P n + bsize N P n -> concat (map (assigned o P) (seq s m)) = repeat x m).
    { induction m as [|m IHm]; intros s A B; [reflexivity|]. cbn [seq map concat repeat]. rewrite IHm by lia.
      destruct (rankB n (s - bstart N P n) H ltac:(lia) ltac:(lia)) as (x' & X & D). unfold assigned. replace (bstart N P n + (s - bstart N P n)) with s in D by lia.
      rewrite D. rewrite E in X. injection X as <-. reflexivity. }
    apply G; lia.
  Qed.

  Theorem distribution :
    (forall r, r < P -> exists l off blk, distribute o P r = Some (l, off, blk) /\ l <> []) /\
    (forall x, In x (allConfigs o) -> exists r, r < P /\ In x (assigned o P r)) /\
    (P <= length (allConfigs o) -> concat (map (assigned o P) (seq 0 P)) = allConfigs o /\ balanced (map (fun r => length (assigned o P r)) (seq 0 P))) /\
    (length (allConfigs o) < P -> exists counts, length counts = length (allConfigs o) /\ balanced counts /\ Forall (fun n => 0 < n) counts /\
       concat (map (assigned o P) (seq 0 P)) = expand (allConfigs o) counts /\ forall r, r < P -> length (assigned o P r) = 1).
  Proof.
    pose proof N_pos as NP. fold N. destruct (Nat.le_gt_cases P N) as [H|H].
    - assert (CA : concat (map (assigned o P) (seq 0 P)) = allConfigs o).
      { rewrite (concatA H P (le_n _)), bstart_small by exact HP. apply firstn_all. }
      split; [|split; [|split; [|lia]]].
      + intros r R. do 3 eexists. split; [apply (rankA r H R)|]. apply skipn_nonempty; [fold N|now apply bsize_pos].
        pose proof (bstart_in P N HP r 0 R (bsize_pos P N HP H r)). lia.
      + intros x X. rewrite <- CA in X. apply in_concat in X as (l & L & X). apply in_map_iff in L as (r & <- & R). apply in_seq in R. exists r. split; [lia|exact X].
      + intros _. split; [exact CA|].
        assert (E : map (fun r => length (assigned o P r)) (seq 0 P) = map (bsize P N) (seq 0 P)).
        { apply map_ext_in. intros r R. apply in_seq in R. apply lengthA; [exact H|lia]. }
        rewrite E. apply bsize_balanced.
    - assert (RB : forall r, r < P -> exists c k x, c < N /\ nth_error (allConfigs o) c = Some x /\ distribute o P r = Some ([x], k, base N P)).
      { intros r R. destruct (block_of N P NP r R) as (c & k & C & K & ->). destruct (rankB c k H C K) as (x & X & D). exists c, k, x. auto. }
      split; [|split; [|split; [lia|]]].
      + intros r R. destruct (RB r R) as (c & k & x & C & X & D). do 3 eexists. split; [exact D|discriminate].
      + intros x X. apply In_nth_error in X as (c & X). assert (C : c < N) by (apply nth_error_Some; rewrite X; discriminate).
        pose proof (bsize_pos N P NP ltac:(lia) c) as K. destruct (rankB c 0 H C K) as (x' & X' & D). rewrite X in X'. injection X' as <-.
        exists (bstart N P c + 0). split; [now apply bstart_in|]. unfold assigned. rewrite D. now left.
      + intros _. exists (map (bsize N P) (seq 0 N)). split; [now rewrite map_length, seq_length|]. split; [apply bsize_balanced|]. split; [|split].
        * apply Forall_forall. intros n X. apply in_map_iff in X as (i & <- & _). apply bsize_pos; [exact NP|lia].
        * rewrite <- (bstart_small N P NP) at 2. rewrite (concatB H N (le_n _)). change (firstn N (allConfigs o)) with (firstn (length (allConfigs o)) (allConfigs o)). now rewrite firstn_all.
        * intros r R. destruct (RB r R) as (c & k & x & C & X & D). unfold assigned. now rewrite D.
  Qed.

  (** The options a rank keeps allow the configurations it was given. *)
  Lemma used_in p l x : In x l -> used p l (p x) = true.
  Proof. intros H. unfold used. apply existsb_exists. exists x. split; [exact H|apply Z.eqb_refl]. Qed.
  Lemma rank_options none l x : incl l (allConfigs o) -> In x l -> In x (allConfigs (rankOptions o none l)).
  Proof.
    intros I X. pose proof (I x X) as A. unfold allConfigs in A |- *.
    apply in_flat_map in A as (c & C & A). apply in_flat_map in A as (f & F & A). apply in_flat_map in A as (t & T & A).
    apply in_flat_map in A as (e & E & A). apply in_flat_map in A as (d & D & A). apply in_map_iff in A as (n & <- & Nn).
    apply in_flat_map. exists c. split; [apply filter_In; split; [exact C|exact (used_in cContainer l _ X)]|].
    apply in_flat_map. exists f. split; [apply filter_In; split; [exact F|exact (used_in cCsf l _ X)]|].
    apply in_flat_map. exists t. split; [apply filter_In; split; [exact T|exact (used_in cTraversal l _ X)]|].
    apply in_flat_map. exists e. split.
    { cbn [rankOptions estimators]. assert (G : In e (filter (used cEstimator l) (estimators o c t))) by (apply filter_In; split; [exact E|exact (used_in cEstimator l _ X)]).
      destruct (filter (used cEstimator l) (estimators o c t)); [destruct G|exact G]. }
    apply in_flat_map. exists d. split; [apply filter_In; split; [exact D|exact (used_in cLayout l _ X)]|].
    apply in_map_iff. exists n. split; [reflexivity|]. apply filter_In. split; [exact Nn|exact (used_in cNewton3 l _ X)].
  Qed.
  Lemma assigned_incl r : r < P -> incl (assigned o P r) (allConfigs o).
  Proof.
    pose proof N_pos as NP. intros R x X. destruct (Nat.le_gt_cases P N) as [H|H].
    - unfold assigned in X. rewrite (rankA r H R) in X. rewrite <- (firstn_skipn (bstart P N r)). apply in_or_app. right.
      rewrite <- (firstn_skipn (bsize P N r)). apply in_or_app. now left.
    - destruct (block_of N P NP r R) as (c & k & C & K & ->). destruct (rankB c k H C K) as (x' & X' & D). unfold assigned in X. rewrite D in X.
      destruct X as [<-|[]]. apply (nth_error_In _ c X').
  Qed.
  Theorem rank_search_space none r x : r < P -> In x (assigned o P r) -> In x (allConfigs (rankOptions o none (assigned o P r))).
  Proof. intros R X. apply rank_options; [now apply assigned_incl|exact X]. Qed.

  (** Intervals of cell size factors. *)
  Theorem intervals k lo hi : P = k * length (allConfigs o) -> length (allConfigs o) < P -> (lo <= hi)%R ->
    (forall r l off blk, r < P -> distribute o P r = Some (l, off, blk) -> (lo <= fst (interval lo hi off blk) /\ fst (interval lo hi off blk) <= snd (interval lo hi off blk) <= hi)%R) /\
    (forall x y, In x (allConfigs o) -> (lo <= y <= hi)%R -> exists r l off blk, r < P /\ distribute o P r = Some (l, off, blk) /\ In x l /\
       (fst (interval lo hi off blk) <= y <= snd (interval lo hi off blk))%R).
  Proof.
    pose proof N_pos as NP. fold N. intros E H LE.
    assert (B : base N P = k) by (unfold base; rewrite E, Nat.div_mul; lia).
    assert (L : left_ N P = 0) by (unfold left_; rewrite E, Nat.mod_mul; lia).
    assert (KP : 0 < k) by (destruct k; lia).
    assert (BS : forall b, bsize N P b = k). { intros b. unfold bsize. rewrite B, L. destruct b; cbn; lia. }
    assert (KR : (0 < INR k)%R) by (apply (lt_INR 0); exact KP).
    split.
    - intros r l off blk R D. destruct (block_of N P NP r R) as (c & j & C & J & ->). destruct (rankB c j H C J) as (x & X & D'). rewrite D in D'.
      injection D' as -> -> ->. rewrite B. rewrite BS in J. unfold interval. cbn [fst snd].
      assert (I : (INR j + 1 <= INR k)%R). { rewrite <- S_INR. apply le_INR. lia. }
      assert (dd : (0 <= (hi - lo) / INR k)%R) by (apply Rmult_le_pos; [lra|left; now apply Rinv_0_lt_compat]).
      pose proof (pos_INR j). rewrite plus_INR. cbn [INR].
      assert (Q : ((hi - lo) / INR k * INR k = hi - lo)%R) by (field; lra).
      split; [|split].
      + apply Rplus_le_reg_r with (- lo)%R. ring_simplify. now apply Rmult_le_pos.
      + apply Rplus_le_compat_l. apply Rmult_le_compat_l; lra.
      + assert (((hi - lo) / INR k * (INR j + 1) <= (hi - lo) / INR k * INR k)%R) by (apply Rmult_le_compat_l; lra). lra.
    - intros x y X Y. apply In_nth_error in X as (c & X). assert (C : c < N) by (apply nth_error_Some; rewrite X; discriminate).
      assert (J : exists j, j < k /\ (lo + (hi - lo) / INR k * INR j <= y <= lo + (hi - lo) / INR k * INR (j + 1))%R).
      { assert (Q : ((hi - lo) / INR k * INR k = hi - lo)%R) by (field; lra).
        assert (G : forall n, (y <= lo + (hi - lo) / INR k * INR n)%R -> exists j, j < S n /\ (lo + (hi - lo) / INR k * INR j <= y <= lo + (hi - lo) / INR k * INR (j + 1))%R /\ (0 < n -> j < n)).
        { induction n as [|n IHn]; intros W.
          - exists 0. cbn [INR Nat.add] in W |- *. assert (y = lo) by lra. assert (dd : (0 <= (hi - lo) / INR k)%R) by (apply Rmult_le_pos; [lra|left; now apply Rinv_0_lt_compat]).
            split; [lia|]. split; [split; lra|lia].
          - destruct (Rle_or_lt y (lo + (hi - lo) / INR k * INR n)) as [V|V].
            + destruct (IHn V) as (j & J1 & J2 & J3). exists j. split; [lia|]. split; [exact J2|]. intros _. lia.
            + exists n. split; [lia|]. replace (n + 1) with (S n) by lia. split; [split; lra|lia]. }
        destruct (G k ltac:(lra)) as (j & J1 & J2 & J3). exists j. split; [now apply J3|exact J2]. }
      destruct J as (j & J & Y'). assert (J' : j < bsize N P c) by (rewrite BS; exact J).
      destruct (rankB c j H C J') as (x' & X' & D). rewrite X in X'. injection X' as <-.
      exists (bstart N P c + j), [x], j, (base N P). split; [now apply bstart_in|]. split; [exact D|]. split; [now left|]. rewrite B. exact Y'.
  Qed.
End Top.

(** * Round robin *)
Lemma everyNth_nth n q : 0 < n -> forall fuel i, length q <= i + fuel -> forall k, nth_error (everyNth fuel i n q) k = nth_error q (i + k * n).
Proof.
  intros HN. induction fuel as [|fuel IH]; intros i L k; cbn [everyNth].
  - assert (E : nth_error q (i + k * n) = None) by (apply nth_error_None; lia). rewrite E. now destruct k.
  - destruct (nth_error q i) as [c|] eqn:E.
    + destruct k as [|k]; [cbn; now rewrite Nat.add_0_r|]. cbn [nth_error]. rewrite IH by lia. f_equal. cbn. lia.
    + assert (G : nth_error q (i + k * n) = None) by (apply nth_error_None; apply nth_error_None in E; lia). rewrite G. now destruct k.
Qed.

Theorem round_robin q n : q <> [] -> 0 < n ->
  (forall r pick, r < n -> exists l, roundRobin q n r pick = Some l /\ l <> [] /\ incl l q /\
     (r < length q -> forall k, nth_error l k = nth_error q (r + k * n))) /\
  (forall i x, nth_error q i = Some x -> exists l, i mod n < n /\ (forall pick, roundRobin q n (i mod n) pick = Some l) /\ nth_error l (i / n) = Some x).
Proof.
  intros NE HN. split.
  - intros r pick R. unfold roundRobin. destruct (r <? length q) eqn:E; [apply Nat.ltb_lt in E|apply Nat.ltb_ge in E].
    + exists (everyNth (length q) r n q). split; [reflexivity|]. assert (K : forall k, nth_error (everyNth (length q) r n q) k = nth_error q (r + k * n)) by (apply everyNth_nth; lia).
      split; [|split; [|intros _; exact K]].
      * intros X. pose proof (K 0) as K0. rewrite X in K0. cbn in K0. rewrite Nat.add_0_r in K0. symmetry in K0. apply nth_error_None in K0. lia.
      * intros x X. apply In_nth_error in X as (k & X). rewrite K in X. now apply nth_error_In in X.
    + destruct (nth_error q (pick mod length q)) as [c|] eqn:G.
      * exists [c]. destruct q; [congruence|]. cbn [option_map]. split; [reflexivity|]. split; [discriminate|]. split; [|lia]. intros x [<-|[]]. now apply nth_error_In in G.
      * exfalso. apply nth_error_None in G. assert (length q <> 0) by (destruct q; [congruence|discriminate]). pose proof (Nat.mod_upper_bound pick (length q) H). lia.
  - intros i x X. assert (I : i < length q) by (apply nth_error_Some; rewrite X; discriminate).
    pose proof (Nat.mod_upper_bound i n ltac:(lia)) as M. pose proof (Nat.div_mod i n ltac:(lia)) as D. pose proof (Nat.mod_le i n ltac:(lia)) as ML.
    exists (everyNth (length q) (i mod n) n q). split; [exact M|]. split.
    + intros pick. unfold roundRobin. assert (E : (i mod n <? length q) = true) by (apply Nat.ltb_lt; lia). now rewrite E.
    + rewrite everyNth_nth by lia. replace (i mod n + i / n * n) with i by lia. exact X.
Qed.

Lemma xOptions_usable : usableOptions xOptions.
Proof.
  repeat split; try discriminate.
  - intros c [<-|[<-|[]]]; discriminate.
  - intros c t [<-|[<-|[]]]; cbn; intros [<-|H]; try destruct H as [<-|[]]; try discriminate; destruct H.
Qed.
Lemma xPlain_usable n : 0 < n -> usableOptions (xPlain n).
Proof. intros H. repeat split; try discriminate. destruct n; [lia|discriminate]. Qed.
