(** The thread partition of vcl_c01_balanced. *)
From Coq Require Import Lia Permutation List.
From Verif.Base Require Import ZRange.
From Verif.Cluster Require Import ClusterTraversalModel.
Import ListNotations.
Local Open Scope nat_scope.

Section P.
  Definition ownedFrom (i : nat) (ts : list (nat * nat)) : list (nat * nat) :=
    concat (map (fun '(i, (fo, ft)) => map (fun k => (i, k)) (seq fo (ft - fo))) (combine (seq i (length ts)) ts)).
  Lemma ownedFrom_cons i fo ft ts : ownedFrom i ((fo, ft) :: ts) = map (fun k => (i, k)) (seq fo (ft - fo)) ++ ownedFrom (S i) ts.
  Proof. reflexivity. Qed.
  Lemma ownedFrom_ge ts : forall i c, In c (ownedFrom i ts) -> i <= fst c.
  Proof.
    induction ts as [|[fo ft] ts IH]; intros i c I; [destruct I|]. rewrite ownedFrom_cons in I. apply in_app_or in I. destruct I as [I|I].
    - apply in_map_iff in I. destruct I as (k & <- & _). cbn. lia.
    - apply IH in I. lia.
  Qed.

  Lemma split_at ts : forall i pre t k rest, ownedFrom i ts = pre ++ (t, k) :: rest ->
    exists fo ft, i <= t /\ nth_error ts (t - i) = Some (fo, ft) /\ fo <= k < ft /\
      (t, k) :: rest = map (fun k => (t, k)) (seq k (ft - k)) ++ ownedFrom (S t) (skipn (S (t - i)) ts).
  Proof.
    induction ts as [|[fo ft] ts IH]; intros i pre t k rest E; [destruct pre; discriminate|]. rewrite ownedFrom_cons in E.
    apply app_eq_app in E. destruct E as (l & [[E1 E2]|[E1 E2]]).
    - destruct l as [|[t' k'] l].
      + cbn [app] in E2. destruct (IH (S i) [] t k rest (eq_sym E2)) as (fo' & ft' & G & N & K & R). exists fo', ft'. split; [lia|].
        replace (t - i) with (S (t - S i)) by lia. split; [exact N|]. split; [exact K|]. exact R.
      + injection E2 as <- <- E2.
        assert (L : length pre < ft - fo). { apply (f_equal (@length _)) in E1. rewrite map_length, seq_length, app_length in E1. cbn [length] in E1. lia. }
        assert (N := f_equal (fun l => nth_error l (length pre)) E1). cbv beta in N.
        rewrite nth_error_app2, Nat.sub_diag in N by lia. cbn [nth_error] in N. rewrite nth_error_map in N.
        replace (seq fo (ft - fo)) with (seq fo (length pre) ++ seq (fo + length pre) (ft - fo - length pre)) in N, E1 by (rewrite <- seq_app; f_equal; lia).
        rewrite nth_error_app2, seq_length, Nat.sub_diag in N by (rewrite seq_length; lia).
        destruct (ft - fo - length pre) as [|m] eqn:M; [lia|]. cbn [seq nth_error option_map] in N. injection N as <- <-.
        exists fo, ft. rewrite Nat.sub_diag. split; [lia|]. split; [reflexivity|]. split; [lia|].
        rewrite map_app in E1. apply (f_equal (skipn (length pre))) in E1. rewrite !skipn_app, map_length, seq_length, Nat.sub_diag, !skipn_all2 in E1 by (rewrite ?map_length, ?seq_length; lia).
        cbn [skipn app] in E1. replace (ft - (fo + length pre)) with (S m) by lia. rewrite E1, skipn_all. cbn [app skipn]. rewrite E2. reflexivity.
    - destruct (IH (S i) l t k rest E2) as (fo' & ft' & G & N & K & R). exists fo', ft'. split; [lia|].
      replace (t - i) with (S (t - S i)) by lia. auto.
  Qed.

  (** What a thread with a range does. *)
  Lemma range_rest r ts : forall count i, 0 < count -> rangeClusters r count i ts = firstn (numClusters r - count) (ownedFrom i ts).
  Proof.
    induction ts as [|[fo ft] ts IH]; intros count i C; [destruct (numClusters r - count); reflexivity|]. cbn [rangeClusters]. rewrite ownedFrom_cons.
    destruct (Nat.ltb_spec count (numClusters r)) as [L|L]; [|replace (numClusters r - count) with 0 by lia; reflexivity]. cbv zeta.
    unfold rangeInTower. destruct (Nat.eqb_spec count 0); [lia|]. rewrite map_length, firstn_length, seq_length. rewrite IH by lia.
    rewrite firstn_app, <- firstn_map, map_length, seq_length. f_equal. f_equal. lia.
  Qed.
  Lemma thread_segment towers pre t k seg post : ownedFrom 0 towers = pre ++ ((t, k) :: seg) ++ post ->
    threadClusters towers (mkRange t k (S (length seg))) = (t, k) :: seg.
  Proof.
    intros E. cbn [app] in E. destruct (split_at towers 0 pre t k (seg ++ post) E) as (fo & ft & _ & N & K & R). rewrite Nat.sub_0_r in N, R.
    unfold threadClusters. cbn [startTower]. 
    assert (SK : skipn t towers = (fo, ft) :: skipn (S t) towers).
    { clear - N. revert t N. induction towers as [|a l IH]; intros [|t] N; cbn in N; try discriminate; [injection N as <-; reflexivity|]. cbn [skipn]. rewrite (IH t N). reflexivity. }
    rewrite SK. cbn [rangeClusters numClusters]. cbv zeta. unfold rangeInTower. cbn [Nat.ltb Nat.leb Nat.eqb startIndex numClusters]. rewrite Nat.sub_0_r, Nat.add_0_l.
    set (L := map _ _). assert (0 < length L). { unfold L. rewrite map_length, firstn_length, seq_length. lia. }
    rewrite range_rest by assumption. cbn [numClusters]. unfold L. rewrite map_length, firstn_length, seq_length.
    assert (F := f_equal (firstn (S (length seg))) R). change ((t, k) :: seg ++ post) with (((t, k) :: seg) ++ post) in F. change (S (length seg)) with (length ((t, k) :: seg)) in F at 1.
    rewrite firstn_app, Nat.sub_diag, firstn_all, app_nil_r in F. rewrite F, firstn_app, <- firstn_map, map_length, seq_length. f_equal. f_equal. lia.
  Qed.

  (** The ranges. *)
  Definition rangeOf (seg : list (nat * nat)) : ClusterRange :=
    match seg with [] => mkRange 0 0 0 | (t, k) :: r => mkRange t k (S (length r)) end.
  Lemma setRange_length l : forall i r, length (setRange l i r) = length l.
  Proof. induction l as [|a l IH]; intros [|i] r; cbn; auto. Qed.
  Lemma setRange_nth l : forall i r j, nth_error (setRange l i r) j = if (i =? j) && (j <? length l) then Some r else nth_error l j.
  Proof.
    induction l as [|a l IH]; intros [|i] r [|j]; cbn [setRange nth_error length]; try reflexivity.
    - cbn. destruct (i =? j); reflexivity.
    - rewrite IH. reflexivity.
  Qed.
  Lemma addTo_length l i n : length (addTo l i n) = length l.
  Proof. unfold addTo. destruct (nth_error l i); [apply setRange_length|reflexivity]. Qed.
  Lemma addTo_nth l i n j : nth_error (addTo l i n) j =
    if i =? j then option_map (fun r => mkRange (startTower r) (startIndex r) (numClusters r + n)) (nth_error l j) else nth_error l j.
  Proof.
    unfold addTo. destruct (nth_error l i) as [r|] eqn:E.
    - rewrite setRange_nth. destruct (Nat.eqb_spec i j) as [->|]; [|reflexivity]. cbn [andb]. rewrite E.
      assert (j < length l) by (apply nth_error_Some; congruence). destruct (Nat.ltb_spec j (length l)); [reflexivity|lia].
    - destruct (Nat.eqb_spec i j) as [->|]; [rewrite E|]; reflexivity.
  Qed.

  Variable listSize : nat -> nat -> nat.
  Variables ppt n : nat.
  Hypothesis n1 : 0 < n.

  (** After the clusters [done]. *)
  Definition inv (done : list (nat * nat)) (s : FillState) : Prop :=
    exists segs, length segs = currentThread s /\ currentThread s < n /\ length (partition s) = n /\
      (forall j seg, nth_error segs j = Some seg -> seg <> [] /\ nth_error (partition s) j = Some (rangeOf seg)) /\
      if initialized s then
        exists t k cur, done = concat segs ++ (t, k) :: cur /\ toAddN s <= S (length cur) /\
          nth_error (partition s) (currentThread s) = Some (mkRange t k (S (length cur) - toAddN s))
      else done = concat segs /\ toAddN s = 0.

  Lemma inv_step done s c : inv done s -> inv (done ++ [c]) (fillStep listSize ppt n s c).
  Proof using n1.
    destruct c as [t k]. intros (segs & LS & CT & LP & SG & I). unfold fillStep. cbv zeta.
    set (part := if initialized s then partition s else setRange (partition s) (currentThread s) (mkRange t k 0)).
    assert (LP' : length part = n) by (unfold part; destruct (initialized s); [|rewrite setRange_length]; exact LP).
    assert (SG' : forall j seg, nth_error segs j = Some seg -> seg <> [] /\ nth_error part j = Some (rangeOf seg)).
    { intros j seg J. destruct (SG j seg J) as [A B]. split; [exact A|]. unfold part. destruct (initialized s); [exact B|]. rewrite setRange_nth.
      assert (j < length segs) by (apply nth_error_Some; congruence). destruct (Nat.eqb_spec (currentThread s) j); [lia|]. exact B. }
    assert (I' : exists t0 k0 cur, done ++ [(t, k)] = concat segs ++ (t0, k0) :: cur /\ S (toAddN s) <= S (length cur) /\
          nth_error part (currentThread s) = Some (mkRange t0 k0 (S (length cur) - S (toAddN s)))).
    { unfold part. destruct (initialized s).
      - destruct I as (t0 & k0 & cur & D & T & N). exists t0, k0, (cur ++ [(t, k)]). split; [rewrite D, <- app_assoc; reflexivity|].
        rewrite app_length. cbn [length]. split; [lia|]. rewrite N. do 2 f_equal. lia.
      - destruct I as [D T]. exists t, k, []. rewrite D, T. split; [reflexivity|]. split; [cbn; lia|]. rewrite setRange_nth, Nat.eqb_refl.
        destruct (Nat.ltb_spec (currentThread s) (length (partition s))); [reflexivity|lia]. }
    clearbody part. clear I SG. destruct I' as (t0 & k0 & cur & D & T & N).
    destruct (ppt * (currentThread s + 1) <=? pairsTotal s + listSize t k).
    - assert (NA : nth_error (addTo part (currentThread s) (S (toAddN s))) (currentThread s) = Some (mkRange t0 k0 (S (length cur)))).
      { rewrite addTo_nth, Nat.eqb_refl, N. cbn [option_map startTower startIndex numClusters]. do 2 f_equal. lia. }
      assert (SA : forall j seg, nth_error segs j = Some seg -> seg <> [] /\ nth_error (addTo part (currentThread s) (S (toAddN s))) j = Some (rangeOf seg)).
      { intros j seg J. destruct (SG' j seg J) as [A B]. split; [exact A|]. rewrite addTo_nth. assert (j < length segs) by (apply nth_error_Some; congruence).
        destruct (Nat.eqb_spec (currentThread s) j); [lia|exact B]. }
      destruct (Nat.leb_spec n (S (currentThread s))) as [L|L].
      + exists segs. cbn [currentThread partition initialized toAddN]. rewrite addTo_length. split; [exact LS|]. split; [exact CT|]. split; [exact LP'|]. split; [exact SA|].
        exists t0, k0, cur. split; [exact D|]. split; [lia|]. rewrite Nat.sub_0_r. exact NA.
      + exists (segs ++ [(t0, k0) :: cur]). cbn [currentThread partition initialized toAddN]. rewrite addTo_length, app_length. cbn [length]. split; [lia|]. split; [lia|]. split; [exact LP'|]. split.
        * intros j seg J. destruct (Nat.lt_ge_cases j (length segs)) as [H|H]; [rewrite nth_error_app1 in J by exact H; now apply SA|].
          rewrite nth_error_app2 in J by exact H. destruct (j - length segs) as [|m] eqn:M; [|destruct m; discriminate]. injection J as <-.
          split; [congruence|]. replace j with (currentThread s) by lia. exact NA.
        * split; [|reflexivity]. rewrite concat_app. cbn [concat]. rewrite app_nil_r. exact D.
    - exists segs. cbn [currentThread partition initialized toAddN]. split; [exact LS|]. split; [exact CT|]. split; [exact LP'|]. split; [exact SG'|].
      exists t0, k0, cur. auto.
  Qed.

  Lemma inv_fold l : forall done s, inv done s -> inv (done ++ l) (fold_left (fillStep listSize ppt n) l s).
  Proof using n1.
    induction l as [|c l IH]; intros done s I; [rewrite app_nil_r; exact I|]. cbn [fold_left].
    replace (done ++ c :: l) with ((done ++ [c]) ++ l) by (rewrite <- app_assoc; reflexivity). apply IH. now apply inv_step.
  Qed.

  Lemma zero_nth ix : forall p j, nth_error (fold_left (fun p i => setRange p i (mkRange 0 0 0)) ix p) j =
    if existsb (Nat.eqb j) ix && (j <? length p) then Some (mkRange 0 0 0) else nth_error p j.
  Proof.
    induction ix as [|i ix IH]; intros p j; [reflexivity|]. cbn [fold_left existsb]. rewrite IH, setRange_length, setRange_nth, (Nat.eqb_sym i j).
    destruct (existsb (Nat.eqb j) ix), (j <? length p), (j =? i); reflexivity.
  Qed.
  Lemma zero_length ix : forall p, length (fold_left (fun p i => setRange p i (mkRange 0 0 0)) ix p) = length p.
  Proof. induction ix as [|i ix IH]; intros p; [reflexivity|]. cbn [fold_left]. now rewrite IH, setRange_length. Qed.

  (** The ranges are consecutive segments of the owned clusters. *)
  Lemma ranges_segments towers old : exists segs, concat segs = ownedFrom 0 towers /\ length segs <= n /\ (forall seg, In seg segs -> seg <> []) /\
    fillClusterRanges towers listSize ppt n old = map rangeOf segs ++ repeat (mkRange 0 0 0) (n - length segs).
  Proof using n1.
    unfold fillClusterRanges. cbv zeta. set (start := mkFill _ 0 0 0 false).
    assert (I0 : inv [] start).
    { exists []. unfold start. cbn [currentThread partition initialized toAddN length]. split; [reflexivity|]. split; [exact n1|]. split; [rewrite firstn_length, app_length, repeat_length; lia|].
      split; [intros [|j] seg J; discriminate|]. split; reflexivity. }
    assert (I := inv_fold (ownedClusters towers) [] start I0). cbn [app] in I. change (ownedClusters towers) with (ownedFrom 0 towers) in *.
    set (s := fold_left _ _ _) in *. clearbody s. clear I0 start. destruct I as (segs & LS & CT & LP & SG & I).
    set (part := if initialized s then partition s else setRange (partition s) (currentThread s) (mkRange 0 0 0)).
    set (part2 := if toAddN s =? 0 then part else addTo part (currentThread s) (toAddN s)).
    set (res := fold_left _ _ part2).
    assert (LP1 : length part = n) by (unfold part; destruct (initialized s); [|rewrite setRange_length]; exact LP).
    assert (LP2 : length part2 = n) by (unfold part2; destruct (toAddN s =? 0); [|rewrite addTo_length]; exact LP1).
    assert (LR : length res = n) by (unfold res; rewrite zero_length; exact LP2).
    assert (EX : forall j, existsb (Nat.eqb j) (seq (S (currentThread s)) (n - S (currentThread s))) = (currentThread s <? j) && (j <? n)).
    { intros j. destruct (existsb (Nat.eqb j) (seq (S (currentThread s)) (n - S (currentThread s)))) eqn:E.
      - apply existsb_exists in E. destruct E as (x & X & E). apply Nat.eqb_eq in E. subst x. apply in_seq in X. symmetry. apply andb_true_intro. split; apply Nat.ltb_lt; lia.
      - destruct (Nat.ltb_spec (currentThread s) j); destruct (Nat.ltb_spec j n); try reflexivity. exfalso.
        assert (existsb (Nat.eqb j) (seq (S (currentThread s)) (n - S (currentThread s))) = true); [|congruence]. apply existsb_exists. exists j. rewrite Nat.eqb_refl, in_seq. split; [lia|reflexivity]. }
    assert (RL : forall j, currentThread s < j < n -> nth_error res j = Some (mkRange 0 0 0)).
    { intros j J. unfold res. rewrite zero_nth, EX, LP2. destruct (Nat.ltb_spec (currentThread s) j); [|lia]. destruct (Nat.ltb_spec j n); [|lia]. reflexivity. }
    assert (RB : forall j, j <= currentThread s -> nth_error res j = nth_error part2 j).
    { intros j J. unfold res. rewrite zero_nth, EX. destruct (Nat.ltb_spec (currentThread s) j); [lia|]. reflexivity. }
    assert (RS : forall j seg, nth_error segs j = Some seg -> seg <> [] /\ nth_error res j = Some (rangeOf seg)).
    { intros j seg J. destruct (SG j seg J) as [A B]. split; [exact A|]. assert (j < length segs) by (apply nth_error_Some; congruence). rewrite RB by lia.
      assert (P1 : nth_error part j = Some (rangeOf seg)). { unfold part. destruct (initialized s); [exact B|]. rewrite setRange_nth. destruct (Nat.eqb_spec (currentThread s) j); [lia|exact B]. }
      unfold part2. destruct (toAddN s =? 0); [exact P1|]. rewrite addTo_nth. destruct (Nat.eqb_spec (currentThread s) j); [lia|exact P1]. }
    assert (NE : forall seg, In seg segs -> seg <> []). { intros seg J. apply In_nth_error in J. destruct J as [j J]. now apply (RS j). }
    assert (EXT : forall all, length all <= n -> (forall j seg, nth_error all j = Some seg -> nth_error res j = Some (rangeOf seg)) ->
       (forall j, length all <= j < n -> nth_error res j = Some (mkRange 0 0 0)) -> res = map rangeOf all ++ repeat (mkRange 0 0 0) (n - length all)).
    { clear - LR. intros all LA A Z. apply (nth_ext _ _ (mkRange 0 0 0) (mkRange 0 0 0)); [rewrite app_length, map_length, repeat_length; lia|]. intros j J. rewrite LR in J.
      destruct (Nat.lt_ge_cases j (length all)) as [H|H].
      - destruct (nth_error all j) as [seg|] eqn:E; [|apply nth_error_None in E; lia].
        rewrite (nth_error_nth res j _ (A j seg E)). rewrite app_nth1 by (rewrite map_length; exact H). symmetry. apply nth_error_nth. rewrite nth_error_map, E. reflexivity.
      - rewrite (nth_error_nth res j _ (Z j (conj H J))). rewrite app_nth2 by (rewrite map_length; exact H). rewrite nth_repeat. reflexivity. }
    destruct (initialized s) eqn:IN.
    - destruct I as (t & k & cur & D & T & N). exists (segs ++ [(t, k) :: cur]).
      split; [rewrite concat_app; cbn [concat]; rewrite app_nil_r; symmetry; exact D|]. split; [rewrite app_length; cbn [length]; lia|]. split.
      { intros seg J. apply in_app_or in J. destruct J as [J|[<-|[]]]; [now apply NE|congruence]. }
      assert (NC : nth_error res (currentThread s) = Some (mkRange t k (S (length cur)))).
      { rewrite RB by lia. unfold part2. destruct (Nat.eqb_spec (toAddN s) 0) as [Z|Z].
        - unfold part. rewrite N, Z, Nat.sub_0_r. reflexivity.
        - rewrite addTo_nth, Nat.eqb_refl. unfold part. rewrite N. cbn [option_map startTower startIndex numClusters]. do 2 f_equal. lia. }
      apply EXT.
      + rewrite app_length; cbn [length]; lia.
      + intros j seg J. destruct (Nat.lt_ge_cases j (length segs)) as [H|H]; [rewrite nth_error_app1 in J by exact H; now apply RS|].
        rewrite nth_error_app2 in J by exact H. destruct (j - length segs) as [|m] eqn:M; [|destruct m; discriminate]. injection J as <-. replace j with (currentThread s) by lia. exact NC.
      + intros j J. rewrite app_length in J. cbn [length] in J. apply RL. lia.
    - destruct I as [D T]. exists segs. split; [symmetry; exact D|]. split; [lia|]. split; [exact NE|].
      assert (NC : nth_error res (currentThread s) = Some (mkRange 0 0 0)).
      { rewrite RB by lia. unfold part2. rewrite T. cbn [Nat.eqb]. unfold part. rewrite setRange_nth, Nat.eqb_refl. destruct (Nat.ltb_spec (currentThread s) (length (partition s))); [reflexivity|lia]. }
      apply EXT; [lia|intros j seg J; now apply RS|]. intros j J. destruct (Nat.eq_dec j (currentThread s)) as [->|]; [exact NC|]. apply RL. lia.
  Qed.

  Theorem partition_complete towers old :
    concat (map (threadClusters towers) (fillClusterRanges towers listSize ppt n old)) = ownedClusters towers /\
    length (fillClusterRanges towers listSize ppt n old) = n.
  Proof using n1.
    destruct (ranges_segments towers old) as (segs & E & L & NE & R). rewrite R. split; [|rewrite app_length, map_length, repeat_length; lia].
    change (ownedClusters towers) with (ownedFrom 0 towers). rewrite map_app, concat_app.
    assert (Z : concat (map (threadClusters towers) (repeat (mkRange 0 0 0) (n - length segs))) = []).
    { clear. generalize (n - length segs). intros m. induction m as [|m IH]; [reflexivity|]. cbn [repeat map concat]. rewrite IH. unfold threadClusters. cbn [startTower skipn]. destruct towers as [|[fo ft] ts]; reflexivity. }
    rewrite Z, app_nil_r. rewrite <- E.
    assert (G : forall l pre, pre ++ concat l = ownedFrom 0 towers -> (forall seg, In seg l -> seg <> []) -> concat (map (threadClusters towers) (map rangeOf l)) = concat l).
    { clear - n1. induction l as [|seg l IH]; intros pre E NE; [reflexivity|]. cbn [map concat] in *. f_equal.
      - destruct seg as [|[t k] seg]; [exfalso; now apply (NE [] (or_introl eq_refl))|]. cbn [rangeOf]. eapply thread_segment. symmetry. exact E.
      - apply (IH (pre ++ seg)); [rewrite <- app_assoc; exact E|]. intros s S. apply NE. now right. }
    apply (G segs []); [exact E|exact NE].
  Qed.
End P.
