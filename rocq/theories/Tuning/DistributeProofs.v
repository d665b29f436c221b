From Coq Require Import ZArith List Bool Lia Reals Lra.
From Verif.Tuning Require Import DistributeModel DistributeSpec.
Import ListNotations.
Local Open Scope nat_scope.

(** * Enumeration of the configurations *)
Section Enum.
  Variable o : Options.
  Hypothesis U : usableOptions o.

  Definition allN c f t l d := map (fun n => mkConfig c f t l d n) (newton3s o).
  Definition allD c f t l := flat_map (allN c f t l) (layouts o).
  Definition allL c f t := flat_map (allD c f t) (estimators o c t).
  Definition allT c f := flat_map (allL c f) (traversals o c).
  Definition allF c := flat_map (allT c) (csfs o).

  Definition rest (i : Its) : list Config :=
    match itC i, itF i, itT i, itL i, itD i with
    | c :: cs, f :: fs, t :: ts, l :: ls, d :: ds =>
        map (fun n => mkConfig c f t l d n) (itN i) ++ flat_map (allN c f t l) ds ++ flat_map (allD c f t) ls ++
        flat_map (allL c f) ts ++ flat_map (allT c) fs ++ flat_map allF cs
    | _, _, _, _, _ => []
    end.
  Definition okIts (i : Its) : Prop :=
    itF i <> [] /\ itT i <> [] /\ itL i <> [] /\ itD i <> [] /\ itN i <> [] /\ incl (itC i) (containers o) /\
    match itC i with c :: _ => incl (itT i) (traversals o c) | [] => True end.

  Lemma deref_rest i : okIts i -> deref i = hd_error (rest i).
  Proof.
    destruct i as [[|c cs] [|f fs] [|t ts] [|l ls] [|d ds] [|n ns]]; intros (A & B & C & D & E & _); cbn in *; try congruence; reflexivity.
  Qed.

  Lemma advance_rest i : okIts i -> itC i <> [] -> exists i', advanceConfig o i = Some i' /\ rest i' = tl (rest i) /\ okIts i'.
  Proof.
    destruct U as (U1 & U2 & U3 & U4 & U5 & U6).
    destruct i as [[|c cs] [|f fs] [|t ts] [|l ls] [|d ds] [|n ns]]; intros (A & B & C & D & E & I & J) NE; cbn [itC itF itT itL itD itN] in *; try congruence.
    unfold advanceConfig. cbn [itC itF itT itL itD itN tl].
    assert (IC : In c (containers o)) by (apply I; now left).
    assert (IT : In t (traversals o c)) by (apply J; now left).
    destruct ns as [|n' ns].
    2:{ eexists. split; [reflexivity|]. split; [reflexivity|]. repeat split; try discriminate; assumption. }
    destruct ds as [|d' ds].
    2:{ eexists. split; [reflexivity|]. split; [cbn; now rewrite <- app_assoc|]. repeat split; try discriminate; assumption. }
    destruct (layouts o) as [|d0 ds0] eqn:LO; [congruence|].
    destruct ls as [|l' ls].
    2:{ eexists. split; [reflexivity|]. split; [|repeat split; try discriminate; assumption]. cbn [rest itC itF itT itL itD itN tl map List.app flat_map].
        unfold allD at 2. rewrite LO. cbn [flat_map]. unfold allN at 3. now rewrite <- !app_assoc. }
    destruct ts as [|t' ts].
    2:{ assert (IT' : In t' (traversals o c)) by (apply J; right; now left). pose proof (U6 c t' IC IT') as LE.
        cbn [selectEstimators option_map]. destruct (estimators o c t') as [|l0 ls0] eqn:EL; [congruence|].
        eexists. split; [reflexivity|]. split.
        - cbn [rest itC itF itT itL itD itN tl map List.app flat_map]. unfold allL at 2. rewrite EL. cbn [flat_map]. unfold allD at 2. rewrite LO. cbn [flat_map].
          unfold allN at 3. now rewrite <- !app_assoc.
        - repeat split; try discriminate; try assumption. cbn. intros x X. apply J. now right. }
    pose proof (U5 c IC) as TR. destruct (traversals o c) as [|t0 ts0] eqn:TO; [congruence|].
    cbn [selectEstimators]. pose proof (U6 c t0 IC ltac:(rewrite TO; now left)) as LE. destruct (estimators o c t0) as [|l0 ls0] eqn:EL; [congruence|].
    destruct fs as [|f' fs].
    2:{ eexists. split; [reflexivity|]. split.
        - cbn [rest itC itF itT itL itD itN tl map List.app flat_map]. unfold allT at 2. rewrite TO. cbn [flat_map]. unfold allL at 2. rewrite EL. cbn [flat_map]. unfold allD at 2. rewrite LO. cbn [flat_map].
          unfold allN at 3. now rewrite <- !app_assoc.
        - repeat split; try discriminate; try assumption. cbn. rewrite TO. apply incl_refl. }
    destruct (csfs o) as [|f0 fs0] eqn:FO; [congruence|].
    destruct cs as [|c' cs].
    - eexists. split; [reflexivity|]. split; [reflexivity|]. repeat split; try discriminate; try assumption. cbn. intros x [].
    - assert (IC' : In c' (containers o)) by (apply I; right; now left).
      pose proof (U5 c' IC') as TR'. destruct (traversals o c') as [|t1 ts1] eqn:TO'; [congruence|].
      cbn [selectEstimators option_map]. pose proof (U6 c' t1 IC' ltac:(rewrite TO'; now left)) as LE'. destruct (estimators o c' t1) as [|l1 ls1] eqn:EL'; [congruence|].
      eexists. split; [reflexivity|]. split.
      + cbn [rest itC itF itT itL itD itN tl map List.app flat_map]. unfold allF at 2. rewrite FO. cbn [flat_map]. unfold allT at 2. rewrite TO'. cbn [flat_map].
        unfold allL at 2. rewrite EL'. cbn [flat_map]. unfold allD at 2. rewrite LO. cbn [flat_map]. unfold allN at 3. now rewrite <- !app_assoc.
      + repeat split; try discriminate; try assumption; cbn; [|rewrite TO'; apply incl_refl]. intros x X. apply I. now right.
  Qed.

  Lemma rest_nonempty i : okIts i -> (itC i <> [] <-> rest i <> []).
  Proof.
    destruct i as [[|c cs] [|f fs] [|t ts] [|l ls] [|d ds] [|n ns]]; intros (A & B & C & D & E & _); cbn in *; split; congruence.
  Qed.

  (** The iterators after [k] steps. *)
  Definition at_ (k : nat) (i : Its) : Prop := okIts i /\ rest i = skipn k (allConfigs o).

  Lemma at_deref k i : at_ k i -> deref i = nth_error (allConfigs o) k.
  Proof.
    intros [O E]. rewrite (deref_rest i O), E. clear. revert k. generalize (allConfigs o). induction l as [|c l IH]; intros [|k]; cbn; auto.
  Qed.
  Lemma skipn_tl {A} (l : list A) : forall k, tl (skipn k l) = skipn (S k) l.
  Proof. induction l as [|a l IH]; intros [|k]; cbn; auto. rewrite IH. now destruct l. Qed.
  Lemma at_advance k i : at_ k i -> k < length (allConfigs o) -> exists i', advanceConfig o i = Some i' /\ at_ (S k) i'.
  Proof.
    intros [O E] L. destruct (advance_rest i O) as (i' & A & R & O').
    - apply rest_nonempty; [exact O|]. rewrite E. intros X. apply (f_equal (@length _)) in X. rewrite skipn_length in X. cbn in X. lia.
    - exists i'. split; [exact A|]. split; [exact O'|]. rewrite R, E. apply skipn_tl.
  Qed.

  Lemma size_all : searchSpaceSize o = length (allConfigs o).
  Proof.
    unfold searchSpaceSize, allConfigs. induction (containers o) as [|c cs IH]; [reflexivity|]. cbn [map list_sum fold_right flat_map].
    rewrite app_length, <- IH. change (fold_right Init.Nat.add 0) with list_sum. f_equal. clear IH.
    induction (csfs o) as [|f fs IH].
    - cbn. induction (traversals o c); cbn; auto.
    - cbn [flat_map length]. rewrite app_length, <- IH. clear IH. induction (traversals o c) as [|t ts IH]; [reflexivity|].
      cbn [map list_sum fold_right flat_map]. change (fold_right Init.Nat.add 0) with list_sum. rewrite app_length.
      assert (X : length (flat_map (fun l => flat_map (fun d => map (fun n => mkConfig c f t l d n) (newton3s o)) (layouts o)) (estimators o c t))
                  = length (estimators o c t) * length (layouts o) * length (newton3s o)).
      { induction (estimators o c t) as [|l ls IHl]; [reflexivity|]. cbn [flat_map length]. rewrite app_length, IHl. clear.
        induction (layouts o) as [|d ds IH]; [cbn; lia|]. cbn [flat_map length]. rewrite app_length, map_length. cbn. cbn in IH. lia. }
      rewrite X, <- Nat.add_assoc. rewrite (Nat.add_comm _ (length (flat_map _ ts) + _)). rewrite <- Nat.add_assoc. rewrite (Nat.add_comm _ (list_sum (map _ ts))) in IH at 1.
      cbn [length]. lia.
  Qed.

  Lemma start_at c l : containers o = c :: l -> exists i, selectEstimators o (containers o) (traversals o c) = Some i /\
    at_ 0 (mkIts (containers o) (csfs o) (traversals o c) i (layouts o) (newton3s o)).
  Proof.
    intros E. destruct U as (U1 & U2 & U3 & U4 & U5 & U6). assert (IC : In c (containers o)) by (rewrite E; now left).
    pose proof (U5 c IC) as TR. destruct (traversals o c) as [|t ts] eqn:TO; [congruence|]. pose proof (U6 c t IC ltac:(rewrite TO; now left)) as LE.
    exists (estimators o c t). rewrite E. split; [reflexivity|]. split.
    - repeat split; cbn; try assumption; try discriminate; [rewrite E; apply incl_refl|rewrite TO; apply incl_refl].
    - cbn [skipn]. change (allConfigs o) with (flat_map allF (containers o)). rewrite E. cbn [flat_map]. unfold allF at 1.
      destruct (csfs o) as [|f fs] eqn:FO; [congruence|]. cbn [flat_map]. unfold allT at 1. rewrite TO. cbn [flat_map]. unfold allL at 1.
      destruct (estimators o c t) as [|l0 ls] eqn:EL; [congruence|]. cbn [flat_map]. unfold allD at 1.
      destruct (layouts o) as [|d ds] eqn:LO; [congruence|]. cbn [flat_map rest itC itF itT itL itD itN]. unfold allN at 1. now rewrite <- !app_assoc.
  Qed.
End Enum.

(** * Blocks *)
Section Blocks.
  Variables (small big : nat).
  Hypothesis Hs : 0 < small.
  Hypothesis Hb : small <= big.
  Definition base := big / small.
  Definition left_ := big mod small.
  Definition bsize (b : nat) : nat := base + (if (1 <=? b) && (b <=? left_) then 1 else 0).
  Definition bstart (b : nat) : nat := b * base + Nat.min (b - 1) left_.
  Lemma base_pos : 0 < base.
  Proof. unfold base. apply Nat.div_str_pos. lia. Qed.
  Lemma left_lt : left_ < small.
  Proof. clear Hb. apply Nat.mod_upper_bound. lia. Qed.
  Lemma bsize_pos b : 0 < bsize b.
  Proof. pose proof base_pos. unfold bsize. lia. Qed.
  Lemma bstart_S b : bstart (S b) = bstart b + bsize b.
  Proof.
    clear Hs Hb. unfold bstart, bsize. cbn [Nat.mul]. destruct b as [|b].
    - cbn. lia.
    - destruct (S b <=? left_) eqn:E; cbn [andb Nat.leb]; [apply Nat.leb_le in E|apply Nat.leb_gt in E]; lia.
  Qed.
  Lemma bstart_small : bstart small = big.
  Proof.
    clear Hb. unfold bstart. pose proof left_lt. rewrite Nat.min_r by lia. unfold base, left_. rewrite (Nat.mul_comm small).
    pose proof (Nat.div_mod big small ltac:(lia)). lia.
  Qed.
  Lemma bstart_mono a b : a <= b -> bstart a <= bstart b.
  Proof. clear Hs Hb. induction 1; [lia|]. rewrite bstart_S. lia. Qed.
  Lemma bstart_in b j : b < small -> j < bsize b -> bstart b + j < big.
  Proof. clear Hb. intros H J. rewrite <- bstart_small. pose proof (bstart_mono (S b) small H). rewrite bstart_S in *. lia. Qed.
  Lemma block_of i : i < big -> exists b j, b < small /\ j < bsize b /\ i = bstart b + j.
  Proof.
    clear Hb. intros H. rewrite <- bstart_small in H. enough (G : forall n, i < bstart n -> exists b j, b < n /\ j < bsize b /\ i = bstart b + j) by exact (G small H).
    clear H. induction n as [|n IH]; intros L.
    - exfalso. unfold bstart in L. cbn in L. lia.
    - rewrite bstart_S in L. destruct (Nat.lt_ge_cases i (bstart n)) as [Q|Q].
      + destruct (IH Q) as (b & j & B & J & E). exists b, j. repeat split; auto; lia.
      + exists n, (i - bstart n). repeat split; lia.
  Qed.
End Blocks.

(** * Runs of the handler *)
Section Run.
  Variable o : Options.
  Hypothesis U : usableOptions o.
  Variable P : nat.
  Hypothesis HP : 0 < P.
  Let N := length (allConfigs o).
  Hypothesis HN : 0 < N.

  Lemma opts_cons : exists c l, containers o = c :: l.
  Proof. destruct U as (U1 & _). destruct (containers o) as [|c l]; [congruence|]. now exists c, l. Qed.

  (** At least as many configurations as ranks: a block is the configurations of a rank. *)
  Section ManyConfigs.
    Hypothesis Hb : P <= N.
    Definition stateA (b j : nat) (h : Handler) : Prop :=
      at_ o (bstart P N b + j) (its h) /\ rankIt h = b /\ remBlock h = bsize P N b - 1 - j /\ remainder h = left_ P N - b /\ j < bsize P N b /\
      offset h = b /\ blockSize h = base P N.
    Lemma startA : exists h, start o N P = Some h /\ stateA 0 0 h.
    Proof.
      destruct opts_cons as (c & l & E). destruct (start_at o U c l E) as (i & S1 & S2). unfold start.
      destruct (containers o) as [|c' l'] eqn:CO; [discriminate|]. injection E as -> ->. rewrite S1. cbn [option_map].
      eexists. split; [reflexivity|]. unfold stateA. cbn [its rankIt remBlock remainder offset blockSize].
      pose proof (base_pos P N HP Hb). unfold bsize, bstart. cbn [Nat.leb andb]. rewrite Nat.add_0_r.
      destruct (N <=? P) eqn:Q.
      - apply Nat.leb_le in Q. assert (EQ : N = P) by lia. unfold base, left_ in *. rewrite EQ in *. rewrite Nat.div_same, Nat.mod_same in * by lia.
        split; [exact S2|]. repeat split; lia.
      - unfold base, left_ in *. split; [exact S2|]. repeat split; lia.
    Qed.
    Lemma advanceA b j h : b < P -> stateA b j h -> exists h', advance o N P h = Some h' /\
      stateA (if S j <? bsize P N b then b else S b) (if S j <? bsize P N b then S j else 0) h'.
    Proof.
      intros B (A & R & RB & RM & J & OF & BS). pose proof (bstart_in P N HP b j B J) as IN.
      destruct (at_advance o U _ _ A IN) as (i' & AD & A'). unfold advance.
      assert (X : (P <=? N) = true) by (apply Nat.leb_le; exact Hb). rewrite X. cbn [orb]. rewrite AD.
      destruct (S j <? bsize P N b) eqn:E; [apply Nat.ltb_lt in E|apply Nat.ltb_ge in E].
      - assert (Y : (remBlock h =? 0) = false) by (apply Nat.eqb_neq; lia). rewrite Y. rewrite orb_false_r.
        destruct (N <=? P) eqn:Q.
        + exfalso. apply Nat.leb_le in Q. assert (EQ : N = P) by lia. unfold bsize, base, left_ in E. rewrite EQ, Nat.div_same, Nat.mod_same in E by lia.
          destruct b; cbn in E; lia.
        + eexists. split; [reflexivity|]. unfold stateA. cbn [its rankIt remBlock remainder offset blockSize]. replace (bstart P N b + S j) with (S (bstart P N b + j)) by lia.
          split; [exact A'|]. repeat split; try assumption; lia.
      - assert (Y : (remBlock h =? 0) = true) by (apply Nat.eqb_eq; lia). rewrite Y. rewrite orb_true_r.
        eexists. split; [reflexivity|]. unfold stateA. cbn [its rankIt remBlock remainder offset blockSize]. rewrite bstart_S.
        replace (bstart P N b + bsize P N b + 0) with (S (bstart P N b + j)) by lia. rewrite RM.
        assert (Z : (if 0 <? left_ P N - b then S (N / P) else N / P) = bsize P N (S b)).
        { unfold bsize. change (1 <=? S b) with true. cbn [andb]. fold (base P N). destruct (S b <=? left_ P N) eqn:Q; [apply Nat.leb_le in Q|apply Nat.leb_gt in Q].
          - assert (W : (0 <? left_ P N - b) = true) by (apply Nat.ltb_lt; lia). rewrite W. lia.
          - assert (W : (0 <? left_ P N - b) = false) by (apply Nat.ltb_ge; lia). rewrite W. lia. }
        rewrite Z. pose proof (bsize_pos P N HP Hb (S b)). split; [exact A'|]. repeat split; try assumption; lia.
    Qed.
    Lemma skipA r : r < P -> forall fuel b j h, stateA b j h -> b < r \/ (b = r /\ j = 0) -> bstart P N r <= fuel + (bstart P N b + j) ->
      exists h', skipTo o N P fuel r h = Some h' /\ stateA r 0 h'.
    Proof.
      intros HR. induction fuel as [|fuel IH]; intros b j h S0 C L; cbn [skipTo];
        destruct S0 as (A & R & RB & RM & J & OF & BS) eqn:?; rewrite R.
      - destruct C as [C|[-> ->]].
        + exfalso. pose proof (bstart_mono P N (S b) r C). rewrite bstart_S in H. lia.
        + rewrite Nat.ltb_irrefl. exists h. split; [reflexivity|exact S0].
      - destruct C as [C|[-> ->]].
        + assert (X : (b <? r) = true) by (apply Nat.ltb_lt; exact C). rewrite X.
          destruct (advanceA b j h ltac:(lia) S0) as (h' & AD & S1). rewrite AD. revert S1.
          destruct (S j <? bsize P N b) eqn:E; intros S1; [apply Nat.ltb_lt in E|apply Nat.ltb_ge in E].
          * apply (IH _ _ h' S1); [now left|lia].
          * apply (IH _ _ h' S1); [destruct (Nat.eq_dec (S b) r); [right; split; auto|left; lia]|]. rewrite bstart_S. lia.
        + rewrite Nat.ltb_irrefl. exists h. split; [reflexivity|exact S0].
    Qed.
    Lemma nth_firstn_skipn {A} (l : list A) k n c : nth_error l k = Some c -> firstn (S n) (skipn k l) = c :: firstn n (skipn (S k) l).
    Proof. revert k. induction l as [|a l IH]; intros [|k] H; try discriminate; [now injection H as ->|]. cbn [skipn]. now apply IH. Qed.
    Lemma collectA r : r < P -> forall n fuel j h, stateA r j h -> n = bsize P N r - j -> n < fuel ->
      collect o N P fuel r h = Some (firstn n (skipn (bstart P N r + j) (allConfigs o))).
    Proof.
      intros HR. induction n as [|n IH]; intros fuel j h S0 E L; [destruct S0 as (_ & _ & _ & _ & J & _); lia|].
      destruct fuel as [|fuel]; [lia|]. cbn [collect]. pose proof S0 as (A & R & RB & RM & J & _). rewrite R, Nat.eqb_refl.
      rewrite (at_deref o _ _ A). pose proof (bstart_in P N HP r j HR J) as IN.
      destruct (nth_error (allConfigs o) (bstart P N r + j)) as [c|] eqn:NE; [|apply nth_error_None in NE; fold N in NE; lia].
      destruct (advanceA r j h HR S0) as (h' & AD & S1). rewrite AD. revert S1.
      rewrite (nth_firstn_skipn _ _ _ _ NE). destruct (S j <? bsize P N r) eqn:Q; intros S1; [apply Nat.ltb_lt in Q|apply Nat.ltb_ge in Q].
      - rewrite (IH fuel (S j) h' S1) by lia. cbn [option_map]. now rewrite <- plus_n_Sm.
      - destruct S1 as (_ & R' & _). destruct n; [|lia]. destruct fuel; cbn [collect]; rewrite R'; assert (X : (S r =? r) = false) by (apply Nat.eqb_neq; lia); rewrite X; reflexivity.
    Qed.
    Lemma generateA r : r < P -> generate o N P r = Some (firstn (bsize P N r) (skipn (bstart P N r) (allConfigs o)), r, base P N).
    Proof.
      intros HR. destruct startA as (h & ST & S0). unfold generate. rewrite ST.
      assert (LE : bstart P N r <= N) by (rewrite <- (bstart_small P N HP) at 2; apply bstart_mono; lia).
      destruct (skipA r HR (N + P) 0 0 h S0) as (h' & SK & S1); [destruct r; [now right|left; lia]|lia|]. rewrite SK.
      rewrite (collectA r HR (bsize P N r) (N + P) 0 h' S1); [|lia|].
      - destruct S1 as (_ & _ & _ & _ & _ & OF & BS). rewrite OF, BS. cbn [option_map]. now rewrite Nat.add_0_r.
      - pose proof (bstart_in P N HP r (bsize P N r - 1) HR) as X. pose proof (bsize_pos P N HP Hb r). lia.
    Qed.
  End ManyConfigs.

  (** More ranks than configurations: a block is the ranks of a configuration. *)
  Section ManyRanks.
    Hypothesis Hb : N < P.
    Definition stateB (b j : nat) (h : Handler) : Prop :=
      at_ o b (its h) /\ rankIt h = bstart N P b + j /\ remBlock h = bsize N P b - 1 - j /\ remainder h = left_ N P - b /\ j < bsize N P b /\
      offset h = j /\ blockSize h = base N P.
    Lemma startB : exists h, start o N P = Some h /\ stateB 0 0 h.
    Proof.
      destruct opts_cons as (c & l & E). destruct (start_at o U c l E) as (i & S1 & S2). unfold start.
      destruct (containers o) as [|c' l'] eqn:CO; [discriminate|]. injection E as -> ->. rewrite S1. cbn [option_map].
      eexists. split; [reflexivity|]. unfold stateB. cbn [its rankIt remBlock remainder offset blockSize].
      pose proof (base_pos N P HN ltac:(lia)). unfold bsize, bstart. cbn [Nat.leb andb]. rewrite Nat.add_0_r.
      assert (Q : (N <=? P) = true) by (apply Nat.leb_le; lia). rewrite Q. unfold base, left_ in *. split; [exact S2|]. repeat split; lia.
    Qed.
    Lemma advanceB b j h : b < N -> stateB b j h -> exists h', advance o N P h = Some h' /\
      stateB (if S j <? bsize N P b then b else S b) (if S j <? bsize N P b then S j else 0) h'.
    Proof.
      intros B (A & R & RB & RM & J & OF & BS). unfold advance.
      assert (X : (P <=? N) = false) by (apply Nat.leb_gt; exact Hb). rewrite X. cbn [orb].
      assert (X' : (N <=? P) = true) by (apply Nat.leb_le; lia). rewrite X'. cbn [orb].
      destruct (S j <? bsize N P b) eqn:E; [apply Nat.ltb_lt in E|apply Nat.ltb_ge in E].
      - assert (Y : (remBlock h =? 0) = false) by (apply Nat.eqb_neq; lia). rewrite Y.
        eexists. split; [reflexivity|]. unfold stateB. cbn [its rankIt remBlock remainder offset blockSize].
        split; [exact A|]. repeat split; try assumption; lia.
      - assert (Y : (remBlock h =? 0) = true) by (apply Nat.eqb_eq; lia). rewrite Y.
        destruct (at_advance o U _ _ A B) as (i' & AD & A'). rewrite AD.
        eexists. split; [reflexivity|]. unfold stateB. cbn [its rankIt remBlock remainder offset blockSize]. rewrite bstart_S. rewrite RM.
        assert (Z : (if 0 <? left_ N P - b then S (P / N) else P / N) = bsize N P (S b)).
        { unfold bsize. change (1 <=? S b) with true. cbn [andb]. fold (base N P). destruct (S b <=? left_ N P) eqn:Q; [apply Nat.leb_le in Q|apply Nat.leb_gt in Q].
          - assert (W : (0 <? left_ N P - b) = true) by (apply Nat.ltb_lt; lia). rewrite W. lia.
          - assert (W : (0 <? left_ N P - b) = false) by (apply Nat.ltb_ge; lia). rewrite W. lia. }
        rewrite Z. pose proof (bsize_pos N P HN ltac:(lia) (S b)). split; [exact A'|]. repeat split; try assumption; lia.
    Qed.
    Lemma skipB c k : c < N -> k < bsize N P c -> forall fuel b j h, stateB b j h -> bstart N P b + j <= bstart N P c + k -> bstart N P c + k <= fuel + (bstart N P b + j) ->
      exists h', skipTo o N P fuel (bstart N P c + k) h = Some h' /\ stateB c k h'.
    Proof.
      intros HC HK. induction fuel as [|fuel IH]; intros b j h S0 C L; cbn [skipTo]; pose proof S0 as (A & R & RB & RM & J & OF & BS); rewrite R.
      - assert (EQ : bstart N P b + j = bstart N P c + k) by lia. rewrite EQ, Nat.ltb_irrefl. exists h. split; [reflexivity|].
        assert (b = c /\ j = k) as [-> ->]; [|exact S0].
        destruct (Nat.lt_trichotomy b c) as [Q|[->|Q]]; [|split; lia|]; exfalso.
        + pose proof (bstart_mono N P (S b) c Q) as M. rewrite bstart_S in M. lia.
        + pose proof (bstart_mono N P (S c) b Q) as M. rewrite bstart_S in M. lia.
      - destruct (bstart N P b + j <? bstart N P c + k) eqn:W; [apply Nat.ltb_lt in W|apply Nat.ltb_ge in W].
        + assert (BC : b <= c). { destruct (Nat.le_gt_cases b c) as [Q|Q]; [exact Q|]. pose proof (bstart_mono N P (S c) b Q) as M. rewrite bstart_S in M. lia. }
          destruct (advanceB b j h ltac:(lia) S0) as (h' & AD & S1). rewrite AD. revert S1.
          destruct (S j <? bsize N P b) eqn:E; intros S1; [apply Nat.ltb_lt in E|apply Nat.ltb_ge in E].
          * apply (IH _ _ h' S1); lia.
          * apply (IH _ _ h' S1); rewrite bstart_S; lia.
        + exists h. split; [reflexivity|]. assert (EQ : bstart N P b + j = bstart N P c + k) by lia.
          assert (b = c /\ j = k) as [-> ->]; [|exact S0].
          destruct (Nat.lt_trichotomy b c) as [Q|[->|Q]]; [|split; lia|]; exfalso.
          * pose proof (bstart_mono N P (S b) c Q) as M. rewrite bstart_S in M. lia.
          * pose proof (bstart_mono N P (S c) b Q) as M. rewrite bstart_S in M. lia.
    Qed.
    Lemma generateB c k x : c < N -> k < bsize N P c -> nth_error (allConfigs o) c = Some x ->
      generate o N P (bstart N P c + k) = Some ([x], k, base N P).
    Proof.
      intros HC HK HX. destruct startB as (h & ST & S0). unfold generate. rewrite ST.
      pose proof (bstart_in N P HN c k HC HK) as IN.
      destruct (skipB c k HC HK (N + P) 0 0 h S0) as (h' & SK & S1); [unfold bstart at 1; cbn; lia|lia|]. rewrite SK.
      pose proof S1 as (A & R & RB & RM & J & OF & BS). destruct (N + P) as [|f] eqn:FU; [lia|]. cbn [collect]. rewrite R, Nat.eqb_refl.
      rewrite (at_deref o _ _ A), HX. destruct (advanceB c k h' HC S1) as (h'' & AD & S2). rewrite AD.
      assert (R2 : rankIt h'' = S (bstart N P c + k)).
      { revert S2. destruct (S k <? bsize N P c) eqn:Q; intros (_ & R2 & _); rewrite R2; [lia|]. apply Nat.ltb_ge in Q. rewrite bstart_S. lia. }
      assert (X : (S (bstart N P c + k) =? bstart N P c + k) = false) by (apply Nat.eqb_neq; lia).
      destruct f; cbn [collect]; rewrite R2, X; cbn [option_map]; now rewrite OF, BS.
    Qed.
  End ManyRanks.
End Run.
