(** Proofs about the buffer of neighbour lists. *)
From Coq Require Import List Arith Bool Lia FinFun.
From Verif.Cluster Require Import ListsBufferModel.
Import ListNotations.

Section Proofs.
  Context {K V : Type}.
  Variable dflt : V.
  Notation buffer := (@buffer K V).
  Notation getNew := (getNewNeighborList dflt).

  Lemma resize_length n (b : buffer) : length (bLists (resize dflt n b)) = n.
  Proof. cbn. rewrite app_length, repeat_length. destruct (Nat.le_gt_cases n (length (bLists b))); rewrite firstn_length; lia. Qed.
  Lemma clearAt_length i (ls : list (list V)) : length (clearAt i ls) = length ls.
  Proof. revert i. induction ls as [|l ls IH]; intros [|i]; cbn; try reflexivity. rewrite IH. reflexivity. Qed.
  Lemma clearAt_nth i (ls : list (list V)) j : i < length ls -> nth_error (clearAt i ls) j = if j =? i then Some [] else nth_error ls j.
  Proof.
    revert i j. induction ls as [|l ls IH]; intros [|i] [|j] H; cbn in *; try lia; try reflexivity.
    apply IH. lia.
  Qed.

  Definition start (b : buffer) : nat := match bLast b with None => 0 | Some i => S i end.
  Definition room (b : buffer) : nat := match bLast b with None => Nat.max 10 (bGrow b (length (bLists b))) | Some _ => length (bLists b) end.
  Definition fits (b : buffer) : Prop := match bLast b with None => True | Some i => i < length (bLists b) end.

  (** The next list. *)
  Lemma getNew_some (b : buffer) : fits b -> start b < room b -> exists b',
    getNew b = Some (start b, b') /\ bLast b' = Some (start b) /\ length (bLists b') = room b /\
    (bLast b <> None -> bGen b' = bGen b) /\ nth_error (bLists b') (start b) = Some [] /\
    (bLast b <> None -> forall j, j <> start b -> nth_error (bLists b') j = nth_error (bLists b) j).
  Proof.
    intros F R. unfold getNewNeighborList. unfold start, room, fits in *. destruct (bLast b) as [i|] eqn:E.
    - destruct (Nat.leb_spec (length (bLists b)) i) as [L|L]; [lia|]. rewrite E.
      destruct (Nat.ltb_spec (S i) (length (bLists b))) as [M|M]; [|lia].
      eexists. split; [reflexivity|]. cbn [bLast bLists bGen]. rewrite clearAt_length. repeat split.
      + rewrite clearAt_nth by exact M. rewrite Nat.eqb_refl. reflexivity.
      + intros _ j Hj. rewrite clearAt_nth by exact M. destruct (Nat.eqb_spec j (S i)); [contradiction|reflexivity].
    - set (n := Nat.max 10 (bGrow b (length (bLists b)))) in *.
      pose proof (resize_length n b) as RL. change (bLast (resize dflt n b)) with (bLast b). rewrite E.
      destruct (Nat.ltb_spec 0 (length (bLists (resize dflt n b)))) as [M|M]; [|lia].
      eexists. split; [reflexivity|]. cbn [bLast bLists bGen]. rewrite clearAt_length. repeat split; try assumption; try contradiction.
      rewrite clearAt_nth by exact M. reflexivity.
  Qed.
  Lemma getNew_none (b : buffer) : fits b -> room b <= start b -> getNew b = None.
  Proof.
    intros F R. unfold getNewNeighborList. unfold start, room, fits in *. destruct (bLast b) as [i|] eqn:E; [|lia].
    destruct (Nat.leb_spec (length (bLists b)) i) as [L|L]; [lia|]. rewrite E.
    destruct (Nat.ltb_spec (S i) (length (bLists b))) as [M|M]; [lia|reflexivity].
  Qed.

  (** Further lists, the first one taken. *)
  Lemma clusterLists_more n : forall b : buffer, bLast b <> None -> fits b -> start b + n <= room b -> exists b',
    clusterLists dflt n b = Some (map (pair (bGen b)) (seq (start b) n), b') /\
    bLast b' <> None /\ fits b' /\ start b' = start b + n /\ room b' = room b /\ bGen b' = bGen b /\
    (forall j, j < start b -> nth_error (bLists b') j = nth_error (bLists b) j) /\
    (forall j, start b <= j < start b + n -> nth_error (bLists b') j = Some []).
  Proof.
    induction n as [|n IH]; intros b N F R.
    - exists b. cbn. repeat split; try assumption; try lia; auto.
    - destruct (getNew_some b F) as [b1 [E1 [L1 [R1 [G1 [Z1 S1]]]]]]; [lia|]. specialize (G1 N). specialize (S1 N).
      assert (RB : room b = length (bLists b)) by (unfold room; destruct (bLast b); [reflexivity|contradiction]).
      assert (N1 : bLast b1 <> None) by (rewrite L1; discriminate).
      assert (ST : start b1 = S (start b)) by (unfold start at 1; rewrite L1; reflexivity).
      assert (RM : room b1 = room b) by (unfold room at 1; rewrite L1; exact R1).
      assert (F1 : fits b1) by (unfold fits; rewrite L1, R1; lia).
      destruct (IH b1 N1 F1) as [b2 [E2 [N2 [F2 [S2 [R2 [G2 [K2 Z2]]]]]]]]; [lia|].
      exists b2. cbn [clusterLists]. rewrite E1, E2, G1, ST. cbn [seq map]. split; [reflexivity|].
      repeat split; try assumption; try lia; try congruence.
      + intros j Hj. rewrite K2 by lia. apply S1. lia.
      + intros j Hj. destruct (Nat.eq_dec j (start b)) as [->|D]; [rewrite K2 by lia; exact Z1|apply Z2; lia].
  Qed.

  (** From a cleared buffer. *)
  Lemma clusterLists_first n (b : buffer) : bLast b = None -> n <= room b -> exists b' g,
    clusterLists dflt n b = Some (map (pair g) (seq 0 n), b') /\
    (0 < n -> bLast b' <> None /\ fits b' /\ start b' = n /\ room b' = room b /\ bGen b' = g) /\ (n = 0 -> b' = b) /\
    (forall j, j < n -> nth_error (bLists b') j = Some []).
  Proof.
    intros N R. destruct n as [|n].
    - exists b, 0. cbn. repeat split; try lia.
    - assert (F : fits b) by (unfold fits; rewrite N; exact I).
      assert (S0 : start b = 0) by (unfold start; rewrite N; reflexivity).
      destruct (getNew_some b F) as [b1 [E1 [L1 [R1 [_ [Z1 _]]]]]]; [lia|]. rewrite S0 in *.
      assert (N1 : bLast b1 <> None) by (rewrite L1; discriminate).
      assert (ST : start b1 = 1) by (unfold start; rewrite L1; reflexivity).
      assert (RM : room b1 = room b) by (unfold room at 1; rewrite L1; exact R1).
      assert (F1 : fits b1) by (unfold fits; rewrite L1, R1; lia).
      destruct (clusterLists_more n b1 N1 F1) as [b2 [E2 [N2 [F2 [S2 [R2 [G2 [K2 Z2]]]]]]]]; [lia|].
      exists b2, (bGen b1). cbn [clusterLists]. rewrite E1, E2, ST. cbn [seq map]. split; [reflexivity|].
      repeat split; try assumption; try lia.
      intros j Hj. destruct j as [|j]; [rewrite K2 by lia; exact Z1|apply Z2; lia].
  Qed.

  Lemma clusterLists_app n m (b : buffer) : clusterLists dflt (n + m) b =
    match clusterLists dflt n b with
    | None => None
    | Some (ps, b1) => match clusterLists dflt m b1 with None => None | Some (qs, b2) => Some (ps ++ qs, b2) end
    end.
  Proof.
    revert b. induction n as [|n IH]; intros b; cbn [plus clusterLists].
    - destruct (clusterLists dflt m b) as [[qs b2]|]; reflexivity.
    - destruct (getNew b) as [[i b1]|]; [|reflexivity]. rewrite IH.
      destruct (clusterLists dflt n b1) as [[ps b2]|]; [|reflexivity].
      destruct (clusterLists dflt m b2) as [[qs b3]|]; reflexivity.
  Qed.
  Lemma towerLists_sum needs (b : buffer) : towerLists dflt needs b = clusterLists dflt (list_sum needs) b.
  Proof.
    revert b. induction needs as [|n r IH]; intros b; [reflexivity|]. cbn [towerLists list_sum fold_right].
    change (fold_right Nat.add 0 r) with (list_sum r). rewrite clusterLists_app.
    destruct (clusterLists dflt n b) as [[ps b1]|]; [|reflexivity]. rewrite IH. reflexivity.
  Qed.

  (** How many lists fit after [clear]. *)
  Theorem capacity n (b : buffer) : bLast b = None ->
    (exists ps b', clusterLists dflt n b = Some (ps, b')) <-> n <= Nat.max 10 (bGrow b (length (bLists b))).
  Proof.
    intros N. assert (RM : room b = Nat.max 10 (bGrow b (length (bLists b)))) by (unfold room; rewrite N; reflexivity).
    rewrite <- RM. split.
    - intros [ps [b' E]]. destruct (Nat.le_gt_cases n (room b)) as [L|L]; [exact L|exfalso].
      destruct (clusterLists_first (room b) b N (Nat.le_refl _)) as [b1 [g [E1 [P1 [_ _]]]]].
      destruct P1 as [N1 [F1 [S1 [R1 _]]]]; [rewrite RM; lia|].
      replace n with (room b + S (n - room b - 1)) in E by lia. rewrite clusterLists_app, E1 in E. cbn [clusterLists] in E.
      rewrite getNew_none in E by (try assumption; lia). discriminate E.
    - intros L. destruct (clusterLists_first n b N L) as [b' [g [E _]]]. eauto.
  Qed.
End Proofs.

(** Clusters. *)
Lemma ceil_le c n : 0 < c -> numClusters c n <= n / c + 1.
Proof.
  intros C. unfold numClusters. destruct (n =? 0) eqn:Z; [lia|].
  pose proof (Nat.div_mod n c) as D. destruct (Nat.eqb_spec (n mod c) 0) as [E|E].
  - rewrite Nat.add_0_r. lia.
  - pose proof (Nat.mod_upper_bound n c). replace (n + (c - n mod c)) with ((n / c + 1) * c) by nia. rewrite Nat.div_mul by lia. lia.
Qed.
Lemma sum_div c ps : 0 < c -> list_sum (map (fun p => p / c) ps) <= list_sum ps / c.
Proof.
  intros C. induction ps as [|p ps IH]; cbn; [lia|].
  change (fold_right Nat.add 0 (map (fun p => p / c) ps)) with (list_sum (map (fun p => p / c) ps)). change (fold_right Nat.add 0 ps) with (list_sum ps).
  apply Nat.div_le_lower_bound; [lia|]. pose proof (Nat.mul_div_le p c). pose proof (Nat.mul_div_le (list_sum ps) c). nia.
Qed.
Lemma needs_fit c ps needs : 0 < c -> Forall2 (fun n p => n <= numClusters c p) needs ps ->
  list_sum needs <= list_sum ps / c + length ps.
Proof.
  intros C H. apply (Nat.le_trans _ (list_sum (map (fun p => p / c) ps) + length ps)).
  - induction H as [|n p needs ps Hn H IH]; cbn; [lia|]. pose proof (ceil_le c p C).
    change (fold_right Nat.add 0 needs) with (list_sum needs). change (fold_right Nat.add 0 (map (fun p => p / c) ps)) with (list_sum (map (fun p => p / c) ps)). lia.
  - pose proof (sum_div c ps C). lia.
Qed.

Theorem rebuild_lists K V (dflt : V) c ps needs (b : @buffer K V) :
  0 < c -> ps <> [] -> (forall n, n <= bGrow b n) -> Forall2 (fun n p => n <= numClusters c p) needs ps ->
  exists ptrs b', rebuildLists dflt (list_sum ps) c (length ps) needs b = Some (ptrs, b') /\
    length ptrs = list_sum needs /\ NoDup ptrs /\ (forall p, In p ptrs -> deref p b' = Some []) /\ bGrow b' = bGrow b.
Proof.
  intros C NE G H. unfold rebuildLists. rewrite towerLists_sum.
  set (b0 := reserveNeighborLists dflt _ (clear b)).
  assert (N : bLast b0 = None) by reflexivity.
  assert (RL : length (bLists b0) = list_sum ps / c + length ps) by apply resize_length.
  assert (GG : bGrow b0 = bGrow b) by reflexivity.
  assert (RM : list_sum needs <= room b0).
  { unfold room. rewrite N, RL, GG. pose proof (G (list_sum ps / c + length ps)). pose proof (needs_fit c ps needs C H). lia. }
  destruct (clusterLists_first dflt (list_sum needs) b0 N RM) as [b' [g [E [P [Z0 Z]]]]].
  exists (map (pair g) (seq 0 (list_sum needs))), b'. rewrite E. split; [reflexivity|].
  split; [rewrite map_length, seq_length; reflexivity|]. split.
  { apply Injective_map_NoDup; [intros x y Q; congruence|apply seq_NoDup]. }
  split.
  - intros p Hp. apply in_map_iff in Hp as [i [<- Hi]]. apply in_seq in Hi. destruct P as [_ [_ [_ [_ PG]]]]; [lia|].
    unfold deref. cbn [fst snd]. rewrite PG, Nat.eqb_refl. apply Z. lia.
  - assert (Q : forall n (b : @buffer K V) qs b'', clusterLists dflt n b = Some (qs, b'') -> bGrow b'' = bGrow b).
    { clear. induction n as [|n IH]; intros b qs b'' E; cbn [clusterLists] in E; [injection E as _ <-; reflexivity|].
      destruct (getNewNeighborList dflt b) as [[i b1]|] eqn:E1; [|discriminate E].
      destruct (clusterLists dflt n b1) as [[ps b2]|] eqn:E2; [|discriminate E]. injection E as _ <-. rewrite (IH _ _ _ E2).
      clear - E1. unfold getNewNeighborList in E1.
      destruct (match bLast b with Some i => length (bLists b) <=? i | None => true end);
        match type of E1 with (if ?t then _ else _) = _ => destruct t end; try discriminate E1; injection E1 as _ <-; reflexivity. }
    rewrite (Q _ _ _ _ E). exact GG.
Qed.

(** Keys. *)
Lemma key_new K V (keyEqual : K -> K -> bool) (dflt : V) (H : forall k l, keyEqual k l = true <-> k = l) key (b : @buffer K V) i b' :
  findKey keyEqual key b = None -> getNewNeighborListFor keyEqual dflt key b = Some (i, b') ->
  fst (getNeighborListRefFor keyEqual key b') = Some [] /\ findKey keyEqual key b' = Some i /\
  snd (getNeighborListRefFor keyEqual key b') = b' /\
  forall k, k <> key -> findKey keyEqual k b' = findKey keyEqual k b.
Proof.
  intros F E. unfold getNewNeighborListFor in E. destruct (getNewNeighborList dflt b) as [[j b1]|] eqn:G; [|discriminate].
  injection E as -> <-.
  assert (Q : bKeys b1 = bKeys b /\ nth_error (bLists b1) i = Some []).
  { unfold getNewNeighborList in G. cbv zeta in G. destruct (_ <? _) eqn:L in G; [|discriminate]. injection G as <- <-.
    cbn [bKeys bLists]. apply Nat.ltb_lt in L. rewrite clearAt_nth by exact L. rewrite Nat.eqb_refl. split; [|reflexivity].
    destruct (bLast b) as [k|]; [destruct (_ <=? _)|]; reflexivity. }
  destruct Q as [Q1 Q2].
  assert (F1 : forall k, findKey keyEqual k b1 = findKey keyEqual k b) by (intros k; unfold findKey; rewrite Q1; reflexivity).
  assert (R : keyEqual key key = true) by (apply H; reflexivity).
  assert (P : emplace keyEqual key i b1 = mkBuf ((key, i) :: bKeys b1) (bLists b1) (bLast b1) (bDefault b1) (bGrow b1) (bGen b1))
    by (unfold emplace; rewrite F1, F; reflexivity).
  assert (P2 : findKey keyEqual key (emplace keyEqual key i b1) = Some i)
    by (rewrite P; unfold findKey; cbn [bKeys find fst]; rewrite R; reflexivity).
  assert (P3 : emplace keyEqual key 0 (emplace keyEqual key i b1) = emplace keyEqual key i b1)
    by (unfold emplace at 1; rewrite P2; reflexivity).
  unfold getNeighborListRefFor. rewrite P3, P2. cbn [fst snd]. split; [rewrite P; exact Q2|]. split; [reflexivity|]. split; [reflexivity|].
  intros k N. rewrite P, <- F1. unfold findKey. cbn [bKeys find fst].
  destruct (keyEqual key k) eqn:X; [apply H in X; congruence|reflexivity].
Qed.
