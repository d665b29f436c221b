(** The numbers of leaves and what getParticle and deleteParticle do. *)
From Coq Require Import Reals.
From Verif.Base Require Import ZRange Lists.
From Verif.Functor Require Import SortModel.
From Verif.Container Require Import IteratorModel IteratorContainers IteratorLemmas IteratorGenericModel IteratorPadded.
From Verif.Octree Require Import DirectionModel OctreeModel OctreeIteratorModel OctreeWalk.
Local Open Scope Z_scope.

Section Numbers.
  Context {P : Type}.
  Notation Tree := (Tree P).
  Notation Trees := (Trees P).

  (** ** Numbers of leaves *)
  Definition valr (ds : list nat) : Z := fold_right (fun d k => Z.of_nat d + 10 * k) 0 ds.

  Lemma valr_range ds : Forall (fun d => (d < 8)%nat) ds -> 0 <= valr ds < 10 ^ Z.of_nat (length ds).
  Proof.
    induction 1 as [|d ds H _ IH]; [cbn; lia|]. cbn [valr fold_right length] in *. fold (valr ds) in *. rewrite Nat2Z.inj_succ, Z.pow_succ_r by lia. lia.
  Qed.

  Lemma encode_val ds i : Forall (fun d => (d < 8)%nat) (i :: ds) -> (length (i :: ds) <= 19)%nat -> encode (rev ds ++ [i]) = valr (i :: ds).
  Proof.
    intros F L. assert (E : encode (rev ds ++ [i]) = fold_left (fun k d => (k * 10 + Z.of_nat d) mod sizeMod) (rev (i :: ds)) 0).
    { cbn [rev]. unfold encode. destruct (rev ds ++ [i]) eqn:E; [|reflexivity]. destruct (rev ds); discriminate. }
    rewrite E. rewrite <- fold_left_rev_right, rev_involutive. clear E. generalize (i :: ds) F L. clear i ds F L. intros ds F L.
    assert (G : fold_right (fun (y : nat) (x : Z) => (x * 10 + Z.of_nat y) mod sizeMod) 0 ds = valr ds); [|exact G].
    induction F as [|d ds H F IH]; [reflexivity|]. cbn [length] in L. cbn [fold_right valr]. fold (valr ds). rewrite IH by lia.
    pose proof (valr_range (d :: ds) ltac:(now constructor)) as B. cbn [valr fold_right] in B. fold (valr ds) in B.
    rewrite Z.mod_small; [lia|]. split; [lia|].
    assert (10 ^ Z.of_nat (length (d :: ds)) <= 10 ^ 19) by (apply Z.pow_le_mono_r; cbn [length]; lia).
    assert (10 ^ 19 <= sizeMod) by (vm_compute; discriminate). lia.
  Qed.

  Lemma leafBelow_inner lo hi (cs : list Tree) k idx : leafBelow (Inner lo hi cs) k idx =
    match nth_error cs (Z.to_nat (k mod 10)) with Some c => leafBelow c (k / 10) (Z.to_nat (k mod 10) :: idx) | None => None end.
  Proof.
    cbn [leafBelow]. set (d := Z.to_nat (k mod 10)).
    assert (G : forall j, (fix go (cs : list Tree) (i : nat) : option (CellIdx * list P) :=
         match cs, i with c :: _, O => leafBelow c (k / 10) (d :: idx) | _ :: r, S j => go r j | [], _ => None end) cs j =
         match nth_error cs j with Some c => leafBelow c (k / 10) (d :: idx) | None => None end); [|apply G].
    induction cs as [|c cs IH]; intros [|j]; cbn; auto.
  Qed.
  Lemma changeBelow_inner lo hi (cs : list Tree) k f : changeBelow (Inner lo hi cs) k f =
    match nth_error cs (Z.to_nat (k mod 10)) with
    | Some c => match changeBelow c (k / 10) f with Some c' => Some (Inner lo hi (setAt cs (Z.to_nat (k mod 10)) c')) | None => None end
    | None => None
    end.
  Proof.
    cbn [changeBelow]. generalize (Z.to_nat (k mod 10)) as d. intros d.
    assert (G : forall d, (fix go (cs : list Tree) (i : nat) : option (list Tree) :=
               match cs, i with
               | c :: r, O => match changeBelow c (k / 10) f with Some c' => Some (c' :: r) | None => None end
               | c :: r, S j => match go r j with Some r' => Some (c :: r') | None => None end
               | [], _ => None
               end) cs d =
      match nth_error cs d with Some c => match changeBelow c (k / 10) f with Some c' => Some (setAt cs d c') | None => None end | None => None end).
    { clear d. induction cs as [|c cs IH]; intros [|d]; try reflexivity. cbn [nth_error]. rewrite IH. destruct (nth_error cs d); [|reflexivity].
      destruct (changeBelow t (k / 10) f); reflexivity. }
    rewrite G. destruct (nth_error cs d); [|reflexivity]. destruct (changeBelow t (k / 10) f); reflexivity.
  Qed.

  Lemma valr_digit d ds : (d < 8)%nat -> valr (d :: ds) mod 10 = Z.of_nat d /\ valr (d :: ds) / 10 = valr ds.
  Proof.
    intros H. cbn [valr fold_right]. fold (valr ds). split.
    - replace (Z.of_nat d + 10 * valr ds) with (Z.of_nat d + valr ds * 10) by ring. rewrite Z.mod_add by lia. apply Z.mod_small. lia.
    - replace (Z.of_nat d + 10 * valr ds) with (Z.of_nat d + valr ds * 10) by ring. rewrite Z.div_add by lia. rewrite Z.div_small by lia. lia.
  Qed.

  (** One leaf changed to a part of its particles. *)
  Inductive changed : Tree -> Tree -> Prop :=
  | changedLeaf lo hi ps ps' : incl ps' ps -> changed (Leaf lo hi ps) (Leaf lo hi ps')
  | changedInner lo hi cs i c c' : nth_error cs i = Some c -> changed c c' -> changed (Inner lo hi cs) (Inner lo hi (setAt cs i c')).

  Lemma changed_box t t' : changed t t' -> boxMin t' = boxMin t /\ boxMax t' = boxMax t.
  Proof. now destruct 1. Qed.
  Lemma setAt_in {A} (l : list A) i y z : In z (setAt l i y) -> z = y \/ In z l.
  Proof.
    revert i. induction l as [|a l IH]; intros [|i] H; cbn in H; auto.
    - destruct H as [<-|H]; [now left|right; now right].
    - destruct H as [<-|H]; [right; now left|]. destruct (IH i H); [now left|right; now right].
  Qed.
  Lemma changed_full t t' : changed t t' -> full t -> full t'.
  Proof.
    induction 1 as [|lo hi cs i c c' E C IH]; intros F; [constructor|]. inversion F as [|? ? ? L H]; subst.
    constructor; [now rewrite setAt_length|]. intros d D. apply setAt_in in D. destruct D as [->|D]; [|now apply H].
    apply IH, H. now apply nth_error_In in E.
  Qed.
  Lemma changed_incl t t' : changed t t' -> incl (collectAllParticles t') (collectAllParticles t).
  Proof.
    induction 1 as [lo hi ps ps' I|lo hi cs i c c' E C IH]; [exact I|]. intros x X. cbn [collectAllParticles] in *.
    apply in_flat_map in X. destruct X as (d & D & X). apply in_flat_map. apply setAt_in in D. destruct D as [->|D]; [|now exists d].
    exists c. split; [now apply nth_error_In in E|now apply IH].
  Qed.

  Lemma setAt_mid {A} (a b c : list A) n y : (n < length b)%nat -> setAt (a ++ b ++ c) (length a + n) y = a ++ setAt b n y ++ c.
  Proof.
    intros H. induction a as [|u a IH]; cbn; [|now rewrite IH]. revert n H. induction b as [|v b IH]; intros n H; [cbn in H; lia|].
    destruct n as [|n]; [reflexivity|]. cbn in *. rewrite IH by lia. reflexivity.
  Qed.

  Lemma leaf_number t : full t -> forall idx n q ps, nth_error (leafList t idx) n = Some (q, ps) ->
    exists ds, q = rev ds ++ idx /\ Forall (fun d => (d < 8)%nat) ds /\ leafBelow t (valr ds) idx = Some (q, ps) /\
      forall ps', incl ps' ps -> exists t', changeBelow t (valr ds) (fun _ => ps') = Some t' /\
        leafList t' idx = setAt (leafList t idx) n (q, ps') /\ changed t t'.
  Proof.
    induction 1 as [lo hi qs|lo hi cs L F IH]; intros idx n q ps E.
    - destruct n as [|n]; [|cbn in E; now destruct n]. injection E as <- <-. exists []. repeat split; auto.
      intros ps' I. eexists. split; [reflexivity|]. split; [reflexivity|]. now constructor.
    - rewrite leafList_inner in *.
      assert (G : exists i c m, nth_error cs i = Some c /\ nth_error (leafList c (i :: idx)) m = Some (q, ps) /\
        n = (length (childLists idx (firstn i cs) 0) + m)%nat).
      { assert (G : forall a b n, cs = a ++ b -> nth_error (childLists idx b (length a)) n = Some (q, ps) ->
          exists i c m, nth_error cs i = Some c /\ nth_error (leafList c (i :: idx)) m = Some (q, ps) /\
            (length (childLists idx a 0) + n = length (childLists idx (firstn i cs) 0) + m)%nat).
        { intros a b. revert a. induction b as [|c b IHb]; intros a k Ea Ek; [now destruct k|]. cbn [childLists] in Ek.
          destruct (Nat.lt_ge_cases k (length (leafList c (length a :: idx)))) as [K|K].
          - rewrite nth_error_app1 in Ek by exact K. exists (length a), c, k. rewrite Ea. repeat split; auto.
            + rewrite nth_error_app2, Nat.sub_diag by lia. reflexivity.
            + rewrite firstn_app, Nat.sub_diag, firstn_all, app_nil_r. reflexivity.
          - rewrite nth_error_app2 in Ek by exact K.
            destruct (IHb (a ++ [c]) (k - length (leafList c (length a :: idx)))%nat) as (i & d & m & D1 & D2 & D3).
            + now rewrite <- app_assoc.
            + rewrite app_length. cbn. rewrite Nat.add_1_r. exact Ek.
            + exists i, d, m. repeat split; auto. rewrite <- D3, childLists_app, app_length. cbn [childLists]. rewrite app_nil_r. cbn. lia. }
        destruct (G [] cs n eq_refl E) as (i & c & m & D1 & D2 & D3). exists i, c, m. repeat split; auto. }
      destruct G as (i & c & m & E1 & E2 & E3).
      assert (Hi : (i < 8)%nat) by (rewrite <- L; apply nth_error_Some; congruence).
      destruct (IH c ltac:(now apply nth_error_In in E1) _ _ _ _ E2) as (ds & D1 & D2 & D3 & D4).
      destruct (valr_digit i ds Hi) as [V1 V2].
      exists (i :: ds). split; [subst q; cbn [rev]; now rewrite <- app_assoc|]. split; [now constructor|]. split.
      + rewrite leafBelow_inner, V1, V2, Nat2Z.id, E1. exact D3.
      + intros ps' I. destruct (D4 ps' I) as (c' & C1 & C2 & C3). rewrite changeBelow_inner, V1, V2, Nat2Z.id, E1, C1.
        eexists. split; [reflexivity|]. split; [|now apply (changedInner lo hi cs i c c')]. rewrite leafList_inner.
        destruct (setAt_split cs i c' c E1) as [S1 S2]. rewrite (childLists_split idx cs i c E1).
        assert (E1' : nth_error (setAt cs i c') i = Some c') by (apply setAt_same; lia).
        rewrite (childLists_split idx (setAt cs i c') i c' E1'). rewrite E3, setAt_mid by (apply nth_error_Some; congruence).
        rewrite C2, skipn_setAt. do 2 f_equal. rewrite S2, firstn_app, firstn_length_le by lia. rewrite Nat.sub_diag. cbn [firstn].
        rewrite app_nil_r. now rewrite firstn_firstn, Nat.min_id.
  Qed.

  Lemma first_leaf (t : Tree) idx : full t -> leafBelow t 0 idx = nth_error (leafList t idx) 0.
  Proof.
    intros F. revert idx. induction F as [lo hi qs|lo hi cs L F IH]; intros idx; [reflexivity|]. rewrite leafBelow_inner, leafList_inner.
    cbn [Z.modulo Z.div_eucl Z.to_nat]. destruct cs as [|c cs]; [discriminate|]. cbn [nth_error childLists]. change (0 / 10) with 0.
    rewrite IH by now left. pose proof (full_nonempty c (0%nat :: idx) (F c (or_introl eq_refl))).
    destruct (leafList c (0%nat :: idx)); [congruence|]. reflexivity.
  Qed.

  (** ** Both trees *)
  Definition fullTrees (ts : Trees) : Prop := full (fst ts) /\ full (snd ts).
  Definition depthOk (ts : Trees) : Prop := forall q ps, In (q, ps) (allLeaves ts) -> (length q <= 19)%nat.
  Definition changedTrees (ts ts' : Trees) : Prop :=
    (changed (fst ts) (fst ts') /\ snd ts' = snd ts) \/ (fst ts' = fst ts /\ changed (snd ts) (snd ts')).

  Lemma number_leaf (ts : Trees) n q ps : fullTrees ts -> depthOk ts -> nth_error (allLeaves ts) n = Some (q, ps) ->
    (exists d, encode q mod 10 = Z.of_nat d /\ 0 <= encode q /\ ((n < length (leafList (fst ts) [0%nat]))%nat /\ d = 0%nat \/
       (length (leafList (fst ts) [0%nat]) <= n)%nat /\ d = 1%nat)) /\
    getLeafCellByIndex ts (encode q) = Some (q, ps) /\
    forall ps', incl ps' ps -> exists ts', changeLeaf ts (encode q) (fun _ => ps') = Some ts' /\
      allLeaves ts' = setAt (allLeaves ts) n (q, ps') /\ changedTrees ts ts' /\
      length (leafList (fst ts') [0%nat]) = length (leafList (fst ts) [0%nat]).
  Proof.
    intros [F1 F2] D E. assert (Lq : (length q <= 19)%nat) by (apply (D q ps); now apply nth_error_In in E). unfold allLeaves in *.
    destruct (Nat.lt_ge_cases n (length (leafList (fst ts) [0%nat]))) as [K|K].
    - rewrite nth_error_app1 in E by exact K. destruct (leaf_number (fst ts) F1 _ _ _ _ E) as (ds & -> & D1 & D2 & D3).
      rewrite app_length, rev_length in Lq. cbn [length] in Lq.
      rewrite (encode_val ds 0); [|constructor; [lia|exact D1]|cbn [length]; lia].
      destruct (valr_digit 0 ds) as [V1 V2]; [lia|]. split; [|split].
      + exists 0%nat. split; [exact V1|]. split; [apply (valr_range (0%nat :: ds)); constructor; [lia|exact D1]|]. left. now split.
      + unfold getLeafCellByIndex. rewrite V1, V2. exact D2.
      + intros ps' I. destruct (D3 ps' I) as (t' & C1 & C2 & C3). unfold changeLeaf. rewrite V1, V2. cbn [Z.of_nat Z.to_nat]. rewrite C1.
        eexists. split; [reflexivity|]. cbn [fst snd]. rewrite C2. split; [|split; [left; now split|apply setAt_length]].
        symmetry. exact (setAt_mid [] _ (leafList (snd ts) [1%nat]) n (rev ds ++ [0%nat], ps') K).
    - rewrite nth_error_app2 in E by exact K. destruct (leaf_number (snd ts) F2 _ _ _ _ E) as (ds & -> & D1 & D2 & D3).
      rewrite app_length, rev_length in Lq. cbn [length] in Lq.
      rewrite (encode_val ds 1); [|constructor; [lia|exact D1]|cbn [length]; lia].
      destruct (valr_digit 1 ds) as [V1 V2]; [lia|]. split; [|split].
      + exists 1%nat. split; [exact V1|]. split; [apply (valr_range (1%nat :: ds)); constructor; [lia|exact D1]|]. right. now split.
      + unfold getLeafCellByIndex. rewrite V1, V2. exact D2.
      + intros ps' I. destruct (D3 ps' I) as (t' & C1 & C2 & C3). unfold changeLeaf. rewrite V1, V2. cbn [Z.of_nat Z.to_nat Pos.to_nat Pos.iter_op]. change (Pos.to_nat 1) with 1%nat. cbv iota. rewrite C1.
        eexists. split; [reflexivity|]. cbn [fst snd]. rewrite C2. split; [|split; [right; now split|reflexivity]].
        pose proof (setAt_mid (leafList (fst ts) [0%nat]) (leafList (snd ts) [1%nat]) [] (n - length (leafList (fst ts) [0%nat])) (rev ds ++ [1%nat], ps')) as M.
        rewrite !app_nil_r in M. replace (length (leafList (fst ts) [0%nat]) + (n - length (leafList (fst ts) [0%nat])))%nat with n in M by lia.
        symmetry. apply M. apply nth_error_Some. congruence.
  Qed.

  Section Get.
    Variable behavior : Z.
    Variable rel : Tree -> bool.
    Variable fulfilling : P -> bool.
    Notation halo := (hasFlag behavior bhHalo).

    (** The leaves that can be visited are the first ones. *)
    Definition endLeaf (ts : Trees) : nat := if halo then length (allLeaves ts) else length (leafList (fst ts) [0%nat]).
    Definition startLeaf (ts : Trees) : nat := if hasFlag behavior bhOwned then 0%nat else length (leafList (fst ts) [0%nat]).
    Lemma visible_first ts : visible ts halo = firstn (endLeaf ts) (allLeaves ts).
    Proof.
      unfold visible, endLeaf, allLeaves. destruct halo; [now rewrite firstn_all|].
      rewrite firstn_app, firstn_all, Nat.sub_diag, firstn_O. reflexivity.
    Qed.

    Lemma search_labels (L : list (CellIdx * list P)) i p :
      searchLeaves fulfilling (skipn i L) p =
      match searchIdx fulfilling (map snd (skipn i L)) i p with
      | Some (j, p', x) => match nth_error L j with Some (q, _) => Some (q, p', x) | None => None end
      | None => None
      end.
    Proof.
      assert (G : forall m i p, skipn i L = m -> searchLeaves fulfilling m p =
        match searchIdx fulfilling (map snd m) i p with
        | Some (j, p', x) => match nth_error L j with Some (q, _) => Some (q, p', x) | None => None end
        | None => None
        end); [|now apply G].
      induction m as [|[q ps] m IH]; intros k r E; [reflexivity|]. cbn [searchLeaves searchIdx map snd].
      destruct (firstFul fulfilling (skipn (Z.to_nat r) ps) r) as [[p' x]|].
      - replace k with (k + 0)%nat by lia. rewrite <- nth_error_skipn, E. reflexivity.
      - apply IH. change (S k) with (1 + k)%nat. rewrite <- skipn_skipn, E. reflexivity.
    Qed.

    Variable ts : Trees.
    Hypothesis F : fullTrees ts.
    Hypothesis D : depthOk ts.
    Hypothesis G1 : good rel fulfilling (fst ts).
    Hypothesis G2 : good rel fulfilling (snd ts).
    Hypothesis small : forall q ps, In (q, ps) (allLeaves ts) -> size ps < sizeMax.

    Lemma visible_all q ps : In (q, ps) (visible ts halo) -> In (q, ps) (allLeaves ts).
    Proof. rewrite visible_first. intros H. rewrite <- (firstn_skipn (endLeaf ts)). apply in_or_app. now left. Qed.

    Lemma from_leaf i q ps p : nth_error (visible ts halo) i = Some (q, ps) -> 0 <= p < sizeMax ->
      (let ok := if size ps <=? p then Some None
                 else match at_ ps p with Some x => Some (if fulfilling x then Some x else None) | None => None end in
       match ok with
       | None => None
       | Some (Some x) => Some (Some x, encode q, p)
       | Some None =>
           match otAdvance behavior rel fulfilling (S (Z.to_nat (nodeSize (fst ts) + nodeSize (snd ts)))) ts q p with
           | None => None
           | Some None => Some (None, 0, 0)
           | Some (Some (idx', p', x)) => Some (Some x, encode idx', p')
           end
       end) =
      Some (match searchLeaves fulfilling (skipn i (visible ts halo)) p with
            | Some (q', p', x) => (Some x, encode q', p')
            | None => (None, 0, 0)
            end).
    Proof.
      intros E Hp. destruct F as [F1 F2]. destruct (visible_node ts F1 F2 halo q ps) as [(lo & hi & En) Re]; [now apply nth_error_In in E|].
      rewrite (skipn_nth _ _ _ E). rewrite <- (after_leaf ts F1 F2 halo i q ps E).
      assert (A : otAdvance behavior rel fulfilling (S (Z.to_nat (nodeSize (fst ts) + nodeSize (snd ts)))) ts q p =
        Some (searchLeaves fulfilling ((q, ps) :: after ts halo q) (p + 1))).
      { rewrite (advance_spec ts F1 F2 halo behavior eq_refl rel fulfilling G1 G2 (fun q ps H => small q ps (visible_all q ps H)) _ q p lo hi ps En Re).
        - now rewrite incr_small.
        - rewrite incr_small; lia.
        - rewrite incr_small by lia. unfold remaining. rewrite (after_leaf ts F1 F2 halo i q ps E).
          rewrite !nodeSize_collect by assumption. rewrite <- (leafList_collect _ [0%nat] F1), <- (leafList_collect _ [1%nat] F2).
          rewrite skipn_length. pose proof (concat_skipn_length (map snd (visible ts halo)) i) as K.
          rewrite skipn_map, (skipn_nth _ _ _ E) in K. cbn [map concat snd] in K. rewrite app_length in K.
          assert (length (concat (map snd (visible ts halo))) <= length (concat (map snd (leafList (fst ts) [0%nat]))) + length (concat (map snd (leafList (snd ts) [1%nat]))))%nat.
          { unfold visible. rewrite map_app, concat_app, app_length. destruct halo; cbn [map concat length]; lia. }
          lia. }
      cbv zeta. destruct (Z.leb_spec (size ps) p) as [Hs|Hs].
      - rewrite A, !search_past by lia. destruct (searchLeaves fulfilling (after ts halo q) 0) as [[[? ?] ?]|]; reflexivity.
      - destruct (at_lt ps p) as [x Ex]; [lia|]. rewrite Ex. rewrite (search_hit fulfilling q ps _ p x Ex). destruct (fulfilling x); [reflexivity|].
        rewrite A. destruct (searchLeaves fulfilling _ (p + 1)) as [[[? ?] ?]|]; reflexivity.
    Qed.

    Definition result (r : option (nat * Z * P)) : option P * Z * Z :=
      match r with
      | Some (j, p', x) => (Some x, match nth_error (allLeaves ts) j with Some (q, _) => encode q | None => 0 end, p')
      | None => (None, 0, 0)
      end.
    Lemma result_labels i p : (i < endLeaf ts)%nat -> 0 <= p ->
      match searchLeaves fulfilling (skipn i (visible ts halo)) p with
      | Some (q', p', x) => (Some x, encode q', p')
      | None => (None, 0, 0)
      end = result (searchIdx fulfilling (skipn i (firstn (endLeaf ts) (map snd (allLeaves ts)))) i p).
    Proof.
      intros Hi Hp. rewrite search_labels, visible_first, firstn_map, skipn_map.
      destruct (searchIdx _ _ _ _) as [[[j p'] x]|] eqn:E; [|reflexivity]. unfold result.
      apply searchIdx_some in E; [|exact Hp]. destruct E as (A & l & B & _). rewrite nth_error_map, nth_error_skipn in B. replace (i + (j - i))%nat with j in B by lia.
      destruct (nth_error (firstn (endLeaf ts) (allLeaves ts)) j) as [[q r]|] eqn:Q; [|discriminate].
      assert (Q' : nth_error (allLeaves ts) j = Some (q, r)).
      { rewrite <- (firstn_skipn (endLeaf ts) (allLeaves ts)). rewrite nth_error_app1; [exact Q|]. apply nth_error_Some. congruence. }
      now rewrite Q'.
    Qed.

    Theorem get_leaf t i q ps p : itThread behavior t = 0 -> 0 <= t ->
      (startLeaf ts <= i < endLeaf ts)%nat -> nth_error (allLeaves ts) i = Some (q, ps) -> 0 <= p < sizeMax ->
      otGetParticle behavior rel fulfilling t ts (encode q) p =
      Some (result (searchIdx fulfilling (skipn i (firstn (endLeaf ts) (map snd (allLeaves ts)))) i p)).
    Proof.
      intros Ht Ht0 Hi E Hp. unfold otGetParticle.
      assert (B : (0 <? t) && negb (hasFlag behavior bhForceSequential) = false).
      { unfold itThread in Ht. destruct (hasFlag behavior bhForceSequential); [apply andb_false_r|]. subst t. reflexivity. }
      rewrite B. destruct (number_leaf ts i q ps F D E) as ((d & M & N & Hd) & Gl & _). cbv zeta.
      assert (K : (if (encode q =? 0) && negb (hasFlag behavior bhOwned) then 1 else encode q) = encode q).
      { destruct (Z.eqb_spec (encode q) 0) as [Z0|]; [|reflexivity]. unfold startLeaf in Hi. destruct (hasFlag behavior bhOwned); [reflexivity|].
        rewrite Z0 in M. change (0 mod 10) with 0 in M. lia. }
      rewrite K. assert (K2 : (encode q <? 10) && (1 <? encode q) = false).
      { destruct (Z.ltb_spec (encode q) 10); [|reflexivity]. destruct (Z.ltb_spec 1 (encode q)); [|reflexivity]. rewrite Z.mod_small in M by lia. lia. }
      rewrite K2, Gl. rewrite <- result_labels by lia. apply from_leaf; [|exact Hp].
      rewrite visible_first. rewrite <- E. rewrite <- (firstn_skipn (endLeaf ts) (allLeaves ts)) at 2. rewrite nth_error_app1; [reflexivity|].
      rewrite firstn_length. assert (i < length (allLeaves ts))%nat by (apply nth_error_Some; congruence). lia.
    Qed.

    Theorem get_begin t : itThread behavior t = 0 -> 0 <= t -> (startLeaf ts < endLeaf ts)%nat ->
      otGetParticle behavior rel fulfilling t ts 0 0 =
      Some (result (searchIdx fulfilling (skipn (startLeaf ts) (firstn (endLeaf ts) (map snd (allLeaves ts)))) (startLeaf ts) 0)).
    Proof.
      intros Ht Ht0 Hi. unfold otGetParticle.
      assert (B : (0 <? t) && negb (hasFlag behavior bhForceSequential) = false).
      { unfold itThread in Ht. destruct (hasFlag behavior bhForceSequential); [apply andb_false_r|]. subst t. reflexivity. }
      rewrite B. cbv zeta. destruct F as [F1 F2]. rewrite <- result_labels by lia. cbn [Z.eqb andb].
      assert (Gl : exists q ps, nth_error (visible ts halo) (startLeaf ts) = Some (q, ps) /\
        getLeafCellByIndex ts (if negb (hasFlag behavior bhOwned) then 1 else 0) = Some (q, ps)).
      { unfold startLeaf, endLeaf, allLeaves in *. destruct (hasFlag behavior bhOwned) eqn:O; cbn [negb].
        - unfold getLeafCellByIndex. cbn [Z.modulo Z.div_eucl Z.to_nat treeOf]. change (0 / 10) with 0. rewrite first_leaf by exact F1.
          unfold visible. pose proof (full_nonempty (fst ts) [0%nat] F1). destruct (leafList (fst ts) [0%nat]) as [|[q ps] r]; [congruence|].
          exists q, ps. split; reflexivity.
        - unfold getLeafCellByIndex. change (Z.to_nat (1 mod 10)) with 1%nat. cbn [treeOf]. change (1 / 10) with 0. rewrite first_leaf by exact F2.
          unfold visible. destruct halo; [|lia]. rewrite nth_error_app2, Nat.sub_diag by lia.
          pose proof (full_nonempty (snd ts) [1%nat] F2). destruct (leafList (snd ts) [1%nat]) as [|[q ps] r]; [congruence|].
          exists q, ps. split; reflexivity. }
      destruct Gl as (q & ps & E & Gl). rewrite Gl.
      assert (K2 : ((if negb (hasFlag behavior bhOwned) then 1 else 0) <? 10) && (1 <? (if negb (hasFlag behavior bhOwned) then 1 else 0)) = false)
        by (destruct (hasFlag behavior bhOwned); reflexivity).
      rewrite K2. apply from_leaf; [exact E|]. pose proof sizeMax_pos. lia.
    Qed.

    Theorem get_other t k p : itThread behavior t <> 0 -> 0 <= t -> otGetParticle behavior rel fulfilling t ts k p = Some (None, 0, 0).
    Proof.
      intros Ht Ht0. unfold otGetParticle, itThread in *. destruct (hasFlag behavior bhForceSequential); [congruence|].
      replace (0 <? t) with true by (symmetry; apply Z.ltb_lt; lia). reflexivity.
    Qed.
  End Get.
End Numbers.
