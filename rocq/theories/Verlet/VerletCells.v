(** The lists per cell, per pair of cells and per thread after a sequence of
    push_backs. *)
From Coq Require Import Reals.
From Verif.Base Require Import ZRange Occ OptionM Lists.
From Verif.Grid Require Import IndexModel.
From Verif.Functor Require Import CellFunctorModel FunctorSpec SortModel.
From Verif.Container Require Import LinkedCellsCount.
From Verif.Verlet Require Import VerletModel VerletSpec VerletGen VerletStore.
Open Scope nat_scope.

Lemma ids_app_inv {P} (pid : P -> Z) l1 l2 : distinctIds pid (l1 ++ l2) ->
  distinctIds pid l1 /\ distinctIds pid l2 /\ forall x y, In x l1 -> In y l2 -> pid x <> pid y.
Proof.
  unfold distinctIds. rewrite map_app. intros H. apply NoDup_app_inv in H as (H1 & H2 & H3). split; [exact H1|]. split; [exact H2|].
  intros x y Hx Hy E. apply (H3 (pid x)); [now apply in_map|]. rewrite E. now apply in_map.
Qed.

Lemma perm_mid {A} (a : A) l1 l l' l2 : Permutation l' (a :: l) -> Permutation (l1 ++ l' ++ l2) (a :: l1 ++ l ++ l2).
Proof. intros H. apply perm_middle. rewrite H. apply Permutation_refl. Qed.

Lemma concat_mid {A} (l1 : list (list A)) l l2 : concat (l1 ++ l :: l2) = concat l1 ++ l ++ concat l2.
Proof. now rewrite concat_app. Qed.

Lemma pairs_mid {P} (l1 : list (list (NList P))) l l2 :
  pairsOf (concat (l1 ++ l :: l2)) = pairsOf (concat l1) ++ pairsOf l ++ pairsOf (concat l2).
Proof. now rewrite concat_mid, !pairsOf_app. Qed.

Section Map.
  Context {P : Type}.
  Variable pid : P -> Z.

  Let inner c (l : list P) s (m : CellMap) := fold_left (fun m '(k, p) => setMap m (pid p) (c, k)) (combine (seq s (length l)) l) m.

  Lemma inner_other c l : forall s m z, ~ In z (map pid l) -> inner c l s m z = m z.
  Proof.
    unfold inner. induction l as [|p l IH]; intros s m z Hz; [reflexivity|]. cbn [length seq combine fold_left].
    rewrite IH; [|intros H; apply Hz; now right]. unfold setMap. destruct (Z.eqb_spec z (pid p)) as [->|N]; [|reflexivity].
    elim Hz. now left.
  Qed.

  Lemma inner_at c l : forall s m k p, distinctIds pid l -> nth_error l k = Some p -> inner c l s m (pid p) = Some (c, s + k).
  Proof.
    induction l as [|q l IH]; intros s m k p Hd Hk; [destruct k; discriminate|].
    unfold distinctIds in Hd. cbn [map] in Hd. inversion Hd as [|? ? Hni Hd']; subst.
    change (inner c l (S s) (setMap m (pid q) (c, s)) (pid p) = Some (c, s + k)).
    destruct k as [|k]; cbn [nth_error] in Hk.
    - injection Hk as ->. rewrite inner_other by exact Hni. unfold setMap. rewrite Z.eqb_refl. now rewrite Nat.add_0_r.
    - rewrite IH with (k := k) (p := p); auto. f_equal. f_equal. lia.
  Qed.

  Let outer (cells : list (Cell P)) s (m : CellMap) :=
    fold_left (fun m '(c, cell) => fold_left (fun m '(k, p) => setMap m (pid p) (c, k)) (indexed (parts cell)) m)
      (combine (seq s (length cells)) cells) m.

  Lemma outer_other cells : forall s m z, ~ In z (map pid (allParticles cells)) -> outer cells s m z = m z.
  Proof.
    unfold outer. induction cells as [|c r IH]; intros s m z Hz; [reflexivity|]. cbn [length seq combine fold_left].
    unfold allParticles in Hz. cbn [flat_map] in Hz. rewrite map_app, in_app_iff in Hz.
    rewrite IH by tauto. apply inner_other. tauto.
  Qed.

  Lemma outer_at cells : forall s m c cell k p, distinctIds pid (allParticles cells) ->
    nth_error cells c = Some cell -> nth_error (parts cell) k = Some p -> outer cells s m (pid p) = Some (s + c, k).
  Proof.
    induction cells as [|c0 r IH]; intros s m c cell k p Hd Hc Hk; [destruct c; discriminate|].
    unfold allParticles in Hd. cbn [flat_map] in Hd. apply ids_app_inv in Hd as (Hd1 & Hd2 & Hd3).
    change (outer r (S s) (inner s (parts c0) 0 m) (pid p) = Some (s + c, k)).
    destruct c as [|c]; cbn [nth_error] in Hc.
    - injection Hc as ->. rewrite outer_other.
      + rewrite Nat.add_0_r. now apply (inner_at s (parts cell) 0 m k p).
      + intros H. apply in_map_iff in H as (y & E & Hy). apply (Hd3 p y); auto. eapply nth_error_In; eauto.
    - rewrite IH with (c := c) (cell := cell) (k := k); auto. f_equal. f_equal. lia.
  Qed.

  Lemma vlcMap_at cells m c cell k p : distinctIds pid (allParticles cells) ->
    nth_error cells c = Some cell -> nth_error (parts cell) k = Some p -> mapGet pid (vlcMap pid cells m) p = (c, k).
  Proof. intros Hd Hc Hk. unfold mapGet. change (vlcMap pid cells m) with (outer cells 0 m). rewrite (outer_at cells 0 m c cell k p Hd Hc Hk). reflexivity. Qed.
End Map.

Section Cells.
  Context {P : Type}.
  Variables (pid : P -> Z) (cells : list (Cell P)).
  Let all := allParticles cells.
  Hypothesis Hids : distinctIds pid all.

  (** Particle [p] is in the cell with index [c]. *)
  Definition cellHas (c : nat) (p : P) : Prop := exists cell, nth_error cells c = Some cell /\ In p (parts cell).

  Lemma in_all p : In p all <-> exists c, cellHas c p.
  Proof.
    unfold all, allParticles. rewrite in_flat_map. split.
    - intros (cell & Hc & Hp). apply In_nth_error in Hc as (c & Hc). exists c, cell. auto.
    - intros (c & cell & Hc & Hp). exists cell. split; [eapply nth_error_In; eauto|exact Hp].
  Qed.

  Lemma cellHas_map m p c : cellHas c p -> exists k cell, mapGet pid (vlcMap pid cells m) p = (c, k) /\
    nth_error cells c = Some cell /\ nth_error (parts cell) k = Some p.
  Proof.
    intros (cell & Hc & Hp). apply In_nth_error in Hp as (k & Hk). exists k, cell. split; [|auto].
    now apply vlcMap_at with (cell := cell).
  Qed.

  Lemma cellHas_unique c c' p : cellHas c p -> cellHas c' p -> c = c'.
  Proof.
    intros H H'. destruct (cellHas_map (fun _ => None) p c H) as (k & ? & E & _).
    destruct (cellHas_map (fun _ => None) p c' H') as (k' & ? & E' & _). congruence.
  Qed.

  (** ** Lists per cell *)
  Definition vlcShape (lists : list (list (NList P))) : Prop := map (map fst) lists = map parts cells.

  Lemma vlcInit_shape : vlcShape (vlcInit cells).
  Proof.
    unfold vlcShape, vlcInit. rewrite map_map. apply map_ext. intros c. rewrite map_map. apply map_id.
  Qed.

  Lemma vlcPush_spec m lists i j : vlcShape lists -> In i all ->
    exists lists', vlcPush pid (vlcMap pid cells m) lists i j = Some lists' /\ vlcShape lists' /\
      Permutation (pairsOf (concat lists')) ((i, j) :: pairsOf (concat lists)).
  Proof.
    intros Hs Hi. apply in_all in Hi as (c & Hc). destruct (cellHas_map m i c Hc) as (k & cell & Em & Ec & Ek).
    unfold vlcPush. rewrite Em. unfold vlcShape in Hs.
    assert (El : exists ls, nth_error lists c = Some ls /\ map fst ls = parts cell).
    { assert (E : nth_error (map (map fst) lists) c = Some (parts cell)) by (rewrite Hs, nth_error_map, Ec; reflexivity).
      rewrite nth_error_map in E. destruct (nth_error lists c) as [ls|]; [|discriminate]. injection E as E. eauto. }
    destruct El as (ls & El & Ef).
    assert (En : exists l, nth_error ls k = Some l /\ fst l = i).
    { rewrite <- Ef, nth_error_map in Ek. destruct (nth_error ls k) as [l|]; [|discriminate]. injection Ek as E. eauto. }
    destruct En as (l & En & Efi). apply nth_error_split in El as (l1 & l2 & -> & Hl1). apply nth_error_split in En as (n1 & n2 & -> & Hn1).
    rewrite (modifyAt_app _ l1 (n1 ++ l :: n2) l2 (n1 ++ (fst l, snd l ++ [j]) :: n2)); [|exact Hl1|apply modifyAt_app; [exact Hn1|reflexivity]].
    eexists. split; [reflexivity|]. split.
    - unfold vlcShape. rewrite <- Hs, !map_app. cbn [map]. rewrite !map_app. reflexivity.
    - rewrite !pairs_mid. apply perm_mid. rewrite <- Efi. now apply pushTo_pairs.
  Qed.

  Lemma vlcInit_pairs : pairsOf (concat (vlcInit cells)) = [].
  Proof. unfold vlcInit. rewrite <- flat_map_concat_map. unfold pairsOf. induction cells as [|c r IH]; [reflexivity|].
    cbn [flat_map]. rewrite flat_map_app. change (flat_map _ (map (fun p => (p, [])) (parts c))) with (pairsOf (map (fun p : P => (p, @nil P)) (parts c))).
    rewrite pairsOf_empty. apply IH.
    unfold all, allParticles in Hids. cbn [flat_map] in Hids. now apply ids_app_inv in Hids.
  Qed.

  Lemma vlcBuild_spec m pushes : (forall i j, In (i, j) pushes -> In i all) ->
    exists lists, pushAll (vlcPush pid (vlcMap pid cells m)) (vlcInit cells) pushes = Some lists /\ vlcShape lists /\
      Permutation (pairsOf (concat lists)) pushes.
  Proof.
    intros Hl.
    destruct (pushAll_perm (vlcPush pid (vlcMap pid cells m)) vlcShape (fun i j => In i all) (fun l => pairsOf (concat l)))
      with (l := pushes) (st := vlcInit cells) as (lists & E & Hk & Hp); auto using vlcInit_shape.
    - intros st i j Hi Hok. now apply vlcPush_spec.
    - exists lists. split; [exact E|]. split; [exact Hk|]. rewrite Hp, vlcInit_pairs, app_nil_r. apply Permutation_refl.
  Qed.

  Lemma vlcShape_at lists c ls : vlcShape lists -> nth_error lists c = Some ls ->
    exists cell, nth_error cells c = Some cell /\ map fst ls = parts cell.
  Proof.
    intros Hs El. unfold vlcShape in Hs. assert (E : nth_error (map (map fst) lists) c = Some (map fst ls)) by (rewrite nth_error_map, El; reflexivity).
    rewrite Hs, nth_error_map in E. destruct (nth_error cells c) as [cell|]; [|discriminate]. injection E as E. eauto.
  Qed.

  Lemma vlcShape_length lists : vlcShape lists -> length lists = length cells.
  Proof. intros H. unfold vlcShape in H. apply (f_equal (@length _)) in H. now rewrite !map_length in H. Qed.

  (** ** Lists per pair of cells *)
  Section Pairs.
    (** [partners c]: the cells that can be the second cell of a pair with first
        cell [c]. *)
    Variables (nc : nat) (partners : nat -> list nat).
    Hypothesis Hnc : forall c, length (partners c) <= nc.

    (** The local indices of one cell. *)
    Definition locGood (c : nat) (loc : list (nat * nat)) : Prop :=
      map snd loc = seq 0 (length loc) /\ NoDup (map fst loc) /\ incl (map fst loc) (partners c).

    (** The lists of one cell: every neighbour in the list with local index [n] is
        in the cell that has this local index. *)
    Definition cellGood (c : nat) (loc : list (nat * nat)) (ls : list (list (NList P))) : Prop :=
      length ls = nc /\
      (forall l, In l ls -> exists cell, nth_error cells c = Some cell /\ map fst l = parts cell) /\
      (forall n l p q, nth_error ls n = Some l -> In (p, q) (pairsOf l) -> exists c2, In (c2, n) loc /\ cellHas c2 q).

    Definition vlpGood (st : VlpState P) : Prop :=
      length (vlpLists st) = length cells /\ length (vlpLocal st) = length cells /\
      forall c loc ls, nth_error (vlpLocal st) c = Some loc -> nth_error (vlpLists st) c = Some ls ->
        locGood c loc /\ cellGood c loc ls.

    Definition vlpFlat (st : VlpState P) : list (P * P) := pairsOf (concat (concat (vlpLists st))).

    Lemma assoc_some loc k n : assoc loc k = Some n -> In (k, n) loc.
    Proof.
      induction loc as [|[a v] r IH]; cbn [assoc]; [discriminate|]. destruct (Nat.eqb_spec a k) as [->|N].
      - intros E. injection E as ->. now left.
      - intros E. right. auto.
    Qed.
    Lemma assoc_none loc k : assoc loc k = None -> ~ In k (map fst loc).
    Proof.
      induction loc as [|[a v] r IH]; cbn [assoc]; [tauto|]. destruct (Nat.eqb_spec a k) as [->|N]; [discriminate|].
      intros E [H|H]; [now elim N|]. now apply IH.
    Qed.
    Lemma assoc_in loc k n : NoDup (map fst loc) -> In (k, n) loc -> assoc loc k = Some n.
    Proof.
      induction loc as [|[a v] r IH]; intros Hd H; [destruct H|]. cbn [assoc]. cbn [map] in Hd. inversion Hd as [|? ? Hni Hd']; subst.
      destruct H as [H|H].
      - injection H as -> ->. now rewrite Nat.eqb_refl.
      - destruct (Nat.eqb_spec a k) as [->|N]; [|now apply IH]. elim Hni. apply in_map_iff. exists (k, n). auto.
    Qed.
    Lemma seq_snd_unique loc : map snd loc = seq 0 (length loc) -> forall a b n : nat, In (a, n) loc -> In (b, n) loc -> a = b.
    Proof.
      intros H a b n Ha Hb. apply In_nth_error in Ha as (i & Hi). apply In_nth_error in Hb as (j & Hj).
      assert (Ei : nth_error (map snd loc) i = Some n) by now rewrite nth_error_map, Hi.
      assert (Ej : nth_error (map snd loc) j = Some n) by now rewrite nth_error_map, Hj.
      assert (i = j).
      { apply (NoDup_nth_error (map snd loc)).
        - rewrite H. apply seq_NoDup.
        - rewrite map_length. apply nth_error_Some. congruence.
        - congruence. }
      subst j. congruence.
    Qed.
    Lemma seq_snd_lt loc (a n : nat) : map snd loc = seq 0 (length loc) -> In (a, n) loc -> n < length loc.
    Proof.
      intros H Ha. assert (In n (map snd loc)) by (apply in_map_iff; exists (a, n); auto). rewrite H in *. apply in_seq in H0. lia.
    Qed.

    Lemma vlpPush_spec m st i j ci cj : vlpGood st -> cellHas ci i -> cellHas cj j -> In cj (partners ci) ->
      exists st', vlpPush pid (vlcMap pid cells m) st i j = Some st' /\ vlpGood st' /\
        Permutation (vlpFlat st') ((i, j) :: vlpFlat st).
    Proof.
      intros (HL1 & HL2 & Hg) Hi Hj Hpart. destruct (cellHas_map m i ci Hi) as (k & cell & Em & Ec & Ek).
      destruct (cellHas_map m j cj Hj) as (kj & cellj & Emj & _ & _). unfold vlpPush. rewrite Em, Emj.
      assert (Hlt : ci < length cells) by (apply nth_error_Some; congruence).
      destruct (nth_error (vlpLocal st) ci) as [loc|] eqn:El; [|apply nth_error_None in El; lia].
      destruct (nth_error (vlpLists st) ci) as [ls|] eqn:Es; [|apply nth_error_None in Es; lia].
      destruct (Hg ci loc ls El Es) as [(S1 & S2 & S3) (C1 & C2 & C3)].
      (* the new local index *)
      assert (Hloc : exists loc' n, (match assoc loc cj with Some n => (loc, n) | None => (loc ++ [(cj, length loc)], length loc) end) = (loc', n) /\
        locGood ci loc' /\ In (cj, n) loc' /\ incl loc loc').
      { destruct (assoc loc cj) as [n|] eqn:Ea.
        - exists loc, n. split; [reflexivity|]. split; [exact (conj S1 (conj S2 S3))|]. split; [now apply assoc_some|apply incl_refl].
        - exists (loc ++ [(cj, length loc)]), (length loc). split; [reflexivity|]. split; [|split].
          + split; [|split].
            * rewrite map_app, S1, app_length. cbn [map length]. rewrite Nat.add_1_r, seq_S. reflexivity.
            * rewrite map_app. apply NoDup_app_intro; [exact S2|repeat constructor; tauto|]. intros x Hx [E|[]]. cbn in E. subst x.
              now apply (assoc_none loc cj).
            * rewrite map_app. apply incl_app; [exact S3|]. intros x [E|[]]. cbn in E. now subst x.
          + apply in_app_iff. right. now left.
          + apply incl_appl, incl_refl. }
      destruct Hloc as (loc' & n & Eloc & Hg' & Hn & Hinc). rewrite Eloc. clear Eloc.
      assert (Hnlt : n < nc).
      { destruct Hg' as (T1 & T2 & T3). pose proof (seq_snd_lt loc' cj n T1 Hn). pose proof (NoDup_incl_length T2 T3) as HL.
        rewrite map_length in HL. specialize (Hnc ci). lia. }
      destruct (nth_error ls n) as [l|] eqn:En; [|apply nth_error_None in En; lia].
      destruct (C2 l (nth_error_In _ _ En)) as (cell' & Ec' & Ef). assert (cell' = cell) by congruence. subst cell'.
      assert (Ex : exists x, nth_error l k = Some x /\ fst x = i).
      { rewrite <- Ef, nth_error_map in Ek. destruct (nth_error l k) as [x|]; [|discriminate]. injection Ek as E. eauto. }
      destruct Ex as (x & Ex & Exi).
      pose proof El as El'. pose proof Es as Es'. pose proof En as En'.
      apply nth_error_split in El as (o1 & o2 & Eo & Ho1). apply nth_error_split in Es as (l1 & l2 & Els & Hl1).
      apply nth_error_split in En as (s1 & s2 & Esl & Hs1). apply nth_error_split in Ex as (x1 & x2 & Exl & Hx1).
      set (l' := x1 ++ (fst x, snd x ++ [j]) :: x2). set (ls' := s1 ++ l' :: s2).
      assert (M1 : modifyAt (fun cl => modifyAt (fun l => modifyAt (pushTo j) l k) cl n) (vlpLists st) ci = Some (l1 ++ ls' :: l2)).
      { rewrite Els. apply modifyAt_app; [exact Hl1|]. rewrite Esl. apply modifyAt_app; [exact Hs1|]. rewrite Exl. apply modifyAt_app; [exact Hx1|reflexivity]. }
      assert (M2 : modifyAt (fun _ => Some loc') (vlpLocal st) ci = Some (o1 ++ loc' :: o2)) by (rewrite Eo; now apply modifyAt_app).
      rewrite M1, M2. eexists. split; [reflexivity|].
      assert (Hpl : Permutation (pairsOf l') ((i, j) :: pairsOf l)).
      { rewrite Exl, <- Exi. apply (pushTo_pairs j x x1 x2). reflexivity. }
      assert (Hfst : map fst l' = map fst l) by (unfold l'; rewrite Exl, !map_app; reflexivity).
      split.
      - split; [|split]; cbn [vlpLists vlpLocal].
        + rewrite <- HL1, Els, !app_length. reflexivity.
        + rewrite <- HL2, Eo, !app_length. reflexivity.
        + intros c lo lc H1 H2. destruct (Nat.eq_dec c ci) as [->|N].
          * rewrite nth_error_app2 in H1 by lia. replace (ci - length o1) with 0 in H1 by lia. injection H1 as <-.
            rewrite nth_error_app2 in H2 by lia. replace (ci - length l1) with 0 in H2 by lia. injection H2 as <-.
            split; [exact Hg'|]. split; [|split].
            -- rewrite <- C1, Esl. unfold ls'. rewrite !app_length. reflexivity.
            -- intros y Hy. unfold ls' in Hy. apply in_app_iff in Hy as [Hy|[<-|Hy]].
               ++ apply C2. rewrite Esl. apply in_app_iff. now left.
               ++ exists cell. split; [exact Ec|]. now rewrite Hfst.
               ++ apply C2. rewrite Esl. apply in_app_iff. right. now right.
            -- intros n' y p q Hy Hpq. destruct (Nat.eq_dec n' n) as [->|N'].
               ++ unfold ls' in Hy. rewrite nth_error_app2 in Hy by lia. replace (n - length s1) with 0 in Hy by lia. injection Hy as <-.
                  eapply Permutation_in in Hpq; [|exact Hpl]. destruct Hpq as [E|Hpq].
                  ** injection E as <- <-. exists cj. auto.
                  ** destruct (C3 n l p q En' Hpq) as (c2 & H & H'). exists c2. auto.
               ++ assert (E : nth_error ls n' = Some y).
                  { rewrite Esl. unfold ls' in Hy. destruct (Nat.lt_ge_cases n' (length s1)) as [L|L].
                    - rewrite nth_error_app1 in * by exact L. exact Hy.
                    - rewrite nth_error_app2 in * by exact L. destruct (n' - length s1) eqn:E; [lia|exact Hy]. }
                  destruct (C3 n' y p q E Hpq) as (c2 & H & H'). exists c2. auto.
          * apply Hg.
            -- rewrite Eo. destruct (Nat.lt_ge_cases c (length o1)) as [L|L].
               ++ rewrite nth_error_app1 in * by exact L. exact H1.
               ++ rewrite nth_error_app2 in * by exact L. destruct (c - length o1) eqn:E; [lia|exact H1].
            -- rewrite Els. destruct (Nat.lt_ge_cases c (length l1)) as [L|L].
               ++ rewrite nth_error_app1 in * by exact L. exact H2.
               ++ rewrite nth_error_app2 in * by exact L. destruct (c - length l1) eqn:E; [lia|exact H2].
      - unfold vlpFlat. cbn [vlpLists]. rewrite Els, !(concat_mid l1 _ l2), !concat_app, !pairsOf_app. apply perm_mid. rewrite Esl. unfold ls'.
        rewrite !pairs_mid. now apply perm_mid.
    Qed.

    Lemma concat_repeat_pairs (l : list P) n : pairsOf (concat (repeat (map (fun p => (p, @nil P)) l) n)) = [].
    Proof. induction n as [|n IH]; [reflexivity|]. cbn [repeat concat]. now rewrite pairsOf_app, pairsOf_empty, IH. Qed.

    Lemma vlpInit_good : vlpGood (vlpInit nc cells).
    Proof.
      unfold vlpInit. split; [|split]; cbn [vlpLists vlpLocal]; [apply map_length|apply map_length|].
      intros c loc ls H1 H2. rewrite nth_error_map in H1, H2. destruct (nth_error cells c) as [cell|] eqn:Ec; [|discriminate].
      injection H1 as <-. injection H2 as <-. split.
      - split; [reflexivity|]. split; [constructor|]. intros x [].
      - split; [apply repeat_length|]. split.
        + intros l Hl. apply repeat_spec in Hl. subst l. exists cell. split; [exact Ec|]. rewrite map_map. apply map_id.
        + intros n l p q Hn Hpq. apply nth_error_In, repeat_spec in Hn. subst l. rewrite pairsOf_empty in Hpq. destruct Hpq.
    Qed.

    Lemma vlpInit_flat : vlpFlat (vlpInit nc cells) = [].
    Proof.
      unfold vlpFlat, vlpInit. cbn [vlpLists]. clear. induction cells as [|c r IH]; [reflexivity|]. cbn [map concat].
      rewrite concat_app, pairsOf_app, concat_repeat_pairs. exact IH.
    Qed.

    Lemma vlpBuild_spec m pushes :
      (forall i j, In (i, j) pushes -> exists ci cj, cellHas ci i /\ cellHas cj j /\ In cj (partners ci)) ->
      exists st, pushAll (vlpPush pid (vlcMap pid cells m)) (vlpInit nc cells) pushes = Some st /\ vlpGood st /\
        Permutation (vlpFlat st) pushes.
    Proof.
      intros Hl.
      destruct (pushAll_perm (vlpPush pid (vlcMap pid cells m)) vlpGood (fun i j => exists ci cj, cellHas ci i /\ cellHas cj j /\ In cj (partners ci)) vlpFlat)
        with (l := pushes) (st := vlpInit nc cells) as (st & E & Hk & Hp); auto using vlpInit_good.
      - intros st i j Hi (ci & cj & H1 & H2 & H3). now apply vlpPush_spec with (ci := ci) (cj := cj).
      - exists st. split; [exact E|]. split; [exact Hk|]. rewrite Hp, vlpInit_flat, app_nil_r. apply Permutation_refl.
    Qed.
  End Pairs.
End Cells.

(** ** Lists per colour and thread *)
Section AsBuilt.
  Context {P : Type}.
  Variables (pid : P -> Z) (ps : list P).
  Hypothesis Hids : distinctIds pid ps.

  Lemma vvlAdd_spec l i j : (forall p, In p (map fst l) -> In p ps) -> In i ps ->
    (forall p, In p (map fst (vvlAdd pid l i j)) -> In p ps) /\ Permutation (pairsOf (vvlAdd pid l i j)) ((i, j) :: pairsOf l).
  Proof.
    induction l as [|[p ns] r IH]; intros Hl Hi; cbn [vvlAdd].
    - split; [intros p [<-|[]]; exact Hi|]. apply Permutation_refl.
    - destruct (Z.eqb_spec (pid p) (pid i)) as [E|N].
      + assert (p = i) as -> by (apply (ids_inj pid ps); auto; apply Hl; now left). split; [exact Hl|].
        cbn [pairsOf flat_map fst snd]. rewrite map_app. cbn [map].
        rewrite <- app_assoc. cbn [app]. symmetry. apply Permutation_middle.
      + destruct IH as [H1 H2]; [intros; apply Hl; now right|exact Hi|]. split.
        * intros x [<-|Hx]; [apply Hl; now left|now apply H1].
        * change (Permutation (map (pair p) ns ++ pairsOf (vvlAdd pid r i j)) ((i, j) :: map (pair p) ns ++ pairsOf r)). now apply perm_middle.
  Qed.

  (** [st] holds in the list of colour [k] and thread [t] the pushes [want k t]. *)
  Definition vvlHolds (colors threads : nat) (st : list (list (list (NList P)))) (want : nat -> nat -> list (P * P)) : Prop :=
    length st = colors /\
    (forall byThread, In byThread st -> length byThread = threads) /\
    forall k t byThread l, nth_error st k = Some byThread -> nth_error byThread t = Some l ->
      (forall p, In p (map fst l) -> In p ps) /\ Permutation (pairsOf l) (want k t).

  Definition here (k t k' t' : nat) (l : list (P * P)) : list (P * P) := if Nat.eqb k k' && Nat.eqb t t' then l else [].

  Lemma nth_middle {A} (l1 : list A) x l2 k : nth_error (l1 ++ x :: l2) k =
    if Nat.eqb k (length l1) then Some x else nth_error (l1 ++ x :: l2) k.
  Proof. destruct (Nat.eqb_spec k (length l1)) as [->|N]; [|reflexivity]. rewrite nth_error_app2, Nat.sub_diag by lia. reflexivity. Qed.

  Lemma nth_other {A} (l1 : list A) x y l2 k : k <> length l1 -> nth_error (l1 ++ x :: l2) k = nth_error (l1 ++ y :: l2) k.
  Proof.
    intros N. destruct (Nat.lt_ge_cases k (length l1)) as [L|L].
    - now rewrite !nth_error_app1.
    - rewrite !nth_error_app2 by exact L. destruct (k - length l1) eqn:E; [lia|reflexivity].
  Qed.

  Lemma vvlPushes colors threads color thread l : forall st want, vvlHolds colors threads st want -> color < colors -> thread < threads ->
    (forall i j, In (i, j) l -> In i ps) ->
    exists st', pushAll (fun st i j => modifyAt (fun byThread => modifyAt (fun l => Some (vvlAdd pid l i j)) byThread thread) st color) st l = Some st' /\
      vvlHolds colors threads st' (fun k t => here k t color thread l ++ want k t).
  Proof.
    induction l as [|[i j] l IH]; intros st want (H1 & H2 & H3) Hc Ht Hin; cbn [pushAll].
    - exists st. split; [reflexivity|]. split; [exact H1|]. split; [exact H2|]. intros k t bt x E1 E2. unfold here.
      destruct (H3 k t bt x E1 E2). now destruct (_ && _).
    - destruct (nth_error st color) as [bt|] eqn:Eb; [|apply nth_error_None in Eb; lia].
      pose proof (H2 bt (nth_error_In _ _ Eb)) as Hbt.
      destruct (nth_error bt thread) as [x|] eqn:Ex; [|apply nth_error_None in Ex; lia].
      destruct (H3 color thread bt x Eb Ex) as [K1 K2].
      destruct (vvlAdd_spec x i j K1) as [A1 A2]; [eapply Hin; now left|].
      apply nth_error_split in Eb as (s1 & s2 & -> & Hs1). apply nth_error_split in Ex as (t1 & t2 & -> & Ht1).
      rewrite (modifyAt_app _ s1 (t1 ++ x :: t2) s2 (t1 ++ vvlAdd pid x i j :: t2) color Hs1)
        by (apply (modifyAt_app (fun l0 => Some (vvlAdd pid l0 i j))); auto).
      destruct (IH (s1 ++ (t1 ++ vvlAdd pid x i j :: t2) :: s2) (fun k t => here k t color thread [(i, j)] ++ want k t)) as (st' & E & G1 & G2 & G3).
      + split; [|split].
        * rewrite <- H1, !app_length. reflexivity.
        * intros y Hy. apply in_app_iff in Hy as [Hy|[<-|Hy]].
          -- apply H2. apply in_app_iff. now left.
          -- rewrite <- Hbt, !app_length. reflexivity.
          -- apply H2. apply in_app_iff. right. now right.
        * intros k t y z E1 E2. unfold here. destruct (Nat.eqb_spec k color) as [->|Nk]; cbn [andb].
          -- rewrite <- Hs1 in E1. rewrite nth_middle, Nat.eqb_refl in E1. injection E1 as <-.
             destruct (Nat.eqb_spec t thread) as [->|Nt].
             ++ rewrite <- Ht1 in E2. rewrite nth_middle, Nat.eqb_refl in E2. injection E2 as <-. split; [exact A1|].
                cbn [app]. rewrite A2. now constructor.
             ++ cbn [app]. apply (H3 color t (t1 ++ x :: t2) z).
                ** rewrite <- Hs1. rewrite nth_middle, Nat.eqb_refl. reflexivity.
                ** rewrite <- E2. apply nth_other. congruence.
          -- cbn [app]. apply (H3 k t y z); [|exact E2]. rewrite <- E1. apply nth_other. congruence.
      + exact Hc.
      + exact Ht.
      + intros a b Hab. eapply Hin. right. exact Hab.
      + exists st'. split; [exact E|]. split; [exact G1|]. split; [exact G2|]. intros k t y z E1 E2. destruct (G3 k t y z E1 E2) as [F1 F2].
        split; [exact F1|]. rewrite F2. unfold here. destruct (Nat.eqb k color && Nat.eqb t thread); [|reflexivity].
        rewrite app_assoc. apply Permutation_app_tail. cbn [app]. symmetry. apply Permutation_cons_append.
  Qed.

  Lemma vvlInit_holds threads : vvlHolds vvlNumColors threads (vvlInit threads) (fun _ _ => []).
  Proof.
    unfold vvlInit. split; [apply repeat_length|]. split.
    - intros x Hx. apply repeat_spec in Hx. subst x. apply repeat_length.
    - intros k t x l E1 E2. apply nth_error_In, repeat_spec in E1. subst x. apply nth_error_In, repeat_spec in E2. subst l.
      split; [intros p []|apply Permutation_refl].
  Qed.

  (** The pushes of the steps of colour [k] and thread [t]. *)
  Definition stepPushes pos il newton3 (steps : list (nat * nat * list (Call P))) (k t : nat) : list (P * P) :=
    flat_map (fun '(k', t', calls) => here k t k' t' (flat_map (genPushes pos il newton3) calls)) steps.

  Lemma vvlBuild_spec pos il newton3 threads steps : forall st want, vvlHolds vvlNumColors threads st want ->
    (forall k t calls, In (k, t, calls) steps -> k < vvlNumColors /\ t < threads /\
       forall i j, In (i, j) (flat_map (genPushes pos il newton3) calls) -> In i ps) ->
    exists st', vvlBuild pid pos il newton3 st steps = Some st' /\
      vvlHolds vvlNumColors threads st' (fun k t => stepPushes pos il newton3 steps k t ++ want k t).
  Proof.
    induction steps as [|[[k0 t0] calls] r IH]; intros st want Hst Hs; cbn [vvlBuild].
    - exists st. split; [reflexivity|]. exact Hst.
    - destruct (Hs k0 t0 calls (or_introl eq_refl)) as (K1 & K2 & K3).
      destruct (vvlPushes vvlNumColors threads k0 t0 _ st want Hst K1 K2 K3) as (st' & E & Hst'). unfold vvlStep. rewrite E.
      destruct (IH st' _ Hst') as (st'' & E'' & G1 & G2 & G3); [intros; apply Hs; now right|].
      exists st''. split; [exact E''|]. split; [exact G1|]. split; [exact G2|]. intros k t y z E1 E2. destruct (G3 k t y z E1 E2) as [F1 F2].
      split; [exact F1|]. rewrite F2. unfold stepPushes. cbn [flat_map]. rewrite !app_assoc. apply Permutation_app_tail, Permutation_app_comm.
  Qed.
End AsBuilt.
