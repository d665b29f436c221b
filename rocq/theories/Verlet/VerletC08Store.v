(** The lists of one base cell of the c08 variant. *)
From Coq Require Import Reals.
From Verif.Base Require Import ZRange Occ OptionM Lists.
From Verif.Grid Require Import IndexModel.
From Verif.Functor Require Import CellFunctorModel FunctorSpec SortModel.
From Verif.Container Require Import LinkedCellsCount.
From Verif.Verlet Require Import VerletModel VerletSpec VerletGen VerletStore VerletC08Model.
Open Scope nat_scope.

Lemma mapM_rel {A B} (f : A -> option B) (R : A -> B -> Prop) l :
  (forall x, In x l -> exists y, f x = Some y /\ R x y) -> exists ys, mapM f l = Some ys /\ Forall2 R l ys.
Proof.
  induction l as [|x l IH]; intros H; [exists []; split; [reflexivity|constructor]|].
  destruct (H x (or_introl eq_refl)) as (y & E & Hy). destruct IH as (ys & E' & Hys); [intros; apply H; now right|].
  exists (y :: ys). cbn [mapM]. rewrite E, E'. split; [reflexivity|]. now constructor.
Qed.

Lemma modifyAt_split {A} (f : A -> option A) l k x y : nth_error l k = Some x -> f x = Some y ->
  exists l1 l2, l = l1 ++ x :: l2 /\ length l1 = k /\ modifyAt f l k = Some (l1 ++ y :: l2).
Proof.
  intros H E. apply nth_error_split in H as (l1 & l2 & -> & Hl). exists l1, l2. split; [reflexivity|]. split; [exact Hl|].
  now apply modifyAt_app with (f := f).
Qed.

Section Slots.
  Context {P : Type}.
  Variables (pid : P -> Z) (ps : list P).
  Hypothesis Hids : distinctIds pid ps.
  Notation Slot := (option P * list P)%type.
  (** The particles of the base cell. *)
  Variable base : list P.
  Hypothesis Hbase : forall p, In p base -> In p ps.

  Definition good (l : list Slot) : Prop :=
    (forall i p, nth_error base i = Some p -> nth_error (map fst l) i = Some (Some p)) /\
    (forall ns, In (None, ns) l -> ns = []) /\
    (forall p ns, In (Some p, ns) l -> In p ps).

  Definition flat (l : list Slot) : list (P * P) := pairsOf (c08Cleanup l).

  Lemma cleanup_app (l1 l2 : list Slot) : c08Cleanup (l1 ++ l2) = c08Cleanup l1 ++ c08Cleanup l2.
  Proof. apply flat_map_app. Qed.

  Lemma flat_push (l1 l2 : list Slot) p ns q : Permutation (flat (l1 ++ (Some p, ns ++ [q]) :: l2)) ((p, q) :: flat (l1 ++ (Some p, ns) :: l2)).
  Proof.
    unfold flat. rewrite !cleanup_app. cbn [c08Cleanup flat_map app].
    apply (pushTo_pairs q (p, ns) (c08Cleanup l1) (c08Cleanup l2) (p, ns ++ [q])). reflexivity.
  Qed.

  Lemma flat_fill (l1 l2 : list Slot) p q : Permutation (flat (l1 ++ (Some p, [q]) :: l2)) ((p, q) :: flat (l1 ++ (None, []) :: l2)).
  Proof.
    unfold flat. rewrite !cleanup_app, !pairsOf_app. cbn [c08Cleanup flat_map app].
    apply perm_middle. change (pairsOf ((p, [q]) :: c08Cleanup l2)) with ((p, q) :: pairsOf (c08Cleanup l2)). reflexivity.
  Qed.

  Lemma findSlot_some f (l : list Slot) k : findSlot f l = Some k -> exists o ns, nth_error l k = Some (o, ns) /\ f o = true.
  Proof.
    revert k. induction l as [|[o ns] l IH]; intros k H; [discriminate|]. cbn [findSlot fst] in H. destruct (f o) eqn:E.
    - injection H as <-. exists o, ns. auto.
    - destruct (findSlot f l) as [k'|]; [|discriminate]. injection H as <-. apply IH. reflexivity.
  Qed.

  Lemma good_push l1 l2 p ns ns' : good (l1 ++ (Some p, ns) :: l2) -> good (l1 ++ (Some p, ns') :: l2).
  Proof.
    intros (H1 & H2 & H3). split; [|split].
    - intros i x Hi. specialize (H1 i x Hi). rewrite map_app in *. exact H1.
    - intros m Hm. apply (H2 m). apply in_app_iff in Hm as [Hm|[Hm|Hm]]; [|discriminate|]; apply in_app_iff; [now left|right; now right].
    - intros x m Hm. apply in_app_iff in Hm as [Hm|[Hm|Hm]].
      + apply (H3 x m). apply in_app_iff. now left.
      + injection Hm as <- <-. apply (H3 p ns). apply in_app_iff. right. now left.
      + apply (H3 x m). apply in_app_iff. right. now right.
  Qed.

  Lemma good_fill l1 l2 ns p ns' : In p ps -> good (l1 ++ (None, ns) :: l2) -> good (l1 ++ (Some p, ns') :: l2).
  Proof.
    intros Hp (H1 & H2 & H3). split; [|split].
    - intros i x Hi. specialize (H1 i x Hi). rewrite map_app in *. cbn [map fst] in *.
      destruct (Nat.lt_ge_cases i (length (map fst l1))) as [L|L].
      + rewrite nth_error_app1 in * by exact L. exact H1.
      + rewrite nth_error_app2 in * by exact L. destruct (i - length (map fst l1)); [discriminate|exact H1].
    - intros m Hm. apply (H2 m). apply in_app_iff in Hm as [Hm|[Hm|Hm]]; [|discriminate|]; apply in_app_iff; [now left|right; now right].
    - intros x m Hm. apply in_app_iff in Hm as [Hm|[Hm|Hm]].
      + apply (H3 x m). apply in_app_iff. now left.
      + now injection Hm as <- <-.
      + apply (H3 x m). apply in_app_iff. right. now right.
  Qed.

  Lemma good_append l p ns : In p ps -> good l -> good (l ++ [(Some p, ns)]).
  Proof.
    intros Hp (H1 & H2 & H3). split; [|split].
    - intros i x Hi. specialize (H1 i x Hi). rewrite map_app. rewrite nth_error_app1; [exact H1|]. apply nth_error_Some. congruence.
    - intros m Hm. apply (H2 m). apply in_app_iff in Hm as [Hm|[Hm|[]]]; [exact Hm|discriminate].
    - intros x m Hm. apply in_app_iff in Hm as [Hm|[Hm|[]]]; [now apply (H3 x m)|]. now injection Hm as <- <-.
  Qed.

  Lemma insert_spec l inBase p1 i1 p2 : good l -> In p1 ps -> (inBase = true -> nth_error base i1 = Some p1) ->
    exists l', c08Insert pid inBase p1 i1 p2 l = Some l' /\ good l' /\ Permutation (flat l') ((p1, p2) :: flat l).
  Proof.
    intros Hg Hp Hb. unfold c08Insert. destruct inBase.
    - destruct Hg as (H1 & H2 & H3). pose proof (H1 i1 p1 (Hb eq_refl)) as H. rewrite nth_error_map in H.
      destruct (nth_error l i1) as [[o ns]|] eqn:E; [|discriminate]. cbn in H. injection H as ->.
      destruct (modifyAt_split (fun s : Slot => Some (fst s, snd s ++ [p2])) l i1 _ _ E eq_refl) as (l1 & l2 & -> & _ & ->).
      eexists. split; [reflexivity|]. cbn [fst snd]. split; [|apply flat_push]. eapply good_push. exact (conj H1 (conj H2 H3)).
    - destruct (findSlot (isPtr pid p1) l) as [k|] eqn:Ef.
      + apply findSlot_some in Ef as (o & ns & E & Ho). destruct o as [q|]; [|discriminate]. cbn [isPtr] in Ho. apply Z.eqb_eq in Ho.
        assert (q = p1). { apply (ids_inj pid ps); auto. apply (proj2 (proj2 Hg) q ns). eapply nth_error_In; eauto. } subst q.
        destruct (modifyAt_split (fun s : Slot => Some (fst s, snd s ++ [p2])) l k _ _ E eq_refl) as (l1 & l2 & -> & _ & ->).
        eexists. split; [reflexivity|]. cbn [fst snd]. split; [|apply flat_push]. eapply good_push. exact Hg.
      + destruct (findSlot isNull l) as [k|] eqn:En.
        * apply findSlot_some in En as (o & ns & E & Ho). destruct o as [q|]; [discriminate|].
          assert (ns = []) by (apply (proj1 (proj2 Hg)); eapply nth_error_In; eauto). subst ns.
          destruct (modifyAt_split (fun s : Slot => Some (Some p1, snd s ++ [p2])) l k _ _ E eq_refl) as (l1 & l2 & -> & _ & ->).
          eexists. split; [reflexivity|]. cbn [snd app]. split; [|apply flat_fill]. eapply good_fill; [exact Hp|exact Hg].
        * eexists. split; [reflexivity|]. split; [now apply good_append|].
          unfold flat. rewrite cleanup_app, pairsOf_app. symmetry. apply Permutation_cons_append.
  Qed.

  Lemma insertAll_spec ins : forall l, good l ->
    (forall i, In i ins -> In (insFrom i) ps /\ (insBase i = true -> nth_error base (insIndex i) = Some (insFrom i))) ->
    exists l', insertAll pid ins l = Some l' /\ good l' /\
      Permutation (flat l') (map (fun i => (insFrom i, insTo i)) ins ++ flat l).
  Proof.
    induction ins as [|i ins IH]; intros l Hg H; cbn [insertAll].
    - exists l. auto.
    - destruct (H i (or_introl eq_refl)) as [H1 H2].
      destruct (insert_spec l (insBase i) (insFrom i) (insIndex i) (insTo i) Hg H1 H2) as (l' & -> & Hg' & Hp).
      destruct (IH l' Hg') as (l'' & E & Hg'' & Hp'); [intros; apply H; now right|]. exists l''. split; [exact E|]. split; [exact Hg''|].
      rewrite Hp', Hp. cbn [map app]. symmetry. apply Permutation_middle.
  Qed.

  Lemma skipn_repeat {A} (x : A) n m : skipn n (repeat x m) = repeat x (m - n).
  Proof. revert m. induction n as [|n IH]; intros [|m]; try reflexivity. exact (IH m). Qed.

  Lemma firstn_repeat {A} (x : A) n m : firstn n (repeat x m) = repeat x (Nat.min n m).
  Proof. revert m. induction n as [|n IH]; intros [|m]; try reflexivity. cbn. now rewrite IH. Qed.

  Lemma combine_repeat (l : list P) n : length l <= n ->
    map (fun '(p, s) => (Some p, snd s)) (combine l (repeat (@None P, @nil P) n)) = map (fun p => (Some p, @nil P)) l.
  Proof.
    revert n. induction l as [|p l IH]; intros [|n] H; cbn [length] in H; try reflexivity; [lia|]. cbn [repeat combine map snd].
    now rewrite IH by lia.
  Qed.

  Lemma init_spec est n : c08InitLists est base (repeat (None, []) n) = map (fun p => (Some p, [])) base ++ repeat (None, []) (est - length base).
  Proof.
    unfold c08InitLists, resizeTo. rewrite firstn_repeat, repeat_length, <- repeat_app. replace (Nat.min est n + (est - n)) with est by lia.
    rewrite repeat_length, firstn_repeat, skipn_repeat.
    rewrite combine_repeat by (rewrite firstn_length; lia).
    destruct (Nat.le_ge_cases (length base) est) as [L|L].
    - rewrite Nat.min_l by exact L. rewrite firstn_all, skipn_all. cbn [map]. now rewrite app_nil_r.
    - rewrite Nat.min_r by exact L. rewrite Nat.sub_diag. replace (est - length base) with 0 by lia. cbn [repeat app].
      rewrite app_nil_r, <- map_app. now rewrite firstn_skipn.
  Qed.

  Lemma cleanup_null n : c08Cleanup (repeat (@None P, @nil P) n) = [].
  Proof. induction n; [reflexivity|]. exact IHn. Qed.

  Lemma init_good est n : good (c08InitLists est base (repeat (None, []) n)) /\ flat (c08InitLists est base (repeat (None, []) n)) = [].
  Proof.
    rewrite init_spec. split; [split; [|split]|].
    - intros i p Hi. rewrite map_app, map_map. cbn [fst]. rewrite nth_error_app1.
      + rewrite nth_error_map, Hi. reflexivity.
      + rewrite map_length. apply nth_error_Some. congruence.
    - intros ns H. apply in_app_iff in H as [H|H]; [apply in_map_iff in H as (? & ? & _); discriminate|].
      apply repeat_spec in H. now injection H.
    - intros p ns H. apply in_app_iff in H as [H|H].
      + apply in_map_iff in H as (x & E & Hx). injection E as <- <-. now apply Hbase.
      + apply repeat_spec in H. discriminate.
    - unfold flat. rewrite cleanup_app, cleanup_null, app_nil_r.
      clear. induction base as [|p l IH]; [reflexivity|]. exact IH.
  Qed.
End Slots.

Lemma reset_nth {P} (prev : list (list (option P * list P))) n c l : nth_error (c08Reset prev n) c = Some l ->
  exists k, l = repeat (None, []) k.
Proof.
  intros H. apply nth_error_In in H. unfold c08Reset, resizeTo in H. apply in_app_iff in H as [H|H].
  - assert (In l (map (map (fun _ => (None, []))) prev)).
    { revert H. generalize (map (map (fun _ : option P * list P => (@None P, @nil P))) prev). clear. intros L. revert n.
      induction L as [|x L IH]; intros [|n] H; try (destruct H; fail). destruct H as [<-|H]; [now left|right; eauto]. }
    apply in_map_iff in H0 as (x & <- & _). exists (length x). clear. induction x as [|s x IH]; [reflexivity|]. cbn. now rewrite IH.
  - apply repeat_spec in H. subst l. exists 0. reflexivity.
Qed.

Lemma indexed_in {A} (l : list A) k x : In (k, x) (indexed l) -> nth_error l k = Some x.
Proof.
  unfold indexed. enough (H : forall s, In (k, x) (combine (seq s (length l)) l) -> s <= k /\ nth_error l (k - s) = Some x).
  { intros H'. destruct (H 0 H') as [_ H0]. now rewrite Nat.sub_0_r in H0. }
  induction l as [|y l IH]; intros s H; [destruct H|]. cbn [length seq combine] in H. destruct H as [H|H].
  - injection H as <- <-. rewrite Nat.sub_diag. auto.
  - destruct (IH (S s) H) as [L E]. split; [lia|]. replace (k - s) with (S (k - S s)) by lia. exact E.
Qed.

Lemma indexed_length {A} (l : list A) : length (indexed l) = length l.
Proof. unfold indexed. rewrite combine_length, seq_length. lia. Qed.

Lemma indexed_nth {A} (l : list A) k : nth_error (indexed l) k = option_map (pair k) (nth_error l k).
Proof.
  unfold indexed. enough (H : forall s, nth_error (combine (seq s (length l)) l) k = option_map (pair (s + k)) (nth_error l k)) by exact (H 0).
  revert k. induction l as [|y l IH]; intros [|k] s; cbn [length seq combine nth_error option_map]; try reflexivity.
  - now rewrite Nat.add_0_r.
  - rewrite IH. now rewrite <- Nat.add_succ_comm.
Qed.

Lemma map_snd_indexed {A} (l : list A) : map snd (indexed l) = l.
Proof.
  unfold indexed. generalize 0. induction l as [|x l IH]; intros s; [reflexivity|]. cbn [length seq combine map snd]. now rewrite IH.
Qed.
