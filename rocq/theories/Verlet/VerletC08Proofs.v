(** vlc_c08: building the lists of the base steps and traversing them. *)
From Coq Require Import Reals Lra.
From Verif.Base Require Import ZRange Occ OptionM Lists.
From Verif.Grid Require Import IndexModel IndexSpec IndexProofs CellBlockModel CellBlockSpec CellBlockExact.
From Verif.Traversal Require Import ColorModel ColorProofs CellSpec CellLemmas C08Model C08Proofs C08Bases C04Model.
From Verif.Functor Require Import CellFunctorModel FunctorSpec CellFunctorProofs SortModel SortSpec SortProofs.
From Verif.Container Require Import LinkedCellsModel LinkedCellsSpec LinkedCellsBuild LinkedCellsCount LinkedCellsDir LinkedCellsGeo LinkedCellsProofs.
From Verif.Verlet Require Import VerletModel VerletSpec VerletGen VerletStore VerletCells VerletBase VerletTraverse VerletProofs VerletPairs
  VerletC08Model VerletC08Store VerletC08Step.
Open Scope Z_scope.

(** ** Loops with an index *)
Definition indexedFrom {A} (s : nat) (l : list A) : list (nat * A) := combine (seq s (length l)) l.

Lemma skipn_indexed {A} n (l : list A) s : skipn n (indexedFrom s l) = indexedFrom (s + n) (skipn n l).
Proof.
  revert l s. induction n as [|n IH]; intros l s; [now rewrite Nat.add_0_r|]. destruct l as [|x l]; [reflexivity|].
  transitivity (skipn n (indexedFrom (S s) l)); [reflexivity|]. rewrite IH. replace (s + S n)%nat with (S s + n)%nat by lia. reflexivity.
Qed.

Section Loops.
  Context {A B C : Type}.
  Variables (g : B -> C) (body : nat -> A -> nat -> A -> list B) (out : A -> A -> list C).

  Lemma loop_inner i p l : forall s, (forall q j, In q l -> map g (body i p j q) = out p q) ->
    map g (flat_map (fun '(j, q) => body i p j q) (indexedFrom s l)) = flat_map (out p) l.
  Proof.
    induction l as [|q l IH]; intros s H; [reflexivity|].
    change (indexedFrom s (q :: l)) with ((s, q) :: indexedFrom (S s) l). cbn [flat_map]. rewrite map_app, IH.
    - now rewrite (H q s (or_introl eq_refl)).
    - intros q' j Hq. apply H. now right.
  Qed.

  Lemma loop_product l1 l2 : forall s s2, (forall p q i j, In p l1 -> In q l2 -> map g (body i p j q) = out p q) ->
    map g (flat_map (fun '(i, p) => flat_map (fun '(j, q) => body i p j q) (indexedFrom s2 l2)) (indexedFrom s l1)) =
    flat_map (fun p => flat_map (out p) l2) l1.
  Proof.
    induction l1 as [|p l1 IH]; intros s s2 H; [reflexivity|].
    change (indexedFrom s (p :: l1)) with ((s, p) :: indexedFrom (S s) l1). cbn [flat_map]. rewrite map_app, IH.
    - f_equal. apply loop_inner. intros q j Hq. apply H; [now left|exact Hq].
    - intros p' q i j Hp Hq. apply H; [now right|exact Hq].
  Qed.

  Lemma loop_later l2 : forall l1,
    (forall p q i j, In (p, q) (laterPairs (fun _ l => l) l2) -> map g (body i p j q) = out p q) ->
    map g (flat_map (fun '(i, p) => flat_map (fun '(j, q) => body i p j q) (skipn (S i) (indexed (l1 ++ l2)))) (indexedFrom (length l1) l2)) =
    flat_map (fun '(p, q) => out p q) (laterPairs (fun _ l => l) l2).
  Proof.
    induction l2 as [|p r IH]; intros l1 H; [reflexivity|].
    change (indexedFrom (length l1) (p :: r)) with ((length l1, p) :: indexedFrom (S (length l1)) r). cbn [flat_map laterPairs].
    rewrite map_app, flat_map_app. f_equal.
    - change (indexed (l1 ++ p :: r)) with (indexedFrom 0 (l1 ++ p :: r)). rewrite skipn_indexed.
      replace (skipn (S (length l1)) (l1 ++ p :: r)) with r.
      + rewrite loop_inner.
        * clear. induction r as [|q r IH]; [reflexivity|]. cbn [map flat_map]. now rewrite IH.
        * intros q j Hq. apply H. cbn [laterPairs]. apply in_app_iff. left. now apply in_map.
      + clear. induction l1 as [|x l1 IH]; [reflexivity|]. exact IH.
    - specialize (IH (l1 ++ [p])). rewrite app_length in IH. cbn [length] in IH. rewrite Nat.add_1_r in IH.
      rewrite <- app_assoc in IH. apply IH. intros p' q' i j Hpq. apply H. cbn [laterPairs]. apply in_app_iff. now right.
  Qed.
End Loops.

Lemma later_in {P} (l : list P) p q : In (p, q) (laterPairs (fun _ l => l) l) -> exists l1 l2 l3, l = l1 ++ p :: l2 ++ q :: l3.
Proof.
  induction l as [|x l IH]; [intros []|]. cbn [laterPairs]. intros H. apply in_app_iff in H as [H|H].
  - apply in_map_iff in H as (y & E & Hy). injection E as <- <-. apply in_split in Hy as (l2 & l3 & ->). exists [], l2, l3. reflexivity.
  - destruct (IH H) as (l1 & l2 & l3 & ->). exists (x :: l1), l2, l3. reflexivity.
Qed.

Section C08.
  Context {P : Type}.
  Variables (pid : P -> Z) (isHalo : P -> bool) (old now : P -> R3) (view : R3 -> list P -> list P).
  Variables (n3_ : bool) (lay : Layout) (cut skin csf : R) (bMin bMax : R3) (ps : list P).
  Let il := (cut + skin)%R.
  Let b := rebuild rndExact il csf bMin bMax.
  Let dims := blockDims b.
  Let len := blockLength b.
  Let ov := blockOverlap rndExact il b.
  Let h := mkI3 (cellsPerInteractionLength rndExact csf) (cellsPerInteractionLength rndExact csf) (cellsPerInteractionLength rndExact csf).
  Let cf0 := mkCF AoS true false (2 * length ps).
  Hypothesis Hgrid : validGrid il csf bMin bMax.
  Hypothesis Hview : forall dir l, isSortedView old dir l (view dir l).
  Hypothesis Hids : distinctIds pid ps.
  Hypothesis Hps : validParticles isHalo old b bMin bMax ps.
  Hypothesis Hcut : (0 < cut)%R.
  Hypothesis Hskin : (0 <= skin)%R.
  Hypothesis Hmoved : movedLess old now skin ps.
  Hypothesis Hcsf : (1 <= csf)%R.
  Variable cells : list (Cell P).
  Hypothesis Hadd : lcAddAll isHalo rndExact b old (lcEmpty b) ps = Some cells.
  Hypothesis Hb : built rndExact b old ps cells.

  Let at__ := at_ old il csf bMin bMax.
  Notation cell i := (cellWith rndExact b old ps i).

  Lemma c08_ov : ov = mkI3 1 1 1.
  Proof. exact (ov_one old view cut skin csf bMin bMax ps Hgrid Hview Hcsf). Qed.
  Lemma c08_h : h = mkI3 1 1 1.
  Proof. unfold h, cellsPerInteractionLength. destruct (Rle_dec 1 csf); [reflexivity|contradiction]. Qed.
  Lemma c08_dims : 2 <= ix dims /\ 2 <= iy dims /\ 2 <= iz dims.
  Proof.
    pose proof (v_fits2 old view il csf bMin bMax ps Hgrid Hview) as F. unfold gridFits2x in F. fold b in F. fold ov in F. fold dims in F.
    rewrite c08_ov in F. cbn [ix iy iz] in F. lia.
  Qed.

  (** ** The insertions of one pair of cells *)
  Let callsAt k d := cellCall isHalo view old cf0 il len cells (stepCall dims k d).

  Lemma cell_at k : inGrid dims k -> nth_error cells (Z.to_nat (threeToOneD k dims)) = Some (cell (threeToOneD k dims)).
  Proof. intros G. apply (built_nth rndExact b old ps cells _ Hb). now apply threeToOneD_range. Qed.
  Lemma cell_sub k p : In p (parts (cell (threeToOneD k dims))) -> In p ps /\ at__ k p.
  Proof. cbn [parts cellWith]. intros H. now apply filter_In in H. Qed.
  Lemma small i : (length (parts (cell i)) <= length ps)%nat.
  Proof.
    cbn [parts cellWith]. generalize (inCell rndExact b old i). intros f. clear. induction ps as [|p l IH]; [apply Nat.le_refl|].
    cbn [filter length]. destruct (f p); cbn [length]; lia.
  Qed.

  Lemma id_neq p q : In p ps -> In q ps -> p <> q -> pid p =? pid q = false.
  Proof. intros Hp Hq H. apply Z.eqb_neq. intros E. apply H. now apply (ids_inj pid ps). Qed.

  Let fromTo (i : Insertion P) := (insFrom i, insTo i).

  Lemma insertions_spec k d : In k (stepBases dims) -> In d halfOffs ->
    exists ins, c08Insertions pid old il n3_ cells (threeToOneD k dims) (halfOffset dims d) = Some ins /\
      map fromTo ins = flat_map (genPushes old il n3_) (callsAt k d) /\
      (forall i, In i ins -> In (insFrom i) ps /\
         (insBase i = true -> nth_error (parts (cell (threeToOneD k dims))) (insIndex i) = Some (insFrom i))).
  Proof.
    intros Hk Hdd. assert (Hs : In d stepLoop) by (apply filter_In in Hdd; exact (proj1 Hdd)).
    destruct (pair_grid dims c08_dims k d Hk Hs) as [G1 G2].
    unfold c08Insertions, callsAt, cellCall, stepCall, flat2. cbn [off1 off2 halfOffset].
    assert (E1 : threeToOneD k dims + threeToOneD (lowOf d) dims = threeToOneD (fst (stepPair k d)) dims).
    { unfold stepPair, i3add, threeToOneD. cbn [fst ix iy iz]. ring. }
    assert (E2 : threeToOneD k dims + threeToOneD (highOf d) dims = threeToOneD (snd (stepPair k d)) dims).
    { unfold stepPair, i3add, threeToOneD. cbn [snd ix iy iz]. ring. }
    rewrite E1, E2. cbn [fst snd]. rewrite (cell_at _ G1), (cell_at _ G2).
    set (c1 := threeToOneD (fst (stepPair k d)) dims). set (c2 := threeToOneD (snd (stepPair k d)) dims).
    set (x := cell c1). set (y := cell c2). set (base := threeToOneD k dims).
    assert (Sx : forall p, In p (parts x) -> In p ps) by (intros p H; now apply cell_sub in H).
    assert (Sy : forall p, In p (parts y) -> In p ps) by (intros p H; now apply cell_sub in H).
    set (body := fun i p j q => if pid p =? pid q then []
                     else if listPair old il q p
                     then mkIns (base =? c1) p i q :: (if n3_ then [] else [mkIns (base =? c2) q j p])
                     else []).
    set (out := fun p q => genPushes old il n3_ (mkCall p q true)).
    assert (Hbody : forall p q i j, In p ps -> In q ps -> p <> q -> map fromTo (body i p j q) = out p q).
    { intros p q i j Hp Hq Hne. unfold body, out, genPushes. rewrite (id_neq p q Hp Hq Hne). cbn [fstP sndP n3].
      rewrite (listPair_sym old il q p). destruct (listPair old il p q); [|reflexivity]. destruct n3_; reflexivity. }
    destruct (negb (mayOwn x) && negb (mayOwn y)) eqn:Eo.
    { exists []. split; [reflexivity|]. split; [|intros i []]. apply andb_true_iff in Eo as [Ex Ey].
      destruct (c1 =? c2).
      - unfold processCell. rewrite Ex. destruct (parts x); reflexivity.
      - unfold processCellPair. rewrite Ex, Ey. cbn [useNewton3 bidirectional cf0 negb andb orb]. destruct (parts x), (parts y); reflexivity. }
    eexists. split; [reflexivity|]. split.
    - destruct (Z.eqb_spec c1 c2) as [E|N].
      + assert (Exy : y = x) by (unfold x, y; now rewrite E). rewrite Exy in *.
        transitivity (flat_map (fun '(p, q) => out p q) (laterPairs (fun _ l => l) (parts x))).
        * refine (loop_later fromTo body out (parts x) [] _). intros p q i j Hpq. pose proof (later_in _ _ _ Hpq) as (l1 & l2 & l3 & El).
          assert (In p (parts x)) by (rewrite El; apply in_app_iff; right; now left).
          assert (In q (parts x)) by (rewrite El; apply in_app_iff; right; right; apply in_app_iff; right; now left).
          apply Hbody; auto. intros <-.
          assert (Hnd : NoDup (map pid (parts x))) by (apply filter_ids, Hids).
          rewrite El, map_app, map_cons, map_app in Hnd. apply NoDup_remove_2 in Hnd. apply Hnd.
          apply in_app_iff. right. apply in_app_iff. right. now left.
        * unfold processCell. rewrite andb_diag in Eo. rewrite Eo. cbn [layout cf0].
          assert (El : forall l, flat_map (fun '(p, q) => out p q) l = flat_map (genPushes old il n3_) (flat_map (interactSame isHalo cf0) l)).
          { induction l as [|[p q] l IH]; [reflexivity|]. cbn [flat_map]. rewrite flat_map_app, <- IH. cbn [interactSame useNewton3 cf0 flat_map].
            now rewrite app_nil_r. }
          rewrite El. unfold processCellAoS. pose proof (small c1) as L. fold x in L.
          cbn [sortingThreshold cf0]. destruct (Nat.ltb_spec (2 * length ps) (length (parts x))); [lia|].
          destruct (parts x); reflexivity.
      + transitivity (flat_map (fun p => flat_map (out p) (parts y)) (parts x)).
        * refine (loop_product fromTo body out (parts x) (parts y) 0 0 _). intros p q i j Hp Hq. apply Hbody; auto. intros <-.
          apply N. unfold x, y in Hp, Hq. apply cell_sub in Hp, Hq. unfold c1, c2. f_equal.
          exact (at_unique old il csf bMin bMax _ _ p G1 G2 (proj2 Hp) (proj2 Hq)).
        * unfold processCellPair. cbn [useNewton3 bidirectional cf0 negb andb orb layout].
          rewrite andb_false_r. cbn [andb orb]. rewrite Eo. unfold processCellPairAoS. pose proof (small c1) as L1. pose proof (small c2) as L2. fold x in L1. fold y in L2.
          cbn [sortingThreshold cf0]. destruct (Nat.ltb_spec (2 * length ps) (length (parts x) + length (parts y))); [lia|]. cbn [andb].
          assert (Ei : forall p l, flat_map (out p) l = flat_map (genPushes old il n3_) (flat_map (interactPair cf0) (map (fun q => (p, q)) l))).
          { intros p. induction l as [|q l IH]; [reflexivity|]. cbn [flat_map map]. rewrite flat_map_app, <- IH. cbn [interactPair useNewton3 cf0 flat_map].
            now rewrite app_nil_r. }
          assert (Ee : forall l, flat_map (fun p => flat_map (out p) (parts y)) l =
                    flat_map (genPushes old il n3_) (flat_map (interactPair cf0) (flat_map (fun p => map (fun q => (p, q)) (parts y)) l))).
          { induction l as [|p l IH]; [reflexivity|]. cbn [flat_map]. rewrite !flat_map_app, <- IH, <- Ei. reflexivity. }
          rewrite Ee. destruct (parts x); [reflexivity|]. destruct (parts y) eqn:Ey; [|reflexivity].
          clear. cbn [flat_map map app]. induction l as [|q l IH]; [reflexivity|]. exact IH.
    - intros i Hi. apply in_flat_map in Hi as ([ip p] & Hp & Hi). apply in_flat_map in Hi as ([jq q] & Hq & Hi).
      apply indexed_in in Hp.
      assert (Hq' : nth_error (parts y) jq = Some q).
      { destruct (c1 =? c2); [|now apply indexed_in in Hq]. apply indexed_in.
        rewrite <- (firstn_skipn (S ip) (indexed (parts y))). apply in_app_iff. now right. }
      destruct (pid p =? pid q); [destruct Hi|]. destruct (listPair old il q p); [|destruct Hi]. destruct Hi as [<-|Hi].
      + cbn [insFrom insBase insIndex]. split; [apply Sx; eapply nth_error_In; eauto|]. intros E. apply Z.eqb_eq in E. rewrite E. exact Hp.
      + destruct n3_; [destruct Hi|]. destruct Hi as [<-|[]]. cbn [insFrom insBase insIndex].
        split; [apply Sy; eapply nth_error_In; eauto|]. intros E. apply Z.eqb_eq in E. rewrite E. exact Hq'.
  Qed.

  (** ** The lists of one base cell *)
  Let pushesAt k := flat_map (genPushes old il n3_) (lcInteract isHalo view old cf0 il len cells (map (stepCall dims k) halfOffs)).
  Let idx k := Z.to_nat (threeToOneD k dims).

  Lemma base_grid k : In k (stepBases dims) -> inGrid dims k.
  Proof. intros H. apply (in_stepBases dims c08_dims) in H. unfold inGrid. lia. Qed.

  Lemma cleanup_keys (l : list (option P * list P)) p : In p (map fst (c08Cleanup l)) -> exists ns, In (Some p, ns) l.
  Proof.
    intros H. apply in_map_iff in H as ([p' ns] & E & H). cbn [fst] in E. subst p'. apply in_flat_map in H as ([o ns'] & Ho & H).
    destruct o as [p'|]; [|destruct H]. destruct H as [H|[]]. injection H as -> ->. eauto.
  Qed.

  Lemma build_cell k est n : In k (stepBases dims) -> exists l',
    c08BuildCell pid old il n3_ dims est cells (idx k) (repeat (None, []) n) = Some l' /\
    Permutation (pairsOf (c08Cleanup l')) (pushesAt k) /\ (forall p, In p (map fst (c08Cleanup l')) -> In p ps).
  Proof.
    intros Hk. pose proof (base_grid k Hk) as G. pose proof (threeToOneD_range dims k G) as Hr. unfold c08BuildCell, idx. rewrite (cell_at k G).
    rewrite Z2Nat.id by lia.
    destruct (mapM_rel (c08Insertions pid old il n3_ cells (threeToOneD k dims))
      (fun o ins => (forall d, In d halfOffs -> o = halfOffset dims d -> map fromTo ins = flat_map (genPushes old il n3_) (callsAt k d)) /\
         (forall i, In i ins -> In (insFrom i) ps /\
            (insBase i = true -> nth_error (parts (cell (threeToOneD k dims))) (insIndex i) = Some (insFrom i))))
      (buildC08BaseStep dims)) as (inss & E & Hins).
    { intros o Ho. apply (Permutation_in _ (step_perm dims c08_dims)) in Ho. apply in_map_iff in Ho as (d & <- & Hdd).
      destruct (insertions_spec k d Hk Hdd) as (ins & E & H1 & H2). exists ins. split; [exact E|]. split; [|exact H2].
      intros d' Hd' Eo. destruct (insertions_spec k d' Hk Hd') as (ins' & E' & H1' & _). rewrite <- Eo, E in E'. injection E' as <-. exact H1'. }
    rewrite E.
    destruct (init_good ps (parts (cell (threeToOneD k dims))) (fun p H => proj1 (cell_sub k p H)) est n) as [Hg Hf].
    destruct (insertAll_spec pid ps Hids (parts (cell (threeToOneD k dims))) (concat inss) _ Hg) as (l' & E' & Hg' & Hp).
    { intros i Hi. apply in_concat in Hi as (ins & Hin & Hi). clear -Hins Hin Hi. induction Hins as [|o x l ls [_ H] Hr IH]; [destruct Hin|].
      destruct Hin as [->|Hin]; [now apply H|now apply IH]. }
    exists l'. split; [exact E'|]. split.
    - unfold flat in Hp, Hf. rewrite Hp, Hf, app_nil_r. change (fun i => (insFrom i, insTo i)) with fromTo.
      (* the insertions by offset *)
      set (tot := fun o => match c08Insertions pid old il n3_ cells (threeToOneD k dims) o with Some ins => map fromTo ins | None => [] end).
      assert (Et : map fromTo (concat inss) = flat_map tot (buildC08BaseStep dims)).
      { clear -E. revert inss E. induction (buildC08BaseStep dims) as [|o l IH]; intros inss E; cbn [mapM] in E.
        - injection E as <-. reflexivity.
        - unfold tot at 1. cbn [flat_map]. fold tot. unfold tot at 1.
          destruct (c08Insertions pid old il n3_ cells (threeToOneD k dims) o) as [ins|]; [|discriminate].
          destruct (mapM _ l) as [r|] eqn:Er; [|discriminate]. injection E as <-. cbn [concat]. rewrite map_app, (IH r eq_refl). reflexivity. }
      rewrite Et, (Permutation_flat_map tot (step_perm dims c08_dims)).
      unfold pushesAt, lcInteract.
      assert (Hall : forall l, (forall d, In d l -> In d halfOffs) -> flat_map tot (map (halfOffset dims) l) =
        flat_map (genPushes old il n3_) (flat_map (cellCall isHalo view old cf0 il len cells) (map (stepCall dims k) l))).
      { induction l as [|d l IH]; intros Hl; [reflexivity|]. cbn [map flat_map]. rewrite flat_map_app. f_equal; [|apply IH; intros; apply Hl; now right].
        unfold tot at 1. destruct (insertions_spec k d Hk (Hl d (or_introl eq_refl))) as (ins & Ei & H1 & _). rewrite Ei, H1. reflexivity. }
      rewrite Hall by auto. reflexivity.
    - intros p H. apply cleanup_keys in H as (ns & H). exact (proj2 (proj2 Hg') p ns H).
  Qed.

  (** ** All lists *)
  Lemma reset_length prev n : length (c08Reset (P := P) prev n) = n.
  Proof. unfold c08Reset, resizeTo. rewrite app_length, repeat_length, firstn_length, map_length. lia. Qed.

  Lemma base_test c : (c < length cells)%nat -> isBaseCell dims c = true ->
    In (oneToThreeD (Z.of_nat c) dims) (stepBases dims) /\ idx (oneToThreeD (Z.of_nat c) dims) = c.
  Proof.
    intros Hc H. rewrite (cells_length old view il csf bMin bMax ps Hview cells Hb) in Hc. fold b in Hc. fold dims in Hc.
    pose proof (v_pos il csf bMin bMax Hgrid) as Hp. fold b in Hp. fold dims in Hp.
    pose proof (oneToThreeD_inGrid dims (Z.of_nat c) Hp ltac:(lia)) as G.
    unfold isBaseCell in H. rewrite !andb_true_iff, !Z.ltb_lt in H. split.
    - apply (in_stepBases dims c08_dims). unfold inGrid in G. lia.
    - unfold idx. rewrite threeToOneD_oneToThreeD by (auto; lia). apply Nat2Z.id.
  Qed.
  Lemma base_test' k : In k (stepBases dims) -> isBaseCell dims (idx k) = true /\ (idx k < length cells)%nat.
  Proof.
    intros Hk. pose proof (base_grid k Hk) as G. pose proof (threeToOneD_range dims k G).
    rewrite (cells_length old view il csf bMin bMax ps Hview cells Hb). fold b. fold dims. split; [|unfold idx; lia].
    unfold isBaseCell, idx. rewrite Z2Nat.id by lia. rewrite oneToThreeD_threeToOneD by exact G.
    apply (in_stepBases dims c08_dims) in Hk. rewrite !andb_true_iff, !Z.ltb_lt. lia.
  Qed.

  Definition c08Held (lists : list (list (NList P))) : Prop :=
    length lists = length cells /\
    forall k, In k (stepBases dims) -> exists ls, nth_error lists (idx k) = Some ls /\
      Permutation (pairsOf ls) (pushesAt k) /\ (forall p, In p (map fst ls) -> In p ps).

  Lemma c08_rebuild est prev : exists lists,
    c08Rebuild pid old (cellsPerInteractionLength rndExact csf) il n3_ dims est prev cells = Some lists /\ c08Held lists.
  Proof.
    unfold c08Rebuild. replace (cellsPerInteractionLength rndExact csf) with 1.
    2:{ unfold cellsPerInteractionLength. destruct (Rle_dec 1 csf); [reflexivity|contradiction]. }
    change (1 >? 1) with false. cbv iota.
    destruct (mapM_rel (fun '(c, lists) => if isBaseCell dims c then c08BuildCell pid old il n3_ dims (est c) cells c lists else Some lists)
      (fun x l' => isBaseCell dims (fst x) = true ->
         Permutation (pairsOf (c08Cleanup l')) (pushesAt (oneToThreeD (Z.of_nat (fst x)) dims)) /\ (forall p, In p (map fst (c08Cleanup l')) -> In p ps))
      (indexed (c08Reset prev (length cells)))) as (ls & E & H).
    { intros [c l] Hin. apply indexed_in in Hin. cbn [fst].
      assert (Hc : (c < length cells)%nat) by (rewrite <- (reset_length prev (length cells)); apply nth_error_Some; congruence).
      apply reset_nth in Hin as (n & ->). destruct (isBaseCell dims c) eqn:Ec; [|exists (repeat (None, []) n); split; [reflexivity|discriminate]].
      destruct (base_test c Hc Ec) as [Hk Ek]. destruct (build_cell _ (est c) n Hk) as (l' & E & H1 & H2). rewrite Ek in E.
      exists l'. split; [exact E|]. intros _. split; assumption. }
    rewrite E. eexists. split; [reflexivity|].
    assert (El : length ls = length cells).
    { transitivity (length (indexed (c08Reset prev (length cells)))); [|now rewrite indexed_length, reset_length].
      clear -H. induction H; cbn [length]; congruence. }
    split; [now rewrite map_length|]. intros k Hk. destruct (base_test' k Hk) as [Ht Hl].
    destruct (nth_error ls (idx k)) as [l'|] eqn:Ek; [|apply nth_error_None in Ek; lia].
    exists (c08Cleanup l'). split; [rewrite nth_error_map, Ek; reflexivity|].
    assert (Hn : exists l, nth_error (indexed (c08Reset prev (length cells))) (idx k) = Some (idx k, l)).
    { rewrite indexed_nth. destruct (nth_error (c08Reset prev (length cells)) (idx k)) as [l|] eqn:E0; [exists l; reflexivity|].
      apply nth_error_None in E0. rewrite reset_length in E0. lia. }
    destruct Hn as (l & Hn). 
    assert (Hr : isBaseCell dims (idx k) = true ->
         Permutation (pairsOf (c08Cleanup l')) (pushesAt (oneToThreeD (Z.of_nat (idx k)) dims)) /\ (forall p, In p (map fst (c08Cleanup l')) -> In p ps)).
    { clear -H Ek Hn. change (idx k) with (fst (idx k, l)) at 1 2. revert Ek Hn. generalize (idx k) at 1 2. intros n. revert n.
      induction H as [|x y xs ys Hxy _ IH]; intros [|n] Ek Hn; try discriminate; cbn [nth_error] in *.
      - injection Ek as ->. injection Hn as ->. exact Hxy.
      - exact (IH n Ek Hn). }
    specialize (Hr Ht). unfold idx in Hr. pose proof (base_grid k Hk) as G. pose proof (threeToOneD_range dims k G).
    rewrite Z2Nat.id in Hr by lia. rewrite oneToThreeD_threeToOneD in Hr by exact G. exact Hr.
  Qed.

  (** ** The traversal *)
  Section Traverse.
    Variable lists : list (list (NList P)).
    Hypothesis Hheld : c08Held lists.
    Let listsAt k := match nth_error lists (idx k) with Some ls => ls | None => [] end.
    Let task k := pushCalls n3_ (pairsOf (listsAt k)).

    Lemma calls_sub f : In f (lcInteract isHalo view old cf0 il len cells (stepCalls dims)) ->
      In (fstP f) ps /\ In (sndP f) ps /\ n3 f = true.
    Proof.
      intros H. destruct (inter_sub pid isHalo old view cf0 il csf bMin bMax ps Hview Hids cells Hb _ f (stepCalls_directed dims c08_dims) H)
        as (H1 & H2 & H3 & _). auto.
    Qed.

    Lemma calls_at k f : In k (stepBases dims) -> In f (lcInteract isHalo view old cf0 il len cells (map (stepCall dims k) halfOffs)) ->
      In (fstP f) ps /\ In (sndP f) ps /\
      exists d, In d halfOffs /\ at__ (fst (stepPair k d)) (fstP f) /\ at__ (snd (stepPair k d)) (sndP f).
    Proof.
      intros Hk H.
      assert (D : directed dims (map (stepCall dims k) halfOffs)).
      { intros c1 c2 dir Hc. apply (stepCalls_directed dims c08_dims). apply in_flat_map. exists k. auto. }
      destruct (inter_sub pid isHalo old view cf0 il csf bMin bMax ps Hview Hids cells Hb _ f D H) as (H1 & H2 & _ & k1 & k2 & dir & Hc & G1 & G2 & Ha).
      split; [exact H1|]. split; [exact H2|]. destruct Ha as [[A1 A2]|[C _]]; [|discriminate].
      apply in_map_iff in Hc as (d & E & Hdd). exists d. split; [exact Hdd|].
      assert (Hs : In d stepLoop) by (apply filter_In in Hdd; exact (proj1 Hdd)).
      destruct (pair_grid dims c08_dims k d Hk Hs) as [F1 F2]. unfold stepCall, flat2 in E. injection E as E1 E2 _.
      apply (threeToOneD_inj dims) in E1; [|assumption..]. apply (threeToOneD_inj dims) in E2; [|assumption..]. change (fst (stepPair k d)) with (i3add k (lowOf d)). change (snd (stepPair k d)) with (i3add k (highOf d)). cbn [fst snd] in E1, E2. rewrite E1, E2. auto.
    Qed.

    Lemma push_at k p q : In k (stepBases dims) -> In (p, q) (pushesAt k) -> In p ps /\ In q ps /\
      exists kp kq, at__ kp p /\ at__ kq q /\ inGrid dims kp /\ inGrid dims kq /\
        (0 <= ix kp - ix k <= 1 /\ 0 <= iy kp - iy k <= 1 /\ 0 <= iz kp - iz k <= 1) /\
        (0 <= ix kq - ix k <= 1 /\ 0 <= iy kq - iy k <= 1 /\ 0 <= iz kq - iz k <= 1).
    Proof.
      intros Hk H. apply in_flat_map in H as (f & Hf & H). destruct (calls_at k f Hk Hf) as (H1 & H2 & d & Hdd & A1 & A2).
      assert (Hs : In d stepLoop) by (apply filter_In in Hdd; exact (proj1 Hdd)).
      destruct (pair_grid dims c08_dims k d Hk Hs) as [F1 F2]. apply in_stepLoop in Hs.
      assert (B1 : 0 <= ix (fst (stepPair k d)) - ix k <= 1 /\ 0 <= iy (fst (stepPair k d)) - iy k <= 1 /\ 0 <= iz (fst (stepPair k d)) - iz k <= 1)
        by (unfold stepPair, i3add, lowOf; cbn [fst ix iy iz]; lia).
      assert (B2 : 0 <= ix (snd (stepPair k d)) - ix k <= 1 /\ 0 <= iy (snd (stepPair k d)) - iy k <= 1 /\ 0 <= iz (snd (stepPair k d)) - iz k <= 1)
        by (unfold stepPair, i3add, highOf; cbn [snd ix iy iz]; lia).
      unfold genPushes in H. destruct (listPair old il (fstP f) (sndP f)); [|destruct H]. destruct H as [H|H].
      - injection H as <- <-. split; [exact H1|]. split; [exact H2|]. eexists _, _. eauto 10.
      - destruct (n3 f && negb n3_); [|destruct H]. destruct H as [H|[]]. injection H as <- <-.
        split; [exact H2|]. split; [exact H1|]. eexists _, _. split; [exact A2|]. split; [exact A1|]. auto.
    Qed.

    Lemma task_pairs k : In k (stepBases dims) -> Permutation (pairsOf (listsAt k)) (pushesAt k).
    Proof. intros Hk. destruct (proj2 Hheld k Hk) as (ls & E & H & _). unfold listsAt. rewrite E. exact H. Qed.

    Lemma process_ok k : In k (stepBases dims) -> vlcProcess pid lay n3_ cells lists dims k = Some (task k).
    Proof.
      intros Hk. destruct (proj2 Hheld k Hk) as (ls & E & H & Hkeys). unfold vlcProcess, task, listsAt. fold (idx k). rewrite E.
      apply cellListCalls_ok; [exact (all_ids pid old il csf bMin bMax ps Hids cells Hb)| |].
      - intros p Hp. apply (all_in isHalo old view il csf bMin bMax ps Hgrid Hview Hps cells Hb). auto.
      - intros p q Hpq. apply (Permutation_in _ H) in Hpq. apply (all_in isHalo old view il csf bMin bMax ps Hgrid Hview Hps cells Hb).
        destruct (push_at k p q Hk Hpq) as (_ & Hq & _). exact Hq.
    Qed.

    Lemma c08_traverse : vlcTraverse pid lay n3_ cells lists dims (c08Colors dims ov) = Some (map (map task) (c08Colors dims ov)).
    Proof.
      rewrite c08_ov. unfold vlcTraverse. apply mapM_some. intros color Hc. apply mapM_some. intros k Hk. apply process_ok.
      unfold stepBases. apply in_concat. eauto.
    Qed.

    Lemma c08_every : everyPairOnce pid isHalo now cut ps (concat (concat (map (map task) (c08Colors dims ov)))).
    Proof.
      apply every_perm with (l1 := pushCalls n3_ (flat_map (genPushes old il n3_) (lcInteract isHalo view old cf0 il len cells (stepCalls dims)))).
      - assert (E : concat (concat (map (map task) (c08Colors dims ov))) = flat_map task (stepBases dims)).
        { unfold stepBases. rewrite c08_ov. generalize (c08Colors dims (mkI3 1 1 1)). induction l as [|c l IH]; [reflexivity|].
          cbn [map concat]. rewrite concat_app, IH, flat_map_app, <- flat_map_concat_map. reflexivity. }
        rewrite E. clear E.
        assert (E : flat_map (genPushes old il n3_) (lcInteract isHalo view old cf0 il len cells (stepCalls dims)) = flat_map pushesAt (stepBases dims)).
        { unfold stepCalls, pushesAt. induction (stepBases dims) as [|k l IH]; [reflexivity|]. cbn [flat_map]. rewrite <- IH.
          unfold lcInteract. rewrite !flat_map_app. reflexivity. }
        rewrite E.
        assert (Hall : forall l, (forall k, In k l -> In k (stepBases dims)) -> Permutation (pushCalls n3_ (flat_map pushesAt l)) (flat_map task l)).
        { induction l as [|k l IH]; intros Hl; [constructor|]. cbn [flat_map]. rewrite pushCalls_app.
          apply Permutation_app; [|apply IH; intros; apply Hl; now right]. unfold task. apply pushCalls_perm. symmetry. apply task_pairs, Hl. now left. }
        apply Hall. auto.
      - apply (gen_every pid old il n3_ ps _ Hids) with (skin := skin); auto.
        + intros f Hf. destruct (calls_sub f Hf) as (H1 & H2 & _). auto.
        + intros _ f Hf. now destruct (calls_sub f Hf) as (_ & _ & H).
        + destruct (lc_both pid isHalo old old view cf0 il csf 0 bMin bMax ps Hgrid Hview Hids Hps (s0 il csf bMin bMax Hgrid) (moved0 old ps)
            (stepCalls dims) (stepCalls_directed dims c08_dims)) as (cells' & E & H).
          * intros ka kc Ga Gc. destruct (stepCalls_times dims c08_dims ka kc Ga Gc) as [H1 H2]. split; [exact H1|].
            intros Ho Hw. fold b in Hw. fold ov in Hw. fold h in Ho. rewrite c08_ov in Hw. rewrite c08_h in Ho. unfold withinReach in Hw. cbn [ix iy iz] in Hw.
            apply H2; tauto.
          * reflexivity.
          * fold b in E. rewrite Hadd in E. injection E as <-. intros a c Ia Ic Hne. destruct (H a c Ia Ic Hne) as [H1 H2]. split; [exact H1|].
            intros Ho Hd. apply H2; [exact Ho|lra].
    Qed.

    Lemma task_writes k p : In k (stepBases dims) -> writes (task k) p ->
      exists kp, at__ kp p /\ inGrid dims kp /\ 0 <= ix kp - ix k <= 1 /\ 0 <= iy kp - iy k <= 1 /\ 0 <= iz kp - iz k <= 1.
    Proof.
      intros Hk (f & Hf & Hw). unfold task, pushCalls in Hf. apply in_map_iff in Hf as ([x y] & <- & Hxy). cbn [fstP sndP n3] in Hw.
      apply (Permutation_in _ (task_pairs k Hk)) in Hxy. destruct (push_at k x y Hk Hxy) as (_ & _ & kp & kq & A1 & A2 & G1 & G2 & B1 & B2).
      destruct Hw as [<-|[_ <-]]; [exists kp|exists kq]; auto.
    Qed.

    Lemma c08_no_shared : Forall noSharedWrites (map (map task) (c08Colors dims ov)).
    Proof.
      apply Forall_forall. intros t Ht. apply in_map_iff in Ht as (color & <- & Hc). rewrite c08_ov in Hc.
      pose proof (c08_stride_pos dims (mkI3 1 1 1) (one_fits dims c08_dims)) as Hst.
      apply noShared_map; [exact (colorTraversal_color_NoDup _ _ _ _ Hst Hc)|].
      intros k k' p Hk Hk' Hne W W'.
      assert (Bk : In k (stepBases dims)) by (unfold stepBases; apply in_concat; eauto).
      assert (Bk' : In k' (stepBases dims)) by (unfold stepBases; apply in_concat; eauto).
      destruct (task_writes k p Bk W) as (kp & A & G & X & Y & Z). destruct (task_writes k' p Bk' W') as (kp' & A' & G' & X' & Y' & Z').
      assert (kp' = kp) by exact (at_unique old il csf bMin bMax kp' kp p G' G A' A). subst kp'.
      destruct (colorTraversal_same_color _ _ _ _ _ _ Hst Hc Hk Hk') as (u & v & w & U & V & W2). cbn [ix iy iz] in U, V, W2.
      apply Hne. apply i3_ext; lia.
    Qed.
  End Traverse.

  Lemma c08_all est prev : exists lists,
    c08Rebuild pid old (cellsPerInteractionLength rndExact csf) il n3_ dims est prev cells = Some lists /\
    exists calls, vlcTraverse pid lay n3_ cells lists dims (c08Colors dims ov) = Some calls /\
      everyPairOnce pid isHalo now cut ps (concat (concat calls)) /\ Forall noSharedWrites calls.
  Proof.
    destruct (c08_rebuild est prev) as (lists & E & H). exists lists. split; [exact E|]. eexists. split; [exact (c08_traverse lists H)|].
    split; [exact (c08_every lists H)|exact (c08_no_shared lists H)].
  Qed.
End C08.
