(** The cells and the pushes of the Verlet list containers. *)
From Coq Require Import Reals Lra.
From Verif.Base Require Import ZRange Occ OptionM Lists.
From Verif.Grid Require Import IndexModel IndexSpec IndexProofs CellBlockModel CellBlockSpec CellBlockExact.
From Verif.Traversal Require Import CellSpec CellLemmas C08Model C08Proofs C08Bases C04Model C18Model C18Proofs C01Model C01Spec C01Proofs.
From Verif.Functor Require Import CellFunctorModel FunctorSpec CellFunctorProofs SortModel SortSpec SortProofs.
From Verif.Container Require Import LinkedCellsModel LinkedCellsSpec LinkedCellsBuild LinkedCellsCount LinkedCellsDir LinkedCellsGeo LinkedCellsProofs.
From Verif.Verlet Require Import VerletModel VerletSpec VerletGen VerletStore VerletCells.
Open Scope Z_scope.

Section N3.
  Context {P : Type}.
  Variables (isHalo : P -> bool) (view : list P -> list P) (far : P -> P -> bool) (cf : CFSettings).
  Hypothesis Hn : useNewton3 cf = true.

  Lemma processCell_n3 c call : In call (processCell isHalo view far cf c) -> n3 call = true.
  Proof.
    unfold processCell. destruct (parts c); [intros []|]. destruct (negb (mayOwn c)); [intros []|]. destruct (layout cf).
    - unfold processCellAoS. intros H. apply in_flat_map in H as ([x y] & _ & H). unfold interactSame in H. rewrite Hn in H.
      destruct H as [<-|[]]. reflexivity.
    - unfold soaSingle. intros H. apply in_map_iff in H as ([x y] & <- & _). reflexivity.
  Qed.

  Lemma processCellPair_n3 hasDir c1 c2 call :
    (forall c x, c = c1 \/ c = c2 -> In x (view (parts c)) -> In x (parts c)) ->
    In call (processCellPair view far cf hasDir c1 c2) ->
    n3 call = true /\ In (fstP call) (parts c1) /\ In (sndP call) (parts c2).
  Proof.
    intros Hv H. unfold processCellPair in H. destruct (parts c1) as [|p1 l1] eqn:E1; [destruct H|].
    destruct (parts c2) as [|p2 l2] eqn:E2; [destruct H|]. rewrite <- E1, <- E2 in *. clear E1 E2.
    match type of H with In _ (if ?x then _ else _) => destruct x end; [destruct H|]. destruct (layout cf).
    - unfold processCellPairAoS in H. apply in_flat_map in H as ([x y] & Hxy & H). unfold interactPair in H. rewrite Hn in H.
      destruct H as [<-|[]]. cbn [n3 fstP sndP]. split; [reflexivity|].
      match type of Hxy with In _ (if ?x then _ else _) => destruct x end;
        apply in_flat_map in Hxy as (a & Ha & Hb); apply in_map_iff in Hb as (b & E & Hb); injection E as -> ->.
      + split; [now apply (Hv c1); auto|]. apply (Hv c2); auto. clear -Hb.
        induction (view (parts c2)) as [|z l IH]; [destruct Hb|]. cbn [untilFar] in Hb. destruct (far x z); [destruct Hb|].
        destruct Hb as [->|Hb]; [now left|right; auto].
      + auto.
    - unfold processCellPairSoA in H. rewrite Hn in H. unfold soaPair in H. apply in_flat_map in H as (a & Ha & Hb).
      apply in_map_iff in Hb as (b & <- & Hb). auto.
  Qed.
End N3.

Section Base.
  Context {P : Type}.
  Variables (pid : P -> Z) (isHalo : P -> bool) (old : P -> R3) (view : R3 -> list P -> list P).
  Variables (cf : CFSettings) (il csf : R) (bMin bMax : R3) (ps : list P).
  Let b := rebuild rndExact il csf bMin bMax.
  Let dims := blockDims b.
  Let len := blockLength b.
  Let ov := blockOverlap rndExact il b.
  Let near := nearR len il.
  Let h := mkI3 (cellsPerInteractionLength rndExact csf) (cellsPerInteractionLength rndExact csf) (cellsPerInteractionLength rndExact csf).
  Hypothesis Hgrid : validGrid il csf bMin bMax.
  Hypothesis Hview : forall dir l, isSortedView old dir l (view dir l).
  Hypothesis Hids : distinctIds pid ps.
  Hypothesis Hps : validParticles isHalo old b bMin bMax ps.

  (** Particle [p] was sorted into the cell with index [k]. *)
  Definition at_ (k : I3) (p : P) : Prop := inCell rndExact b old (threeToOneD k dims) p = true.

  Lemma s0 : (0 <= 0 <= il)%R.
  Proof. destruct Hgrid as (H & _). lra. Qed.
  Lemma moved0 : movedAtMost old old 0 ps.
  Proof.
    apply Forall_forall. intros p _. unfold dist3, dot, rsub. cbn [rx ry rz].
    replace ((rx (old p) - rx (old p)) * (rx (old p) - rx (old p)) + (ry (old p) - ry (old p)) * (ry (old p) - ry (old p)) +
             (rz (old p) - rz (old p)) * (rz (old p) - rz (old p)))%R with 0%R by ring. rewrite sqrt_0. lra.
  Qed.

  Lemma v_build : exists cells, lcAddAll isHalo rndExact b old (lcEmpty b) ps = Some cells /\ built rndExact b old ps cells.
  Proof. exact (lc_build isHalo old il csf bMin bMax ps Hgrid Hps). Qed.

  Lemma v_pos : positive dims.
  Proof. destruct Hgrid as (Hi & Hc & Hb & _). exact (grid_pos il csf bMin bMax Hc). Qed.

  Lemma v_at p : In p ps -> exists k, inGrid dims k /\ at_ k p /\ (isHalo p = false -> ownedCell dims h k).
  Proof.
    intros H. destruct (lc_cell isHalo old il csf bMin bMax ps Hgrid Hps p H) as (k & G & C & _ & O). exists k. auto.
  Qed.

  Lemma at_unique k k' p : inGrid dims k -> inGrid dims k' -> at_ k p -> at_ k' p -> k = k'.
  Proof.
    intros G G' H H'. apply (threeToOneD_inj dims); auto. unfold at_ in *. eapply inCell_unique; eauto.
  Qed.

  Lemma v_len : positiveR len.
  Proof. destruct Hgrid as (_ & _ & Hb & _). now apply len_pos. Qed.

  Lemma v_fits2 : gridFits2x dims ov.
  Proof. exact (lc_fits2 old view il csf 0%R bMin bMax ps Hgrid Hview). Qed.
  Lemma v_fits : gridFits dims ov.
  Proof. exact (lc_fits old view il csf 0%R bMin bMax ps Hgrid Hview). Qed.
  Lemma v_halo : haloCovers h ov.
  Proof. exact (proj1 (lc_haloCovers il csf bMin bMax Hgrid)). Qed.

  Lemma v_reach a c ka kc : In a ps -> In c ps -> inGrid dims ka -> inGrid dims kc -> at_ ka a -> at_ kc c ->
    (dist3 (old a) (old c) <= il)%R -> withinReach near ov ka kc.
  Proof.
    intros Ia Ic Ga Gc Aa Ac Hd.
    destruct (lc_cell isHalo old il csf bMin bMax ps Hgrid Hps a Ia) as (ka' & Ga' & Ca & Ba & _).
    destruct (lc_cell isHalo old il csf bMin bMax ps Hgrid Hps c Ic) as (kc' & Gc' & Cc & Bc & _).
    assert (ka' = ka) by (eapply at_unique; eauto). assert (kc' = kc) by (eapply at_unique; eauto). subst ka' kc'.
    apply (lc_reach old old il csf 0 bMin bMax ps Hgrid moved0 a c ka kc Ia Ic Ba Bc). lra.
  Qed.

  Section Built.
    Variable cells : list (Cell P).
    Hypothesis Hbuilt : built rndExact b old ps cells.

    Lemma cells_length : length cells = Z.to_nat (numCells dims).
    Proof. rewrite Hbuilt, map_length. unfold zrange. rewrite map_length, seq_length. f_equal. unfold dims. lia. Qed.

    Lemma cellHas_at c p : cellHas cells c p <->
      (c < length cells)%nat /\ In p ps /\ inCell rndExact b old (Z.of_nat c) p = true.
    Proof.
      split.
      - intros (cell & Hc & Hp). assert (Hlt : (c < length cells)%nat) by (apply nth_error_Some; congruence).
        split; [exact Hlt|]. rewrite cells_length in Hlt.
        pose proof (built_nth rndExact b old ps cells (Z.of_nat c) Hbuilt ltac:(fold dims; lia)) as E. rewrite Nat2Z.id in E.
        rewrite Hc in E. injection E as ->. cbn [parts cellWith] in Hp. now apply filter_In in Hp.
      - intros (Hlt & Hp & Hc). exists (cellWith rndExact b old ps (Z.of_nat c)). split.
        + rewrite cells_length in Hlt.
          pose proof (built_nth rndExact b old ps cells (Z.of_nat c) Hbuilt ltac:(fold dims; lia)) as E. now rewrite Nat2Z.id in E.
        + cbn [parts cellWith]. apply filter_In. auto.
    Qed.

    Lemma cellHas_k k p : inGrid dims k -> cellHas cells (Z.to_nat (threeToOneD k dims)) p <-> In p ps /\ at_ k p.
    Proof.
      intros G. pose proof (threeToOneD_range dims k G). rewrite cellHas_at, cells_length, Z2Nat.id by lia. unfold at_. split; [tauto|].
      intros; split; [lia|assumption].
    Qed.

    Lemma all_in p : In p (allParticles cells) <-> In p ps.
    Proof.
      rewrite in_all. split.
      - intros (c & H). now apply cellHas_at in H.
      - intros H. destruct (v_at p H) as (k & G & A & _). exists (Z.to_nat (threeToOneD k dims)). now apply cellHas_k.
    Qed.

    Lemma all_ids : distinctIds pid (allParticles cells).
    Proof.
      unfold distinctIds, allParticles. rewrite Hbuilt, flat_map_concat_map, map_map, <- flat_map_concat_map.
      assert (E : forall l, map pid (flat_map (fun i => parts (cellWith rndExact b old ps i)) l) =
                  flat_map (fun i => map pid (filter (inCell rndExact b old i) ps)) l).
      { induction l as [|i l IH]; [reflexivity|]. cbn [flat_map]. rewrite map_app, IH. reflexivity. }
      rewrite E. apply NoDup_flat_map; [apply NoDup_zrange|intros; now apply filter_ids|].
      intros i j z _ _ Hi Hj. apply in_map_iff in Hi as (x & Ex & Hx). apply in_map_iff in Hj as (y & Ey & Hy).
      apply filter_In in Hx as [Hx Cx]. apply filter_In in Hy as [Hy Cy].
      assert (x = y) by (apply (ids_inj pid ps); auto; congruence). subst y. eapply inCell_unique; eauto.
    Qed.

    Lemma placed_all : Forall (placed isHalo rndExact b old) ps.
    Proof. exact (lc_placed isHalo old il csf bMin bMax ps Hgrid Hps). Qed.

    (** The functor calls of a traversal that passes from cell to cell. *)
    Lemma inter_sub calls f : directed dims calls -> In f (lcInteract isHalo view old cf il len cells calls) ->
      In (fstP f) ps /\ In (sndP f) ps /\ (useNewton3 cf = true -> n3 f = true) /\
      exists k1 k2 dir, In (threeToOneD k1 dims, threeToOneD k2 dims, dir) calls /\ inGrid dims k1 /\ inGrid dims k2 /\
        ((at_ k1 (fstP f) /\ at_ k2 (sndP f)) \/ (useNewton3 cf = false /\ at_ k2 (fstP f) /\ at_ k1 (sndP f))).
    Proof.
      intros Hdir H. apply in_flat_map in H as ([[c1 c2] dir] & Hin & H).
      destruct (Hdir c1 c2 dir Hin) as (k1 & k2 & G1 & G2 & -> & -> & Hd).
      pose proof (call_unfold isHalo old old view cf rndExact b ps cells il len Hbuilt k1 k2 dir G1 G2) as EU. fold dims in EU. rewrite EU in H. clear EU.
      assert (Hvin : forall d l x, In x (view d l) -> In x l) by (intros d l x; apply (view_in old view Hview)).
      assert (Hparts : forall k x, In x (parts (cellWith rndExact b old ps (threeToOneD k dims))) -> In x ps /\ at_ k x).
      { intros k x Hx. cbn [parts cellWith] in Hx. now apply filter_In in Hx. }
      destruct (Z.eqb_spec (threeToOneD k1 dims) (threeToOneD k2 dims)) as [E|N].
      - assert (k1 = k2) by now apply (threeToOneD_inj dims). subst k2.
        pose proof H as H'. apply (processCell_sub pid) in H; [|intros x; apply Hvin|apply (view_ids pid old view Hview), filter_ids, Hids|apply filter_ids, Hids].
        destruct H as (H1 & H2 & _). apply Hparts in H1, H2. split; [tauto|]. split; [tauto|]. split.
        + intros Hn. eapply processCell_n3; eauto.
        + exists k1, k1, dir. tauto.
      - destruct (useNewton3 cf) eqn:Hn.
        + apply (processCellPair_n3 _ _ _ Hn) in H; [|intros ? x _; apply Hvin]. destruct H as (H0 & H1 & H2). apply Hparts in H1, H2.
          split; [tauto|]. split; [tauto|]. split; [tauto|]. exists k1, k2, dir. tauto.
        + apply (processCellPair_sub pid _ isHalo) in H; [|intros ? x _; apply Hvin].
          destruct H as [[H1 H2]|[_ [H1 H2]]]; apply Hparts in H1, H2; (split; [tauto|]; split; [tauto|]; split; [congruence|]);
            exists k1, k2, dir; tauto.
    Qed.

    Let pushes calls := flat_map (genPushes old il (useNewton3 cf)) (lcInteract isHalo view old cf il len cells calls).

    Lemma pushes_sub calls p q : directed dims calls -> In (p, q) (pushes calls) ->
      In p ps /\ In q ps /\
      exists k1 k2 dir, In (threeToOneD k1 dims, threeToOneD k2 dims, dir) calls /\ inGrid dims k1 /\ inGrid dims k2 /\
        ((at_ k1 p /\ at_ k2 q) \/ (useNewton3 cf = false /\ at_ k2 p /\ at_ k1 q)).
    Proof.
      intros Hdir H. apply in_flat_map in H as (f & Hf & H). destruct (inter_sub calls f Hdir Hf) as (H1 & H2 & _ & k1 & k2 & dir & Hin & G1 & G2 & Hk).
      unfold genPushes in H. destruct (listPair old il (fstP f) (sndP f)); [|destruct H]. destruct H as [H|H].
      - injection H as <- <-. split; [exact H1|]. split; [exact H2|]. exists k1, k2, dir. auto.
      - destruct (n3 f && negb (useNewton3 cf)) eqn:E; [|destruct H]. apply andb_true_iff in E as [_ E]. apply negb_true_iff in E.
        destruct H as [H|[]]. injection H as <- <-. split; [exact H2|]. split; [exact H1|]. exists k1, k2, dir. split; [exact Hin|]. tauto.
    Qed.

    (** The pushes as calls handle every pair once. *)
    Variables (now : P -> R3) (cut skin : R).
    Hypothesis Hcut : (0 < cut)%R.
    Hypothesis Hskin : (0 <= skin)%R.
    Hypothesis Hil : il = (cut + skin)%R.
    Hypothesis Hmoved : movedLess old now skin ps.

    Lemma pushes_every calls : directed dims calls ->
      (forall a c, In a ps -> In c ps -> a <> c ->
        (received pid (lcInteract isHalo view old cf il len cells calls) a c <= 1)%nat /\
        (isHalo a = false \/ isHalo c = false -> (dist3 (old a) (old c) <= il - 0)%R ->
         received pid (lcInteract isHalo view old cf il len cells calls) a c = 1%nat)) ->
      everyPairOnce pid isHalo now cut ps (pushCalls (useNewton3 cf) (pushes calls)).
    Proof.
      intros Hdir Hc. apply (gen_every pid old il (useNewton3 cf) ps _ Hids) with (skin := skin); auto.
      - intros f Hf. destruct (inter_sub calls f Hdir Hf) as (H1 & H2 & _). auto.
      - intros Hn f Hf. destruct (inter_sub calls f Hdir Hf) as (_ & _ & H & _). auto.
      - intros a c Ia Ic Hne. destruct (Hc a c Ia Ic Hne) as [H1 H2]. split; [exact H1|]. intros Ho Hd. apply H2; [exact Ho|]. lra.
    Qed.

    (** Sorting is a function. *)
    Hypothesis Hadd : lcAddAll isHalo rndExact b old (lcEmpty b) ps = Some cells.

    Lemma c08_every bases : Permutation bases (concat (c08Colors dims ov)) -> useNewton3 cf || bidirectional cf = true ->
      directed dims (c08StepsDir near dims ov bases) /\
      everyPairOnce pid isHalo now cut ps (pushCalls (useNewton3 cf) (pushes (c08StepsDir near dims ov bases))).
    Proof.
      intros Hb Hn.
      assert (D : directed dims (c08StepsDir near dims ov bases)).
      { pose proof v_fits as F.
        apply c08StepsDir_directed; [exact F|]. intros k Hk. apply c08_bases_box; [exact F|]. eapply Permutation_in; eauto. }
      split; [exact D|]. apply pushes_every; [exact D|].
      destruct (lc_c08_family pid isHalo old old view cf il csf 0 bMin bMax ps Hgrid Hview Hids Hps s0 moved0 bases Hb Hn) as (cells' & E & H).
      fold b in E. rewrite Hadd in E. injection E as <-. exact H.
    Qed.

    Lemma c18_every : useNewton3 cf || bidirectional cf = true ->
      directed dims (c18CallsDir near dims ov) /\
      everyPairOnce pid isHalo now cut ps (pushCalls (useNewton3 cf) (pushes (c18CallsDir near dims ov))).
    Proof.
      intros Hn.
      assert (D : directed dims (c18CallsDir near dims ov)) by (apply c18CallsDir_directed, v_fits2).
      split; [exact D|]. apply pushes_every; [exact D|].
      destruct (lc_c18 pid isHalo old old view cf il csf 0 bMin bMax ps Hgrid Hview Hids Hps s0 moved0 Hn) as (cells' & E & H).
      fold b in E. rewrite Hadd in E. injection E as <-. exact H.
    Qed.
  End Built.
End Base.

Lemma received_perm {P} (pid : P -> Z) l1 l2 a c : Permutation l1 l2 -> received pid l1 a c = received pid l2 a c.
Proof. intros H. unfold received. now apply occ_perm. Qed.

Lemma every_perm {P} (pid : P -> Z) isHalo now cut ps l1 l2 : Permutation l1 l2 ->
  everyPairOnce pid isHalo now cut ps l1 -> everyPairOnce pid isHalo now cut ps l2.
Proof. intros H E a c Ia Ic Hne. rewrite <- (received_perm pid l1 l2 a c H). auto. Qed.

Lemma pushCalls_perm {P} n3 (l1 l2 : list (P * P)) : Permutation l1 l2 -> Permutation (pushCalls n3 l1) (pushCalls n3 l2).
Proof. intros H. unfold pushCalls. now apply Permutation_map. Qed.
