(** The pairs of cells of the base step of vlc_c08. *)
From Verif.Base Require Import ZRange Occ.
From Verif.Grid Require Import IndexModel IndexSpec IndexProofs.
From Verif.Traversal Require Import ColorModel ColorProofs CellSpec CellLemmas C08Model C08Proofs C08Bases.
From Verif.Container Require Import LinkedCellsCount.
From Verif.Verlet Require Import VerletC08Model VerletPairs.
Open Scope Z_scope.

Definition lowOf (d : I3) : I3 := mkI3 (Z.max 0 (- ix d)) (Z.max 0 (- iy d)) (Z.max 0 (- iz d)).
Definition highOf (d : I3) : I3 := mkI3 (Z.max 0 (ix d)) (Z.max 0 (iy d)) (Z.max 0 (iz d)).
Definition halfOffs : list I3 := filter lexNonnegb stepLoop.

Lemma in_stepLoop d : In d stepLoop <-> -1 <= ix d <= 1 /\ -1 <= iy d <= 1 /\ -1 <= iz d <= 1.
Proof.
  unfold stepLoop. split.
  - intros H. apply in_flat_map in H as (z & Z & H). apply in_flat_map in H as (y & Y & H). apply in_map_iff in H as (x & <- & X).
    apply in_zrange in X, Y, Z. cbn [ix iy iz]. lia.
  - intros H. apply in_flat_map. exists (iz d). split; [apply in_zrange; lia|]. apply in_flat_map. exists (iy d).
    split; [apply in_zrange; lia|]. apply in_map_iff. exists (ix d). split; [now destruct d|apply in_zrange; lia].
Qed.

Lemma lexNonnegb_spec d : lexNonnegb d = true <-> 0 < iz d \/ (iz d = 0 /\ (0 < iy d \/ (iy d = 0 /\ 0 <= ix d))).
Proof.
  unfold lexNonnegb. rewrite orb_true_iff, andb_true_iff, orb_true_iff, andb_true_iff, Z.ltb_lt, Z.eqb_eq, Z.ltb_lt, Z.eqb_eq, Z.leb_le. reflexivity.
Qed.

Lemma in_half d : In d halfOffs <-> (-1 <= ix d <= 1 /\ -1 <= iy d <= 1 /\ -1 <= iz d <= 1) /\
  (0 < iz d \/ (iz d = 0 /\ (0 < iy d \/ (iy d = 0 /\ 0 <= ix d)))).
Proof. unfold halfOffs. rewrite filter_In, in_stepLoop, lexNonnegb_spec. reflexivity. Qed.

Lemma NoDup_half : NoDup halfOffs.
Proof.
  unfold halfOffs. apply NoDup_filter. unfold stepLoop. apply NoDup_flat_map; [apply NoDup_zrange| |].
  - intros z _. apply NoDup_flat_map; [apply NoDup_zrange| |].
    + intros y _. apply FinFun.Injective_map_NoDup; [|apply NoDup_zrange]. intros a b E. now injection E.
    + intros a b d _ _ Ha Hb. apply in_map_iff in Ha as (? & <- & _). apply in_map_iff in Hb as (? & E & _). now injection E.
  - intros a b d _ _ Ha Hb. apply in_flat_map in Ha as (? & _ & Ha). apply in_flat_map in Hb as (? & _ & Hb).
    apply in_map_iff in Ha as (? & <- & _). apply in_map_iff in Hb as (? & E & _). now injection E.
Qed.

Definition factor3 (d : I3) : Z := Z.max 1 (Z.abs (ix d) + Z.abs (iy d) + Z.abs (iz d)).

Lemma stepOffset_eq dims d : stepOffset dims d =
  mkOff (Z.min (threeToOneD (lowOf d) dims) (threeToOneD (highOf d) dims))
        (Z.max (threeToOneD (lowOf d) dims) (threeToOneD (highOf d) dims)) (factor3 d).
Proof.
  unfold stepOffset, factor3.
  assert (E : forall a b a' b', a = a' -> b = b' -> mkOff (Z.min a b) (Z.max a b) (Z.max 1 (Z.abs (ix d) + Z.abs (iy d) + Z.abs (iz d))) =
      mkOff (Z.min a' b') (Z.max a' b') (Z.max 1 (Z.abs (ix d) + Z.abs (iy d) + Z.abs (iz d)))) by (intros; subst; reflexivity).
  unfold threeToOneD, lowOf, highOf. cbn [ix iy iz].
  destruct (Z.ltb_spec (ix d) 0), (Z.ltb_spec (iy d) 0), (Z.ltb_spec (iz d) 0); apply E;
    repeat match goal with
    | H : ?a < 0 |- context [Z.max 0 (- ?a)] => rewrite (Z.max_r 0 (- a)) by lia
    | H : 0 <= ?a |- context [Z.max 0 (- ?a)] => rewrite (Z.max_l 0 (- a)) by lia
    | H : ?a < 0 |- context [Z.max 0 ?a] => rewrite (Z.max_l 0 a) by lia
    | H : 0 <= ?a |- context [Z.max 0 ?a] => rewrite (Z.max_r 0 a) by lia
    end; ring.
Qed.

Lemma insertOffset_perm o l : Permutation (insertOffset o l) (o :: l).
Proof.
  induction l as [|x l IH]; [reflexivity|]. cbn [insertOffset]. destruct (offLess x o); [|reflexivity].
  rewrite IH. apply perm_swap.
Qed.
Lemma sortOffsets_perm l : Permutation (sortOffsets l) l.
Proof. unfold sortOffsets. induction l as [|x l IH]; [reflexivity|]. cbn [fold_right]. rewrite insertOffset_perm. now rewrite IH. Qed.

Lemma offEqb_eq a b : offEqb a b = true <-> a = b.
Proof.
  unfold offEqb. rewrite !andb_true_iff, !Z.eqb_eq. destruct a as [a1 a2 a3], b as [b1 b2 b3]. cbn. split.
  - intros [[-> ->] ->]. reflexivity.
  - intros E. now injection E.
Qed.

Lemma addOffset_spec l o : NoDup l -> NoDup (addOffset l o) /\ forall x, In x (addOffset l o) <-> In x l \/ x = o.
Proof.
  intros Hd. unfold addOffset. destruct (existsb (offEqb o) l) eqn:E.
  - split; [exact Hd|]. intros x. split; [now left|]. intros [H| ->]; [exact H|]. apply existsb_exists in E as (y & Hy & E).
    apply offEqb_eq in E. now subst y.
  - split.
    + apply NoDup_Add with (a := o) (l := l); [|split; [exact Hd|]].
      * replace l with (l ++ []) at 1 by apply app_nil_r. apply Add_app.
      * intros H. assert (existsb (offEqb o) l = true); [|congruence]. apply existsb_exists. exists o. split; [exact H|now apply offEqb_eq].
    + intros x. rewrite in_app_iff. cbn. split; intros [H|H]; auto. destruct H as [H|[]]; auto.
Qed.

Lemma addAll_spec ds : forall l, NoDup l ->
  NoDup (fold_left addOffset ds l) /\ forall x, In x (fold_left addOffset ds l) <-> In x l \/ In x ds.
Proof.
  induction ds as [|o ds IH]; intros l Hd; cbn [fold_left].
  - split; [exact Hd|]. intros x. cbn. tauto.
  - destruct (addOffset_spec l o Hd) as [H1 H2]. destruct (IH _ H1) as [H3 H4]. split; [exact H3|]. intros x. rewrite H4, H2. cbn.
    split; [intros [[H| ->]|H]; auto|intros [H|[->|H]]; auto].
Qed.

Definition halfOffset (dims d : I3) : StepOffsets := mkOff (threeToOneD (lowOf d) dims) (threeToOneD (highOf d) dims) (factor3 d).

Section Step.
  Variable dims : I3.
  Hypothesis Hd : 2 <= ix dims /\ 2 <= iy dims /\ 2 <= iz dims.

  Lemma low_grid d : In d stepLoop -> inGrid dims (lowOf d) /\ inGrid dims (highOf d).
  Proof. rewrite in_stepLoop. intros H. unfold inGrid, lowOf, highOf. cbn [ix iy iz]. lia. Qed.

  Lemma half_order d : In d halfOffs -> threeToOneD (lowOf d) dims <= threeToOneD (highOf d) dims.
  Proof.
    rewrite in_half. intros [(X & Y & Z) L]. unfold threeToOneD, lowOf, highOf. cbn [ix iy iz].
    assert (Q : 2 * ix dims <= ix dims * iy dims) by nia. assert (Q2 : 0 < ix dims * iy dims) by nia.
    assert (Q3 : forall x y z, (z * iy dims + y) * ix dims + x = z * (ix dims * iy dims) + y * ix dims + x) by (intros; ring).
    rewrite (Q3 (Z.max 0 (- ix d))), (Q3 (Z.max 0 (ix d))). clear Q3. set (w := ix dims * iy dims) in *. clearbody w.
    assert (CX : ix d = -1 \/ ix d = 0 \/ ix d = 1) by lia. assert (CY : iy d = -1 \/ iy d = 0 \/ iy d = 1) by lia.
    assert (CZ : iz d = -1 \/ iz d = 0 \/ iz d = 1) by lia.
    destruct CX as [EX|[EX|EX]], CY as [EY|[EY|EY]], CZ as [EZ|[EZ|EZ]]; rewrite EX, EY, EZ in *; cbn - [Z.mul]; lia.
  Qed.

  Lemma step_perm : Permutation (buildC08BaseStep dims) (map (halfOffset dims) halfOffs).
  Proof.
    unfold buildC08BaseStep. rewrite sortOffsets_perm. destruct (addAll_spec (map (stepOffset dims) stepLoop) [] (NoDup_nil _)) as [H1 H2].
    assert (Hsub : forall d, In d halfOffs -> In d stepLoop) by (intros d H; apply filter_In in H; exact (proj1 H)).
    apply NoDup_Permutation; [exact H1| |].
    - clear H1 H2.
      assert (Hinj : forall l, (forall d, In d l -> In d halfOffs) -> NoDup l -> NoDup (map (halfOffset dims) l)).
      { induction l as [|d l IH]; intros Hl Hn; [constructor|]. inversion Hn as [|? ? Hn1 Hn2]; subst. cbn [map]. constructor.
        - intros H. apply in_map_iff in H as (d' & E & Hd'). injection E as E1 E2 _. apply Hn1.
          destruct (low_grid d) as [G1 G2]; [apply Hsub, Hl; now left|]. destruct (low_grid d') as [G1' G2']; [apply Hsub, Hl; now right|].
          apply threeToOneD_inj in E1; [|assumption|assumption]. apply threeToOneD_inj in E2; [|assumption|assumption].
          replace d with d'; [exact Hd'|]. unfold lowOf, highOf in E1, E2. injection E1 as A1 A2 A3. injection E2 as B1 B2 B3. apply i3_ext; lia.
        - apply IH; [intros; apply Hl; now right|exact Hn2]. }
      apply Hinj; [auto|apply NoDup_half].
    - intros o. rewrite H2. split.
      + intros [[]|H]. apply in_map_iff in H as (d & <- & H). apply in_map_iff. rewrite stepOffset_eq.
        destruct (lexNonnegb d) eqn:E.
        * exists d. assert (Hh : In d halfOffs) by (apply filter_In; auto). split; [|exact Hh].
          pose proof (half_order d Hh). unfold halfOffset. rewrite Z.min_l, Z.max_r by assumption. reflexivity.
        * exists (mkI3 (- ix d) (- iy d) (- iz d)). assert (Hh : In (mkI3 (- ix d) (- iy d) (- iz d)) halfOffs).
          { apply in_half. apply in_stepLoop in H. cbn [ix iy iz]. split; [lia|].
            assert (~ (0 < iz d \/ (iz d = 0 /\ (0 < iy d \/ (iy d = 0 /\ 0 <= ix d))))); [|lia].
            intros C. apply lexNonnegb_spec in C. congruence. }
          split; [|exact Hh]. pose proof (half_order _ Hh) as Ho. unfold halfOffset.
          assert (E1 : lowOf (mkI3 (- ix d) (- iy d) (- iz d)) = highOf d) by (unfold lowOf, highOf; cbn [ix iy iz]; now rewrite !Z.opp_involutive).
          assert (E2 : highOf (mkI3 (- ix d) (- iy d) (- iz d)) = lowOf d) by reflexivity.
          rewrite E1, E2 in *. rewrite Z.min_r, Z.max_l by assumption. unfold factor3. cbn [ix iy iz]. now rewrite !Z.abs_opp.
      + intros H. right. apply in_map_iff in H as (d & <- & H). apply in_map_iff. exists d. split; [|auto].
        rewrite stepOffset_eq. pose proof (half_order d H). unfold halfOffset. rewrite Z.min_l, Z.max_r by assumption. reflexivity.
  Qed.

  (** ** The calls of all base steps *)
  Let one := mkI3 1 1 1.
  Definition stepBases : list I3 := concat (c08Colors dims one).
  Definition stepPair (k d : I3) : I3 * I3 := (i3add k (lowOf d), i3add k (highOf d)).
  Definition stepCall (k d : I3) : Z * Z * I3 := (flat2 dims (stepPair k d), d).
  Definition stepCalls : list (Z * Z * I3) := flat_map (fun k => map (stepCall k) halfOffs) stepBases.

  Lemma one_fits : gridFits dims one.
  Proof. unfold gridFits, positive, one. cbn [ix iy iz]. lia. Qed.

  Lemma in_stepBases k : In k stepBases <-> 0 <= ix k < ix dims - 1 /\ 0 <= iy k < iy dims - 1 /\ 0 <= iz k < iz dims - 1.
  Proof.
    unfold stepBases, c08Colors. rewrite colorTraversal_in by (apply (c08_stride_pos dims one), one_fits). reflexivity.
  Qed.

  Lemma pair_grid k d : In k stepBases -> In d stepLoop -> inGrid dims (fst (stepPair k d)) /\ inGrid dims (snd (stepPair k d)).
  Proof.
    rewrite in_stepBases, in_stepLoop. intros Hk H. unfold stepPair, inGrid, i3add, lowOf, highOf. cbn [fst snd ix iy iz]. lia.
  Qed.

  Lemma pair_offset d k : i3sub (snd (stepPair k d)) (fst (stepPair k d)) = d.
  Proof. unfold stepPair, i3sub, i3add, lowOf, highOf. cbn [fst snd ix iy iz]. apply i3_ext; cbn [ix iy iz]; lia. Qed.

  Lemma stepCalls_directed : directed dims stepCalls.
  Proof.
    intros c1 c2 dir H. apply in_flat_map in H as (k & Hk & H). apply in_map_iff in H as (d & E & Hdd).
    assert (Hs : In d stepLoop) by (apply filter_In in Hdd; exact (proj1 Hdd)). destruct (pair_grid k d Hk Hs) as [G1 G2].
    exists (fst (stepPair k d)), (snd (stepPair k d)). injection E as <- <- <-. split; [exact G1|]. split; [exact G2|].
    split; [reflexivity|]. split; [reflexivity|]. intros _. symmetry. apply (pair_offset d k).
  Qed.

  Lemma pair_inj k d k' d' : stepPair k d = stepPair k' d' -> k = k' /\ d = d'.
  Proof.
    intros E. pose proof (pair_offset d k) as E1. rewrite E in E1. rewrite pair_offset in E1. subst d'. split; [|reflexivity].
    unfold stepPair, i3add in E. injection E as A1 A2 A3 _ _ _. apply i3_ext; lia.
  Qed.

  Lemma pair_swap k d k' d' : In d halfOffs -> In d' halfOffs ->
    fst (stepPair k d) = snd (stepPair k' d') -> snd (stepPair k d) = fst (stepPair k' d') -> k = k' /\ d = d'.
  Proof.
    intros H H' E1 E2. pose proof (pair_offset d k) as F1. pose proof (pair_offset d' k') as F2. rewrite E1, E2 in F1.
    assert (EQ : d = mkI3 (- ix d') (- iy d') (- iz d')).
    { revert F1 F2. generalize (fst (stepPair k' d')) (snd (stepPair k' d')). intros u v <- <-. unfold i3sub. cbn [ix iy iz].
      apply i3_ext; cbn [ix iy iz]; lia. }
    apply in_half in H, H'. clear F1 F2. subst d. cbn [ix iy iz] in H.
    assert (Ex : ix d' = 0) by lia. assert (Ey : iy d' = 0) by lia. assert (Ez : iz d' = 0) by lia.
    assert (d' = mkI3 0 0 0) by (apply i3_ext; assumption). subst d'. split; [|reflexivity].
    apply i3_ext; [apply (f_equal ix) in E1|apply (f_equal iy) in E1|apply (f_equal iz) in E1]; cbn in E1; lia.
  Qed.

  Lemma stepCalls_fst : map fst stepCalls = map (flat2 dims) (flat_map (fun k => map (stepPair k) halfOffs) stepBases).
  Proof.
    unfold stepCalls. induction stepBases as [|k l IH]; [reflexivity|]. cbn [flat_map]. rewrite !map_app, IH, !map_map. reflexivity.
  Qed.

  Lemma stepCalls_times ka kc : inGrid dims ka -> inGrid dims kc ->
    (timesProcessed dims (map fst stepCalls) ka kc <= 1)%nat /\
    (ownedCell dims one ka \/ ownedCell dims one kc ->
     Z.abs (ix ka - ix kc) <= 1 -> Z.abs (iy ka - iy kc) <= 1 -> Z.abs (iz ka - iz kc) <= 1 ->
     timesProcessed dims (map fst stepCalls) ka kc = 1%nat).
  Proof.
    intros Ga Gc. rewrite stepCalls_fst, timesProcessed_flat; auto.
    2:{ intros c H. apply in_flat_map in H as (k & Hk & H). apply in_map_iff in H as (d & <- & Hdd). apply pair_grid; [exact Hk|].
        apply filter_In in Hdd. exact (proj1 Hdd). }
    assert (Hnd : NoDup (flat_map (fun k => map (stepPair k) halfOffs) stepBases)).
    { apply NoDup_flat_map; [apply colorTraversal_NoDup, (c08_stride_pos dims one), one_fits| |].
      - intros k _. apply FinFun.Injective_map_NoDup; [|apply NoDup_half]. intros d d' E. now apply pair_inj in E.
      - intros k k' x _ _ H H'. apply in_map_iff in H as (d & <- & _). apply in_map_iff in H' as (d' & E & _). symmetry. now apply pair_inj in E. }
    assert (Hle : (occ (same3 ka kc) (flat_map (fun k => map (stepPair k) halfOffs) stepBases) <= 1)%nat).
    { apply occ_le_one_of_unique; [exact Hnd|]. intros x y Hx Hy Ex Ey.
      apply in_flat_map in Hx as (k & Hk & Hx). apply in_map_iff in Hx as (d & <- & Hdd).
      apply in_flat_map in Hy as (k' & Hk' & Hy). apply in_map_iff in Hy as (d' & <- & Hd').
      apply same3_true in Ex, Ey. destruct Ex as [[E1 E2]|[E1 E2]], Ey as [[F1 F2]|[F1 F2]].
      - apply injective_projections; congruence.
      - destruct (pair_swap k d k' d' Hdd Hd') as [-> ->]; congruence.
      - destruct (pair_swap k d k' d' Hdd Hd') as [-> ->]; congruence.
      - apply injective_projections; congruence. }
    split; [exact Hle|]. intros Ho X Y Z.
    assert (Hor : exists p q, ((p = ka /\ q = kc) \/ (p = kc /\ q = ka)) /\ In (i3sub q p) halfOffs).
    { destruct (lexNonnegb (i3sub kc ka)) eqn:E.
      - exists ka, kc. split; [now left|]. apply in_half. apply lexNonnegb_spec in E. unfold i3sub in *. cbn [ix iy iz] in *. lia.
      - exists kc, ka. split; [now right|]. apply in_half.
        assert (~ (0 < iz (i3sub kc ka) \/ (iz (i3sub kc ka) = 0 /\ (0 < iy (i3sub kc ka) \/ (iy (i3sub kc ka) = 0 /\ 0 <= ix (i3sub kc ka)))))).
        { intros C. apply lexNonnegb_spec in C. congruence. }
        unfold i3sub in *. cbn [ix iy iz] in *. lia. }
    destruct Hor as (p & q & Hpq & Hh).
    set (k := mkI3 (Z.min (ix p) (ix q)) (Z.min (iy p) (iy q)) (Z.min (iz p) (iz q))).
    assert (Ep : stepPair k (i3sub q p) = (p, q)).
    { unfold stepPair, i3add, lowOf, highOf, i3sub, k. cbn [ix iy iz]. f_equal; apply i3_ext; cbn [ix iy iz]; lia. }
    assert (H1 : (1 <= occ (same3 ka kc) (flat_map (fun k => map (stepPair k) halfOffs) stepBases))%nat); [|lia].
    apply occ_pos_of_in with (x := (p, q)).
    - apply in_flat_map. exists k. split; [|apply in_map_iff; eauto]. apply in_stepBases. unfold k. cbn [ix iy iz].
      unfold ownedCell, inGrid, one in *. cbn [ix iy iz] in *. destruct Hpq as [[-> ->]|[-> ->]]; lia.
    - apply same3_true. cbn [fst snd]. tauto.
  Qed.
End Step.
