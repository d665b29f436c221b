(** Iterators over the cluster lists visit what they should. *)
From Coq Require Import Reals Lra Psatz.
From Verif.Base Require Import ZRange Lists.
From Verif.Functor Require Import SortModel.
From Verif.Grid Require Import CellBlockSpec.
From Verif.Container Require Import IteratorModel IteratorContainers IteratorSpec IteratorLemmas IteratorSearch
  IteratorParallel IteratorInstances IteratorRegion IteratorRestart.
From Verif.Cluster Require Import BlockModel BlockGeo ClusterContainerModel ClusterContainerSpec ClusterGeo.
Local Open Scope Z_scope.

Lemma eq_perm {A} (a b : list A) : a = b -> Permutation a b.
Proof. now intros ->. Qed.
Lemma seq_shift_n k n m : seq (k + n) m = map (Nat.add k) (seq n m).
Proof. revert n. induction m as [|m IH]; intros n; [reflexivity|]. cbn [seq map]. f_equal. rewrite <- IH. f_equal. lia. Qed.

Section Gather.
  Context {P : Type}.
  Variable ownership : P -> Z.

  Lemma nth_firstn_lt {A} n b (l : list A) d : (b < n)%nat -> nth b (firstn n l) d = nth b l d.
  Proof.
    revert b l. induction n as [|n IH]; intros b l H; [lia|]. destruct l as [|a l]; [reflexivity|].
    destruct b as [|b]; [reflexivity|]. cbn. apply IH. lia.
  Qed.
  Lemma nth_skipn {A} n b (l : list A) d : nth b (skipn n l) d = nth (n + b) l d.
  Proof. revert l. induction n as [|n IH]; intros l; [reflexivity|]. destruct l as [|a l]; [now destruct b|]. cbn. apply IH. Qed.

  Lemma vcl_sub behavior nOwned nHandler valid (st : Store P) b :
    vclBuffers ownership nOwned nHandler valid (buffers st) -> In b (vclGather behavior nOwned nHandler valid st) ->
    (b < length (buffers st))%nat.
  Proof.
    intros (V & N & _) H. unfold vclGather in H. apply in_app_or in H. destruct H as [H|H].
    - destruct V as (V1 & _). apply (gather_sub _ _ (mkStore (cells st) (firstn nHandler (buffers st)))) in H; [|exact V1].
      cbn [buffers] in H. rewrite firstn_length in H. lia.
    - destruct valid; [destruct H|]. apply in_seq in H. lia.
  Qed.

  Lemma vcl_NoDup behavior nOwned nHandler valid (st : Store P) :
    vclBuffers ownership nOwned nHandler valid (buffers st) -> NoDup (vclGather behavior nOwned nHandler valid st).
  Proof.
    intros (V & N & _). unfold vclGather. apply NoDup_app_intro.
    - apply gather_NoDup.
    - destruct valid; [constructor|apply seq_NoDup].
    - intros b H1 H2. destruct V as (V1 & _). apply (gather_sub _ _ (mkStore (cells st) (firstn nHandler (buffers st)))) in H1; [|exact V1].
      cbn [buffers] in H1. rewrite firstn_length in H1. destruct valid; [destruct H2|]. apply in_seq in H2. lia.
  Qed.

  Lemma vcl_goodVecs behavior nOwned nHandler valid (st : Store P) :
    vclBuffers ownership nOwned nHandler valid (buffers st) -> goodVecs (buffers st) (vclGather behavior nOwned nHandler valid st).
  Proof.
    intros V. split; [|split].
    - assert (size (vclGather behavior nOwned nHandler valid st) <= size (buffers st)); [|destruct V as (_ & _ & V & _); lia].
      unfold size. apply inj_le. rewrite <- (seq_length (length (buffers st)) 0).
      apply NoDup_incl_length; [now apply vcl_NoDup|]. intros b Hb. apply in_seq. pose proof (vcl_sub _ _ _ _ _ _ V Hb). lia.
    - intros b Hb. exact (vcl_sub _ _ _ _ _ _ V Hb).
    - now destruct V as (_ & _ & _ & V & _).
  Qed.

  Lemma vcl_contents behavior nOwned nHandler valid (st : Store P) (f : P -> bool) : goodBehavior behavior ->
    vclBuffers ownership nOwned nHandler valid (buffers st) ->
    (forall x, validState (ownership x) -> f x = true -> wantedb behavior (ownership x) = true) ->
    Permutation (flat_map (fun b => filter f (nth b (buffers st) [])) (vclGather behavior nOwned nHandler valid st))
      (filter f (concat (buffers st))).
  Proof.
    intros B V F. pose proof V as (V1 & N & _ & _ & _ & E). unfold vclGather. rewrite flat_map_app.
    replace (filter f (concat (buffers st))) with (filter f (concat (firstn nHandler (buffers st))) ++ filter f (concat (skipn nHandler (buffers st))))
      by (now rewrite <- filter_app, <- concat_app, firstn_skipn). apply Permutation_app.
    - pose proof (gather_contents ownership behavior nOwned (mkStore (cells st) (firstn nHandler (buffers st))) f B V1 F) as G.
      cbn [buffers] in G. rewrite <- G. apply eq_perm. rewrite !flat_map_concat_map. f_equal. apply map_ext_in.
      intros b H. apply (gather_sub _ _ (mkStore (cells st) (firstn nHandler (buffers st)))) in H; [|now destruct V1].
      cbn [buffers] in H. rewrite firstn_length in H. rewrite nth_firstn_lt by lia. reflexivity.
    - destruct valid.
      + specialize (E eq_refl). cbn [flat_map]. rewrite filter_nil; [reflexivity|]. intros x H. apply in_concat in H.
        destruct H as (l & L & H). rewrite (E l L) in H. destruct H.
      + rewrite filter_concat, flat_map_seq. rewrite skipn_length. apply eq_perm. rewrite !flat_map_concat_map. f_equal.
        replace nHandler with (nHandler + 0)%nat at 1 by lia. rewrite seq_shift_n, map_map. apply map_ext. intros b. now rewrite nth_skipn.
  Qed.
End Gather.

Section Iterate.
  Context {P : Type}.
  Variable ownership : P -> Z.

  (** Conditions on the towers and the region that suffice. *)
  Lemma vcl_by behavior numThreads nOwned nHandler T valid region mark (conf : Z -> Conf P) decide (st : Store P) schedule :
    loopThreads behavior numThreads T ->
    (forall t, conf t = withThread (conf 0) (itThread behavior t)) -> stride (conf 0) = itStride behavior numThreads ->
    0 <= startCell (conf 0) -> goodCells (conf 0) (cells st) ->
    (forall l x, In l (cells st) -> In x l -> validState (ownership x)) ->
    vclBuffers ownership nOwned nHandler valid (buffers st) ->
    (forall x, ful (conf 0) x = fulfills behavior (region x) (ownership x)) ->
    marking (conf 0) = Some mark -> (forall x, ownership (mark x) = 0) ->
    (vclGather behavior nOwned nHandler valid st <> [] \/ forall t seen x, decide t seen x = false) ->
    allowedSchedule decide T schedule \/ nHandler = 0%nat ->
    iterationCorrectBy (vclGather behavior nOwned nHandler valid) ownership behavior T region conf (Some mark) decide st schedule.
  Proof.
    intros HL Hc Hs H0 Gc Hv Vb Hful Em Hm Hg Ha. apply (run_withThread_by ownership _ behavior numThreads); auto. rewrite <- Em.
    assert (Hb := loop_good _ _ _ HL). assert (HT := proj1 HL).
    apply iterate_by; auto.
    - rewrite Hs. now apply loop_stride.
    - intros x Hx. unfold contents in Hx. apply in_app_or in Hx. destruct Hx as [Hx|Hx]; apply in_concat in Hx; destruct Hx as (l & Hl & Hx).
      + now apply (Hv l).
      + destruct Vb as ((_ & _ & _ & V4) & _ & _ & _ & V5 & _). rewrite <- (firstn_skipn nHandler (buffers st)) in Hl.
        apply in_app_or in Hl. destruct Hl as [Hl|Hl]; [|now apply (V5 l)].
        apply In_nth_error in Hl. destruct Hl as [b El]. now destruct (V4 b l x El Hx).
    - now apply (vcl_goodVecs ownership).
    - now apply (vcl_NoDup ownership).
    - apply (vcl_contents ownership); auto. intros x Hx F. rewrite Hful, fulfills_wanted in F by assumption. apply andb_prop in F. tauto.
    - rewrite Em. intros m [= <-]. exact Hm.
    - destruct Ha as [Ha| ->]; [now left|]. right. intros s s' E. unfold vclGather. cbn [firstn]. rewrite E. f_equal.
  Qed.

  Lemma towers_valid old g towers l x : inTowers ownership old g towers -> In l towers -> In x l -> validState (ownership x).
  Proof.
    intros [(_ & _ & _ & H)|(-> & _)] L X; [|destruct L as [<-|[]]; destruct X].
    apply In_nth_error in L. destruct L as [k K]. destruct (H (Z.of_nat k) l) as [_ S]; [|now destruct (S x X)].
    unfold at_. destruct (Z.ltb_spec (Z.of_nat k) 0); [lia|]. now rewrite Nat2Z.id.
  Qed.

  Lemma first_ge old g towers : inTowers ownership old g towers -> 0 <= firstOwnedTower g /\ lastOwnedTower g < size towers.
  Proof.
    intros [(R & -> & _)|(-> & bMin & bMax & il & [-> |(B & I & ->)])].
    - apply last_range. now apply regular_dims.
    - unfold firstOwnedTower, lastOwnedTower, tower1D. cbn. lia.
    - assert (N : 1 <= gNIL (emptyGrid bMin bMax il)).
      { unfold emptyGrid. cbn [gNIL]. destruct B as (X & Y & _).
        assert (1 <= haloTowers il (rx bMax - rx bMin)); [|lia]. apply Zceil_pos. apply Rdiv_lt_0_compat; lra. }
      unfold firstOwnedTower, lastOwnedTower, tower1D, size. cbn [length emptyGrid gNX gNY]. lia.
  Qed.

  (** One tower without particles. *)
  Lemma one_good (cf : Conf P) : lastCell cf = endCell cf -> endCell cf < 1 -> goodCells cf [[]].
  Proof.
    intros L H. split; [rewrite L; cbn; lia|]. split; [reflexivity|]. intros c l E. apply at_some in E. destruct E as [R E].
    cbn in R. assert (c = 0) by lia. subst c. cbn in E. injection E as <-. split; [reflexivity|]. intros x [].
  Qed.

  Lemma vcl_goodCells old g behavior numThreads mark towers t : goodBehavior behavior -> inTowers ownership old g towers ->
    goodCells (vclConf ownership behavior numThreads g (size towers) mark t) towers.
  Proof.
    intros B I. destruct (first_ge _ _ _ I) as [F0 L0]. destruct I as [(R & S & M & H)|(-> & _)].
    - assert (D := regular_dims g R). split; [|split; [exact M|]].
      + unfold vclConf. cbn [endCell lastCell]. destruct (hasFlag _ _); lia.
      + intros c l E. destruct (H c l E) as [H1 H2]. split; [exact H1|]. intros x X F. cbn [vclConf relevant startCell endCell ful] in *.
        split; [reflexivity|]. apply at_some in E. destruct E as [C E].
        destruct (hasFlag behavior bhHalo) eqn:Fl; [unfold size in *; lia|].
        destruct (H2 x X) as (V & T & O). rewrite fulfills_wanted in F by assumption. cbn [andb] in F.
        assert (Ow : ownership x = 1).
        { destruct B as [[->|[->|[->| ->]]]|[->|[->|[->| ->]]]]; try discriminate Fl; unfold wantedb in F; cbn in F; lia. }
        destruct (owned_index g c (old x) D) as [K _]; auto. lia.
    - apply one_good; [reflexivity|]. unfold vclConf. cbn [endCell]. destruct (hasFlag _ _); cbn in *; lia.
  Qed.

  Theorem vcl_iterate (old : P -> R3) g behavior numThreads nOwned nHandler T valid mark decide (st : Store P) schedule :
    loopThreads behavior numThreads T -> inTowers ownership old g (cells st) ->
    vclBuffers ownership nOwned nHandler valid (buffers st) -> (forall x, ownership (mark x) = 0) ->
    (vclGather behavior nOwned nHandler valid st <> [] \/ forall t seen x, decide t seen x = false) ->
    allowedSchedule decide T schedule \/ nHandler = 0%nat ->
    iterationCorrectBy (vclGather behavior nOwned nHandler valid) ownership behavior T (fun _ => true)
      (vclConf ownership behavior numThreads g (size (cells st)) mark) (Some mark) decide st schedule.
  Proof.
    intros HL It Vb Hm Hg Ha. apply (vcl_by behavior numThreads); auto.
    - unfold vclConf. cbn [startCell]. destruct (hasFlag _ _); [lia|]. exact (proj1 (first_ge _ _ _ It)).
    - apply (vcl_goodCells old); auto. now apply (loop_good _ numThreads T).
    - intros l x. now apply (towers_valid old g).
  Qed.

  Theorem vcl_restart (old : P -> R3) g behavior numThreads nOwned nHandler T valid mark d (st : Store P) schedule :
    loopThreads behavior numThreads T -> inTowers ownership old g (cells st) ->
    vclBuffers ownership nOwned nHandler valid (buffers st) -> (forall x, ownership (mark x) = 0) -> behavior <> 7 /\ behavior <> 15 ->
    vclGather behavior nOwned nHandler valid st = [] ->
    iterationOrRestartBy (vclGather behavior nOwned nHandler valid) ownership behavior T (fun _ => true)
      (vclConf ownership behavior numThreads g (size (cells st)) mark) (Some mark) d st schedule.
  Proof.
    intros HL It Vb Hm Hn Hg. assert (Hb := loop_good _ _ _ HL). assert (HT := proj1 HL).
    set (conf := vclConf ownership behavior numThreads g (size (cells st)) mark).
    assert (R : iterationOrRestartBy (vclGather behavior nOwned nHandler valid) ownership behavior T (fun _ => true)
      (fun t => withThread (conf 0) t) (marking (conf 0)) d st schedule).
    { apply restart_by; auto.
      - unfold conf, vclConf. cbn [stride]. now apply loop_stride.
      - unfold conf, vclConf. cbn [startCell]. destruct (hasFlag _ _); [lia|]. exact (proj1 (first_ge _ _ _ It)).
      - apply (vcl_goodCells old); auto.
      - intros x Hx. unfold contents in Hx. apply in_app_or in Hx. destruct Hx as [Hx|Hx]; apply in_concat in Hx; destruct Hx as (l & Hl & Hx).
        + now apply (towers_valid old g (cells st) l).
        + destruct Vb as ((_ & _ & _ & V4) & _ & _ & _ & V5 & _). rewrite <- (firstn_skipn nHandler (buffers st)) in Hl.
          apply in_app_or in Hl. destruct Hl as [Hl|Hl]; [|now apply (V5 l)].
          apply In_nth_error in Hl. destruct Hl as [b El]. now destruct (V4 b l x El Hx).
      - now destruct Vb as (_ & _ & _ & V & _).
      - assert (Q : Permutation [] (filter (ful (conf 0)) (concat (buffers st)))).
        { rewrite <- (vcl_contents ownership behavior nOwned nHandler valid st (ful (conf 0)) Hb Vb); [now rewrite Hg|].
          intros x Hx F. unfold conf, vclConf in F. cbn [ful] in F. rewrite fulfills_wanted in F by assumption. exact F. }
        now apply Permutation_nil in Q.
      - intros m [= <-]. auto.
      - intros s E. unfold vclGather in *. rewrite E. apply app_eq_nil in Hg. destruct Hg as [G1 G2]. rewrite G2, app_nil_r.
        rewrite <- G1. unfold gather. reflexivity. }
    destruct R as (st' & ths & E & R). exists st', ths. split; [|exact R]. rewrite <- E.
    apply (run_conf behavior numThreads T); auto.
  Qed.

  (** ** Regions *)
  Lemma moved_corners old pos margin (x : P) lo hi : movedWithin old pos margin x -> inBox lo hi (pos x) ->
    leq3 (shift lo (- margin)) (old x) /\ leq3 (old x) (shift hi margin) /\
    (rx (old x) < rx (shift hi margin) /\ ry (old x) < ry (shift hi margin) /\ rz (old x) < rz (shift hi margin))%R.
  Proof.
    intros (X & Y & Z) (A & B & C). unfold leq3, shift. cbn [rx ry rz].
    assert (K : forall a m, (Rabs a <= m -> - m <= a <= m)%R) by (intros a m H; unfold Rabs in H; destruct (Rcase_abs a); lra).
    apply K in X. apply K in Y. apply K in Z. lra.
  Qed.

  Lemma overlap_at lo hi lo' hi' p : inBox lo hi p -> leq3 lo' p -> (rx p < rx hi' /\ ry p < ry hi' /\ rz p < rz hi')%R ->
    boxesOverlap lo hi lo' hi' = true.
  Proof.
    intros (A & B & C) (X & Y & Z) (U & V & W). unfold boxesOverlap.
    repeat match goal with |- context [Rlt_dec ?a ?b] => destruct (Rlt_dec a b) end; try lra; reflexivity.
  Qed.

  Theorem vcl_region (old pos : P -> R3) g behavior numThreads nOwned nHandler T valid mark decide (st : Store P) schedule margin lo hi :
    loopThreads behavior numThreads T -> inTowers ownership old g (cells st) ->
    vclBuffers ownership nOwned nHandler valid (buffers st) -> (forall x, ownership (mark x) = 0) ->
    (vclGather behavior nOwned nHandler valid st <> [] \/ forall t seen x, decide t seen x = false) ->
    allowedSchedule decide T schedule \/ nHandler = 0%nat ->
    (forall l x, In l (cells st) -> In x l -> movedWithin old pos margin x) ->
    iterationCorrectBy (vclGather behavior nOwned nHandler valid) ownership behavior T (fun x => inBoxb lo hi (pos x))
      (vclRegionConf ownership behavior numThreads g (size (cells st)) mark pos margin lo hi) (Some mark) decide st schedule.
  Proof.
    intros HL It Vb Hm Hg Ha Hmove. assert (Hb := loop_good _ _ _ HL). apply (vcl_by behavior numThreads); auto.
    - unfold vclRegionConf. cbn [startCell]. destruct It as [(R & -> & _)|(-> & _)]; [|reflexivity].
      destruct (regular_dims g R) as (ox & oy & [_ _ NX _ _ OX LX] & [_ _ NY _ _ OY LY]). apply at_range; lia.
    - destruct It as [(R & S & M & H)|(E & _)].
      + assert (D := regular_dims g R). pose proof D as (ox & oy & [_ _ NX _ _ OX LX] & [_ _ NY _ _ OY LY]).
        split; [|split; [exact M|]].
        * unfold vclRegionConf. cbn [endCell lastCell]. split; [lia|]. apply at_range; lia.
        * intros c l E. destruct (H c l E) as [H1 H2]. split; [exact H1|]. intros x X F.
          assert (C : 0 <= c < gNX g * gNY g) by (apply at_some in E; rewrite <- S; tauto).
          assert (Lc : In l (cells st)) by (apply at_some in E; destruct E as [_ E]; now apply nth_error_In in E).
          destruct (H2 x X) as (V & Tw & O). unfold vclRegionConf in *. cbn [relevant startCell endCell ful] in *.
          rewrite fulfills_wanted in F by assumption. apply andb_prop in F. destruct F as [F _]. apply inBoxb_iff in F.
          destruct (moved_corners old pos margin x lo hi (Hmove l x Lc X) F) as (K1 & K2 & K3).
          split; [apply orb_true_iff; right; now apply (overlap_at _ _ _ _ (old x))|].
          rewrite S. pose proof (at_mono g _ _ D K1) as M1. pose proof (at_mono g _ _ D K2) as M2.
          rewrite (box_index g c (old x) D C Tw) in M1, M2. lia.
      + rewrite E. apply one_good; [reflexivity|]. unfold vclRegionConf, towerIndexAt. cbn [endCell]. cbn. lia.
    - intros l x. now apply (towers_valid old g).
  Qed.
End Iterate.
