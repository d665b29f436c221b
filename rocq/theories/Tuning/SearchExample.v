(** * Examples and refutations for the search space *)

From Coq Require Import Reals List Bool Arith ZArith Lra Lia.
From Verif.Tuning Require Import SearchModel SearchSpec SearchProofs.
Import ListNotations.
Open Scope R_scope.

Lemma compatible_exact : forall c,
  hasCompatibleValues c = Some true <->
  usable c /\ (cInteraction c = triwise -> offersTriwise (cContainer c)) /\
  exists allowed, estimatorFits allowed c.
Proof.
  intros c. rewrite compatible_iff. split.
  - intros (U & T & L). split; auto. split; auto.
    exists [leNone; squaredParticlesPerCell; neighborListLength]. apply estimators_iff; [apply U|exact L].
  - intros (U & T & (al & L)). split; auto. split; auto.
    apply estimators_all with al; [apply U|]. apply estimators_iff; [apply U|exact L].
Qed.

Lemma factors_refuted : exists min max interactionLength domainLength f n,
  0 < min <= max /\ 0 < interactionLength /\ 0 < domainLength /\ min <= f <= max /\
  cellsFor domainLength interactionLength f n /\
  forall f', In f' (relevantCsfs min max interactionLength domainLength) ->
    ~ cellsFor domainLength interactionLength f' n.
Proof.
  exists 1, 4, 1, 10, 4, 2%nat. repeat (split; [lra|]). split; [unfold cellsFor; cbn; lra|].
  intros f' H [C1 C2]. apply relevant_iff in H; try lra.
  destruct H as (n & Hn & [H1 H2] & E). rewrite E in C1, C2.
  assert (n = 2)%nat.
  { assert (2 <= n)%nat by (apply INR_le; exact C1).
    assert (n < 3)%nat by (apply INR_lt; cbn in *; lra). lia. }
  subst n. assert (10 = 2 * f') by (apply (Rmult_eq_compat_r (1 * f')) in E;
    replace (10 / (1 * f') * (1 * f')) with 10 in E by (field; lra); cbn in E; lra).
  lra.
Qed.

Lemma init_refuted : exists min max cutoff skinPerTimestep frequency box fs f f' n,
  0 < min <= max /\ 0 < cutoff /\ 0 < skinPerTimestep /\ (0 < frequency)%nat /\ 0 < box /\
  initFactors (Interval min max) cutoff skinPerTimestep frequency box = Some fs /\
  In f fs /\ In f' fs /\ f <> f' /\
  let interactionLength := cutoff + skinPerTimestep * INR frequency in
  cellsFor box interactionLength f n /\ cellsFor box interactionLength f' n /\
  box / (interactionLength * f) <> INR n /\ box / (interactionLength * f') <> INR n.
Proof.
  exists 1, 2, 1, (1 / 10), 2%nat, 12, (relevantCsfs 1 2 (1 * (1 / 10) * INR 2) 12), (60 / 59), (30 / 29), 9%nat.
  split; [lra|]. split; [lra|]. split; [lra|]. split; [lia|]. split; [lra|].
  split; [unfold initFactors; destruct (Req_EM_T _ _) as [E|E]; [cbn in E; lra|reflexivity]|].
  assert (E59 : INR 59 = 59) by (rewrite INR_IZR_INZ; reflexivity).
  assert (E58 : INR 58 = 58) by (rewrite INR_IZR_INZ; reflexivity).
  assert (E9 : INR 9 = 9) by (rewrite INR_IZR_INZ; reflexivity).
  assert (E2 : INR 2 = 2) by (rewrite INR_IZR_INZ; reflexivity).
  split; [|split; [|split; [lra|]]].
  - apply relevant_iff; try (rewrite ?E2; lra). exists 59%nat. split; [lia|]. split; [lra|]. rewrite E59, E2. lra.
  - apply relevant_iff; try (rewrite ?E2; lra). exists 58%nat. split; [lia|]. split; [lra|]. rewrite E58, E2. lra.
  - unfold cellsFor. rewrite E9, E2.
    replace (12 / ((1 + 1 / 10 * 2) * (60 / 59))) with (59 / 6) by field.
    replace (12 / ((1 + 1 / 10 * 2) * (30 / 29))) with (29 / 3) by field. lra.
Qed.

Lemma init_undefined : forall min max cutoff frequency box,
  initFactors (Interval min max) cutoff 0 frequency box = None.
Proof. intros. unfold initFactors. destruct (Req_EM_T _ _) as [E|E]; [reflexivity|exfalso; apply E; ring]. Qed.

Lemma product_wanted : forall cs ts les ls ns fs i s c,
  cartesianProduct cs ts les ls ns fs i = Some s -> In c s ->
  estimatorFits les c /\ (cInteraction c = triwise -> offersTriwise (cContainer c)).
Proof.
  intros cs ts les ls ns fs i s c E H. destruct fs as [fs|]; [|discriminate].
  pose proof (product_exact cs ts les ls ns fs i) as P. rewrite E in P. destruct P as (_ & _ & P).
  apply P in H as (_ & _ & _ & _ & _ & Ei & L & _ & T). split; auto. rewrite Ei. exact T.
Qed.

Lemma usable_static : forall c, selectorCreates (cInteraction c) (cTraversal c) = true ->
  acceptsInterface (cContainer c) (interfaceOf (cTraversal c)) = true ->
  staticOk (cInteraction c) (cTraversal c) (cLayout c) (cNewton3 c) = true -> usable c.
Proof. intros c H1 H2 H3. split; auto. split; auto. apply applicable_iff, H3. Qed.

Lemma references_refuted :
  exists c c', usable c /\ usable c' /\
  isBalanced (cTraversal c') = true /\ implementsEstimator (cContainer c') (cLoadEstimator c') = true /\
  forall containers traversals loadEstimators layouts n3s factors i s,
    cartesianProduct containers traversals loadEstimators layouts n3s factors i = Some s -> ~ In c s /\ ~ In c' s.
Proof.
  exists (Config linkedCellsReferences 1 lc_c01 leNone aos n3Disabled triwise),
         (Config linkedCellsReferences 1 lc_sliced_balanced squaredParticlesPerCell aos n3Disabled pairwise).
  split; [apply usable_static; reflexivity|]. split; [apply usable_static; reflexivity|].
  split; [reflexivity|]. split; [reflexivity|].
  intros cs ts les ls ns fs i s E. split; intros H; apply (product_wanted _ _ _ _ _ _ _ _ _ E) in H as [L T]; cbn in L, T.
  - apply (T eq_refl). reflexivity.
  - unfold estimatorFits in L; cbn in L. destruct L as [([N _] & _)|[N _]]; [apply N; reflexivity | discriminate].
Qed.

Definition exC := [linkedCells; octree].
Definition exT := [lc_c04_combined_SoA; lc_sliced_balanced; ot_c01; vlc_c18].
Definition exE := [squaredParticlesPerCell; neighborListLength].

Lemma wanted_intro : forall cs ts les ls ns fs i c,
  In (cContainer c) cs -> In (cTraversal c) ts -> In (cLayout c) ls -> In (cNewton3 c) ns -> In (cFactor c) fs ->
  cInteraction c = i -> estimatorFits les c -> usable c -> (i = triwise -> offersTriwise (cContainer c)) ->
  wanted cs ts les ls ns fs i c.
Proof. intros. unfold wanted. auto 12. Qed.

Lemma example_first : wanted exC exT exE [aos; soa] [n3Disabled; n3Enabled] [1; 2] pairwise
    (Config linkedCells 2 lc_c04_combined_SoA leNone soa n3Enabled pairwise).
Proof.
  apply wanted_intro; [left|left|right; left|right; left|right; left| | | |discriminate]; try reflexivity.
  apply usable_static; reflexivity.
Qed.

Lemma example_second : wanted exC exT exE [aos; soa] [n3Disabled; n3Enabled] [1; 2] pairwise
    (Config linkedCells 1 lc_sliced_balanced squaredParticlesPerCell aos n3Enabled pairwise).
Proof.
  apply wanted_intro; [left|right; left|left|right; left|left| | | |discriminate]; try reflexivity.
  - left. split; [split; discriminate|]. split; [left; reflexivity|reflexivity].
  - apply usable_static; reflexivity.
Qed.

Lemma example_space : exists s,
  cartesianProduct [linkedCells; octree] [lc_c04_combined_SoA; lc_sliced_balanced; ot_c01; vlc_c18]
    [squaredParticlesPerCell; neighborListLength] [aos; soa] [n3Disabled; n3Enabled] (Finite [1; 2]) pairwise = Some s /\
  In (Config linkedCells 2 lc_c04_combined_SoA leNone soa n3Enabled pairwise) s /\
  In (Config linkedCells 1 lc_sliced_balanced squaredParticlesPerCell aos n3Enabled pairwise) s /\
  ~ In (Config linkedCells 1 lc_sliced_balanced leNone aos n3Enabled pairwise) s /\
  ~ In (Config linkedCells 2 lc_c04_combined_SoA leNone aos n3Enabled pairwise) s /\
  ~ In (Config octree 1 ot_c01 leNone soa n3Enabled pairwise) s.
Proof.
  fold exC exT exE.
  pose proof example_first as W1. pose proof example_second as W2.
  assert (W3 : ~ wanted exC exT exE [aos; soa] [n3Disabled; n3Enabled] [1; 2] pairwise
    (Config linkedCells 1 lc_sliced_balanced leNone aos n3Enabled pairwise)).
  { intros (_ & _ & _ & _ & _ & _ & L & _). unfold estimatorFits in L.
    cbn [isBalanced cTraversal cContainer cLoadEstimator] in L.
    destruct L as [(_ & [E|[E|[]]] & _)|[_ [N|N]]]; try discriminate.
    - apply N. split; discriminate.
    - specialize (N squaredParticlesPerCell (or_introl eq_refl)). discriminate. }
  assert (W4 : ~ wanted exC exT exE [aos; soa] [n3Disabled; n3Enabled] [1; 2] pairwise
    (Config linkedCells 2 lc_c04_combined_SoA leNone aos n3Enabled pairwise)).
  { intros (_ & _ & _ & _ & _ & _ & _ & (_ & _ & g & _ & A) & _). apply applicable_static in A. discriminate A. }
  assert (W5 : ~ wanted exC exT exE [aos; soa] [n3Disabled; n3Enabled] [1; 2] pairwise
    (Config octree 1 ot_c01 leNone soa n3Enabled pairwise)).
  { intros (_ & _ & _ & _ & _ & _ & _ & (_ & _ & g & _ & A) & _). apply applicable_static in A. discriminate A. }
  pose proof (product_exact exC exT exE [aos; soa] [n3Disabled; n3Enabled] [1; 2] pairwise) as P.
  revert P W1 W2 W3 W4 W5.
  generalize (wanted exC exT exE [aos; soa] [n3Disabled; n3Enabled] [1; 2] pairwise) as W.
  generalize (cartesianProduct exC exT exE [aos; soa] [n3Disabled; n3Enabled] (Finite [1; 2]) pairwise) as o.
  intros [s|] W P W1 W2 W3 W4 W5; [|exfalso; eapply P, W1].
  destruct P as (_ & _ & P). exists s. rewrite !P. auto 10.
Qed.

Lemma example_nothing : cartesianProduct [octree] [ot_c01] [leNone] [soa] [n3Enabled] (Finite [1]) pairwise = None.
Proof.
  pose proof (product_exact [octree] [ot_c01] [leNone] [soa] [n3Enabled] [1] pairwise) as P.
  destruct (cartesianProduct [octree] [ot_c01] [leNone] [soa] [n3Enabled] (Finite [1]) pairwise) as [[|c s]|]; auto.
  - destruct P as (_ & N & _). contradiction.
  - exfalso. destruct P as (_ & _ & P). destruct (proj1 (P c) (or_introl eq_refl))
      as (_ & [T|[]] & [D|[]] & [N|[]] & _ & Ei & _ & (_ & _ & g & _ & A) & _).
    apply applicable_static in A. rewrite <- T, <- D, <- N in A. clear P. discriminate A.
Qed.
