(** An interaction computation with the Axilrod-Teller functor after any history. *)
From Coq Require Import Reals Lra List ZArith Bool Arith Lia Permutation.
From Verif.Base Require Import ZRange Lists OptionM.
From Verif.Grid Require Import CellBlockModel CellBlockSpec.
From Verif.Functor Require Import CellFunctorModel CellFunctor3BModel SortModel SortSpec.
From Verif.Container Require Import LinkedCellsModel LinkedCellsSpec IteratorModel IteratorLemmas ParticleModel CollectSpec.
From Verif.Logic Require Import HandlerModel HandlerSpec HandlerProofs RemainderModel RemainderSpec ComputeModel ComputeSpec ComputeSlots ComputeProofs ComputeTheorem
  Remainder3Model Remainder3Containers Compute3Slots Compute3Spec Compute3Theorem.
From Verif.MD Require Import MixingModel LJModel LJSpec LJProofs LJPhysics LJTheorem LJComputeModel LJComputeSpec LJComputeProofs LJComputeTheorem
  ATModel ATSpec ATPhysics ATTheorem ATComputeModel ATComputeSpec ATComputeProofs.
Import ListNotations.
Local Open Scope Z_scope.

Lemma once_exactly {A} (p q r : A) l : tripleOnce p q r l -> In (p, (q, r)) l -> exactlyOnce (p, (q, r)) l.
Proof.
  intros (l1 & x & l2 & -> & _ & N) H. assert (E : x = (p, (q, r))).
  { apply in_app_or in H as [H|[H|H]]; [|exact H|]; exfalso; apply (N (p, (q, r))); try (apply in_or_app; auto); left; reflexivity. }
  subst x. exists l1, l2. split; [reflexivity|]. split; intros X; apply (N (p, (q, r))); try (apply in_or_app; auto); left; reflexivity.
Qed.
Lemma once_not_both {A} (p q r : A) l : tripleOnce p q r l -> In (p, (q, r)) l -> In (p, (r, q)) l -> q = r.
Proof.
  intros (l1 & x & l2 & -> & _ & N) H1 H2.
  assert (E : forall y, In y (l1 ++ x :: l2) -> sameTriple p q r y -> y = x).
  { intros y H S. apply in_app_or in H as [H|[H|H]]; [|auto|]; exfalso; apply (N y); auto; apply in_or_app; auto. }
  apply E in H1; [|left; reflexivity]. apply E in H2; [|right; reflexivity]. congruence.
Qed.

Section Theorem3.
  Variables (cutoff spt : R) (freq : Z).
  Hypothesis Hopt : validOptions cutoff spt freq.
  Variable fac : R.
  Hypothesis Hfac : (0 <= fac)%R.
  Variable same : Particle -> Particle -> bool.
  Hypothesis Eq : forall x y, same x y = true <-> x = y.
  Variable typeId : Particle -> nat.
  Variables (cfg : ATConfig) (fld : ATField) (known : nat -> Prop).
  Hypothesis Hset : setUp3 cfg fld known.
  Hypothesis Hcut : atCutoff fld = cutoff.
  Notation part := (fun p : Particle => p).
  Notation closer_of := (LJComputeTheorem.closer_of cutoff spt freq Hopt).

  Lemma interacting3_live i j k : interacting3 part fld i j k = true -> (pown i <> 0 /\ pown j <> 0 /\ pown k <> 0) /\
    (distance (ppos i) (ppos j) <= cutoff)%R /\ (distance (ppos j) (ppos k) <= cutoff)%R /\ (distance (ppos i) (ppos k) <= cutoff)%R.
  Proof.
    unfold interacting3, inReach. rewrite !andb_true_iff, !negb_true_iff, Hcut. intros (((((D1 & D2) & D3) & R1) & R2) & R3).
    destruct (Rle_dec _ _) as [L1|] in R1; [|discriminate]. destruct (Rle_dec _ _) as [L2|] in R2; [|discriminate]. destruct (Rle_dec _ _) as [L3|] in R3; [|discriminate].
    unfold isDummy, stDummy in D1, D2, D3. apply Z.eqb_neq in D1, D2, D3. auto.
  Qed.

  Section Sums.
    Variables (owned halo : list Particle) (triples : list (Particle * (Particle * Particle))).
    Notation visible := (owned ++ halo).
    Hypothesis Hnd : NoDup visible.
    Hypothesis Hown : forall p, In p owned -> pown p = 1.
    Hypothesis Hhal : forall p, In p halo -> pown p = 2.
    Hypothesis Hpos : generalPosition cutoff visible.
    Hypothesis Honce : forall p q r, In p owned -> In q visible -> In r visible -> p <> q -> p <> r -> q <> r ->
      closer cutoff (ppos p) (ppos q) -> closer cutoff (ppos p) (ppos r) -> closer cutoff (ppos q) (ppos r) -> tripleOnce p q r triples.
    Hypothesis Hmem : forall p q r, In (p, (q, r)) triples -> pown p <> 0 -> pown q <> 0 -> pown r <> 0 ->
      (In p visible /\ In q visible /\ In r visible) /\ p <> q /\ p <> r /\ q <> r.
    Notation nz := (fun t : Particle * (Particle * Particle) => interacting3 part fld (fst t) (fst (snd t)) (snd (snd t))).
    Notation owned_iff := (LJComputeTheorem.owned_iff owned halo Hhal).
    Notation in_others := (LJComputeTheorem.in_others same Eq).

    Lemma nz_swap t : nz (swap t) = nz t.
    Proof. destruct t as (p, (q, r)). apply interacting_swap. Qed.

    Lemma triple_once p q r : In p owned -> In q visible -> In r visible -> p <> q -> p <> r -> q <> r -> interacting3 part fld p q r = true -> tripleOnce p q r triples.
    Proof.
      intros Hp Hq Hr N1 N2 N3 I. destruct (interacting3_live p q r I) as (_ & D1 & D2 & D3). assert (Vp : In p visible) by (apply in_or_app; left; exact Hp).
      apply Honce; auto; apply closer_of; auto; apply Hpos; assumption.
    Qed.
    Lemma listed_once p q r : In (p, (q, r)) triples -> pown p = 1 -> interacting3 part fld p q r = true -> tripleOnce p q r triples.
    Proof.
      intros H O I. destruct (interacting3_live p q r I) as ((L1 & L2 & L3) & _). destruct (Hmem p q r H L1 L2 L3) as ((V1 & V2 & V3) & N1 & N2 & N3).
      apply triple_once; auto. apply owned_iff; assumption.
    Qed.

    (** The triples whose target is one of the owned particles selected by [sel]. *)
    Section Selected.
      Variable sel : Particle -> bool.
      Variable targets : list Particle.
      Hypothesis Hsel : forall p, pown p <> 0 -> In p visible -> sel p = true <-> In p targets.
      Hypothesis Htar : forall p, In p targets -> In p owned.
      Hypothesis Hselown : forall p, sel p = true -> pown p = 1.
      Hypothesis Hnt : NoDup targets.
      Notation listed := (filter (fun t => sel (fst t)) triples).
      Notation wanted := (flat_map (fun p => map (pair p) (couples (others same p visible))) targets).

      Lemma listed_single : single nz listed.
      Proof.
        split.
        - apply once_nodup. intros (p, (q, r)) H. apply filter_In in H as (H & I). apply filter_In in H as (H & E). cbn [fst snd] in E, I.
          apply once_filter; [|exact I]. apply once_filter; [|exact E]. apply once_exactly; [|exact H]. apply listed_once; auto.
        - intros (p, (q, r)) I H1 H2. cbn [fst snd swap] in *. apply filter_In in H1 as (H1 & E). apply filter_In in H2 as (H2 & _). cbn [fst snd] in *.
          destruct (interacting3_live p q r I) as ((L1 & L2 & L3) & _). destruct (Hmem p q r H1 L1 L2 L3) as (_ & _ & _ & N).
          apply N, (once_not_both p q r triples); auto. apply listed_once; auto.
      Qed.
      Lemma others_nodup p : NoDup (others same p visible).
      Proof. apply NoDup_filter, Hnd. Qed.
      Lemma wanted_in p q r : In (p, (q, r)) wanted <-> In p targets /\ In (q, r) (couples (others same p visible)).
      Proof.
        rewrite in_flat_map. split.
        - intros (x & Hx & H). apply in_map_iff in H as (y & [= <- ->] & H). auto.
        - intros (H1 & H2). exists p. split; [exact H1|]. apply in_map, H2.
      Qed.
      Lemma wanted_single : single nz wanted.
      Proof.
        split.
        - apply NoDup_filter. assert (M : forall p, NoDup (couples (others same p visible))) by (intros p; apply couples_nodup, others_nodup).
          revert M. generalize (fun p => couples (others same p visible)). intros f M. clear - Hnt M.
          induction Hnt as [|a l N Nl IH]; [constructor|]. cbn [flat_map]. apply NoDup_app_intro.
          + apply FinFun.Injective_map_NoDup; [intros x y [= ->]; reflexivity|apply M].
          + exact (IH Nl).
          + intros x H1 H2. apply in_map_iff in H1 as (y & <- & _). apply in_flat_map in H2 as (z & Hz & H2). apply in_map_iff in H2 as (w & [= -> _] & _). contradiction.
        - intros (p, (q, r)) _ H1 H2. cbn [swap fst snd] in *. apply wanted_in in H1 as (_ & H1), H2 as (_ & H2). exact (couples_asym _ q r (others_nodup p) H1 H2).
      Qed.
      Lemma members_same t : nz t = true -> (In t listed \/ In (swap t) listed) <-> (In t wanted \/ In (swap t) wanted).
      Proof.
        destruct t as (p, (q, r)). change (swap (p, (q, r))) with (p, (r, q)). cbn [fst snd]. intros I. rewrite !filter_In, !wanted_in. cbn [fst].
        destruct (interacting3_live p q r I) as ((L1 & L2 & L3) & _).
        split.
        - intros H. assert (X : (In p visible /\ In q visible /\ In r visible) /\ (p <> q /\ p <> r /\ q <> r) /\ sel p = true).
          { destruct H as [(H & E)|(H & E)]; [destruct (Hmem p q r H L1 L2 L3) as (X1 & X2)|destruct (Hmem p r q H L1 L3 L2) as (X1 & X2)]; repeat split; try tauto; apply not_eq_sym; tauto. }
          destruct X as ((V1 & V2 & V3) & (N1 & N2 & N3) & E). apply Hsel in E; [|exact L1|exact V1].
          destruct (couples_all (others same p visible) q r) as [X|X]; [apply in_others; auto|apply in_others; auto|exact N3|left; auto|right; auto].
        - intros H. assert (X : In p targets /\ (In q visible /\ p <> q) /\ (In r visible /\ p <> r) /\ q <> r).
          { destruct H as [(H1 & H2)|(H1 & H2)]; assert (N := couples_ne _ _ _ (others_nodup p) H2); apply couples_in in H2 as (X1 & X2); apply in_others in X1, X2; auto. }
          destruct X as (Hp & (V2 & N1) & (V3 & N2) & N3). assert (Ho := Htar p Hp). assert (E : sel p = true) by (apply Hsel; auto; apply in_or_app; auto).
          destruct (triple_once p q r Ho V2 V3 N1 N2 N3 I) as (l1 & x & l2 & -> & [-> | ->] & _); [left|right]; (split; [apply in_or_app; right; left; reflexivity|exact E]).
      Qed.
    End Selected.

    Lemma force_swapped t : forceOf3 part typeId fld (fst (swap t)) (fst (snd (swap t))) (snd (snd (swap t))) = forceOf3 part typeId fld (fst t) (fst (snd t)) (snd (snd t)).
    Proof.
      destruct t as (p, (q, r)). cbn [swap fst snd]. unfold forceOf3. rewrite (interacting_swap part fld p q r), <- (proj2 (setUp3Symmetric _ _ _ Hset _ _ _)), force_swap. reflexivity.
    Qed.
    Lemma energy_swapped t : energyOf3 part typeId fld (fst (swap t)) (fst (snd (swap t))) (snd (snd (swap t))) = energyOf3 part typeId fld (fst t) (fst (snd t)) (snd (snd t)).
    Proof.
      destruct t as (p, (q, r)). cbn [swap fst snd]. unfold energyOf3. rewrite (interacting_swap part fld p q r), <- (proj2 (setUp3Symmetric _ _ _ Hset _ _ _)), potential_swap. reflexivity.
    Qed.
    Lemma virial_swapped t : virialOf3 part typeId fld (fst (swap t)) (fst (snd (swap t))) (snd (snd (swap t))) = virialOf3 part typeId fld (fst t) (fst (snd t)) (snd (snd t)).
    Proof. unfold virialOf3. rewrite force_swapped. destruct t as (p, (q, r)). reflexivity. Qed.

    Lemma force_total3 p : In p owned -> forcesOn3 part typeId fld same p triples = totalForce3 same typeId fld visible p.
    Proof.
      intros Hp. unfold forcesOn3, totalForce3.
      replace (map (fun qr => forceOf3 part typeId fld p (fst qr) (snd qr)) (couples (others same p visible)))
        with (map (fun t => forceOf3 part typeId fld (fst t) (fst (snd t)) (snd (snd t))) (flat_map (fun p => map (pair p) (couples (others same p visible))) [p]))
        by (cbn [flat_map]; rewrite app_nil_r, map_map; reflexivity).
      assert (Hs : forall x, pown x <> 0 -> In x visible -> same p x = true <-> In x [p]).
      { intros x _ _. rewrite Eq. cbn. intuition congruence. }
      apply vsum_triples with (nz := nz).
      - exact nz_swap.
      - apply listed_single. intros x E. apply Eq in E. subst x. apply Hown, Hp.
      - apply wanted_single. repeat constructor. intros [].
      - apply members_same; [exact Hs|]. intros x [<-|[]]. exact Hp.
      - intros t Z. unfold forceOf3. now rewrite Z.
      - exact force_swapped.
    Qed.
    Lemma owned_sel x : pown x <> 0 -> In x visible -> isOwned x = true <-> In x owned.
    Proof.
      intros _ V. unfold isOwned, stOwned. rewrite Z.eqb_eq. split; [intros O; apply owned_iff; assumption|apply Hown].
    Qed.
    Lemma sel_owned x : isOwned x = true -> pown x = 1.
    Proof. unfold isOwned, stOwned. apply Z.eqb_eq. Qed.
    Lemma nodup_owned : NoDup owned.
    Proof. apply NoDup_app_inv in Hnd. apply Hnd. Qed.
    Lemma energy_total3 : (ownedEnergy3 part typeId fld triples / 3)%R = totalEnergy3 same typeId fld owned visible.
    Proof.
      unfold ownedEnergy3, totalEnergy3. f_equal.
      transitivity (rsum (map (fun t => energyOf3 part typeId fld (fst t) (fst (snd t)) (snd (snd t))) (flat_map (fun p => map (pair p) (couples (others same p visible))) owned))).
      - apply rsum_triples with (nz := nz).
        + exact nz_swap.
        + apply listed_single. exact sel_owned.
        + apply wanted_single. exact nodup_owned.
        + apply members_same; [exact owned_sel|auto].
        + intros t Z. unfold energyOf3. now rewrite Z.
        + exact energy_swapped.
      - generalize visible. intros V. clear. induction owned as [|a l IH]; [reflexivity|]. cbn [flat_map]. rewrite map_app, rsum_app, IH, map_map. reflexivity.
    Qed.
    Lemma virial_total3 : ownedVirial3 part typeId fld triples = totalVirial3 same typeId fld owned visible.
    Proof.
      unfold ownedVirial3, totalVirial3.
      transitivity (vsum (map (fun t => virialOf3 part typeId fld (fst t) (fst (snd t)) (snd (snd t))) (flat_map (fun p => map (pair p) (couples (others same p visible))) owned))).
      - apply vsum_triples with (nz := nz).
        + exact nz_swap.
        + apply listed_single. exact sel_owned.
        + apply wanted_single. exact nodup_owned.
        + apply members_same; [exact owned_sel|auto].
        + intros t Z. apply virial_missed. exact Z.
        + exact virial_swapped.
      - generalize visible. intros V. clear. induction owned as [|a l IH]; [reflexivity|]. cbn [flat_map]. rewrite map_app, vsum_app, IH, map_map. reflexivity.
    Qed.
  End Sums.

  Theorem compute_at s0 h s ks : validStart cutoff spt freq s0 -> properHistory cutoff spt freq s0 h s ->
    disciplined spt false (map fst h ++ [Compute false ks]) -> computations (map fst h ++ [Compute false ks]) < 2 ^ 32 -> additions (map fst h) < 2 ^ 64 - 1 ->
    calm spt (map fst h) -> resizedSince false (map fst h) = false ->
    factorAtMost fac (kind (cont s0)) -> factorsAtMost fac (map fst h ++ [Compute false ks]) -> calmImages spt (imageDistance cutoff spt freq fac) (map fst h) ->
    validCall cutoff spt freq s (Compute false ks) -> NoDup (ownedParticles s ++ haloParticles s) ->
    generalPosition cutoff (ownedParticles s ++ haloParticles s) ->
    (forall p, In p (ownedParticles s ++ haloParticles s) -> known (typeId p)) ->
    forall view t newton3 threshold, (forall pos dir l, isSortedView pos dir l (view pos dir l)) ->
    suits3 cutoff spt freq (boxLo s) (boxHi s) (last ks (kind (cont s))) t newton3 ->
    exists calls, computeCalls3 cutoff spt freq view s ks t newton3 threshold = Some calls /\
      forall schedule n m, Permutation (map snd schedule) calls -> (forall k, In k (map fst schedule) -> (k < n)%nat) ->
      exists m' threads, runSchedule3 same typeId cfg schedule m (fun _ => noSums) = Some (m', threads) /\
        (forall p, In p (ownedParticles s) -> m' p = radd (m p) (totalForce3 same typeId fld (ownedParticles s ++ haloParticles s) p)) /\
        (atGlobals cfg = true -> atEndTraversal (map threads (seq 0 n)) =
          (totalEnergy3 same typeId fld (ownedParticles s) (ownedParticles s ++ haloParticles s),
           totalVirial3 same typeId fld (ownedParticles s) (ownedParticles s ++ haloParticles s))).
  Proof.
    intros Vs H D B Ad Ca Re F0 Fa Mv V Nd Gp Kn view t newton3 threshold Hview Su.
    destruct (compute3_parts cutoff spt freq Hopt fac Hfac s0 h s ks Vs H D B Ad Ca Re F0 Fa Mv V Nd view t AoS newton3 threshold Hview Su)
      as (s1 & calls & rest & Se & E1 & E2 & QS & Nd1 & (Rn & _) & Hdiff & _).
    destruct (compute3_exact cutoff spt freq Hopt fac Hfac s0 h s ks Vs H D B Ad Ca Re F0 Fa Mv V Nd view t AoS newton3 threshold Hview Su) as (triples & Ep & Once & _).
    unfold computeCalls3. rewrite Se, E1, E2.
    set (cells := ccells (cont s1)) in *. set (actions := map _ calls ++ rest). exists actions. split; [reflexivity|].
    assert (Pt : triples = triplesOf cells calls ++ flat_map added3 rest).
    { unfold computeTriplets in Ep. rewrite Se, E1, E2 in Ep. injection Ep as <-. reflexivity. }
    assert (Pe : triples = flat_map added3 actions).
    { rewrite Pt. unfold actions, triplesOf. rewrite flat_map_app. f_equal. clear. induction calls as [|c l IH]; [reflexivity|]. cbn [flat_map map]. rewrite map_app, IH. unfold added3. cbn [p3a p3b p3c p3n]. destruct (p3n c); reflexivity. }
    assert (Nl : NoDup (filter live (concat cells))) by (rewrite app_assoc in Nd1; apply NoDup_app_inv in Nd1; apply Nd1).
    rewrite app_assoc in QS.
    assert (Mem : forall p q r, In (p, (q, r)) triples -> pown p <> 0 -> pown q <> 0 -> pown r <> 0 ->
      (In p (ownedParticles s ++ haloParticles s) /\ In q (ownedParticles s ++ haloParticles s) /\ In r (ownedParticles s ++ haloParticles s)) /\ p <> q /\ p <> r /\ q <> r).
    { intros p q r X Lp Lq Lr. rewrite Pt in X. apply in_app_or in X as [X|X].
      - split; [|exact (triples_diff cells Nl calls Hdiff p q r X Lp Lq Lr)].
        assert (In_ : forall x, In x (concat cells) -> pown x <> 0 -> In x (ownedParticles s ++ haloParticles s)).
        { intros x Hx Lx. apply (Permutation_in _ (Permutation_sym QS)), in_or_app. right. apply filter_In. split; [exact Hx|apply live_iff, Lx]. }
        apply triples_in in X as (X1 & X2 & X3). auto.
      - destruct (Rn p q r X) as (N & X1 & X2 & X3). split; [|exact N].
        repeat split; apply (Permutation_in _ (Permutation_sym QS)); assumption. }
    assert (Good : forall c, In c actions -> usable part typeId fld known c).
    { intros c Hc D1 D2 D3. assert (X : In (p3a c, (p3b c, p3c c)) triples) by (rewrite Pe; apply in_flat_map; exists c; split; [exact Hc|left; reflexivity]).
      unfold isDummy, stDummy in D1, D2, D3. apply Z.eqb_neq in D1, D2, D3. destruct (Mem _ _ _ X D1 D2 D3) as ((V1 & V2 & V3) & N1 & N2 & N3).
      split; [auto|]. intros _. split; [apply Gp; auto|]. split; apply Gp; auto. }
    assert (Own : forall p, In p (ownedParticles s) -> pown p = 1) by (intros p Hp; apply filter_In in Hp as (_ & Hp); apply Z.eqb_eq, Hp).
    assert (Hal : forall p, In p (haloParticles s) -> pown p = 2) by (intros p Hp; apply filter_In in Hp as (_ & Hp); apply Z.eqb_eq, Hp).
    intros schedule n m Ps Hn.
    destruct (schedule3_value same typeId cfg fld known Hset n schedule m (fun _ => noSums)) as (m' & th & Er & Fm & Gm).
    { intros k c Hc. split; [apply Hn; apply (in_map fst) in Hc; exact Hc|]. apply Good. apply (Permutation_in _ Ps). apply (in_map snd) in Hc. exact Hc. }
    assert (Pp : Permutation (flat_map added3 (map snd schedule)) triples) by (rewrite Pe; apply Permutation_flat_map, Ps).
    exists m', th. split; [exact Er|]. split.
    - intros p Hp. rewrite Fm. f_equal. rewrite (forcesOn3_perm same typeId fld p _ _ Pp).
      apply (force_total3 (ownedParticles s) (haloParticles s) triples); assumption.
    - intros C. destruct (Gm C) as (G1 & G2). rewrite end3_value, G1, G2.
      assert (Z : ssum (map (fun _ : nat => noSums) (seq 0 n)) = noSums) by apply ssum_zero. rewrite Z. cbn [potentialSum virialSum noSums]. rewrite radd_zero_l.
      rewrite (ownedEnergy3_perm typeId fld _ _ Pp), (ownedVirial3_perm typeId fld _ _ Pp).
      rewrite <- (energy_total3 (ownedParticles s) (haloParticles s) triples); try assumption.
      rewrite <- (virial_total3 (ownedParticles s) (haloParticles s) triples); try assumption.
      f_equal. field.
  Qed.
End Theorem3.
