(** The theorems about the Axilrod-Teller functor. *)
From Coq Require Import Reals Lra List ZArith Bool Arith Lia.
From Verif.Functor Require Import CellFunctor3BModel SortModel.
From Verif.Container Require Import IteratorModel ParticleModel.
From Verif.Logic Require Import Remainder3Model.
From Verif.MD Require Import MixingModel MixingSpec MixingProofs LJModel LJSpec LJProofs LJPhysics ATModel ATSpec ATPhysics.
Import ListNotations.
Local Open Scope R_scope.

Lemma pot_add a b : potentialSum (addSums a b) = potentialSum a + potentialSum b.
Proof. reflexivity. Qed.
Lemma vir_add a b : virialSum (addSums a b) = radd (virialSum a) (virialSum b).
Proof. reflexivity. Qed.
Lemma dist_add a b : distCalls (addSums a b) = (distCalls a + distCalls b)%nat.
Proof. reflexivity. Qed.
Lemma kn_add a b : kernelsN3 (addSums a b) = (kernelsN3 a + kernelsN3 b)%nat.
Proof. reflexivity. Qed.
Lemma kno_add a b : kernelsNoN3 (addSums a b) = (kernelsNoN3 a + kernelsNoN3 b)%nat.
Proof. reflexivity. Qed.
Lemma pot_when b v u : potentialSum (whenSums b (globalSums v u)) = if b then u else 0.
Proof. now destruct b. Qed.
Lemma vir_when b v u : virialSum (whenSums b (globalSums v u)) = if b then v else rzero.
Proof. now destruct b. Qed.
Lemma dist_when b v u : distCalls (whenSums b (globalSums v u)) = 0%nat.
Proof. now destruct b. Qed.
Lemma kn_when b v u : kernelsN3 (whenSums b (globalSums v u)) = 0%nat.
Proof. now destruct b. Qed.
Lemma kno_when b v u : kernelsNoN3 (whenSums b (globalSums v u)) = 0%nat.
Proof. now destruct b. Qed.

Section Theorems.
  Context {A : Type}.
  Variable same : A -> A -> bool.
  Variable part : A -> Particle.
  Variable typeId : A -> nat.
  Variable cfg : ATConfig.
  Variable fld : ATField.
  Variable known : nat -> Prop.
  Hypothesis Hset : setUp3 cfg fld known.
  Notation interacting3 := (interacting3 part fld).
  Notation forceOf3 := (forceOf3 part typeId fld).
  Notation energyOf3 := (energyOf3 part typeId fld).
  Notation virialOf3 := (virialOf3 part typeId fld).
  Notation forcesOn3 := (forcesOn3 part typeId fld same).
  Notation ownedEnergy3 := (ownedEnergy3 part typeId fld).
  Notation ownedVirial3 := (ownedVirial3 part typeId fld).
  Notation triple := (A * (A * A))%type.
  Notation hit t := (interacting3 (fst t) (fst (snd t)) (snd (snd t))).

  Lemma reach_sym i j : inReach part fld i j = inReach part fld j i.
  Proof. unfold inReach. now rewrite distance_sym. Qed.
  Lemma interacting_swap i j k : interacting3 i k j = interacting3 i j k.
  Proof.
    unfold ATSpec.interacting3. rewrite (reach_sym k j).
    destruct (isDummy (part i)), (isDummy (part j)), (isDummy (part k)), (inReach part fld i j), (inReach part fld j k), (inReach part fld i k); reflexivity.
  Qed.
  Lemma interacting_turn i j k : interacting3 j i k = interacting3 i j k.
  Proof.
    unfold ATSpec.interacting3. rewrite (reach_sym j i).
    destruct (isDummy (part i)), (isDummy (part j)), (isDummy (part k)), (inReach part fld i j), (inReach part fld j k), (inReach part fld i k); reflexivity.
  Qed.
  Lemma interacting_last i j k : interacting3 k i j = interacting3 i j k.
  Proof. now rewrite interacting_turn, interacting_swap. Qed.

  (** Sums of triples that do not interact. *)
  Lemma forcesOn3_cons a t l : forcesOn3 a (t :: l) = radd (at_ same a (fst t) (forceOf3 (fst t) (fst (snd t)) (snd (snd t)))) (forcesOn3 a l).
  Proof.
    unfold ATSpec.forcesOn3, at_. cbn [filter]. destruct (same a (fst t)); [reflexivity|]. now rewrite radd_zero_l.
  Qed.
  Lemma ownedEnergy3_cons t l : ownedEnergy3 (t :: l) = (if isOwned (part (fst t)) then energyOf3 (fst t) (fst (snd t)) (snd (snd t)) else 0) + ownedEnergy3 l.
  Proof. unfold ATSpec.ownedEnergy3. cbn [filter]. destruct (isOwned (part (fst t))); [reflexivity|ring]. Qed.
  Lemma ownedVirial3_cons t l : ownedVirial3 (t :: l) = radd (if isOwned (part (fst t)) then virialOf3 (fst t) (fst (snd t)) (snd (snd t)) else rzero) (ownedVirial3 l).
  Proof. unfold ATSpec.ownedVirial3. cbn [filter]. destruct (isOwned (part (fst t))); [reflexivity|]. now rewrite radd_zero_l. Qed.
  Lemma virial_missed i j k : interacting3 i j k = false -> virialOf3 i j k = rzero.
  Proof. intros H. unfold ATSpec.virialOf3, ATSpec.forceOf3. rewrite H. unfold rmul, rzero. cbn. f_equal; ring. Qed.
  Lemma missed (l : list triple) : (forall t, In t l -> hit t = false) -> (forall a, forcesOn3 a l = rzero) /\ ownedEnergy3 l = 0 /\ ownedVirial3 l = rzero.
  Proof.
    induction l as [|t l IH]; intros H; [repeat split|]. destruct IH as (I1 & I2 & I3); [intros u Hu; apply H; right; exact Hu|].
    assert (Z := H t (or_introl eq_refl)). split; [|split].
    - intros a. rewrite forcesOn3_cons, I1. unfold ATSpec.forceOf3. rewrite Z. unfold at_. destruct (same a (fst t)); apply radd_zero_l.
    - rewrite ownedEnergy3_cons, I2. unfold ATSpec.energyOf3. rewrite Z. destruct (isOwned _); ring.
    - rewrite ownedVirial3_cons, I3, (virial_missed _ _ _ Z). destruct (isOwned _); apply radd_zero_l.
  Qed.
  Lemma added_missed c : hits3 part fld c = false -> forall t, In t (added3 c) -> hit t = false.
  Proof.
    unfold hits3. intros H t Ht. unfold added3 in Ht. destruct Ht as [<-|Ht]; [exact H|]. destruct (p3n c); [|destruct Ht].
    destruct Ht as [<-|[<-|[]]]; cbn [fst snd]; [rewrite interacting_turn; exact H|rewrite interacting_last; exact H].
  Qed.

  Lemma forcesOn3_app a l1 l2 : forcesOn3 a (l1 ++ l2) = radd (forcesOn3 a l1) (forcesOn3 a l2).
  Proof. unfold ATSpec.forcesOn3. rewrite filter_app, map_app. apply vsum_app. Qed.
  Lemma ownedEnergy3_app l1 l2 : ownedEnergy3 (l1 ++ l2) = ownedEnergy3 l1 + ownedEnergy3 l2.
  Proof. unfold ATSpec.ownedEnergy3. rewrite filter_app, map_app. apply rsum_app. Qed.
  Lemma ownedVirial3_app l1 l2 : ownedVirial3 (l1 ++ l2) = radd (ownedVirial3 l1) (ownedVirial3 l2).
  Proof. unfold ATSpec.ownedVirial3. rewrite filter_app, map_app. apply vsum_app. Qed.

  Lemma reach_iff i j : inReach part fld i j = true <-> ~ atCutoffSquared cfg < dot (rsub (ppos (part j)) (ppos (part i))) (rsub (ppos (part j)) (ppos (part i))).
  Proof.
    destruct (setUp3Cutoff _ _ _ Hset) as (C0 & ->). unfold inReach. rewrite distance_sym.
    assert (X := distance_le (ppos (part j)) (ppos (part i)) (atCutoff fld) C0). destruct (Rle_dec _ _) as [L|L].
    - split; [|reflexivity]. intros _. apply X in L. lra.
    - split; [discriminate|]. intros H. exfalso. apply L, X. lra.
  Qed.

  (** Interacting particles: what the kernel computes. *)
  Lemma kernel_value i j k : known (typeId i) -> known (typeId j) -> known (typeId k) -> interacting3 i j k = true -> apart3 part fld i j k ->
    exists nu, tripleNu cfg (typeId i) (typeId j) (typeId k) = Some nu /\
      let r := atKernel nu (rsub (ppos (part j)) (ppos (part i))) (rsub (ppos (part k)) (ppos (part j))) (rsub (ppos (part i)) (ppos (part k))) in
      forceI r = forceOf3 i j k /\ forceJ r = forceOf3 j i k /\ forceK r = forceOf3 k i j /\
      potential3 r = 3 * energyOf3 i j k /\ energyOf3 j i k = energyOf3 i j k /\ energyOf3 k i j = energyOf3 i j k.
  Proof.
    intros K1 K2 K3 I N. destruct (N I) as (N1 & N2 & N3). exists (nuOf fld (typeId i) (typeId j) (typeId k)).
    split; [apply (setUp3Nu _ _ _ Hset); assumption|]. cbv zeta.
    assert (S1 : nuOf fld (typeId j) (typeId i) (typeId k) = nuOf fld (typeId i) (typeId j) (typeId k)) by (symmetry; apply (setUp3Symmetric _ _ _ Hset)).
    assert (S2 : nuOf fld (typeId k) (typeId i) (typeId j) = nuOf fld (typeId i) (typeId j) (typeId k)).
    { rewrite (proj1 (setUp3Symmetric _ _ _ Hset _ _ _)). symmetry. apply (setUp3Symmetric _ _ _ Hset). }
    unfold ATSpec.forceOf3, ATSpec.energyOf3. rewrite (interacting_turn i j k), (interacting_last i j k), I, S1, S2.
    set (nu := nuOf fld (typeId i) (typeId j) (typeId k)). set (a := ppos (part i)) in *. set (b := ppos (part j)) in *. set (c := ppos (part k)) in *.
    repeat split.
    - symmetry. apply force_first; assumption.
    - rewrite kernel_second, force_swap. symmetry. apply force_first; auto.
    - rewrite kernel_third. symmetry. apply force_first; auto.
    - apply potential_kernel.
    - rewrite <- (potential_cycle nu b a c), potential_swap. reflexivity.
    - symmetry. apply potential_cycle.
  Qed.

  Definition usable (c : Call3 A) : Prop :=
    isDummy (part (p3a c)) = false -> isDummy (part (p3b c)) = false -> isDummy (part (p3c c)) = false ->
    (known (typeId (p3a c)) /\ known (typeId (p3b c)) /\ known (typeId (p3c c))) /\ apart3 part fld (p3a c) (p3b c) (p3c c).

  Definition effect3 (c : Call3 A) (s s' : State A) : Prop :=
    (forall a, forceAt s' a = radd (forceAt s a) (forcesOn3 a (added3 c))) /\
    (atGlobals cfg = true -> potentialSum (sums s') = potentialSum (sums s) + 3 * ownedEnergy3 (added3 c) /\
       virialSum (sums s') = radd (virialSum (sums s)) (ownedVirial3 (added3 c))) /\
    (atFLOPs cfg = true -> distCalls (sums s') = (distCalls (sums s) + (if alive3 part c then 1 else 0))%nat /\
       kernelsN3 (sums s') = (kernelsN3 (sums s) + (if p3n c && hits3 part fld c then 1 else 0))%nat /\
       kernelsNoN3 (sums s') = (kernelsNoN3 (sums s) + (if negb (p3n c) && hits3 part fld c then 1 else 0))%nat).

  Lemma effect_missed c s n : hits3 part fld c = false -> (atFLOPs cfg = true -> n = if alive3 part c then 1 else 0)%nat ->
    effect3 c s (mkState (forceAt s) (addSums (sums s) (mkSums rzero 0 n 0 0 0 0))).
  Proof.
    intros H Hn. destruct (missed (added3 c) (added_missed c H)) as (M1 & M2 & M3). split; [|split]; cbn [forceAt sums].
    - intros a. rewrite M1. symmetry. apply radd_zero_r.
    - intros _. rewrite M2, M3. unfold addSums. cbn [potentialSum virialSum]. split; [ring|reflexivity].
    - intros F. rewrite H, !andb_false_r. unfold addSums. cbn [distCalls kernelsN3 kernelsNoN3]. rewrite (Hn F). repeat split; lia.
  Qed.

  Lemma dot_nonzero (a b : R3) : a <> b -> dot (rsub b a) (rsub b a) <> 0.
  Proof. intros N Z. apply N. symmetry. apply dot_zero, Z. Qed.

  Lemma functor_value c s : usable c -> exists s', atFunctor same part typeId cfg c s = Some s' /\ effect3 c s s'.
  Proof.
    intros U. unfold usable in U. unfold atFunctor.
    destruct (isDummy (part (p3a c)) || isDummy (part (p3b c)) || isDummy (part (p3c c))) eqn:D.
    { assert (Al : alive3 part c = false) by (unfold alive3; destruct (isDummy (part (p3a c))), (isDummy (part (p3b c))), (isDummy (part (p3c c))); cbn in *; congruence).
      exists s. split; [reflexivity|].
      assert (H : hits3 part fld c = false).
      { unfold hits3, ATSpec.interacting3. unfold alive3 in Al. rewrite Al. reflexivity. }
      assert (E := effect_missed c s 0 H). rewrite Al in E. specialize (E (fun _ => eq_refl)). rewrite addSums_zero_r in E. destruct s; exact E. }
    apply orb_false_elim in D as (D & D3). apply orb_false_elim in D as (D1 & D2). destruct (U D1 D2 D3) as ((K1 & K2 & K3) & N).
    assert (Al : alive3 part c = true) by (unfold alive3; now rewrite D1, D2, D3).
    set (i := p3a c) in *. set (j := p3b c) in *. set (k := p3c c) in *.
    set (n := (if atFLOPs cfg then 1 else 0)%nat).
    assert (Hn : atFLOPs cfg = true -> n = if alive3 part c then 1%nat else 0%nat) by (intros F; unfold n; now rewrite F, Al).
    rewrite (setUp3Nu _ _ _ Hset (typeId i) (typeId j) (typeId k) K1 K2 K3).
    assert (Hit : hits3 part fld c = inReach part fld i j && inReach part fld j k && inReach part fld k i).
    { unfold hits3, ATSpec.interacting3. fold i j k. now rewrite D1, D2, D3, (reach_sym i k). }
    destruct (Rlt_dec _ (dot (rsub (ppos (part j)) _) _)) as [L1|L1].
    { eexists. split; [reflexivity|]. apply effect_missed; [|exact Hn]. rewrite Hit. destruct (inReach part fld i j) eqn:R1; [apply reach_iff in R1; contradiction|reflexivity]. }
    apply reach_iff in L1.
    destruct (Rlt_dec _ (dot (rsub (ppos (part k)) _) _)) as [L2|L2].
    { eexists. split; [reflexivity|]. apply effect_missed; [|exact Hn]. rewrite Hit. destruct (inReach part fld j k) eqn:R1; [apply reach_iff in R1; contradiction|apply andb_false_intro1, andb_false_intro2; reflexivity]. }
    apply reach_iff in L2.
    destruct (Rlt_dec _ (dot (rsub (ppos (part i)) _) _)) as [L3|L3].
    { eexists. split; [reflexivity|]. apply effect_missed; [|exact Hn]. rewrite Hit. destruct (inReach part fld k i) eqn:R1; [apply reach_iff in R1; contradiction|apply andb_false_r]. }
    apply reach_iff in L3. rewrite L1, L2, L3 in Hit. cbn [andb] in Hit.
    assert (I : interacting3 i j k = true) by exact Hit. destruct (N I) as (N1 & N2 & N3).
    destruct (Req_EM_T _ 0) as [Z|_].
    { exfalso. apply Rmult_integral in Z as [Z|Z]; [apply Rmult_integral in Z as [Z|Z]|]; revert Z; apply dot_nonzero; auto. }
    destruct (kernel_value i j k K1 K2 K3 I N) as (nu & Enu & V1 & V2 & V3 & V4 & V5 & V6).
    rewrite (setUp3Nu _ _ _ Hset _ _ _ K1 K2 K3) in Enu. injection Enu as <-.
    set (r := atKernel _ _ _ _) in *. rewrite V1, V2, V3, V4. clearbody r.
    eexists. split; [reflexivity|]. unfold effect3, added3. fold i j k. cbn [forceAt sums].
    split; [|split].
    - intros a. destruct (p3n c); rewrite !forcesOn3_cons; cbn [fst snd]; unfold ATSpec.forcesOn3; cbn [filter map]; change (vsum []) with rzero; rewrite !add_at, ?radd_assoc, radd_zero_r; reflexivity.
    - intros G. rewrite G. destruct (p3n c); cbn [andb];
        rewrite !ownedEnergy3_cons, !ownedVirial3_cons; cbn [fst snd]; unfold ATSpec.ownedEnergy3, ATSpec.ownedVirial3; cbn [filter map];
        change (vsum []) with rzero; change (rsum []) with 0; rewrite ?V5, ?V6; unfold ATSpec.virialOf3;
        rewrite !pot_add, !vir_add, ?pot_when, ?vir_when; cbn [potentialSum virialSum];
        generalize (energyOf3 i j k) (rmul (forceOf3 i j k) (ppos (part i))) (rmul (forceOf3 j i k) (ppos (part j))) (rmul (forceOf3 k i j) (ppos (part k)));
        generalize (sums s); intros s0 e v1 v2 v3; rewrite ?radd_zero_r; split; rewrite ?radd_assoc; try reflexivity;
        destruct (isOwned (part i)), (isOwned (part j)), (isOwned (part k)); try ring; apply R3_eq; cbn [rx ry rz radd rzero]; ring.
    - intros F. rewrite Al, Hit. unfold n. rewrite F, !dist_add, !kn_add, !kno_add, !dist_when, !kn_when, !kno_when. cbn [andb].
      destruct (p3n c); cbn [andb negb]; cbn [distCalls kernelsN3 kernelsNoN3]; repeat split; lia.
  Qed.

  Lemma forces3_value cs : forall s, (forall c, In c cs -> usable c) ->
    exists s', atCalls same part typeId cfg cs s = Some s' /\
      (forall a, forceAt s' a = radd (forceAt s a) (forcesOn3 a (flat_map added3 cs))) /\
      (atGlobals cfg = true -> potentialSum (sums s') = potentialSum (sums s) + 3 * ownedEnergy3 (flat_map added3 cs) /\
         virialSum (sums s') = radd (virialSum (sums s)) (ownedVirial3 (flat_map added3 cs))) /\
      (atFLOPs cfg = true -> distCalls (sums s') = (distCalls (sums s) + count (alive3 part) cs)%nat /\
         kernelsN3 (sums s') = (kernelsN3 (sums s) + count (fun c => p3n c && hits3 part fld c) cs)%nat /\
         kernelsNoN3 (sums s') = (kernelsNoN3 (sums s) + count (fun c => negb (p3n c) && hits3 part fld c) cs)%nat).
  Proof.
    induction cs as [|c cs IH]; intros s H.
    - exists s. split; [reflexivity|]. split; [intros a; symmetry; apply radd_zero_r|]. split; [intros _; split; [cbn; ring|symmetry; apply radd_zero_r]|].
      intros _. unfold count. cbn. repeat split; lia.
    - destruct (functor_value c s (H c (or_introl eq_refl))) as (s1 & E1 & F1 & G1 & C1).
      destruct (IH s1) as (s' & E & F & G & C); [intros c' Hc'; apply H; right; exact Hc'|].
      exists s'. cbn [atCalls]. rewrite E1. split; [exact E|]. cbn [flat_map]. split; [|split].
      + intros a. rewrite F, F1, forcesOn3_app, radd_assoc. reflexivity.
      + intros Gl. destruct (G Gl) as (G2 & G3), (G1 Gl) as (G4 & G5). rewrite G2, G3, G4, G5, ownedEnergy3_app, ownedVirial3_app, radd_assoc. split; [ring|reflexivity].
      + intros Fl. destruct (C Fl) as (C2 & C3 & C4), (C1 Fl) as (C5 & C6 & C7). rewrite C2, C3, C4, C5, C6, C7. unfold count. cbn [filter].
        destruct (alive3 part c), (p3n c && hits3 part fld c), (negb (p3n c) && hits3 part fld c); cbn [length]; repeat split; lia.
  Qed.

  Lemma end3_value threads : atEndTraversal threads = (potentialSum (ssum threads) / 3 / 3, virialSum (ssum threads)).
  Proof.
    assert (V := end_value threads). unfold endTraversal in V. unfold atEndTraversal. injection V as V1 V2 V3 V4.
    f_equal; [lra|]. apply R3_eq; lra.
  Qed.

  Lemma globals3_value css ts : atGlobals cfg = true -> (forall c, In c (concat css) -> usable c) ->
    Forall2 (fun cs t => exists s, sums s = noSums /\ atCalls same part typeId cfg cs s = Some t) css ts ->
    atEndTraversal (map sums ts) = (ownedEnergy3 (flat_map added3 (concat css)) / 3, ownedVirial3 (flat_map added3 (concat css))).
  Proof.
    intros G H F. rewrite end3_value.
    enough (X : potentialSum (ssum (map sums ts)) = 3 * ownedEnergy3 (flat_map added3 (concat css)) /\
            virialSum (ssum (map sums ts)) = ownedVirial3 (flat_map added3 (concat css))).
    { destruct X as [-> ->]. f_equal. field. }
    induction F as [|cs t css ts (s & Z & E) F IH]; [cbn; split; [ring|reflexivity]|].
    destruct IH as [I1 I2]; [intros c I; apply H; cbn; apply in_or_app; now right|].
    destruct (forces3_value cs s) as (t' & E' & _ & Gl & _); [intros c I; apply H; cbn; apply in_or_app; now left|].
    rewrite E in E'. injection E' as <-. destruct (Gl G) as [G1 G2]. rewrite Z in *. cbn in G1, G2. rewrite radd_zero_l in G2.
    cbn [map concat]. rewrite flat_map_app, ownedEnergy3_app, ownedVirial3_app.
    change (ssum (sums t :: map sums ts)) with (addSums (sums t) (ssum (map sums ts))).
    unfold addSums. cbn [potentialSum virialSum]. rewrite I1, I2, G2, G1. split; [ring|reflexivity].
  Qed.
End Theorems.

Lemma setUp3_constant cutoff nu globals flops lib known : 0 < cutoff ->
  setUp3 (mkATC false globals flops (cutoff * cutoff) nu lib) (mkATField cutoff (fun _ _ _ => nu)) known.
Proof. intros C. split; cbn; [split; [lra|reflexivity]|reflexivity|auto]. Qed.

Lemma setUp3_mixing rs cutoff l l' globals flops n0 : 0 < cutoff -> registerAll rs (newLibrary cutoff) = Some l -> usesAT rs ->
  calculateMixing l = Some l' ->
  exists nu, (forall i j k, nu i j k * nu i j k * nu i j k = nuOfType rs i * nuOfType rs j * nuOfType rs k) /\
    setUp3 (mkATC true globals flops (cutoff * cutoff) n0 l') (mkATField cutoff nu) (fun i => (i < numSites rs)%nat).
Proof.
  intros C E U M. exists (fun i j k => cbrt (nuOfType rs i * nuOfType rs j * nuOfType rs k)). split; [intros i j k; apply cbrt_cube|]. split; cbn [atCutoff nuOf].
  - split; [lra|reflexivity].
  - intros i j k Hi Hj Hk. unfold tripleNu. cbn [atMixing atLibrary]. apply (mixing_nu rs cutoff l l' E U M); assumption.
  - intros i j k. split; f_equal; ring.
Qed.
