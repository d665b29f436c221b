(** An interaction computation with the Lennard-Jones functor after any history. *)
From Coq Require Import Reals Lra List ZArith Bool Arith Lia Permutation.
From Verif.Base Require Import ZRange Lists OptionM.
From Verif.Grid Require Import CellBlockModel CellBlockSpec.
From Verif.Functor Require Import CellFunctorModel SortModel SortSpec.
From Verif.Container Require Import LinkedCellsModel LinkedCellsSpec IteratorModel IteratorLemmas ParticleModel.
From Verif.Logic Require Import HandlerModel HandlerSpec HandlerProofs RemainderModel RemainderSpec RemainderMembers ComputeModel ComputeSpec ComputeProofs ComputeTheorem.
From Verif.MD Require Import MixingModel LJModel LJSpec LJProofs LJPhysics LJTheorem LJComputeModel LJComputeSpec LJComputeProofs.
Import ListNotations.
Local Open Scope Z_scope.

Lemma once_filter {A} (f : A -> bool) (x : A) l : exactlyOnce x l -> f x = true -> exactlyOnce x (filter f l).
Proof.
  intros (l1 & l2 & -> & N1 & N2) F. rewrite filter_app. cbn [filter]. rewrite F. exists (filter f l1), (filter f l2). split; [reflexivity|].
  split; intros H; apply filter_In in H as (H & _); auto.
Qed.
Lemma once_nodup {A} (l : list A) : (forall x, In x l -> exactlyOnce x l) -> NoDup l.
Proof.
  enough (H : forall pre, (forall x, In x l -> exactlyOnce x (pre ++ l)) -> NoDup l) by (intros X; apply (H []), X).
  induction l as [|a l IH]; intros pre H; [constructor|]. constructor.
  - intros Ha. destruct (H a (or_introl eq_refl)) as (l1 & l2 & E & N1 & N2).
    assert (C : forall (u v : list A), ~ In a u -> u ++ a :: l2 = v ++ a :: l -> ~ In a l2 -> In a l -> False).
    { induction u as [|x u IHu]; intros [|y v] Nu Eq N2' Hl; cbn in Eq.
      - injection Eq as ->. exact (N2' Hl).
      - injection Eq as -> Eq. apply N2'. rewrite Eq. apply in_or_app. right. left. reflexivity.
      - injection Eq as -> Eq. apply Nu. left. reflexivity.
      - injection Eq as -> Eq. apply (IHu v); auto. intros X. apply Nu. right. exact X. }
    apply (C l1 pre N1); auto.
  - apply (IH (pre ++ [a])). intros x Hx. rewrite <- app_assoc. apply H. right. exact Hx.
Qed.
Lemma ord_pairs {A} (Q : A -> A -> Prop) l : NoDup l -> (forall x y, In x l -> In y l -> x <> y -> Q x y) -> ForallOrdPairs Q l.
Proof.
  induction 1 as [|a l N _ IH]; intros H; constructor.
  - apply Forall_forall. intros y Hy. apply H; [left; reflexivity|right; exact Hy|]. intros ->. contradiction.
  - apply IH. intros x y Hx Hy. apply H; right; assumption.
Qed.
Lemma partOf_nodup {A} (l w : list A) : partOf l w -> NoDup w -> NoDup l.
Proof. intros (r & P) N. apply (Permutation_NoDup P) in N. apply NoDup_app_inv in N. apply N. Qed.
Lemma partOf_in {A} (l w : list A) x : partOf l w -> In x l -> In x w.
Proof. intros (r & P) H. apply (Permutation_in _ (Permutation_sym P)). apply in_or_app. left. exact H. Qed.
Lemma ordered_in p q l : In (p, q) (ordered l) -> In p l /\ In q l.
Proof.
  induction l as [|a l IH]; [intros []|]. cbn [ordered]. rewrite !in_app_iff, !in_map_iff. intros [(x & [= <- <-] & H)|[(x & [= <- <-] & H)|H]].
  - split; [left; reflexivity|right; exact H].
  - split; [right; exact H|left; reflexivity].
  - destruct (IH H). split; right; assumption.
Qed.
Lemma shape_members C B c p q : shape C B c -> In (p, q) (forces c) -> (In p B \/ In p C) /\ (In q B \/ In q C).
Proof.
  destruct c as [i j n|l n|x y n]; cbn [shape forces].
  - intros H [[= <- <-]|F]; [destruct H as [(? & ?)|(? & ?)]; auto|]. destruct n; [|destruct F]. destruct F as [[= <- <-]|[]]. destruct H as [(? & ?)|(? & ?)]; auto.
  - intros H F. apply ordered_in in F as (F1 & F2). split; left; eapply partOf_in; eassumption.
  - intros H F. assert (X : In p (x ++ y) /\ In q (x ++ y)).
    { apply in_app_or in F as [F|F]; [|destruct n; [|destruct F]]; apply in_prod_iff in F as (F1 & F2); split; apply in_or_app; auto. }
    destruct X as (X1 & X2). split; left; eapply partOf_in; eassumption.
Qed.

Section Theorem_.
  Variables (cutoff spt : R) (freq : Z).
  Hypothesis Hopt : validOptions cutoff spt freq.
  Variable fac : R.
  Hypothesis Hfac : (0 <= fac)%R.
  Variable same : Particle -> Particle -> bool.
  Hypothesis Eq : forall x y, same x y = true <-> x = y.
  Variable typeId : Particle -> nat.
  Variables (cfg : LJConfig) (fld : Field) (known : nat -> Prop).
  Hypothesis Hset : setUp cfg fld known.
  Hypothesis Hcut : cutoffOf fld = cutoff.
  Notation part := (fun p : Particle => p).

  Lemma closer_of a b : (distance a b <= cutoff)%R -> distance a b <> cutoff -> closer cutoff a b.
  Proof.
    intros L N. assert (Hc : (0 < cutoff)%R) by (destruct Hopt as (Hc & _); exact Hc). unfold closer.
    assert (S := distance_sq a b). unfold dot, rsub in S. cbn [rx ry rz] in S. rewrite <- S. assert (D := distance_nonneg a b).
    assert (L' : (distance a b < cutoff)%R) by lra. apply Rmult_le_0_lt_compat; assumption.
  Qed.
  Lemma interacting_live i j : interacting part fld i j = true -> pown i <> 0 /\ pown j <> 0 /\ (distance (ppos i) (ppos j) <= cutoff)%R.
  Proof.
    unfold interacting. rewrite !andb_true_iff, !negb_true_iff. intros ((D1 & D2) & D3). rewrite Hcut in D3. destruct (Rle_dec _ _) as [L|]; [|discriminate].
    unfold isDummy, stDummy in D1, D2. apply Z.eqb_neq in D1, D2. auto.
  Qed.

  Section Sums.
    Variables (owned halo : list Particle) (pairs : list (Particle * Particle)).
    Notation visible := (owned ++ halo).
    Hypothesis Hnd : NoDup visible.
    Hypothesis Hown : forall p, In p owned -> pown p = 1.
    Hypothesis Hhal : forall p, In p halo -> pown p = 2.
    Hypothesis Hpos : generalPosition cutoff visible.
    Hypothesis Honce : forall p q, In p owned -> In q visible -> p <> q -> closer cutoff (ppos p) (ppos q) -> exactlyOnce (p, q) pairs.
    Hypothesis Hmem : forall p q, In (p, q) pairs -> pown p <> 0 -> pown q <> 0 -> In p visible /\ In q visible /\ p <> q.

    Lemma owned_iff p : In p visible -> pown p = 1 -> In p owned.
    Proof. intros H O. apply in_app_or in H as [H|H]; [exact H|]. apply Hhal in H. lia. Qed.
    Lemma same_false p q : p <> q -> same p q = false.
    Proof. intros N. destruct (same p q) eqn:E; [apply Eq in E; contradiction|reflexivity]. Qed.
    Notation nz := (fun pq : Particle * Particle => interacting part fld (fst pq) (snd pq)).

    Lemma pair_once p q : In (p, q) pairs -> pown p = 1 -> interacting part fld p q = true -> exactlyOnce (p, q) pairs.
    Proof.
      intros H O I. destruct (interacting_live p q I) as (L1 & L2 & D). destruct (Hmem p q H L1 L2) as (V1 & V2 & N).
      apply Honce; [apply owned_iff; assumption|exact V2|exact N|]. apply closer_of; [exact D|]. apply (Hpos p q V1 V2 N).
    Qed.
    Lemma pair_in p q : In p owned -> In q visible -> p <> q -> interacting part fld p q = true -> In (p, q) pairs.
    Proof.
      intros Hp Hq N I. destruct (interacting_live p q I) as (_ & _ & D). assert (Vp : In p visible) by (apply in_or_app; left; exact Hp).
      destruct (Honce p q Hp Hq N) as (l1 & l2 & -> & _); [apply closer_of; [exact D|apply (Hpos p q Vp Hq N)]|]. apply in_or_app. right. left. reflexivity.
    Qed.
    Lemma in_others p q l : In q (others same p l) <-> In q l /\ p <> q.
    Proof.
      unfold others. rewrite filter_In, negb_true_iff. split; intros (H & N); (split; [exact H|]).
      - intros E. apply Eq in E. congruence.
      - apply same_false, N.
    Qed.

    Lemma force_total p : In p owned -> forcesOn part typeId fld same p pairs = totalForce same typeId fld visible p.
    Proof.
      intros Hp. unfold LJSpec.forcesOn, totalForce.
      replace (map (forceOf part typeId fld p) (others same p visible)) with (map (fun pq => forceOf part typeId fld (fst pq) (snd pq)) (map (pair p) (others same p visible))) by (rewrite map_map; reflexivity).
      apply vsum_members with (nz := nz).
      - intros x E. unfold forceOf. now rewrite E.
      - apply once_nodup. intros (a, b) H. apply filter_In in H as (H & I). apply filter_In in H as (H & E). cbn [fst snd] in *. apply Eq in E. subst a.
        apply once_filter; [|exact I]. apply once_filter; [|cbn [fst]; apply Eq; reflexivity]. apply pair_once; [exact H|apply Hown, Hp|exact I].
      - apply NoDup_filter, FinFun.Injective_map_NoDup; [intros x y [= ->]; reflexivity|]. apply NoDup_filter, Hnd.
      - intros (a, b) I. cbn [fst snd] in I. rewrite filter_In, in_map_iff. cbn [fst]. split.
        + intros (H & E). apply Eq in E. subst a. exists b. split; [reflexivity|]. destruct (interacting_live p b I) as (L1 & L2 & _). destruct (Hmem p b H L1 L2) as (_ & V & N). apply in_others. auto.
        + intros (x & [= <- <-] & H). apply in_others in H as (H & N). split; [|apply Eq; reflexivity]. apply pair_in; assumption.
    Qed.

    Notation allPairs := (flat_map (fun p => map (pair p) (others same p visible)) owned).
    Lemma owned_pairs_nodup : NoDup (filter nz (filter (fun pq => isOwned (fst pq)) pairs)).
    Proof.
      apply once_nodup. intros (a, b) H. apply filter_In in H as (H & I). apply filter_In in H as (H & E). cbn [fst snd] in *.
      apply once_filter; [|exact I]. apply once_filter; [|exact E]. apply pair_once; [exact H| |exact I]. unfold isOwned, stOwned in E. apply Z.eqb_eq, E.
    Qed.
    Lemma all_pairs_nodup : NoDup (filter nz allPairs).
    Proof.
      apply NoDup_filter. assert (No : NoDup owned) by (apply NoDup_app_inv in Hnd; apply Hnd). generalize visible Hnd. intros V NV. clear - No NV.
      induction No as [|a l N _ IH]; [constructor|]. cbn [flat_map]. apply NoDup_app_intro.
      - apply FinFun.Injective_map_NoDup; [intros x y [= ->]; reflexivity|]. apply NoDup_filter, NV.
      - exact IH.
      - intros x H1 H2. apply in_map_iff in H1 as (y & <- & _). apply in_flat_map in H2 as (z & Hz & H2). apply in_map_iff in H2 as (w & [= -> _] & _). contradiction.
    Qed.
    Lemma owned_pairs_iff x : nz x = true -> In x (filter (fun pq => isOwned (fst pq)) pairs) <-> In x allPairs.
    Proof.
      destruct x as (a, b). cbn [fst snd]. intros I. rewrite filter_In, in_flat_map. cbn [fst]. destruct (interacting_live a b I) as (L1 & L2 & _). split.
      - intros (H & E). unfold isOwned, stOwned in E. apply Z.eqb_eq in E. destruct (Hmem a b H L1 L2) as (V1 & V2 & N). exists a. split; [apply owned_iff; assumption|].
        apply in_map, in_others. auto.
      - intros (p & Hp & H). apply in_map_iff in H as (q & [= <- <-] & H). apply in_others in H as (H & N). split; [apply pair_in; assumption|].
        unfold isOwned, stOwned. apply Z.eqb_eq, Hown, Hp.
    Qed.

    Lemma energy_total : (ownedEnergy part typeId fld pairs / 2)%R = totalEnergy same typeId fld owned visible.
    Proof.
      unfold LJSpec.ownedEnergy, totalEnergy. f_equal. transitivity (rsum (map (fun pq => energyOf part typeId fld (fst pq) (snd pq)) allPairs)).
      - apply rsum_members with (nz := nz); [|exact owned_pairs_nodup|exact all_pairs_nodup|exact owned_pairs_iff]. intros x E. unfold energyOf. now rewrite E.
      - generalize visible. intros V. clear. induction owned as [|a l IH]; [reflexivity|]. cbn [flat_map]. rewrite map_app, rsum_app, IH, map_map. reflexivity.
    Qed.
    Lemma virial_total : rscale (ownedVirial part typeId fld pairs) (1 / 2) = totalVirial same typeId fld owned visible.
    Proof.
      unfold LJSpec.ownedVirial, totalVirial. f_equal. transitivity (vsum (map (fun pq => virialOf part typeId fld (fst pq) (snd pq)) allPairs)).
      - apply vsum_members with (nz := nz); [|exact owned_pairs_nodup|exact all_pairs_nodup|exact owned_pairs_iff].
        intros x E. unfold virialOf, forceOf. rewrite E. unfold rmul, rzero. cbn. f_equal; ring.
      - generalize visible. intros V. clear. induction owned as [|a l IH]; [reflexivity|]. cbn [flat_map]. rewrite map_app, vsum_app, IH, map_map. reflexivity.
    Qed.
  End Sums.

  Theorem compute_lj s0 h s ks : validStart cutoff spt freq s0 -> properHistory cutoff spt freq s0 h s ->
    disciplined spt false (map fst h ++ [Compute true ks]) -> computations (map fst h ++ [Compute true ks]) < 2 ^ 32 ->
    calm spt (map fst h) -> resizedSince false (map fst h) = false ->
    factorAtMost fac (kind (cont s0)) -> factorsAtMost fac (map fst h ++ [Compute true ks]) -> calmImages spt (imageDistance cutoff spt freq fac) (map fst h) ->
    validCall cutoff spt freq s (Compute true ks) -> NoDup (ownedParticles s ++ haloParticles s) ->
    generalPosition cutoff (ownedParticles s ++ haloParticles s) ->
    (forall p, In p (ownedParticles s ++ haloParticles s) -> known (typeId p)) ->
    forall view t lay newton3 threshold, (forall pos dir l, isSortedView pos dir l (view pos dir l)) ->
    suits cutoff spt freq (boxLo s) (boxHi s) (last ks (kind (cont s))) t newton3 ->
    exists calls, computeCalls cutoff spt freq view s ks t lay newton3 threshold = Some calls /\
      forall schedule n m, Permutation (map snd schedule) calls -> (forall k, In k (map fst schedule) -> (k < n)%nat) ->
      exists m' threads, runSchedule same typeId cfg schedule m (fun _ => noSums) = Some (m', threads) /\
        (forall p, In p (ownedParticles s) -> m' p = radd (m p) (totalForce same typeId fld (ownedParticles s ++ haloParticles s) p)) /\
        (calcGlobals cfg = true -> endTraversal (map threads (seq 0 n)) =
          (totalEnergy same typeId fld (ownedParticles s) (ownedParticles s ++ haloParticles s),
           totalVirial same typeId fld (ownedParticles s) (ownedParticles s ++ haloParticles s))).
  Proof.
    intros Vs H D B Ca Re F0 Fa Mv V Nd Gp Kn view t lay newton3 threshold Hview Su.
    destruct (compute_parts cutoff spt freq Hopt fac Hfac s0 h s ks Vs H D B Ca Re F0 Fa Mv V Nd view t lay newton3 threshold Hview Su)
      as (s1 & calls & rest & Se & E1 & E2 & QS & Nd1 & _ & _ & Hself & Bb & Bh).
    destruct (compute_exact cutoff spt freq Hopt fac Hfac s0 h s ks Vs H D B Ca Re F0 Fa Mv V Nd view t lay newton3 threshold Hview Su) as (pairs & Ep & Once & _).
    unfold computeCalls. rewrite Se, E1, E2.
    set (cells := ccells (cont s1)) in *. set (actions := map _ calls ++ rest). exists actions. split; [reflexivity|].
    assert (Pe : pairs = flat_map forces actions).
    { unfold computePairs in Ep. rewrite Se, E1, E2 in Ep. injection Ep as <-. unfold actions. rewrite flat_map_app. f_equal.
      fold cells. clear. induction calls as [|c l IH]; [reflexivity|]. cbn [flat_map map]. rewrite map_app, IH. unfold added. cbn [forces]. destruct (n3 c); reflexivity. }
    assert (Nl : NoDup (filter live (concat cells))) by (rewrite app_assoc in Nd1; apply NoDup_app_inv in Nd1; apply Nd1).
    set (bu := concat (bufs s1) ++ concat (halos s1)).
    assert (Vis : forall p, In p (ownedParticles s ++ haloParticles s) <-> In p bu \/ In p (filter live (concat cells))).
    { intros p. unfold bu. rewrite <- in_app_iff, <- app_assoc. split; apply Permutation_in; [exact QS|symmetry; exact QS]. }
    assert (LiveB : forall p, In p bu -> isDummy p = false).
    { intros p Hp. unfold isDummy, stDummy. apply Z.eqb_neq. apply in_app_or in Hp as [Hp|Hp]; [rewrite (Bb p Hp); lia|rewrite (Bh p Hp); lia]. }
    assert (VisC : forall p, In p (concat cells) -> isDummy p = false -> In p (ownedParticles s ++ haloParticles s)).
    { intros p Hp L. apply Vis. right. apply filter_In. split; [exact Hp|]. unfold live. now rewrite L. }
    assert (VisB : forall p, In p bu -> In p (ownedParticles s ++ haloParticles s)) by (intros p Hp; apply Vis; left; exact Hp).
    assert (Dj : forall p, In p bu -> In p (concat cells) -> False).
    { intros p X1 X2. assert (Nd2 := Nd1). rewrite app_assoc in Nd2. apply NoDup_app_inv in Nd2 as (_ & _ & X). apply (X p X1). apply filter_In. split; [exact X2|]. unfold live. now rewrite (LiveB p X1). }
    assert (Nb : NoDup bu) by (rewrite app_assoc in Nd1; apply NoDup_app_inv in Nd1; apply Nd1).
    assert (Slot : forall c, In c calls -> isDummy (slotParticle cells (fstP c)) = false -> isDummy (slotParticle cells (sndP c)) = false ->
      In (slotParticle cells (fstP c)) (concat cells) /\ In (slotParticle cells (sndP c)) (concat cells) /\ slotParticle cells (fstP c) <> slotParticle cells (sndP c)).
    { intros c Hc D1 D2. unfold isDummy, stDummy in D1, D2. apply Z.eqb_neq in D1, D2.
      destruct (pairs_in cells [c] (slotParticle cells (fstP c)) (slotParticle cells (sndP c))) as (X1 & X2); [left; reflexivity|exact D1|exact D2|].
      split; [exact X1|]. split; [exact X2|]. intros E. apply (Hself c Hc). apply (slot_unique cells Nl); assumption. }
    assert (Shape : forall c, In c rest -> shape (concat cells) bu c).
    { intros c Hc. apply (remainder_shape rndExact newton3 cutoff (inRegionOf cutoff spt freq (boxLo s1) (boxHi s1) (cont s1)) (concat cells)) with (nl := Nat.max 2 (length (bufs s1))) (rest := rest); [|exact E2|exact Hc].
      intros b l hh ps X. unfold inRegionOf in X. destruct (kind (cont s1)); [exact (dsRegion_incl _ _ _ _ _ X)|exact (lcRegion_incl _ _ _ _ _ _ _ _ X)]. }
    assert (Good : forall c, In c actions -> good typeId known c).
    { intros c Hc. apply in_app_or in Hc as [Hc|Hc].
      - apply in_map_iff in Hc as (c0 & <- & Hc). cbn [good]. intros D1 D2. destruct (Slot c0 Hc D1 D2) as (X1 & X2 & N).
        apply VisC in X1; [|exact D1]. apply VisC in X2; [|exact D2]. split; [apply Kn, X1|]. split; [apply Kn, X2|]. apply (Gp _ _ X1 X2 N).
      - specialize (Shape c Hc). destruct c as [i j n3|l n3|x y n3]; cbn [shape good] in *.
        + intros D1 D2. assert (X : In i (ownedParticles s ++ haloParticles s) /\ In j (ownedParticles s ++ haloParticles s) /\ i <> j).
          { destruct Shape as [(X1 & X2)|(X1 & X2)]; (split; [auto|]; split; [auto|]); intros ->; [exact (Dj _ X1 X2)|exact (Dj _ X2 X1)]. }
          destruct X as (X1 & X2 & N). split; [apply Kn, X1|]. split; [apply Kn, X2|]. apply (Gp _ _ X1 X2 N).
        + split; [intros p Hp; apply (partOf_in _ _ _ Shape) in Hp; auto|]. apply ord_pairs; [exact (partOf_nodup _ _ Shape Nb)|].
          intros a b Ha Hb N _. apply (partOf_in _ _ _ Shape) in Ha, Hb. apply (Gp a b); auto.
        + split; [intros p Hp; apply (partOf_in _ _ _ Shape) in Hp; auto|]. assert (Nxy := partOf_nodup _ _ Shape Nb). apply NoDup_app_inv in Nxy as (_ & _ & Dxy).
          intros a b Ha Hb _. assert (N : a <> b) by (intros ->; exact (Dxy b Ha Hb)).
          apply (Gp a b); auto; apply VisB, (partOf_in _ _ _ Shape), in_or_app; auto. }
    assert (Mem : forall p q, In (p, q) pairs -> pown p <> 0 -> pown q <> 0 ->
      In p (ownedParticles s ++ haloParticles s) /\ In q (ownedParticles s ++ haloParticles s) /\ p <> q).
    { intros p q X Lp Lq. rewrite Pe in X. apply in_flat_map in X as (c & Hc & X). assert (G := Good c Hc).
      assert (D1 : isDummy p = false) by (unfold isDummy, stDummy; apply Z.eqb_neq, Lp). assert (D2 : isDummy q = false) by (unfold isDummy, stDummy; apply Z.eqb_neq, Lq).
      apply in_app_or in Hc as [Hc|Hc].
      - apply in_map_iff in Hc as (c0 & <- & Hc). cbn [forces] in X.
        destruct X as [[= <- <-]|X]; [destruct (Slot c0 Hc D1 D2) as (X1 & X2 & N); auto|]. destruct (n3 c0); [|destruct X].
        destruct X as [[= <- <-]|[]]. destruct (Slot c0 Hc D2 D1) as (X1 & X2 & N). auto.
      - destruct (shape_members _ _ _ _ _ (Shape c Hc) X) as (X1 & X2).
        assert (V1 : In p (ownedParticles s ++ haloParticles s)) by (destruct X1; auto). assert (V2 : In q (ownedParticles s ++ haloParticles s)) by (destruct X2; auto).
        split; [exact V1|]. split; [exact V2|]. intros ->. destruct c as [i j n3|l n3|x y n3]; cbn [good forces] in *.
        + assert (E : i = j) by (destruct X as [[= -> ->]|X]; [reflexivity|destruct n3; [destruct X as [[= -> ->]|[]]; reflexivity|destruct X]]). subst j.
          assert (i = q) by (destruct X as [[= -> ]|X]; [reflexivity|destruct n3; [destruct X as [[= ->]|[]]; reflexivity|destruct X]]). subst i. apply (G D1 D1). reflexivity.
        + specialize (Shape _ Hc). cbn [shape] in Shape. assert (Nn := partOf_nodup _ _ Shape Nb). clear - X Nn. induction Nn as [|a l N _ IH]; [exact X|]. cbn [ordered] in X.
          rewrite !in_app_iff, !in_map_iff in X. destruct X as [(w & [= -> ->] & X)|[(w & [= -> ->] & X)|X]]; auto.
        + specialize (Shape _ Hc). cbn [shape] in Shape. assert (Nxy := partOf_nodup _ _ Shape Nb). apply NoDup_app_inv in Nxy as (_ & _ & Dxy).
          apply in_app_or in X as [X|X]; [|destruct n3; [|destruct X]]; apply in_prod_iff in X as (Y1 & Y2); [exact (Dxy q Y1 Y2)|exact (Dxy q Y2 Y1)]. }
    assert (Own : forall p, In p (ownedParticles s) -> pown p = 1) by (intros p Hp; apply filter_In in Hp as (_ & Hp); apply Z.eqb_eq, Hp).
    assert (Hal : forall p, In p (haloParticles s) -> pown p = 2) by (intros p Hp; apply filter_In in Hp as (_ & Hp); apply Z.eqb_eq, Hp).
    intros schedule n m Ps Hn.
    destruct (schedule_value same typeId cfg fld known Hset n schedule m (fun _ => noSums)) as (m' & th & Er & Fm & Gm).
    { intros k c Hc. split; [apply Hn; apply (in_map fst) in Hc; exact Hc|]. apply Good. apply (Permutation_in _ Ps). apply (in_map snd) in Hc. exact Hc. }
    assert (Pp : Permutation (flat_map forces (map snd schedule)) pairs) by (rewrite Pe; apply Permutation_flat_map, Ps).
    exists m', th. split; [exact Er|]. split.
    - intros p Hp. rewrite Fm. f_equal. rewrite (forcesOn_perm same typeId fld p _ _ Pp).
      apply (force_total (ownedParticles s) (haloParticles s) pairs); assumption.
    - intros C. destruct (Gm C) as (G1 & G2). rewrite end_value, G1, G2.
      assert (Z : ssum (map (fun _ : nat => noSums) (seq 0 n)) = noSums) by apply ssum_zero. rewrite Z. cbn [potentialSum virialSum noSums]. rewrite radd_zero_l.
      rewrite (ownedEnergy_perm typeId fld _ _ Pp), (ownedVirial_perm typeId fld _ _ Pp).
      rewrite <- (energy_total (ownedParticles s) (haloParticles s) pairs); try assumption.
      rewrite <- (virial_total (ownedParticles s) (haloParticles s) pairs); try assumption.
      f_equal. field.
  Qed.
End Theorem_.
