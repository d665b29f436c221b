(** Proofs about the AVX variant of the Lennard-Jones functor. *)
From Coq Require Import Reals List ZArith Bool Arith Lra Lia.
From Verif.Base Require Import ZRange OptionM Lists.
From Verif.Functor Require Import CellFunctorModel SortModel.
From Verif.Container Require Import IteratorModel ParticleModel.
From Verif.Logic Require Import ComputeModel.
From Verif.MD Require Import MixingModel LJModel LJSpec LJProofs AVXModel.
Import ListNotations.
Local Open Scope R_scope.

Section Proofs.
  Context {A : Type}.
  Variable same : A -> A -> bool.
  Hypothesis sameEq : forall x y, same x y = true <-> x = y.
  Variable part : A -> Particle.
  Variable typeId : A -> nat.
  Variable cfg : LJConfig.

  Notation pairF := (LJProofs.pairF part typeId cfg).
  Notation pairE := (LJProofs.pairE part typeId cfg).
  Notation hit := (LJProofs.hit part cfg).
  Notation propsOf := (LJProofs.propsOf typeId cfg).
  Notation subtracted := (LJProofs.subtracted same part typeId cfg).
  Notation dr2 i j := (dot (displacement part i j) (displacement part i j)).

  (** What a pair adds to the sums. *)
  Definition pairG (both : bool) (i j : A) : Sums :=
    whenSums (calcGlobals cfg)
      (globalSums (rscale (rmul (displacement part i j) (pairF i j)) (factorOf part both i j)) (pairE i j * factorOf part both i j)).
  Definition fineA (i j : A) : Prop :=
    pairProps cfg (typeId i) (typeId j) <> None /\ (hit i j = true -> dr2 i j <> 0).

  (** ** One call of the kernel *)
  Definition Live (newton3 masked : bool) (rest : nat) (m : A -> R3) (rows : nat -> option Row) (k : nat) (j : A) : Prop :=
    (masked = true -> maskLane rest k = true /\ Nat.ltb k rest = true) /\
    exists r, rows k = Some r /\ rowPos r = ppos (part j) /\ rowOwn r = pown (part j) /\ rowType r = typeId j /\
              (newton3 = true -> rowForce r = m j).
  Definition Dead (masked : bool) (rest k : nat) : Prop :=
    masked = true /\ maskLane rest k = false /\ Nat.ltb k rest = false /\ Nat.eqb k 0 = false.

  Lemma live_load {T} n3 masked rest m rows k j (z : T) get : Live n3 masked rest m rows k j ->
    load masked rest z get rows k = option_map get (rows k).
  Proof. intros [M _]. unfold load. destruct masked; [|reflexivity]. now rewrite (proj1 (M eq_refl)). Qed.
  Lemma dead_load {T} masked rest rows k (z : T) get : Dead masked rest k -> load masked rest z get rows k = Some z.
  Proof. intros (-> & M & _). unfold load. now rewrite M. Qed.

  Lemma live_first n3 masked rest m rows k i j : isDummy (part i) = false -> fineA i j -> Live n3 masked rest m rows k j ->
    laneFirst cfg masked rest (typeId i) (ppos (part i)) rows k =
      Some (mkLane (propsOf i j) (displacement part i j) (dr2 i j) (pown (part j)) (hit i j)).
  Proof.
    intros Di [P N] L. unfold laneFirst. rewrite !(live_load n3 masked rest m rows k j _ _ L).
    destruct L as (M & r & Er & E1 & E2 & E3 & _).
    assert (Q : laneParameters cfg masked rest (typeId i) rows k = Some (propsOf i j)).
    { unfold laneParameters. rewrite Er. rewrite <- (props_some typeId cfg i j P).
      destruct (useMixing cfg) eqn:U; [|unfold pairProps; now rewrite U].
      assert (Z : Nat.eqb k 0 || negb masked || Nat.ltb k rest = true).
      { destruct masked; [rewrite (proj2 (M eq_refl)); now rewrite orb_true_r|]. cbn. now rewrite orb_true_r. }
      now rewrite Z, E3. }
    rewrite Q, Er. cbn [option_map]. rewrite E1, E2. f_equal. fold (displacement part i j). f_equal.
    unfold LJProofs.hit. rewrite Di. unfold isDummy, stDummy. cbn [negb andb]. apply andb_comm.
  Qed.
  Lemma dead_first masked rest rows k ti x1 : Dead masked rest k -> 
    exists l, laneFirst cfg masked rest ti x1 rows k = Some l /\ laneHit l = false.
  Proof.
    intros D. unfold laneFirst. rewrite !(dead_load masked rest rows k _ _ D).
    assert (Q : exists p, laneParameters cfg masked rest ti rows k = Some p).
    { unfold laneParameters. destruct (useMixing cfg); [|eauto]. destruct D as (-> & _ & -> & ->). cbn [orb negb]. eauto. }
    destruct Q as [p ->]. eexists. split; [reflexivity|]. cbn [laneHit]. apply andb_false_r.
  Qed.

  Definition laneOf (i j : A) : Lane := mkLane (propsOf i j) (displacement part i j) (dr2 i j) (pown (part j)) (hit i j).

  Lemma live_second masked rest k i j : fineA i j -> (masked = true -> maskLane rest k = true) ->
    laneSecond masked rest k (laneOf i j) = Some (pairF i j, pairE i j).
  Proof.
    intros [_ N] M. unfold laneSecond, laneOf. cbn [laneHit laneDr2 laneProps laneDr].
    replace (if masked then hit i j && maskLane rest k else hit i j) with (hit i j)
      by (destruct masked; [rewrite M by reflexivity; now rewrite andb_true_r|reflexivity]).
    unfold LJProofs.pairF, LJProofs.pairE. destruct (hit i j) eqn:H.
    - destruct (Req_EM_T (dr2 i j) 0) as [Z|_]; [now destruct (N eq_refl)|]. cbv zeta. unfold ljKernel. cbn [fst snd].
      f_equal. f_equal; [f_equal|]; ring.
    - f_equal. f_equal. r3.
  Qed.
  Lemma dead_second masked rest k l : laneHit l = false -> laneSecond masked rest k l = Some (rzero, 0).
  Proof.
    intros H. unfold laneSecond. rewrite H. cbn [andb]. replace (if masked then false else false) with false by (destruct masked; reflexivity).
    f_equal. f_equal. r3.
  Qed.

  (** The lanes hold the particles js. *)
  Definition Filled (newton3 masked : bool) (rest : nat) (m : A -> R3) (rows : nat -> option Row) (js : list A) : Prop :=
    (length js <= 4)%nat /\
    forall k, (k < 4)%nat -> match nth_error js k with Some j => Live newton3 masked rest m rows k j | None => Dead masked rest k end.

  Definition accG (acc : Acc) : Sums := globalSums (hsum3 (accV acc)) (hsum (accP acc)).

  (** Force and sums of a lane. *)
  Definition optF (i : A) (o : option A) : R3 := match o with Some j => pairF i j | None => rzero end.
  Definition optE (i : A) (o : option A) : R := match o with Some j => pairE i j | None => 0 end.
  Definition optG (both : bool) (i : A) (o : option A) : Sums := match o with Some j => pairG both i j | None => noSums end.

  Lemma lanes_sum {B} (op : B -> B -> B) (e : B) (g : option A -> B) (js : list A) :
    (forall x, op x e = x) -> g None = e -> (length js <= 4)%nat ->
    op (g (nth_error js 0)) (op (g (nth_error js 1)) (op (g (nth_error js 2)) (op (g (nth_error js 3)) e))) =
    fold_right op e (map (fun j => g (Some j)) js).
  Proof.
    intros U Z L. destruct js as [|a [|b [|c [|d [|? ?]]]]]; cbn in L; try lia; cbn; rewrite ?Z, ?U; reflexivity.
  Qed.

  Lemma kernel_value newton3 masked rest i m rows js acc : isDummy (part i) = false -> (forall j, In j js -> fineA i j) ->
    Filled newton3 masked rest m rows js ->
    exists acc' st, kernel cfg newton3 masked rest (pown (part i)) (ppos (part i)) (typeId i) rows acc = Some (acc', st) /\
      hsum3 (accF acc') = radd (hsum3 (accF acc)) (vsum (map (pairF i) js)) /\
      accG acc' = addSums (accG acc) (ssum (map (pairG newton3 i) js)) /\
      (forall k, (k < 4)%nat ->
         match nth_error js k with
         | Some j => if newton3 then match lane st k with Some f => f | None => m j end = rsub (m j) (pairF i j) else lane st k = None
         | None => lane st k = None
         end).
  Proof.
    intros Di Fine [Len Fill].
    assert (First : forall k, (k < 4)%nat -> exists l, laneFirst cfg masked rest (typeId i) (ppos (part i)) rows k = Some l /\
              match nth_error js k with Some j => l = laneOf i j | None => laneHit l = false end).
    { intros k K. specialize (Fill k K). destruct (nth_error js k) as [j|] eqn:Ej.
      - exists (laneOf i j). split; [|reflexivity]. eapply live_first; eauto. apply Fine. eapply nth_error_In; eauto.
      - apply dead_first. exact Fill. }
    assert (Hits : forall k l, (k < 4)%nat -> match nth_error js k with Some j => l = laneOf i j | None => laneHit l = false end ->
              laneHit l = false -> optF i (nth_error js k) = rzero /\ optE i (nth_error js k) = 0).
    { intros k l K E H. unfold optF, optE. destruct (nth_error js k) as [j|]; [|auto]. subst l. cbn [laneOf laneHit] in H.
      unfold LJProofs.pairF, LJProofs.pairE. rewrite H. auto. }
    assert (Second : forall k l, (k < 4)%nat -> match nth_error js k with Some j => l = laneOf i j | None => laneHit l = false end ->
              laneSecond masked rest k l = Some (optF i (nth_error js k), optE i (nth_error js k))).
    { intros k l K E. specialize (Fill k K). unfold optF, optE. destruct (nth_error js k) as [j|] eqn:Ej.
      - subst l. apply live_second; [apply Fine; eapply nth_error_In; eauto|]. intros M. apply Fill, M.
      - apply dead_second, E. }
    assert (Loads : forall k, (k < 4)%nat -> newton3 = true -> exists f2, load masked rest rzero rowForce rows k = Some f2 /\
              match nth_error js k with Some j => f2 = m j /\ masked && negb (maskLane rest k) = false
                                      | None => masked && negb (maskLane rest k) = true end).
    { intros k K N. specialize (Fill k K). destruct (nth_error js k) as [j|] eqn:Ej.
      - rewrite (live_load _ _ _ _ _ _ _ _ _ Fill). destruct Fill as (M & r & -> & _ & _ & _ & F). exists (rowForce r).
        split; [reflexivity|]. split; [auto|]. destruct masked; [|reflexivity]. now rewrite (proj1 (M eq_refl)).
      - rewrite (dead_load _ _ _ _ _ _ Fill). exists rzero. split; [reflexivity|]. destruct Fill as (-> & -> & _). reflexivity. }
    destruct (First 0%nat ltac:(lia)) as (a0 & E0 & S0). destruct (First 1%nat ltac:(lia)) as (a1 & E1 & S1).
    destruct (First 2%nat ltac:(lia)) as (a2 & E2 & S2). destruct (First 3%nat ltac:(lia)) as (a3 & E3 & S3).
    assert (GG : forall k l, (k < 4)%nat -> match nth_error js k with Some j => l = laneOf i j | None => laneHit l = false end ->
      optG newton3 i (nth_error js k) =
        whenSums (calcGlobals cfg) (globalSums (rscale (rmul (optF i (nth_error js k)) (laneDr l)) (energyFactor newton3 (pown (part i)) (laneOwn l)))
          (energyFactor newton3 (pown (part i)) (laneOwn l) * optE i (nth_error js k)))).
    { intros k l K E. unfold optG, optF, optE. destruct (nth_error js k) as [j|].
      - subst l. cbn [laneOf laneDr laneOwn]. unfold pairG, factorOf, energyFactor, isOwned.
        destruct (calcGlobals cfg); [|reflexivity]. cbn [whenSums]. unfold globalSums. f_equal; [r3|ring].
      - unfold whenSums, globalSums, noSums. destruct (calcGlobals cfg); [|reflexivity]. f_equal; [r3|ring]. }
    assert (VF : vsum (map (pairF i) js) = radd (optF i (nth_error js 0)) (radd (optF i (nth_error js 1))
                   (radd (optF i (nth_error js 2)) (radd (optF i (nth_error js 3)) rzero)))).
    { symmetry. apply (lanes_sum radd rzero (optF i) js); [apply radd_zero_r|reflexivity|exact Len]. }
    assert (VG : ssum (map (pairG newton3 i) js) = addSums (optG newton3 i (nth_error js 0)) (addSums (optG newton3 i (nth_error js 1))
                   (addSums (optG newton3 i (nth_error js 2)) (addSums (optG newton3 i (nth_error js 3)) noSums)))).
    { symmetry. apply (lanes_sum addSums noSums (optG newton3 i) js); [apply addSums_zero_r|reflexivity|exact Len]. }
    unfold kernel, tabulate. rewrite E0, E1, E2, E3. cbn [l0 l1 l2 l3 lane].
    destruct (laneHit a0 || laneHit a1 || laneHit a2 || laneHit a3) eqn:Any; cbn [negb].
    - rewrite (Second 0%nat a0 ltac:(lia) S0), (Second 1%nat a1 ltac:(lia) S1), (Second 2%nat a2 ltac:(lia) S2), (Second 3%nat a3 ltac:(lia) S3).
      cbn [lane l0 l1 l2 l3 fst snd].
      assert (ST : exists st, (if newton3 then
          match (match load masked rest rzero rowForce rows 0 with Some f2 => Some (if masked && negb (maskLane rest 0) then None else Some (rsub f2 (optF i (nth_error js 0)))) | None => None end),
                (match load masked rest rzero rowForce rows 1 with Some f2 => Some (if masked && negb (maskLane rest 1) then None else Some (rsub f2 (optF i (nth_error js 1)))) | None => None end),
                (match load masked rest rzero rowForce rows 2 with Some f2 => Some (if masked && negb (maskLane rest 2) then None else Some (rsub f2 (optF i (nth_error js 2)))) | None => None end),
                (match load masked rest rzero rowForce rows 3 with Some f2 => Some (if masked && negb (maskLane rest 3) then None else Some (rsub f2 (optF i (nth_error js 3)))) | None => None end)
          with Some a, Some b, Some c, Some d => Some (mkV4 a b c d) | _, _, _, _ => None end else Some (set1 None)) = Some st /\
         forall k, (k < 4)%nat ->
         match nth_error js k with
         | Some j => if newton3 then match lane st k with Some f => f | None => m j end = rsub (m j) (pairF i j) else lane st k = None
         | None => lane st k = None
         end).
      { destruct newton3.
        - destruct (Loads 0%nat ltac:(lia) eq_refl) as (f0 & -> & L0). destruct (Loads 1%nat ltac:(lia) eq_refl) as (f1 & -> & L1).
          destruct (Loads 2%nat ltac:(lia) eq_refl) as (f2 & -> & L2). destruct (Loads 3%nat ltac:(lia) eq_refl) as (f3 & -> & L3).
          eexists. split; [reflexivity|]. intros k K.
          destruct k as [|[|[|[|k]]]]; [| | | |lia]; cbn [lane l0 l1 l2 l3].
          + destruct (nth_error js 0) as [j|]; [destruct L0 as [-> ->]; reflexivity|]. rewrite L0. reflexivity.
          + destruct (nth_error js 1) as [j|]; [destruct L1 as [-> ->]; reflexivity|]. rewrite L1. reflexivity.
          + destruct (nth_error js 2) as [j|]; [destruct L2 as [-> ->]; reflexivity|]. rewrite L2. reflexivity.
          + destruct (nth_error js 3) as [j|]; [destruct L3 as [-> ->]; reflexivity|]. rewrite L3. reflexivity.
        - exists (set1 None). split; [reflexivity|]. intros k K.
          assert (LL : lane (set1 (@None R3)) k = None) by (destruct k as [|[|[|k]]]; reflexivity). rewrite LL.
          destruct (nth_error js k); reflexivity. }
      destruct ST as (st & -> & St).
      rewrite VF, VG, (GG 0%nat a0 ltac:(lia) S0), (GG 1%nat a1 ltac:(lia) S1), (GG 2%nat a2 ltac:(lia) S2), (GG 3%nat a3 ltac:(lia) S3).
      destruct (calcGlobals cfg).
      + eexists. exists st. split; [reflexivity|]. cbn [accF]. split; [unfold hsum3; cbn [l0 l1 l2 l3]; r3|]. split; [|exact St].
        cbn [whenSums]. unfold accG, hsum, hsum3, addSums, globalSums, noSums. cbn [accV accP l0 l1 l2 l3 virialSum potentialSum distCalls kernelsN3 kernelsNoN3 globalsN3 globalsNoN3].
        f_equal; [r3|ring].
      + eexists. exists st. split; [reflexivity|]. cbn [accF]. split; [unfold hsum3; cbn [l0 l1 l2 l3]; r3|]. split; [|exact St].
        cbn [whenSums]. unfold accG. cbn [accV accP]. now rewrite !addSums_zero_r.
    - apply orb_false_iff in Any. destruct Any as [Any H3]. apply orb_false_iff in Any. destruct Any as [Any H2].
      apply orb_false_iff in Any. destruct Any as [H0 H1].
      destruct (Hits 0%nat a0 ltac:(lia) S0 H0) as [F0 P0]. destruct (Hits 1%nat a1 ltac:(lia) S1 H1) as [F1 P1].
      destruct (Hits 2%nat a2 ltac:(lia) S2 H2) as [F2 P2]. destruct (Hits 3%nat a3 ltac:(lia) S3 H3) as [F3 P3].
      exists acc, (set1 None). split; [reflexivity|]. split; [rewrite VF, F0, F1, F2, F3; r3|]. split.
      + rewrite VG, (GG 0%nat a0 ltac:(lia) S0), (GG 1%nat a1 ltac:(lia) S1), (GG 2%nat a2 ltac:(lia) S2), (GG 3%nat a3 ltac:(lia) S3).
        rewrite F0, F1, F2, F3, P0, P1, P2, P3.
        assert (Z : forall d e, whenSums (calcGlobals cfg) (globalSums (rscale (rmul rzero d) e) (e * 0)) = noSums).
        { intros d e. unfold whenSums, globalSums, noSums. destruct (calcGlobals cfg); [|reflexivity]. f_equal; [r3|ring]. }
        rewrite !Z, !addSums_zero_r. reflexivity.
      + intros k K.
        assert (FF : optF i (nth_error js k) = rzero) by (destruct k as [|[|[|[|k]]]]; [assumption|assumption|assumption|assumption|lia]).
        assert (LL : lane (set1 (@None R3)) k = None) by (destruct k as [|[|[|k]]]; reflexivity). rewrite LL.
        destruct (nth_error js k) as [j|]; [|reflexivity]. cbn [optF] in FF. rewrite FF. destruct newton3; [|reflexivity]. r3.
  Qed.

  (** ** Blocks of rows *)
  Notation at_ := (LJProofs.at_ same).

  (** What has been done after i has interacted with js. *)
  Definition Done (newton3 : bool) (i : A) (js : list A) (x y : (A -> R3) * Acc) : Prop :=
    (forall a, fst y a = radd (fst x a) (subtracted newton3 a i js)) /\
    hsum3 (accF (snd y)) = radd (hsum3 (accF (snd x))) (vsum (map (pairF i) js)) /\
    accG (snd y) = addSums (accG (snd x)) (ssum (map (pairG newton3 i) js)).

  Lemma done_nil newton3 i x : Done newton3 i [] x x.
  Proof.
    split; [intros a; unfold LJProofs.subtracted; destruct newton3; cbn; now rewrite radd_zero_r|].
    split; [cbn [map]; change (vsum []) with rzero; now rewrite radd_zero_r|]. cbn [map]. change (ssum []) with noSums. now rewrite addSums_zero_r.
  Qed.
  Lemma subtracted_app newton3 a i l1 l2 : subtracted newton3 a i (l1 ++ l2) = radd (subtracted newton3 a i l1) (subtracted newton3 a i l2).
  Proof. unfold LJProofs.subtracted. destruct newton3; [now rewrite map_app, vsum_app|]. r3. Qed.
  Lemma done_app newton3 i l1 l2 x y z : Done newton3 i l1 x y -> Done newton3 i l2 y z -> Done newton3 i (l1 ++ l2) x z.
  Proof.
    intros (F1 & A1 & G1) (F2 & A2 & G2). split; [|split].
    - intros a. rewrite F2, F1, subtracted_app. now rewrite radd_assoc.
    - rewrite A2, A1, map_app, vsum_app. now rewrite radd_assoc.
    - rewrite G2, G1, map_app, ssum_app. now rewrite addSums_assoc.
  Qed.

  Lemma same_refl a : same a a = true.
  Proof. now apply sameEq. Qed.
  Lemma at_other a j f : a <> j -> at_ a j f = rzero.
  Proof. intros N. unfold LJProofs.at_. destruct (same a j) eqn:E; [apply sameEq in E; contradiction|reflexivity]. Qed.

  Lemma set_at m m0 j f o : m j = m0 j -> match o with Some g => g | None => m0 j end = rsub (m0 j) f ->
    forall a, (match o with Some g => setForce same j g m | None => m end) a = radd (m a) (at_ a j (opp f)).
  Proof.
    intros E V a. unfold LJProofs.at_, opp. destruct o as [g|].
    - unfold setForce. destruct (same a j) eqn:S; [|now rewrite radd_zero_r]. apply sameEq in S. subst a. rewrite V, E. r3.
    - destruct (same a j) eqn:S; [|now rewrite radd_zero_r]. apply sameEq in S. subst a. rewrite E.
      assert (f = rzero).
      { pose proof (f_equal rx V). pose proof (f_equal ry V). pose proof (f_equal rz V). cbn in *. apply R3_eq; cbn; lra. }
      subst f. r3.
  Qed.

  Lemma stores_value view j0 st i m js : NoDup js -> (forall k j, nth_error js k = Some j -> nth_error view (j0 + k) = Some j) ->
    (forall k, (k < 4)%nat ->
         match nth_error js k with
         | Some j => match lane st k with Some f => f | None => m j end = rsub (m j) (pairF i j)
         | None => lane st k = None
         end) ->
    forall n k m1, (k + n <= 4)%nat -> (forall l j, (k <= l)%nat -> nth_error js l = Some j -> m1 j = m j) ->
    exists m2, fold_left (fun r k => match r with Some m' => storeLane same view j0 st k m' | None => None end) (seq k n) (Some m1) = Some m2 /\
      forall a, m2 a = radd (m1 a) (vsum (map (fun l => match nth_error js l with Some j => at_ a j (opp (pairF i j)) | None => rzero end) (seq k n))).
  Proof.
    intros ND V St n. induction n as [|n IH]; intros k m1 K M1.
    - exists m1. split; [reflexivity|]. intros a. cbn. now rewrite radd_zero_r.
    - cbn [seq fold_left].
      specialize (St k ltac:(lia)).
      assert (Step : exists m1', storeLane same view j0 st k m1 = Some m1' /\
                forall a, m1' a = radd (m1 a) (match nth_error js k with Some j => at_ a j (opp (pairF i j)) | None => rzero end)).
      { unfold storeLane. destruct (nth_error js k) as [j|] eqn:Ej.
        - pose proof (set_at m1 m j (pairF i j) (lane st k) (M1 k j ltac:(lia) Ej) St) as Sa.
          destruct (lane st k) as [f|].
          + rewrite (V k j Ej). eexists. split; [reflexivity|]. exact Sa.
          + exists m1. split; [reflexivity|]. exact Sa.
        - rewrite St. exists m1. split; [reflexivity|]. intros a. now rewrite radd_zero_r. }
      destruct Step as (m1' & -> & Sa).
      destruct (IH (S k) m1' ltac:(lia)) as (m2 & E & Sb).
      { intros l j Kl El. rewrite Sa. rewrite (M1 l j ltac:(lia) El).
        destruct (nth_error js k) as [j'|] eqn:Ek; [|now rewrite radd_zero_r].
        rewrite at_other; [now rewrite radd_zero_r|]. intros ->.
        assert (l = k); [|lia]. eapply NoDup_nth_error; [exact ND|apply nth_error_Some; congruence|congruence]. }
      exists m2. split; [exact E|]. intros a. rewrite Sb, Sa. cbn [map].
      match goal with |- _ = radd _ (vsum (?h :: ?t)) => change (vsum (h :: t)) with (radd h (vsum t)) end.
      now rewrite radd_assoc.
  Qed.

  Lemma storesNone view j0 st m : (forall k, (k < 4)%nat -> lane st k = None) -> storeLanes same view j0 st m = Some m.
  Proof.
    intros H. unfold storeLanes, storeLane. cbn [fold_left].
    rewrite (H 0%nat), (H 1%nat), (H 2%nat), (H 3%nat) by lia. reflexivity.
  Qed.

  Definition shape (masked : bool) (rest n : nat) : Prop :=
    (masked = false /\ n = 4%nat) \/ (masked = true /\ rest = n /\ (0 < n < 4)%nat).

  Lemma shape_lanes masked rest n k : shape masked rest n -> (k < 4)%nat ->
    if Nat.ltb k n then (masked = true -> maskLane rest k = true /\ Nat.ltb k rest = true) else Dead masked rest k.
  Proof.
    intros [[-> ->]|(-> & -> & N)] K.
    - destruct (Nat.ltb_spec k 4); [discriminate|lia].
    - unfold Dead. destruct n as [|[|[|[|n]]]]; try lia; destruct k as [|[|[|[|k]]]]; try lia; cbn; auto.
  Qed.

  Lemma kernelAt_value newton3 masked rest i view j js x : isDummy (part i) = false -> (forall j, In j js -> fineA i j) ->
    NoDup js -> shape masked rest (length js) -> (forall k b, nth_error js k = Some b -> nth_error view (j + k) = Some b) ->
    exists y, kernelAt same part typeId cfg newton3 masked rest i view j x = Some y /\ Done newton3 i js x y.
  Proof.
    intros Di Fine ND Sh V. destruct x as [m acc].
    destruct (kernel_value newton3 masked rest i m (fun k => option_map (rowOf part typeId m) (nth_error view (j + k))) js acc Di Fine)
      as (acc' & st & E & F & G & St).
    { split; [destruct Sh as [[_ ->]|(_ & _ & N)]; lia|]. intros k K.
      pose proof (shape_lanes masked rest (length js) k Sh K) as Sl.
      destruct (nth_error js k) as [b|] eqn:Eb.
      - assert (k < length js)%nat by (apply nth_error_Some; congruence).
        destruct (Nat.ltb_spec k (length js)); [|lia]. split; [exact Sl|].
        rewrite (V k b Eb). exists (rowOf part typeId m b). cbn. auto.
      - apply nth_error_None in Eb. destruct (Nat.ltb_spec k (length js)); [lia|exact Sl]. }
    unfold kernelAt. cbn [fst snd]. rewrite E. unfold Done. destruct newton3.
    - destruct (stores_value view j st i m js ND V St 4 0 m ltac:(lia)) as (m2 & E2 & F2); [auto|].
      unfold storeLanes. cbn [seq] in E2. rewrite E2. exists (m2, acc'). split; [reflexivity|]. cbn [fst snd].
      split; [|split; assumption]. intros a. rewrite F2. f_equal. unfold LJProofs.subtracted. cbn [seq map].
      pose proof (lanes_sum radd rzero (fun o => match o with Some b => at_ a b (opp (pairF i b)) | None => rzero end) js radd_zero_r eq_refl) as LS.
      apply LS. destruct Sh as [[_ ->]|(_ & _ & N)]; lia.
    - rewrite storesNone; [|intros k K; specialize (St k K); destruct (nth_error js k); exact St].
      exists (m, acc'). split; [reflexivity|]. cbn [fst snd]. split; [|split; assumption].
      intros a. unfold LJProofs.subtracted. now rewrite radd_zero_r.
  Qed.

  Lemma window (view : list A) j n k b : nth_error (firstn n (skipn j view)) k = Some b -> nth_error view (j + k) = Some b.
  Proof.
    revert j n k. induction view as [|a view IH]; intros j n k H.
    - rewrite skipn_nil, firstn_nil in H. destruct k; discriminate.
    - destruct j as [|j].
      + cbn [skipn] in H. destruct n as [|n]; [destruct k; discriminate|]. destruct k as [|k]; [exact H|]. cbn in H.
        exact (IH 0%nat n k H).
      + cbn [skipn] in H. cbn. exact (IH j n k H).
  Qed.
  Lemma window_nodup (view : list A) j n : NoDup view -> NoDup (firstn n (skipn j view)).
  Proof.
    intros N. rewrite <- (firstn_skipn j view) in N. apply NoDup_app_inv in N. destruct N as (_ & N & _).
    rewrite <- (firstn_skipn n (skipn j view)) in N. now apply NoDup_app_inv in N.
  Qed.
  Lemma window_in (view : list A) j n b : In b (firstn n (skipn j view)) -> In b view.
  Proof.
    intros I. rewrite <- (firstn_skipn j view). apply in_or_app. right. rewrite <- (firstn_skipn n (skipn j view)). apply in_or_app. now left.
  Qed.
  Lemma window_split (view : list A) j n1 n2 : firstn (n1 + n2) (skipn j view) = firstn n1 (skipn j view) ++ firstn n2 (skipn (j + n1) view).
  Proof.
    revert j n1. induction view as [|a view IH]; intros j n1; [now rewrite !skipn_nil, !firstn_nil|].
    destruct j as [|j]; [|exact (IH j n1)]. destruct n1 as [|n1]; [reflexivity|]. cbn. f_equal. exact (IH 0%nat n1).
  Qed.
  Lemma window_length (view : list A) j n : (j + n <= length view)%nat -> length (firstn n (skipn j view)) = n.
  Proof. intros L. rewrite firstn_length, skipn_length. lia. Qed.

  Lemma fullLoop_value newton3 i view : isDummy (part i) = false -> NoDup view ->
    forall q j fuel x, (q <= fuel)%nat -> (j + 4 * q <= length view)%nat ->
    (forall b, In b (firstn (4 * q) (skipn j view)) -> fineA i b) ->
    exists y, fullLoop same part typeId cfg fuel newton3 i view (j + 4 * q) j x = Some (y, (j + 4 * q)%nat) /\
      Done newton3 i (firstn (4 * q) (skipn j view)) x y.
  Proof.
    intros Di ND. induction q as [|q IH]; intros j fuel x Q L Fine.
    - exists x. replace (j + 4 * 0)%nat with j by lia. change (4 * 0)%nat with 0%nat. cbn [firstn].
      split; [|apply done_nil]. unfold fullLoop. destruct fuel; now rewrite Nat.ltb_irrefl.
    - destruct fuel as [|fuel]; [lia|]. cbn [fullLoop].
      destruct (Nat.ltb_spec j (j + 4 * S q)); [|lia].
      replace (4 * S q)%nat with (4 + 4 * q)%nat in * by lia. rewrite window_split in *.
      destruct (kernelAt_value newton3 false 0 i view j (firstn 4 (skipn j view)) x Di) as (y & E & D).
      { intros b I. apply Fine, in_or_app. now left. }
      { apply window_nodup, ND. }
      { left. split; [reflexivity|]. apply window_length. lia. }
      { intros k b Eb. eapply window; eauto. }
      rewrite E. destruct (IH (j + 4)%nat fuel y ltac:(lia) ltac:(lia)) as (z & E2 & D2).
      { intros b I. apply Fine, in_or_app. now right. }
      replace (j + (4 + 4 * q))%nat with (j + 4 + 4 * q)%nat by lia. exists z. split; [exact E2|]. exact (done_app _ _ _ _ _ _ _ D D2).
  Qed.

  Lemma innerRows_value newton3 i view n x : isDummy (part i) = false -> NoDup view -> (n <= length view)%nat ->
    (forall b, In b (firstn n view) -> fineA i b) ->
    exists y, innerRows same part typeId cfg newton3 i view n x = Some y /\ Done newton3 i (firstn n view) x y.
  Proof.
    intros Di ND L Fine. unfold innerRows, vecLength.
    pose proof (Nat.div_mod n 4 ltac:(lia)) as DM. pose proof (Nat.mod_upper_bound n 4 ltac:(lia)) as MB.
    set (q := (n / 4)%nat) in *. set (r := (n mod 4)%nat) in *.
    replace (n - r)%nat with (0 + 4 * q)%nat by lia.
    pose proof (window_split view 0 (4 * q) r) as Sp. cbn [skipn Nat.add] in Sp. rewrite <- DM in Sp. rewrite Sp in *.
    destruct (fullLoop_value newton3 i view Di ND q 0 n x ltac:(lia) ltac:(lia)) as (y & E & D).
    { intros b I. apply Fine, in_or_app. now left. }
    rewrite E. cbn [skipn] in D. destruct (Nat.ltb_spec 0 r) as [R|R].
    - destruct (kernelAt_value newton3 true r i view (0 + 4 * q) (firstn r (skipn (4 * q) view)) y Di) as (z & E2 & D2).
      { intros b I. apply Fine, in_or_app. now right. }
      { apply window_nodup, ND. }
      { right. rewrite window_length by lia. repeat split; lia. }
      { intros k b Eb. eapply window; eauto. }
      exists z. split; [exact E2|]. exact (done_app _ _ _ _ _ _ _ D D2).
    - exists y. split; [reflexivity|]. assert (r = 0%nat) as Z by lia. rewrite Z. cbn [firstn]. rewrite app_nil_r. exact D.
  Qed.

  (** ** The loops over the first particle *)
  Notation callFc := (LJProofs.callFc same part typeId cfg).
  Definition regsG (x : V4 R3 * V4 R) : Sums := globalSums (hsum3 (fst x)) (hsum (snd x)).
  Definition callG (c : Call A) : Sums := pairG (n3 c) (fstP c) (sndP c).
  Definition CallsDone (cs : list (Call A)) (x y : (A -> R3) * (V4 R3 * V4 R)) : Prop :=
    (forall a, fst y a = radd (fst x a) (vsum (map (callFc a) cs))) /\
    regsG (snd y) = addSums (regsG (snd x)) (ssum (map callG cs)).

  Lemma callsDone_nil x : CallsDone [] x x.
  Proof. split; [intros a; cbn; now rewrite radd_zero_r|]. change (ssum (map callG [])) with noSums. now rewrite addSums_zero_r. Qed.
  Lemma callsDone_app l1 l2 x y z : CallsDone l1 x y -> CallsDone l2 y z -> CallsDone (l1 ++ l2) x z.
  Proof.
    intros (F1 & G1) (F2 & G2). split.
    - intros a. rewrite F2, F1, map_app, vsum_app. now rewrite radd_assoc.
    - rewrite G2, G1, map_app, ssum_app. now rewrite addSums_assoc.
  Qed.

  Lemma dummy_hit i j : isDummy (part i) = true -> hit i j = false.
  Proof. intros D. unfold LJProofs.hit. now rewrite D. Qed.
  Lemma nohit_zero b a i j : hit i j = false -> callFc a (mkCall i j b) = rzero /\ pairG b i j = noSums.
  Proof.
    intros H. unfold LJProofs.callFc, callF, pairG, LJProofs.at_, opp, LJProofs.pairF, LJProofs.pairE. cbn [n3 fstP sndP]. rewrite H. split.
    - destruct b, (same a i), (same a j); r3.
    - unfold whenSums, globalSums, noSums. destruct (calcGlobals cfg); [|reflexivity]. f_equal; [r3|ring].
  Qed.
  Lemma map_zero {B C} (f : B -> C) z l : (forall b, In b l -> f b = z) -> map f l = map (fun _ => z) l.
  Proof. intros H. apply map_ext_in. exact H. Qed.

  Lemma calls_of newton3 i js a : vsum (map (callFc a) (map (fun j => mkCall i j newton3) js)) =
    radd (at_ a i (vsum (map (pairF i) js))) (subtracted newton3 a i js).
  Proof.
    rewrite map_map. unfold LJProofs.callFc, callF. cbn [n3 fstP sndP]. rewrite vsum_add, at_vsum, map_map. f_equal.
    unfold LJProofs.subtracted. destruct newton3; [reflexivity|]. apply vsum_zero.
  Qed.

  Lemma rowStep_value newton3 i view n x : NoDup view -> (n <= length view)%nat ->
    (isDummy (part i) = false -> forall b, In b (firstn n view) -> fineA i b) ->
    exists y, rowStep same part typeId cfg newton3 i view n x = Some y /\
      CallsDone (map (fun j => mkCall i j newton3) (firstn n view)) x y.
  Proof.
    intros ND L Fine. unfold rowStep. destruct (isDummy (part i)) eqn:Di.
    - exists x. split; [reflexivity|]. split.
      + intros a. rewrite map_map, (map_zero _ rzero) by (intros b _; apply (proj1 (nohit_zero newton3 a i b (dummy_hit i b Di)))).
        rewrite vsum_zero. now rewrite radd_zero_r.
      + rewrite map_map. unfold callG. cbn [n3 fstP sndP].
        rewrite (map_zero _ noSums) by (intros b _; apply (proj2 (nohit_zero newton3 b i b (dummy_hit i b Di)))).
        rewrite ssum_zero. now rewrite addSums_zero_r.
    - destruct x as [m [vir pot]]. cbn [fst snd].
      destruct (innerRows_value newton3 i view n (m, mkAcc (set1 rzero) vir pot) Di ND L (Fine eq_refl)) as ((m' & acc) & -> & F & S & G).
      eexists. split; [reflexivity|]. cbn [fst snd accF] in *. split; cbn [fst snd].
      + intros a. rewrite add_at, F, S, calls_of.
        assert (Z : hsum3 (set1 rzero) = rzero) by (unfold hsum3, set1; cbn; r3). rewrite Z, radd_zero_l.
        rewrite <- !radd_assoc. f_equal. apply radd_comm.
      + rewrite map_map. exact G.
  Qed.

  Lemma pairRows_value newton3 v2 : NoDup v2 -> forall v1 x,
    (forall i j, In i v1 -> In j v2 -> isDummy (part i) = false -> fineA i j) ->
    exists y, pairRows same part typeId cfg newton3 v1 v2 x = Some y /\ CallsDone (soaPair newton3 v1 v2) x y.
  Proof.
    intros ND. induction v1 as [|i v1 IH]; intros x Fine; [exists x; split; [reflexivity|apply callsDone_nil]|].
    cbn [pairRows]. destruct (rowStep_value newton3 i v2 (length v2) x ND ltac:(lia)) as (y & -> & D).
    { intros Di b I. rewrite firstn_all in I. apply Fine; auto. now left. }
    destruct (IH y) as (z & -> & D2); [intros i' j Ii Ij; apply Fine; auto; now right|].
    exists z. split; [reflexivity|]. rewrite firstn_all in D. unfold soaPair. cbn [flat_map]. exact (callsDone_app _ _ _ _ _ D D2).
  Qed.

  (** The calls of the reversed outer loop. *)
  Fixpoint earlierCalls (view : list A) (n : nat) : list (Call A) :=
    match n with
    | O => []
    | S n' => (match nth_error view n' with Some i => map (fun j => mkCall i j true) (firstn n' view) | None => [] end) ++ earlierCalls view n'
    end.

  Lemma singleRows_value view : NoDup view -> forall n x, (n <= length view)%nat ->
    (forall k l i j, (l < k < n)%nat -> nth_error view k = Some i -> nth_error view l = Some j -> isDummy (part i) = false -> fineA i j) ->
    exists y, singleRows same part typeId cfg view n x = Some y /\ CallsDone (earlierCalls view n) x y.
  Proof.
    intros ND. induction n as [|n IH]; intros x L Fine; [exists x; split; [reflexivity|apply callsDone_nil]|].
    cbn [singleRows earlierCalls]. destruct (nth_error view n) as [i|] eqn:Ei; [|apply nth_error_None in Ei; lia].
    destruct (rowStep_value true i view n x ND ltac:(lia)) as (y & -> & D).
    { intros Di b I. apply In_nth_error in I. destruct I as [l El].
      assert (l < n)%nat by (pose proof (nth_error_Some (firstn n view) l) as X; rewrite firstn_length in X; assert (l < Nat.min n (length view))%nat by (apply X; congruence); lia).
      apply (Fine n l i b); auto. pose proof (window view 0 n l b) as W. cbn [skipn Nat.add] in W. auto. }
    destruct (IH y ltac:(lia)) as (z & -> & D2); [intros k l i' j K; apply Fine; lia|].
    exists z. split; [reflexivity|]. exact (callsDone_app _ _ _ _ _ D D2).
  Qed.
End Proofs.
