(** Proofs about the Lennard-Jones functor. *)
From Coq Require Import Reals List ZArith Bool Arith Lra Lia.
From Verif.Base Require Import ZRange OptionM.
From Verif.Functor Require Import CellFunctorModel SortModel.
From Verif.Container Require Import IteratorModel ParticleModel.
From Verif.Logic Require Import ComputeModel.
From Verif.MD Require Import MixingModel LJModel LJSpec.
Import ListNotations.
Local Open Scope R_scope.

(** * Vectors and sums *)
Lemma R3_eq (a b : R3) : rx a = rx b -> ry a = ry b -> rz a = rz b -> a = b.
Proof. destruct a, b; cbn; intros -> -> ->; reflexivity. Qed.
Ltac r3 := apply R3_eq; cbn; try ring.

Lemma radd_assoc a b c : radd a (radd b c) = radd (radd a b) c.
Proof. r3. Qed.
Lemma radd_comm a b : radd a b = radd b a.
Proof. r3. Qed.
Lemma radd_zero_l a : radd rzero a = a.
Proof. r3. Qed.
Lemma radd_zero_r a : radd a rzero = a.
Proof. r3. Qed.

Lemma addSums_assoc a b c : addSums a (addSums b c) = addSums (addSums a b) c.
Proof. unfold addSums; cbn. f_equal; try lia; try ring. apply radd_assoc. Qed.
Lemma addSums_zero_r a : addSums a noSums = a.
Proof. destruct a; unfold addSums; cbn. f_equal; try lia; try ring. apply radd_zero_r. Qed.
Lemma addSums_zero_l a : addSums noSums a = a.
Proof. destruct a; unfold addSums; cbn. f_equal; try ring. apply radd_zero_l. Qed.

Definition ssum (l : list Sums) : Sums := fold_right addSums noSums l.
Lemma ssum_app a b : ssum (a ++ b) = addSums (ssum a) (ssum b).
Proof.
  induction a as [|x a IH]; [cbn; now rewrite addSums_zero_l|].
  change (addSums x (ssum (a ++ b)) = addSums (addSums x (ssum a)) (ssum b)). now rewrite IH, addSums_assoc.
Qed.
Lemma vsum_app a b : vsum (a ++ b) = radd (vsum a) (vsum b).
Proof.
  induction a as [|x a IH]; [cbn; now rewrite radd_zero_l|].
  change (radd x (vsum (a ++ b)) = radd (radd x (vsum a)) (vsum b)). now rewrite IH, radd_assoc.
Qed.
Lemma rsum_app a b : rsum (a ++ b) = rsum a + rsum b.
Proof.
  induction a as [|x a IH]; [symmetry; apply Rplus_0_l|].
  change (x + rsum (a ++ b) = x + rsum a + rsum b). rewrite IH. ring.
Qed.

Section Proofs.
  Context {A : Type}.
  Variable same : A -> A -> bool.
  Hypothesis sameEq : forall x y, same x y = true <-> x = y.
  Variable part : A -> Particle.
  Variable typeId : A -> nat.
  Variable cfg : LJConfig.

  Notation dr i j := (displacement part i j).
  Notation dr2 i j := (dot (displacement part i j) (displacement part i j)).

  (** Both particles alive and within the cutoff. *)
  Definition hit (i j : A) : bool :=
    negb (isDummy (part i)) && negb (isDummy (part j)) && (if Rle_dec (dr2 i j) (cutoffSquared cfg) then true else false).
  (** The parameters, when known. *)
  Definition propsOf (i j : A) : LJProps :=
    match pairProps cfg (typeId i) (typeId j) with Some p => p | None => mkLJ 0 0 0 end.
  Definition pairF (i j : A) : R3 := if hit i j then fst (ljKernel 1 (propsOf i j) (dr i j) (dr2 i j)) else rzero.
  Definition pairE (i j : A) : R := if hit i j then snd (ljKernel 1 (propsOf i j) (dr i j) (dr2 i j)) else 0.
  Definition factorOf (both : bool) (i j : A) : R :=
    (if isOwned (part i) then 1 else 0) + (if both then if isOwned (part j) then 1 else 0 else 0).
  Definition pairS (both : bool) (i j : A) : Sums :=
    if isDummy (part i) then noSums
    else addSums (addSums (distCount cfg (negb (isDummy (part j)))) (kernelCount cfg both (hit i j)))
           (whenSums (calcGlobals cfg)
              (globalSums (rscale (rmul (dr i j) (pairF i j)) (factorOf both i j)) (pairE i j * factorOf both i j))).
  (** What a call adds to the force at address a. *)
  Definition at_ (a i : A) (f : R3) : R3 := if same a i then f else rzero.
  Definition opp (f : R3) : R3 := rsub rzero f.
  Definition callF (a : A) (both : bool) (i j : A) : R3 :=
    radd (at_ a i (pairF i j)) (if both then at_ a j (opp (pairF i j)) else rzero).

  Lemma add_at a i f m : addForce same i f m a = radd (m a) (at_ a i f).
  Proof. unfold addForce, at_. destruct (same a i); [reflexivity|]. now rewrite radd_zero_r. Qed.
  Lemma sub_at a i f m : subForce same i f m a = radd (m a) (at_ a i (opp f)).
  Proof. unfold subForce, at_, opp. destruct (same a i); r3. Qed.

  (** Nothing is undefined for the pair. *)
  Definition fine (i j : A) : Prop :=
    isDummy (part i) = true \/ (pairProps cfg (typeId i) (typeId j) <> None /\ dr2 i j <> 0).

  Lemma props_some i j : pairProps cfg (typeId i) (typeId j) <> None ->
    pairProps cfg (typeId i) (typeId j) = Some (propsOf i j).
  Proof. unfold propsOf. destruct (pairProps cfg (typeId i) (typeId j)); congruence. Qed.

  Lemma masked_value both i j : isDummy (part i) = false -> fine i j ->
    maskedBody part typeId cfg both i j = Some (pairF i j, pairS both i j).
  Proof.
    intros Di [D|[P N]]; [congruence|].
    unfold maskedBody. rewrite (props_some i j P).
    destruct (Req_EM_T (dr2 i j) 0) as [E|_]; [contradiction|].
    assert (M : (if Rle_dec (dr2 i j) (cutoffSquared cfg) then true else false) && negb (isDummy (part j)) = hit i j).
    { unfold hit. rewrite Di. cbn [negb andb]. apply andb_comm. }
    rewrite M. unfold pairS, pairF, pairE. rewrite Di. fold (factorOf both i j). destruct (hit i j); [reflexivity|].
    unfold ljKernel. cbn [fst snd].
    assert (Z : forall x, rscale x (0 * epsilon24 (propsOf i j) *
        (sigmaSquared (propsOf i j) * (1 / dr2 i j) * (sigmaSquared (propsOf i j) * (1 / dr2 i j)) *
         (sigmaSquared (propsOf i j) * (1 / dr2 i j)) *
         (sigmaSquared (propsOf i j) * (1 / dr2 i j) * (sigmaSquared (propsOf i j) * (1 / dr2 i j)) *
          (sigmaSquared (propsOf i j) * (1 / dr2 i j))) +
         (sigmaSquared (propsOf i j) * (1 / dr2 i j) * (sigmaSquared (propsOf i j) * (1 / dr2 i j)) *
          (sigmaSquared (propsOf i j) * (1 / dr2 i j)) *
          (sigmaSquared (propsOf i j) * (1 / dr2 i j) * (sigmaSquared (propsOf i j) * (1 / dr2 i j)) *
           (sigmaSquared (propsOf i j) * (1 / dr2 i j))) -
          sigmaSquared (propsOf i j) * (1 / dr2 i j) * (sigmaSquared (propsOf i j) * (1 / dr2 i j)) *
          (sigmaSquared (propsOf i j) * (1 / dr2 i j)))) * (1 / dr2 i j)) = rzero).
    { intros x. r3. }
    rewrite Z. rewrite !Rmult_0_l. reflexivity.
  Qed.

  Lemma whenSums_false s : whenSums false s = noSums.
  Proof. reflexivity. Qed.

  (** One AoS call. *)
  Lemma aos_value c s : let i := fstP c in let j := sndP c in
    (isDummy (part i) = true \/ isDummy (part j) = true \/
     (pairProps cfg (typeId i) (typeId j) <> None /\ (hit i j = true -> dr2 i j <> 0))) ->
    exists s', aosFunctor same part typeId cfg c s = Some s' /\
      (forall a, forceAt s' a = radd (forceAt s a) (callF a (n3 c) i j)) /\
      sums s' = addSums (sums s) (if isDummy (part j) then noSums else pairS (n3 c) i j).
  Proof.
    intros i j H. unfold aosFunctor. fold i j.
    destruct (isDummy (part i)) eqn:Di.
    { exists s. split; [reflexivity|]. split.
      - intros a. unfold callF, pairF, hit. rewrite Di. cbn [negb andb].
        unfold at_, opp. destruct (same a i), (same a j), (n3 c); r3.
      - unfold pairS. rewrite Di. destruct (isDummy (part j)); now rewrite addSums_zero_r. }
    destruct (isDummy (part j)) eqn:Dj.
    { exists s. split; [reflexivity|]. split.
      - intros a. unfold callF, pairF, hit. rewrite Di, Dj. cbn [negb andb].
        unfold at_, opp. destruct (same a i), (same a j), (n3 c); r3.
      - now rewrite addSums_zero_r. }
    destruct H as [H|[H|[P N]]]; [congruence|congruence|].
    cbn [orb]. rewrite (props_some i j P). cbv zeta.
    destruct (Rlt_dec (cutoffSquared cfg) (dr2 i j)) as [L|L].
    - assert (Hh : hit i j = false).
      { unfold hit. rewrite Di, Dj. destruct (Rle_dec (dr2 i j) (cutoffSquared cfg)); [lra|reflexivity]. }
      eexists. split; [reflexivity|]. cbn [forceAt sums]. split.
      + intros a. unfold callF, pairF. rewrite Hh. unfold at_, opp. destruct (same a i), (same a j), (n3 c); r3.
      + unfold pairS, pairF, pairE. rewrite Di, Dj, Hh. cbn [negb].
        f_equal. unfold distCount, kernelCount, addSums, whenSums, globalSums, noSums.
        rewrite !andb_false_r. destruct (n3 c), (calcGlobals cfg); cbn; f_equal; try ring; try lia; r3.
    - assert (Hh : hit i j = true).
      { unfold hit. rewrite Di, Dj. destruct (Rle_dec (dr2 i j) (cutoffSquared cfg)); [reflexivity|lra]. }
      destruct (Req_EM_T (dr2 i j) 0) as [E|_]; [now destruct (N Hh)|].
      destruct (ljKernel 1 (propsOf i j) (dr i j) (dr2 i j)) as [f e] eqn:K.
      assert (Ff : pairF i j = f) by (unfold pairF; now rewrite Hh, K).
      assert (Ee : pairE i j = e) by (unfold pairE; now rewrite Hh, K).
      eexists. split; [reflexivity|]. cbn [forceAt sums]. split.
      + intros a. unfold callF. rewrite Ff. destruct (n3 c).
        * rewrite sub_at, add_at. now rewrite radd_assoc.
        * rewrite add_at. now rewrite radd_zero_r.
      + unfold pairS. rewrite Di, Dj, Hh, Ff, Ee. cbn [negb]. unfold factorOf.
        destruct (calcGlobals cfg); cbn [andb]; rewrite <- !addSums_assoc; f_equal; f_equal;
          destruct (n3 c), (isOwned (part i)), (isOwned (part j)); cbn;
          unfold addSums, globalSums, noSums, whenSums; cbn; f_equal; try ring; try lia; r3.
  Qed.

  Lemma pairS_dummy both i j : isDummy (part j) = true -> pairS both i j = noSums.
  Proof.
    intros Dj. assert (Hh : hit i j = false) by (unfold hit; rewrite Dj; cbn; now rewrite andb_false_r).
    unfold pairS, pairF, pairE. rewrite Dj, Hh. destruct (isDummy (part i)); [reflexivity|].
    unfold distCount, kernelCount, addSums, whenSums, globalSums, noSums. cbn [negb]. rewrite !andb_false_r.
    destruct both, (calcGlobals cfg); cbn; f_equal; try ring; r3.
  Qed.

  (** * Sequences of AoS calls *)
  (** The call neither divides by zero nor meets an unknown type. *)
  Definition defined (c : Call A) : Prop :=
    isDummy (part (fstP c)) = true \/ isDummy (part (sndP c)) = true \/
    (pairProps cfg (typeId (fstP c)) (typeId (sndP c)) <> None /\
     (hit (fstP c) (sndP c) = true -> dr2 (fstP c) (sndP c) <> 0)).

  Definition callFc (a : A) (c : Call A) : R3 := callF a (n3 c) (fstP c) (sndP c).
  Definition callSc (c : Call A) : Sums := pairS (n3 c) (fstP c) (sndP c).

  Lemma aosCalls_value cs : forall s, (forall c, In c cs -> defined c) ->
    exists s', aosCalls same part typeId cfg cs s = Some s' /\
      (forall a, forceAt s' a = radd (forceAt s a) (vsum (map (callFc a) cs))) /\
      sums s' = addSums (sums s) (ssum (map callSc cs)).
  Proof.
    induction cs as [|c cs IH]; intros s H.
    - exists s. split; [reflexivity|]. split; [intros a; cbn; now rewrite radd_zero_r|]. cbn. now rewrite addSums_zero_r.
    - destruct (aos_value c s (H c (or_introl eq_refl))) as (s1 & E1 & F1 & S1).
      destruct (IH s1 (fun c' I => H c' (or_intror I))) as (s2 & E2 & F2 & S2).
      exists s2. cbn [aosCalls]. rewrite E1. split; [exact E2|]. split.
      + intros a. rewrite F2, F1. rewrite <- radd_assoc. reflexivity.
      + rewrite S2, S1, <- addSums_assoc. f_equal.
        change (ssum (map callSc (c :: cs))) with (addSums (callSc c) (ssum (map callSc cs))). f_equal.
        destruct (isDummy (part (sndP c))) eqn:D; [|reflexivity]. symmetry. now apply pairS_dummy.
  Qed.

  Lemma aosCalls_app l1 l2 s : aosCalls same part typeId cfg (l1 ++ l2) s =
    match aosCalls same part typeId cfg l1 s with Some s' => aosCalls same part typeId cfg l2 s' | None => None end.
  Proof.
    revert s; induction l1 as [|c l1 IH]; intros s; [reflexivity|]. cbn. destruct (aosFunctor same part typeId cfg c s); auto.
  Qed.

  (** * The vectorised loops *)
  Lemma at_vsum a i fs : at_ a i (vsum fs) = vsum (map (at_ a i) fs).
  Proof.
    unfold at_. destruct (same a i); [now rewrite map_id|].
    induction fs as [|f fs IH]; [reflexivity|].
    change (rzero = radd rzero (vsum (map (fun _ => rzero) fs))). rewrite <- IH. now rewrite radd_zero_l.
  Qed.
  Lemma vsum_add {B} (f g : B -> R3) l : vsum (map (fun x => radd (f x) (g x)) l) = radd (vsum (map f l)) (vsum (map g l)).
  Proof.
    induction l as [|x l IH]; [cbn; now rewrite radd_zero_l|].
    change (radd (radd (f x) (g x)) (vsum (map (fun x => radd (f x) (g x)) l)) =
            radd (radd (f x) (vsum (map f l))) (radd (g x) (vsum (map g l)))). rewrite IH. r3.
  Qed.
  Lemma vsum_zero {B} (l : list B) : vsum (map (fun _ => rzero) l) = rzero.
  Proof. induction l as [|x l IH]; [reflexivity|]. change (radd rzero (vsum (map (fun _ => rzero) l)) = rzero). rewrite IH. r3. Qed.
  Lemma ssum_zero {B} (l : list B) : ssum (map (fun _ => noSums) l) = noSums.
  Proof. induction l as [|x l IH]; [reflexivity|]. change (addSums noSums (ssum (map (fun _ => noSums) l)) = noSums). now rewrite IH, addSums_zero_l. Qed.

  Definition subtracted (newton3 : bool) (a i : A) (js : list A) : R3 :=
    if newton3 then vsum (map (fun j => at_ a j (opp (pairF i j))) js) else rzero.

  Lemma innerLoop_value newton3 i js : isDummy (part i) = false -> (forall j, In j js -> fine i j) ->
    forall m acc loc, exists m',
      innerLoop same part typeId cfg newton3 i js (m, acc, loc) =
        Some (m', radd acc (vsum (map (pairF i) js)), addSums loc (ssum (map (pairS newton3 i) js))) /\
      (forall a, m' a = radd (m a) (subtracted newton3 a i js)).
  Proof.
    intros Di. induction js as [|j js IH]; intros H m acc loc.
    - exists m. cbn. rewrite radd_zero_r, addSums_zero_r. split; [reflexivity|].
      intros a. unfold subtracted. destruct newton3; cbn; now rewrite radd_zero_r.
    - cbn [innerLoop]. rewrite (masked_value newton3 i j Di (H j (or_introl eq_refl))).
      destruct (IH (fun j' I => H j' (or_intror I)) (if newton3 then subForce same j (pairF i j) m else m)
                  (radd acc (pairF i j)) (addSums loc (pairS newton3 i j))) as (m' & E & F).
      exists m'. rewrite E. split.
      + rewrite <- radd_assoc, <- addSums_assoc. reflexivity.
      + intros a. rewrite F. unfold subtracted. destruct newton3; [|now rewrite !radd_zero_r].
        rewrite sub_at. rewrite <- radd_assoc. reflexivity.
  Qed.

  Lemma callF_sum newton3 a i js :
    radd (subtracted newton3 a i js) (at_ a i (vsum (map (pairF i) js))) = vsum (map (callF a newton3 i) js).
  Proof.
    rewrite at_vsum, map_map. unfold subtracted.
    change (map (callF a newton3 i) js) with
      (map (fun j => radd (at_ a i (pairF i j)) (if newton3 then at_ a j (opp (pairF i j)) else rzero)) js).
    rewrite vsum_add. destruct newton3; [apply radd_comm|]. rewrite vsum_zero. apply radd_comm.
  Qed.

  Lemma callF_dummy a both i j : isDummy (part i) = true -> callF a both i j = rzero.
  Proof.
    intros D. unfold callF, pairF, hit. rewrite D. cbn. unfold at_, opp. destruct both, (same a i), (same a j); r3.
  Qed.

  Lemma outerStep_value newton3 i js x : (forall j, In j js -> fine i j) -> exists m',
    outerStep same part typeId cfg newton3 i js x = Some (m', addSums (snd x) (ssum (map (pairS newton3 i) js))) /\
    (forall a, m' a = radd (fst x a) (vsum (map (callF a newton3 i) js))).
  Proof.
    intros H. unfold outerStep. destruct (isDummy (part i)) eqn:Di.
    - exists (fst x). split.
      + rewrite (map_ext_in (pairS newton3 i) (fun _ => noSums)) by (intros j _; unfold pairS; now rewrite Di).
        rewrite ssum_zero, addSums_zero_r. now destruct x.
      + intros a. rewrite (map_ext_in (callF a newton3 i) (fun _ => rzero)) by (intros j _; now apply callF_dummy).
        now rewrite vsum_zero, radd_zero_r.
    - destruct (innerLoop_value newton3 i js Di H (fst x) rzero (snd x)) as (m' & E & F).
      rewrite E. eexists. split; [reflexivity|]. intros a. rewrite add_at, F, radd_zero_l, <- radd_assoc, callF_sum. reflexivity.
  Qed.

  (** All pairs (i, j) with j behind i are fine. *)
  Definition laterFine (view : list A) : Prop :=
    forall i j, In (i, j) (laterPairs (fun _ l => l) view) -> fine i j.

  Lemma singleLoop_value view : laterFine view -> forall x, exists m',
    singleLoop same part typeId cfg view x = Some (m', addSums (snd x) (ssum (map callSc (soaSingle view)))) /\
    (forall a, m' a = radd (fst x a) (vsum (map (callFc a) (soaSingle view)))).
  Proof.
    unfold soaSingle. induction view as [|i view IH]; intros H x.
    - exists (fst x). cbn. rewrite addSums_zero_r. split; [now destruct x|]. intros a. now rewrite radd_zero_r.
    - cbn [singleLoop].
      destruct (outerStep_value true i view x) as (m1 & E1 & F1).
      { intros j Hj. apply H. cbn. apply in_or_app. left. apply in_map_iff. eauto. }
      rewrite E1.
      destruct (IH (fun a b I => H a b ltac:(cbn; apply in_or_app; now right))
                  (m1, addSums (snd x) (ssum (map (pairS true i) view)))) as (m2 & E2 & F2).
      exists m2. rewrite E2. cbn [laterPairs]. rewrite !map_app, !map_map. split.
      + cbn [snd]. rewrite ssum_app, addSums_assoc. reflexivity.
      + intros a. rewrite F2. cbn [fst]. rewrite F1, map_app, vsum_app, radd_assoc. rewrite !map_map. reflexivity.
  Qed.

  Lemma pairLoop_value newton3 v1 v2 : (forall i j, In i v1 -> In j v2 -> fine i j) -> forall x, exists m',
    pairLoop same part typeId cfg newton3 v1 v2 x = Some (m', addSums (snd x) (ssum (map callSc (soaPair newton3 v1 v2)))) /\
    (forall a, m' a = radd (fst x a) (vsum (map (callFc a) (soaPair newton3 v1 v2)))).
  Proof.
    unfold soaPair. induction v1 as [|i v1 IH]; intros H x.
    - exists (fst x). cbn. rewrite addSums_zero_r. split; [now destruct x|]. intros a. now rewrite radd_zero_r.
    - cbn [pairLoop].
      destruct (outerStep_value newton3 i v2 x) as (m1 & E1 & F1).
      { intros j Hj. apply H; [now left|assumption]. }
      rewrite E1.
      destruct (IH (fun a b I => H a b (or_intror I))
                  (m1, addSums (snd x) (ssum (map (pairS newton3 i) v2)))) as (m2 & E2 & F2).
      exists m2. rewrite E2. cbn [flat_map]. rewrite !map_app, !map_map. split.
      + cbn [snd]. rewrite ssum_app, addSums_assoc. reflexivity.
      + intros a. rewrite F2. cbn [fst]. rewrite F1, map_app, vsum_app, radd_assoc. rewrite !map_map. reflexivity.
  Qed.

  (** * Verlet *)
  Lemma blockForces_value newton3 i js : isDummy (part i) = false -> (forall j, In j js -> fine i j) ->
    forall acc loc,
      blockForces part typeId cfg newton3 i js acc loc =
        Some (map (pairF i) js, radd acc (vsum (map (pairF i) js)), addSums loc (ssum (map (pairS newton3 i) js))).
  Proof.
    intros Di. induction js as [|j js IH]; intros H acc loc.
    - cbn. now rewrite radd_zero_r, addSums_zero_r.
    - cbn [blockForces]. rewrite (masked_value newton3 i j Di (H j (or_introl eq_refl))).
      rewrite IH by (intros j' I; apply H; now right). rewrite <- radd_assoc, <- addSums_assoc. reflexivity.
  Qed.
  Lemma scatter_value i js : forall m a,
    scatter same js (map (pairF i) js) m a = radd (m a) (vsum (map (fun j => at_ a j (opp (pairF i j))) js)).
  Proof.
    induction js as [|j js IH]; intros m a; [cbn; now rewrite radd_zero_r|].
    cbn [scatter map]. rewrite IH, sub_at, <- radd_assoc. reflexivity.
  Qed.
  Lemma block_value newton3 i js : isDummy (part i) = false -> (forall j, In j js -> fine i j) ->
    forall m acc loc, exists m',
      block same part typeId cfg newton3 i js (m, acc, loc) =
        Some (m', radd acc (vsum (map (pairF i) js)), addSums loc (ssum (map (pairS newton3 i) js))) /\
      (forall a, m' a = radd (m a) (subtracted newton3 a i js)).
  Proof.
    intros Di H m acc loc. unfold block. rewrite blockForces_value by assumption.
    eexists. split; [reflexivity|]. intros a. unfold subtracted. destruct newton3; [apply scatter_value|now rewrite radd_zero_r].
  Qed.

  Lemma same_no i j : i <> j -> same i j = false.
  Proof. intros N. destruct (same i j) eqn:E; [|reflexivity]. apply sameEq in E. contradiction. Qed.

  Lemma restLoop_value newton3 i js : isDummy (part i) = false -> (forall j, In j js -> i <> j /\ fine i j) ->
    forall m acc loc, exists m',
      restLoop same part typeId cfg newton3 i js (m, acc, loc) =
        Some (m', radd acc (vsum (map (pairF i) js)), addSums loc (ssum (map (pairS newton3 i) js))) /\
      (forall a, m' a = radd (m a) (subtracted newton3 a i js)).
  Proof.
    intros Di. induction js as [|j js IH]; intros H m acc loc.
    - exists m. cbn. rewrite radd_zero_r, addSums_zero_r. split; [reflexivity|].
      intros a. unfold subtracted. destruct newton3; cbn; now rewrite radd_zero_r.
    - cbn [restLoop]. destruct (H j (or_introl eq_refl)) as [Nij [D|[P N]]]; [congruence|].
      rewrite (same_no i j Nij), (props_some i j P).
      assert (IH' := fun m acc loc => IH (fun j' I => H j' (or_intror I)) m acc loc).
      assert (Zero : hit i j = false -> pairF i j = rzero) by (unfold pairF; now intros ->).
      destruct (isDummy (part j)) eqn:Dj.
      { destruct (IH' m acc loc) as (m' & E & F). exists m'. rewrite E.
        assert (Z : pairF i j = rzero) by (apply Zero; unfold hit; rewrite Dj; cbn; now rewrite andb_false_r).
        split.
        - change (vsum (map (pairF i) (j :: js))) with (radd (pairF i j) (vsum (map (pairF i) js))).
          change (ssum (map (pairS newton3 i) (j :: js))) with (addSums (pairS newton3 i j) (ssum (map (pairS newton3 i) js))).
          rewrite Z, (pairS_dummy newton3 i j Dj), radd_zero_l, addSums_zero_l. reflexivity.
        - intros a. rewrite F. unfold subtracted. destruct newton3; [|reflexivity].
          change (vsum (map (fun j0 => at_ a j0 (opp (pairF i j0))) (j :: js))) with
            (radd (at_ a j (opp (pairF i j))) (vsum (map (fun j0 => at_ a j0 (opp (pairF i j0))) js))).
          rewrite Z. f_equal. unfold at_, opp. destruct (same a j); r3. }
      cbv zeta.
      destruct (Rlt_dec (cutoffSquared cfg) (dr2 i j)) as [L|L].
      + assert (Hh : hit i j = false).
        { unfold hit. rewrite Di, Dj. destruct (Rle_dec (dr2 i j) (cutoffSquared cfg)); [lra|reflexivity]. }
        pose proof (Zero Hh) as Z.
        destruct (IH' m acc (addSums loc (distCount cfg true))) as (m' & E & F). exists m'. rewrite E.
        split.
        * change (vsum (map (pairF i) (j :: js))) with (radd (pairF i j) (vsum (map (pairF i) js))).
          change (ssum (map (pairS newton3 i) (j :: js))) with (addSums (pairS newton3 i j) (ssum (map (pairS newton3 i) js))).
          rewrite Z, radd_zero_l, <- addSums_assoc. do 4 f_equal.
          unfold pairS, pairE. rewrite Di, Dj, Hh, Z. cbn [negb].
          unfold distCount, kernelCount, addSums, whenSums, globalSums, noSums.
          rewrite !andb_false_r. destruct newton3, (calcGlobals cfg); cbn; f_equal; try ring; try lia; r3.
        * intros a. rewrite F. unfold subtracted. destruct newton3; [|reflexivity].
          change (vsum (map (fun j0 => at_ a j0 (opp (pairF i j0))) (j :: js))) with
            (radd (at_ a j (opp (pairF i j))) (vsum (map (fun j0 => at_ a j0 (opp (pairF i j0))) js))).
          rewrite Z. f_equal. unfold at_, opp. destruct (same a j); r3.
      + assert (Hh : hit i j = true).
        { unfold hit. rewrite Di, Dj. destruct (Rle_dec (dr2 i j) (cutoffSquared cfg)); [reflexivity|lra]. }
        destruct (Req_EM_T (dr2 i j) 0) as [E0|_]; [contradiction|].
        destruct (ljKernel 1 (propsOf i j) (dr i j) (dr2 i j)) as [f e] eqn:K.
        assert (Ff : pairF i j = f) by (unfold pairF; now rewrite Hh, K).
        assert (Ee : pairE i j = e) by (unfold pairE; now rewrite Hh, K).
        match goal with |- context [restLoop _ _ _ _ _ _ _ (?m1, ?a1, ?l1)] => destruct (IH' m1 a1 l1) as (m' & E & F) end.
        exists m'. rewrite E. split.
        * change (vsum (map (pairF i) (j :: js))) with (radd (pairF i j) (vsum (map (pairF i) js))).
          change (ssum (map (pairS newton3 i) (j :: js))) with (addSums (pairS newton3 i j) (ssum (map (pairS newton3 i) js))).
          rewrite radd_assoc, addSums_assoc, Ff. do 3 f_equal.
          unfold pairS. rewrite Di, Dj, Hh, Ff, Ee. cbn [negb]. fold (factorOf newton3 i j). rewrite <- !addSums_assoc. reflexivity.
        * intros a. rewrite F. unfold subtracted. destruct newton3; [|reflexivity].
          change (vsum (map (fun j0 => at_ a j0 (opp (pairF i j0))) (j :: js))) with
            (radd (at_ a j (opp (pairF i j))) (vsum (map (fun j0 => at_ a j0 (opp (pairF i j0))) js))).
          rewrite sub_at, Ff, <- radd_assoc. reflexivity.
  Qed.

  Lemma subtracted_app newton3 a i l1 l2 :
    subtracted newton3 a i (l1 ++ l2) = radd (subtracted newton3 a i l1) (subtracted newton3 a i l2).
  Proof. unfold subtracted. destruct newton3; [now rewrite map_app, vsum_app|now rewrite radd_zero_l]. Qed.

  Lemma blocks_value vecsize newton3 i fuel : isDummy (part i) = false -> forall js,
    (forall j, In j js -> i <> j /\ fine i j) ->
    forall m acc loc, exists m',
      blocksThenRest same part typeId cfg fuel vecsize newton3 i js (m, acc, loc) =
        Some (m', radd acc (vsum (map (pairF i) js)), addSums loc (ssum (map (pairS newton3 i) js))) /\
      (forall a, m' a = radd (m a) (subtracted newton3 a i js)).
  Proof.
    intros Di. induction fuel as [|fuel IH]; intros js H m acc loc; [now apply restLoop_value|].
    cbn [blocksThenRest]. destruct (Nat.leb vecsize (length js)); [|now apply restLoop_value].
    assert (Sub : forall j, In j (firstn vecsize js) \/ In j (skipn vecsize js) -> In j js).
    { intros j I. rewrite <- (firstn_skipn vecsize js). now apply in_or_app. }
    destruct (block_value newton3 i (firstn vecsize js) Di (fun j I => proj2 (H j (Sub j (or_introl I)))) m acc loc)
      as (m1 & E1 & F1).
    rewrite E1.
    match goal with |- context [blocksThenRest _ _ _ _ _ _ _ _ _ (?m1, ?a1, ?l1)] =>
      destruct (IH (skipn vecsize js) (fun j I => H j (Sub j (or_intror I))) m1 a1 l1) as (m2 & E2 & F2) end.
    exists m2. rewrite E2. split.
    - rewrite <- radd_assoc, <- addSums_assoc, <- vsum_app, <- ssum_app, <- !map_app, firstn_skipn. reflexivity.
    - intros a. rewrite F2, F1, <- radd_assoc, <- subtracted_app, firstn_skipn. reflexivity.
  Qed.

  Definition verletCalls (newton3 : bool) (i : A) (js : list A) : list (Call A) := map (fun j => mkCall i j newton3) js.

  Lemma verlet_value vecsize newton3 view first nbrs i js s :
    nth_error view first = Some i -> mapM (nth_error view) nbrs = Some js ->
    (isDummy (part i) = false -> forall j, In j js -> i <> j /\ fine i j) ->
    exists s', soaFunctorVerlet same part typeId cfg vecsize newton3 view first nbrs s = Some s' /\
      (forall a, forceAt s' a = radd (forceAt s a) (vsum (map (callFc a) (verletCalls newton3 i js)))) /\
      sums s' = addSums (sums s) (ssum (map callSc (verletCalls newton3 i js))).
  Proof.
    intros Hi Hj H. unfold soaFunctorVerlet, verletCalls. rewrite !map_map.
    assert (D : isDummy (part i) = true \/ nbrs = [] -> 
                (forall a, vsum (map (fun j => callFc a (mkCall i j newton3)) js) = rzero) /\
                ssum (map (fun j => callSc (mkCall i j newton3)) js) = noSums).
    { intros [D| ->].
      - split.
        + intros a. erewrite map_ext; [apply vsum_zero|]. intros j. now apply callF_dummy.
        + erewrite map_ext; [apply ssum_zero|]. intros j. unfold callSc, pairS. cbn. now rewrite D.
      - cbn in Hj. injection Hj as <-. split; reflexivity. }
    destruct view as [|v view]; [now destruct first|].
    destruct nbrs as [|nb nbrs].
    - destruct (D (or_intror eq_refl)) as [D1 D2]. exists s. split; [reflexivity|]. split.
      + intros a. rewrite map_map, D1. now rewrite radd_zero_r.
      + rewrite D2. now rewrite addSums_zero_r.
    - rewrite Hi, Hj. destruct (isDummy (part i)) eqn:Di.
      + destruct (D (or_introl eq_refl)) as [D1 D2]. exists s. split; [reflexivity|]. split.
        * intros a. rewrite map_map, D1. now rewrite radd_zero_r.
        * rewrite D2. now rewrite addSums_zero_r.
      + destruct (blocks_value vecsize newton3 i (length js) Di js (H eq_refl) (forceAt s) rzero noSums) as (m' & E & F).
        rewrite E. eexists. split; [reflexivity|]. cbn [forceAt sums]. split.
        * intros a. rewrite radd_zero_l, map_map.
          change (map (fun j => callFc a (mkCall i j newton3)) js) with (map (callF a newton3 i) js).
          rewrite <- callF_sum.
          match goal with |- context [negb ?b] => destruct b eqn:B end; cbn [negb].
          -- rewrite F. f_equal.
             assert (Z : vsum (map (pairF i) js) = rzero).
             { destruct (Req_EM_T (rx (vsum (map (pairF i) js))) 0); [|discriminate].
               destruct (Req_EM_T (ry (vsum (map (pairF i) js))) 0); [|discriminate].
               destruct (Req_EM_T (rz (vsum (map (pairF i) js))) 0); [|discriminate].
               now apply R3_eq. }
             rewrite Z. unfold at_. destruct (same a i); now rewrite radd_zero_r.
          -- rewrite add_at, F, <- radd_assoc. reflexivity.
        * rewrite addSums_zero_l. reflexivity.
  Qed.
End Proofs.
