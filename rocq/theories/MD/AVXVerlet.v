(** Proofs about the AVX variant of the Lennard-Jones functor: neighbour lists. *)
From Coq Require Import Reals List ZArith Bool Arith Lra Lia.
From Verif.Base Require Import ZRange OptionM Lists.
From Verif.Functor Require Import CellFunctorModel SortModel.
From Verif.Container Require Import IteratorModel ParticleModel.
From Verif.Logic Require Import ComputeModel.
From Verif.MD Require Import MixingModel LJModel LJSpec LJProofs AVXModel AVXProofs.
Import ListNotations.
Local Open Scope R_scope.

Lemma mapM_nth {B C} (f : B -> option C) l r k c : mapM f l = Some r -> nth_error r k = Some c ->
  exists b, nth_error l k = Some b /\ f b = Some c.
Proof.
  revert r k. induction l as [|b l IH]; intros r k E N; cbn in E.
  - injection E as <-. destruct k; discriminate.
  - destruct (f b) as [c'|] eqn:F; [|discriminate]. destruct (mapM f l) as [r'|]; [|discriminate]. injection E as <-.
    destruct k as [|k]; [injection N as <-; exists b; auto|]. exact (IH r' k eq_refl N).
Qed.
Lemma mapM_len {B C} (f : B -> option C) l : forall r, mapM f l = Some r -> length r = length l.
Proof.
  induction l as [|b l IH]; intros r E; cbn in E; [now injection E as <-|].
  destruct (f b); [|discriminate]. destruct (mapM f l) as [r'|]; [|discriminate]. injection E as <-. cbn. f_equal. now apply IH.
Qed.
Lemma lane_set {T} (v : V4 T) k x l : (k < 4)%nat -> (l < 4)%nat -> lane (setLane v k x) l = if Nat.eqb l k then x else lane v l.
Proof. intros K L. destruct k as [|[|[|[|k]]]]; try lia; destruct l as [|[|[|[|l]]]]; try lia; reflexivity. Qed.

Section Verlet.
  Context {A : Type}.
  Variable same : A -> A -> bool.
  Hypothesis sameEq : forall x y, same x y = true <-> x = y.
  Variable part : A -> Particle.
  Variable typeId : A -> nat.
  Variable cfg : LJConfig.
  Variable view : list A.
  Variable neighbours : list nat.
  Variable all : list A.
  Hypothesis Hall : mapM (nth_error view) neighbours = Some all.
  Hypothesis HND : NoDup all.

  Notation pairF := (LJProofs.pairF part typeId cfg).
  Notation at_ := (LJProofs.at_ same).
  Notation Done := (AVXProofs.Done same part typeId cfg).

  Lemma at_index k b : nth_error all k = Some b -> exists n, nth_error neighbours k = Some n /\ nth_error view n = Some b.
  Proof. intros E. exact (mapM_nth _ _ _ _ _ Hall E). Qed.

  Lemma gather_value newton3 m j count : forall k buf, (k + count <= 4)%nat -> (j + k + count <= length all)%nat ->
    exists buf', gather part typeId count newton3 m view neighbours j k buf = Some buf' /\
      forall l, (l < 4)%nat ->
        if Nat.leb k l && Nat.ltb l (k + count)
        then exists b, nth_error all (j + l) = Some b /\ rowPos (lane buf' l) = ppos (part b) /\ rowOwn (lane buf' l) = pown (part b) /\
               rowType (lane buf' l) = typeId b /\ (newton3 = true -> rowForce (lane buf' l) = m b)
        else lane buf' l = lane buf l.
  Proof.
    induction count as [|count IH]; intros k buf K L.
    - exists buf. split; [reflexivity|]. intros l Ll. destruct (Nat.leb_spec k l); [|reflexivity].
      destruct (Nat.ltb_spec l (k + 0)); [lia|reflexivity].
    - cbn [gather]. unfold gatherLane.
      destruct (nth_error all (j + k)) as [b|] eqn:Eb; [|apply nth_error_None in Eb; lia].
      destruct (at_index _ _ Eb) as (n & -> & ->).
      match goal with |- exists buf', gather _ _ _ _ _ _ _ _ _ ?B = _ /\ _ => set (buf1 := B) end.
      destruct (IH (S k) buf1 ltac:(lia) ltac:(lia)) as (buf' & E & V). exists buf'. split; [exact E|]. intros l Ll. specialize (V l Ll).
      destruct (Nat.eq_dec l k) as [->|N].
      + destruct (Nat.leb_spec (S k) k); [lia|]. cbn [andb] in V.
        assert (V2 : lane buf1 k = mkRow (ppos (part b)) (pown (part b)) (typeId b) (if newton3 then m b else rowForce (lane buf k))).
        { unfold buf1. rewrite lane_set by lia. now rewrite Nat.eqb_refl. }
        destruct (Nat.leb_spec k k); [|lia]. destruct (Nat.ltb_spec k (k + S count)); [|lia]. cbn [andb].
        exists b. rewrite V, V2. cbn. split; [exact Eb|]. repeat split. intros ->. reflexivity.
      + destruct (Nat.leb_spec (S k) l), (Nat.leb_spec k l); try lia; cbn [andb] in *.
        * destruct (Nat.ltb_spec l (S k + count)), (Nat.ltb_spec l (k + S count)); try lia; [exact V|].
          rewrite V. unfold buf1. rewrite lane_set by lia. now rewrite (proj2 (Nat.eqb_neq l k) N).
        * rewrite V. unfold buf1. rewrite lane_set by lia. now rewrite (proj2 (Nat.eqb_neq l k) N).
  Qed.

  Lemma scatter_value i m j buf count : forall k m1, (j + k + count <= length all)%nat ->
    (forall l b, (k <= l < k + count)%nat -> nth_error all (j + l) = Some b -> rowForce (lane buf l) = rsub (m b) (pairF i b)) ->
    (forall l b, (k <= l)%nat -> nth_error all (j + l) = Some b -> m1 b = m b) ->
    exists m2, scatterRows same count view neighbours j k buf m1 = Some m2 /\
      forall a, m2 a = radd (m1 a) (vsum (map (fun b => at_ a b (opp (pairF i b))) (firstn count (skipn (j + k) all)))).
  Proof.
    induction count as [|count IH]; intros k m1 L V M1.
    - exists m1. split; [reflexivity|]. intros a. cbn. now rewrite radd_zero_r.
    - cbn [scatterRows]. destruct (nth_error all (j + k)) as [b|] eqn:Eb; [|apply nth_error_None in Eb; lia].
      destruct (at_index _ _ Eb) as (n & -> & ->).
      pose proof (set_at same sameEq m1 m b (pairF i b) (Some (rowForce (lane buf k))) (M1 k b ltac:(lia) Eb) (V k b ltac:(lia) Eb)) as Sa.
      cbn beta iota in Sa.
      destruct (IH (S k) (setForce same b (rowForce (lane buf k)) m1) ltac:(lia)) as (m2 & E & F).
      { intros l c Hl. apply V. lia. }
      { intros l c Hl El. rewrite Sa. rewrite (M1 l c ltac:(lia) El), (at_other same sameEq).
        - now rewrite radd_zero_r.
        - intros ->. assert (j + l = j + k)%nat; [|lia]. eapply NoDup_nth_error; [exact HND|apply nth_error_Some; congruence|congruence]. }
      exists m2. split; [exact E|]. intros a. rewrite F, Sa.
      replace (firstn (S count) (skipn (j + k) all)) with (b :: firstn count (skipn (j + S k) all)).
      + cbn [map]. match goal with |- _ = radd _ (vsum (?h :: ?t)) => change (vsum (h :: t)) with (radd h (vsum t)) end.
        now rewrite radd_assoc.
      + change (S count) with (1 + count)%nat. rewrite (window_split all (j + k) 1 count).
        replace (j + k + 1)%nat with (j + S k)%nat by lia.
        assert (Hd : firstn 1 (skipn (j + k) all) = [b]); [|now rewrite Hd].
        revert Eb. generalize (j + k)%nat. clear. induction all as [|x l IHl]; intros n E; [destruct n; discriminate|].
        destruct n as [|n]; [cbn in *; congruence|]. exact (IHl n E).
  Qed.

  Lemma verletBlock_value newton3 masked rest count i j x buf : isDummy (part i) = false ->
    shape masked rest count -> (j + count <= length all)%nat ->
    (forall b, In b (firstn count (skipn j all)) -> fineA part typeId cfg i b) ->
    exists y buf', verletBlock same part typeId cfg newton3 masked rest count i view neighbours j (x, buf) = Some (y, buf') /\
      Done newton3 i (firstn count (skipn j all)) x y.
  Proof.
    intros Di Sh L Fine. destruct x as [m acc]. unfold verletBlock.
    assert (C4 : (count <= 4)%nat) by (destruct Sh as [[_ ->]|(_ & _ & N)]; lia).
    destruct (gather_value newton3 m j count 0 buf ltac:(lia) ltac:(lia)) as (buf1 & -> & Gb).
    pose proof (window_length all j count L) as WL.
    destruct (kernel_value same sameEq part typeId cfg newton3 masked rest i m (fun k => if Nat.ltb k vecLength then Some (lane buf1 k) else None)
                (firstn count (skipn j all)) acc Di Fine) as (acc' & st & E & F & G & St).
    { split; [lia|]. intros k K. pose proof (shape_lanes masked rest count k Sh K) as Sl. specialize (Gb k K). cbn [Nat.leb andb Nat.add] in Gb.
      destruct (nth_error (firstn count (skipn j all)) k) as [b|] eqn:Eb.
      - assert (KC : (k < count)%nat) by (rewrite <- WL; apply nth_error_Some; congruence).
        destruct (Nat.ltb_spec k count); [|lia]. split; [exact Sl|].
        destruct Gb as (b' & Eb' & P1 & P2 & P3 & P4). pose proof (window all j count k b Eb) as W. rewrite W in Eb'. injection Eb' as <-.
        unfold vecLength. destruct (Nat.ltb_spec k 4); [|lia]. exists (lane buf1 k). auto.
      - apply nth_error_None in Eb. rewrite WL in Eb. destruct (Nat.ltb_spec k count); [lia|exact Sl]. }
    rewrite E. unfold AVXProofs.Done. destruct newton3.
    - destruct (scatter_value i m j (storeBuffer st buf1) count 0 m ltac:(lia)) as (m2 & E2 & F2).
      { intros l b Hl El. specialize (St l ltac:(lia)). specialize (Gb l ltac:(lia)). cbn [Nat.leb andb Nat.add] in Gb.
        destruct (Nat.ltb_spec l count); [|lia]. destruct Gb as (b' & Eb' & _ & _ & _ & P4). rewrite El in Eb'. injection Eb' as <-.
        assert (Q : nth_error (firstn count (skipn j all)) l = Some b).
        { destruct (nth_error (firstn count (skipn j all)) l) as [c|] eqn:Ec.
          - pose proof (window all j count l c Ec). congruence.
          - apply nth_error_None in Ec. lia. }
        rewrite Q in St. rewrite <- St.
        assert (U : lane (storeBuffer st buf1) l = match lane st l with
                 | Some f => mkRow (rowPos (lane buf1 l)) (rowOwn (lane buf1 l)) (rowType (lane buf1 l)) f
                 | None => lane buf1 l end) by (destruct l as [|[|[|[|l]]]]; [reflexivity|reflexivity|reflexivity|reflexivity|lia]).
        rewrite U. destruct (lane st l); [reflexivity|]. now apply P4. }
      { auto. }
      rewrite E2. exists (m2, acc'). eexists. split; [reflexivity|]. cbn [fst snd]. split; [|split; assumption].
      intros a. rewrite F2. now rewrite Nat.add_0_r.
    - exists (m, acc'). eexists. split; [reflexivity|]. cbn [fst snd]. split; [|split; assumption].
      intros a. unfold LJProofs.subtracted. now rewrite radd_zero_r.
  Qed.

  Lemma verletLoop_value newton3 i : isDummy (part i) = false ->
    forall q j fuel x buf, (q <= fuel)%nat -> (j + 4 * q <= length all)%nat ->
    (forall b, In b (firstn (4 * q) (skipn j all)) -> fineA part typeId cfg i b) ->
    exists y buf', verletLoop same part typeId cfg fuel newton3 i view neighbours (j + 4 * q) j (x, buf) = Some (y, buf', (j + 4 * q)%nat) /\
      Done newton3 i (firstn (4 * q) (skipn j all)) x y.
  Proof.
    intros Di. induction q as [|q IH]; intros j fuel x buf Q L Fine.
    - exists x, buf. replace (j + 4 * 0)%nat with j by lia. change (4 * 0)%nat with 0%nat. cbn [firstn].
      split; [|apply done_nil]. unfold verletLoop. destruct fuel; now rewrite Nat.ltb_irrefl.
    - destruct fuel as [|fuel]; [lia|]. cbn [verletLoop].
      destruct (Nat.ltb_spec j (j + 4 * S q)); [|lia].
      replace (4 * S q)%nat with (4 + 4 * q)%nat in * by lia. rewrite window_split in *.
      destruct (verletBlock_value newton3 false 0 4 i j x buf Di) as (y & b1 & E & D); [left; auto|lia| |].
      { intros b I. apply Fine, in_or_app. now left. }
      unfold vecLength. rewrite E. destruct (IH (j + 4)%nat fuel y b1 ltac:(lia) ltac:(lia)) as (z & b2 & E2 & D2).
      { intros b I. apply Fine, in_or_app. now right. }
      replace (j + (4 + 4 * q))%nat with (j + 4 + 4 * q)%nat by lia. exists z, b2. split; [exact E2|].
      exact (done_app same part typeId cfg _ _ _ _ _ _ _ D D2).
  Qed.

  Lemma verlet_value newton3 first i s : nth_error view first = Some i -> (isDummy (part i) = false -> forall b, In b all -> fineA part typeId cfg i b) ->
    exists s' vir pot, avxFunctorVerlet same part typeId cfg newton3 view first neighbours s = Some s' /\
      sums s' = addGlobals cfg vir pot (sums s) /\
      AVXProofs.CallsDone same part typeId cfg (map (fun j => mkCall i j newton3) all) (forceAt s, (set1 rzero, set1 0)) (forceAt s', (vir, pot)).
  Proof.
    intros Ei Fine. unfold avxFunctorVerlet.
    assert (Z0 : addGlobals cfg (set1 rzero) (set1 0) (sums s) = sums s).
    { unfold addGlobals. destruct (calcGlobals cfg); [|reflexivity].
      replace (globalSums (hsum3 (set1 rzero)) (hsum (set1 0))) with noSums; [apply addSums_zero_r|].
      unfold globalSums, noSums, hsum3, hsum, set1. cbn. f_equal; [r3|ring]. }
    destruct view as [|v0 vr] eqn:Ev; [destruct first; discriminate|].
    destruct neighbours as [|n0 nr] eqn:En.
    { exists s, (set1 rzero), (set1 0). split; [reflexivity|]. split; [now rewrite Z0|].
      cbn in Hall. injection Hall as <-. apply callsDone_nil. }
    cbv iota. rewrite <- En, <- Ev in *. clear En Ev. rewrite Ei.
    destruct (isDummy (part i)) eqn:Di.
    { exists s, (set1 rzero), (set1 0). split; [reflexivity|]. split; [now rewrite Z0|]. split; cbn [fst snd].
      - intros a. rewrite map_map, (map_zero _ rzero) by (intros b _; apply (proj1 (nohit_zero same part typeId cfg newton3 a i b (dummy_hit part cfg i b Di)))).
        rewrite vsum_zero. now rewrite radd_zero_r.
      - rewrite map_map. unfold callG. cbn [n3 fstP sndP].
        rewrite (map_zero _ noSums) by (intros b _; apply (proj2 (nohit_zero same part typeId cfg newton3 b i b (dummy_hit part cfg i b Di)))).
        rewrite ssum_zero. now rewrite addSums_zero_r. }
    pose proof (mapM_len _ _ _ Hall) as Len. rewrite <- Len. set (n := length all) in *. unfold vecLength.
    pose proof (Nat.div_mod n 4 ltac:(lia)) as DM. pose proof (Nat.mod_upper_bound n 4 ltac:(lia)) as MB.
    set (q := (n / 4)%nat) in *. set (r := (n mod 4)%nat) in *.
    replace (n - r)%nat with (0 + 4 * q)%nat by lia.
    pose proof (window_split all 0 (4 * q) r) as Sp. cbn [skipn Nat.add] in Sp. rewrite <- DM in Sp. unfold n in Sp at 1. rewrite firstn_all in Sp.
    destruct (verletLoop_value newton3 i Di q 0 n (forceAt s, mkAcc (set1 rzero) (set1 rzero) (set1 0)) emptyRows ltac:(lia) ltac:(lia)) as (y & b1 & E & D).
    { intros b I. apply (Fine eq_refl). rewrite Sp. apply in_or_app. now left. }
    unfold Regs in *. rewrite E. cbn [skipn] in D.
    assert (Last : exists m acc b2, (if Nat.ltb 0 r then verletBlock same part typeId cfg newton3 true r r i view neighbours (0 + 4 * q) (y, b1) else Some (y, b1)) = Some (m, acc, b2) /\
              Done newton3 i all (forceAt s, mkAcc (set1 rzero) (set1 rzero) (set1 0)) (m, acc)).
    { destruct (Nat.ltb_spec 0 r) as [R|R].
      - destruct (verletBlock_value newton3 true r r i (0 + 4 * q) y b1 Di) as ((m & acc) & b2 & E2 & D2); [right; repeat split; lia|lia| |].
        { intros b I. apply (Fine eq_refl). rewrite Sp. apply in_or_app. now right. }
        exists m, acc, b2. split; [exact E2|]. rewrite Sp. exact (done_app same part typeId cfg _ _ _ _ _ _ _ D D2).
      - destruct y as [m acc]. exists m, acc, b1. split; [reflexivity|]. assert (r = 0%nat) as Z by lia. rewrite Sp, Z. cbn [firstn].
        rewrite app_nil_r. exact D. }
    destruct Last as (m & acc & b2 & EL & F & S & G). unfold Regs in *. rewrite EL. cbn [fst snd accF] in *.
    eexists. exists (accV acc), (accP acc). split; [reflexivity|]. cbn [sums forceAt]. split; [reflexivity|]. split; cbn [fst snd].
    - intros a. rewrite add_at, F, S, calls_of.
      assert (Z : hsum3 (set1 rzero) = rzero) by (unfold hsum3, set1; cbn; r3). rewrite Z, radd_zero_l.
      rewrite <- !radd_assoc. f_equal. apply radd_comm.
    - rewrite map_map. exact G.
  Qed.
End Verlet.
