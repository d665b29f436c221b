(** VarVerletLists: lists per colour and thread. *)
From Coq Require Import Reals Lra.
From Verif.Base Require Import ZRange Occ OptionM Lists.
From Verif.Grid Require Import IndexModel IndexSpec IndexProofs CellBlockModel CellBlockSpec CellBlockExact.
From Verif.Traversal Require Import ColorModel ColorProofs CellSpec CellLemmas C08Model C08Proofs C08Bases C04Model C18Model C18Proofs.
From Verif.Functor Require Import CellFunctorModel FunctorSpec CellFunctorProofs SortModel SortSpec SortProofs.
From Verif.Container Require Import LinkedCellsModel LinkedCellsSpec LinkedCellsBuild LinkedCellsCount LinkedCellsDir LinkedCellsGeo LinkedCellsProofs.
From Verif.Verlet Require Import VerletModel VerletSpec VerletGen VerletStore VerletCells VerletBase VerletTraverse VerletProofs VerletPairs.
Open Scope Z_scope.

Lemma flat_map_pointwise {A B} (f g : A -> list B) l : (forall x, In x l -> Permutation (f x) (g x)) ->
  Permutation (flat_map f l) (flat_map g l).
Proof.
  induction l as [|x l IH]; intros H; [reflexivity|]. cbn [flat_map]. apply Permutation_app; [apply H; now left|].
  apply IH. intros y Hy. apply H. now right.
Qed.

Lemma flat_map_split {A B} (f g : A -> list B) l : Permutation (flat_map (fun x => f x ++ g x) l) (flat_map f l ++ flat_map g l).
Proof.
  induction l as [|x l IH]; [reflexivity|]. cbn [flat_map]. rewrite IH, <- !app_assoc. apply Permutation_app_head.
  rewrite !app_assoc. apply Permutation_app_tail, Permutation_app_comm.
Qed.

Lemma flat_map_at {B} k n (l : list B) : (k < n)%nat -> flat_map (fun k' => if Nat.eqb k' k then l else []) (seq 0 n) = l.
Proof.
  intros H. replace n with (k + S (n - S k))%nat by lia. rewrite seq_app. cbn [seq]. rewrite flat_map_app. cbn [flat_map]. rewrite Nat.add_0_l, Nat.eqb_refl.
  assert (Z : forall s m, (forall i, In i (seq s m) -> i <> k) -> flat_map (fun k' => if Nat.eqb k' k then l else []) (seq s m) = []).
  { intros s m. generalize (seq s m). induction l0 as [|x r IH]; intros Hi; [reflexivity|]. cbn [flat_map].
    destruct (Nat.eqb_spec x k) as [E|N]; [elim (Hi x); [now left|exact E]|]. apply IH. intros i Hj. apply Hi. now right. }
  rewrite !Z; [now rewrite app_nil_r|intros i Hi; apply in_seq in Hi; lia|intros i Hi; apply in_seq in Hi; lia].
Qed.

Lemma flat_map_nil {A B} (l : list A) : flat_map (fun _ => @nil B) l = [].
Proof. induction l; auto. Qed.

Lemma stepPushes_all {P} (pos : P -> R3) il nn n threads (steps : list (nat * nat * list (Call P))) :
  (forall k t calls, In (k, t, calls) steps -> (k < n)%nat /\ (t < threads)%nat) ->
  Permutation (flat_map (fun k => flat_map (fun t => stepPushes pos il nn steps k t) (seq 0 threads)) (seq 0 n))
              (flat_map (fun s => flat_map (genPushes pos il nn) (snd s)) steps).
Proof.
  induction steps as [|[[k0 t0] calls] r IH]; intros H.
  - unfold stepPushes. cbn [flat_map]. rewrite (flat_map_ext _ (fun _ => [])) by (intros; apply flat_map_nil). now rewrite flat_map_nil.
  - destruct (H k0 t0 calls (or_introl eq_refl)) as [Hk Ht]. cbn [flat_map snd].
    set (X := flat_map (genPushes pos il nn) calls).
    transitivity (flat_map (fun k => flat_map (fun t => here k t k0 t0 X) (seq 0 threads) ++ flat_map (fun t => stepPushes pos il nn r k t) (seq 0 threads)) (seq 0 n)).
    + apply flat_map_pointwise. intros k _. apply flat_map_split.
    + rewrite flat_map_split. apply Permutation_app; [|apply IH; intros k t c Hc; apply (H k t c); now right].
      assert (E : flat_map (fun k => flat_map (fun t => here k t k0 t0 X) (seq 0 threads)) (seq 0 n) = X); [|now rewrite E].
      transitivity (flat_map (fun k' => if Nat.eqb k' k0 then X else []) (seq 0 n)); [|now apply flat_map_at]. apply flat_map_ext. intros k. unfold here.
      destruct (Nat.eqb k k0); cbn [andb]; [now apply flat_map_at|apply flat_map_nil].
Qed.

Lemma holds_all {P} (ps : list P) n threads st want : vvlHolds ps n threads st want ->
  Permutation (flat_map (flat_map pairsOf) st) (flat_map (fun k => flat_map (want k) (seq 0 threads)) (seq 0 n)).
Proof.
  intros (L1 & L2 & H). rewrite <- (seq_nth_map (flat_map pairsOf) st), L1. apply flat_map_pointwise. intros k Hk. apply in_seq in Hk.
  destruct (nth_error st k) as [bt|] eqn:E; [|apply nth_error_None in E; lia].
  rewrite <- (seq_nth_map pairsOf bt), (L2 bt) by (eapply nth_error_In; eauto). apply flat_map_pointwise. intros t Ht. apply in_seq in Ht.
  destruct (nth_error bt t) as [l|] eqn:E'; [|apply nth_error_None in E'; pose proof (L2 bt (nth_error_In _ _ E)); lia].
  exact (proj2 (H k t bt l E E')).
Qed.

Lemma in_stepPushes {P} (pos : P -> R3) il nn (steps : list (nat * nat * list (Call P))) k t x :
  In x (stepPushes pos il nn steps k t) -> exists calls, In (k, t, calls) steps /\ In x (flat_map (genPushes pos il nn) calls).
Proof.
  intros H. unfold stepPushes in H. apply in_flat_map in H as ([[k' t'] calls] & Hc & H). unfold here in H.
  destruct (Nat.eqb_spec k k') as [->|]; [|destruct H]. destruct (Nat.eqb_spec t t') as [->|]; [|destruct H]. eauto.
Qed.

Lemma in_indexed {A} (l : list A) k x : In (k, x) (indexed l) <-> nth_error l k = Some x.
Proof.
  unfold indexed. enough (H : forall s, In (k, x) (combine (seq s (length l)) l) <-> (s <= k)%nat /\ nth_error l (k - s) = Some x).
  { rewrite H, Nat.sub_0_r. split; [tauto|]. intros; split; [lia|assumption]. }
  induction l as [|y l IH]; intros s; cbn [length seq combine].
  - split; [intros []|]. intros [_ H]. destruct (k - s)%nat; discriminate.
  - cbn [In]. rewrite IH. split.
    + intros [H|[H1 H2]]; [injection H as <- <-; split; [lia|]; now rewrite Nat.sub_diag|]. split; [lia|].
      now replace (k - s)%nat with (S (k - S s)) by lia.
    + intros [H1 H2]. destruct (Nat.eq_dec s k) as [->|N].
      * left. rewrite Nat.sub_diag in H2. injection H2 as ->. reflexivity.
      * right. split; [lia|]. now replace (k - s)%nat with (S (k - S s)) in H2 by lia.
Qed.

Lemma flat_map_indexed {A B} (f : A -> list B) (l : list A) : flat_map (fun '(_, x) => f x) (indexed l) = flat_map f l.
Proof.
  unfold indexed. generalize 0%nat as s. induction l as [|x l IH]; intros s; [reflexivity|]. cbn [length seq combine flat_map]. now rewrite IH.
Qed.

Lemma forall2_concat {A B} (L : list (list (A * B))) (M : list (list A)) :
  Forall2 (fun s c => Permutation (map fst s) c) L M -> Permutation (map fst (concat L)) (concat M).
Proof.
  induction 1 as [|s c l l' H _ IH]; [reflexivity|]. cbn [concat]. rewrite map_app. now apply Permutation_app.
Qed.
Lemma forall2_len {A B} (R : A -> B -> Prop) L M : Forall2 R L M -> length L = length M.
Proof. induction 1; cbn [length]; congruence. Qed.
Lemma forall2_nth {A B} (R : A -> B -> Prop) L M : Forall2 R L M ->
  forall k x, nth_error L k = Some x -> exists y, nth_error M k = Some y /\ R x y.
Proof.
  induction 1 as [|s c l l' H _ IH]; intros [|k] x E; cbn [nth_error] in *; try discriminate.
  - injection E as <-. eauto.
  - auto.
Qed.

Section AsBuilt.
  Context {P : Type}.
  Variables (pid : P -> Z) (isHalo : P -> bool) (old now : P -> R3) (view : R3 -> list P -> list P).
  Variables (cf : CFSettings) (lay : Layout) (cut skin csf : R) (bMin bMax : R3) (ps : list P).
  Let il := (cut + skin)%R.
  Let b := rebuild rndExact il csf bMin bMax.
  Let dims := blockDims b.
  Let len := blockLength b.
  Let ov := blockOverlap rndExact il b.
  Let near := nearR len il.
  Let n3_ := useNewton3 cf.
  Hypothesis Hgrid : validGrid il csf bMin bMax.
  Hypothesis Hview : forall dir l, isSortedView old dir l (view dir l).
  Hypothesis Hids : distinctIds pid ps.
  Hypothesis Hps : validParticles isHalo old b bMin bMax ps.
  Hypothesis Hcut : (0 < cut)%R.
  Hypothesis Hskin : (0 <= skin)%R.
  Hypothesis Hmoved : movedLess old now skin ps.
  Hypothesis Hn : useNewton3 cf || bidirectional cf = true.
  Hypothesis Hcsf : (1 <= csf)%R.
  Let at__ := at_ old il csf bMin bMax.

  Variables (threads : nat) (schedule : list (list (I3 * nat))).
  Hypothesis Hsched : Forall2 (fun sch color => Permutation (map fst sch) color) schedule (c08Colors dims ov).
  Hypothesis Hthreads : forall sch base t, In sch schedule -> In (base, t) sch -> (t < threads)%nat.

  Variable cells : list (Cell P).
  Hypothesis Hadd : lcAddAll isHalo rndExact b old (lcEmpty b) ps = Some cells.
  Hypothesis Hb : built rndExact b old ps cells.

  Let steps := vvlSteps isHalo view old cf rndExact il b cells schedule.
  Let bases := map fst (concat schedule).

  Lemma sched_bases : Permutation bases (concat (c08Colors dims ov)).
  Proof. exact (forall2_concat _ _ Hsched). Qed.

  Lemma sched_colors : length schedule = vvlNumColors.
  Proof.
    rewrite (forall2_len _ _ _ Hsched). unfold c08Colors, colorTraversal. rewrite map_length.
    assert (O : ov = mkI3 1 1 1) by exact (ov_one old view cut skin csf bMin bMax ps Hgrid Hview Hcsf). rewrite O. reflexivity.
  Qed.

  Lemma sched_nth k sch : nth_error schedule k = Some sch -> exists color, nth_error (c08Colors dims ov) k = Some color /\ Permutation (map fst sch) color.
  Proof. exact (forall2_nth _ _ _ Hsched k sch). Qed.

  Lemma steps_in k t calls : In (k, t, calls) steps -> exists sch base, nth_error schedule k = Some sch /\ In (base, t) sch /\
    calls = c08ListCalls isHalo view old cf rndExact il b cells [base].
  Proof.
    intros H. unfold steps, vvlSteps in H. apply in_flat_map in H as ([k' sch] & Hk & H). apply in_indexed in Hk.
    apply in_map_iff in H as ([base t'] & E & H). injection E as -> -> <-. eauto.
  Qed.

  Lemma steps_pushes : flat_map (fun s => flat_map (genPushes old il n3_) (snd s)) steps =
    flat_map (genPushes old il n3_) (lcInteract isHalo view old cf il len cells (c08StepsDir near dims ov bases)).
  Proof.
    unfold steps, vvlSteps, bases.
    assert (A : forall l, flat_map (fun s : nat * nat * list (Call P) => flat_map (genPushes old il n3_) (snd s))
      (flat_map (fun '(color, bs) => map (fun '(base, thread) => (color, thread, c08ListCalls isHalo view old cf rndExact il b cells [base])) bs) l) =
      flat_map (fun '(_, bs) => flat_map (fun x : I3 * nat => flat_map (genPushes old il n3_) (c08ListCalls isHalo view old cf rndExact il b cells [fst x])) bs) l).
    { induction l as [|[k bs] l IH]; [reflexivity|]. cbn [flat_map]. rewrite flat_map_app, IH. f_equal. clear.
      induction bs as [|[base t] bs IH]; [reflexivity|]. cbn [map flat_map snd fst]. now rewrite IH. }
    rewrite A. clear A.
    rewrite (flat_map_indexed (fun bs : list (I3 * nat) => flat_map (fun x => flat_map (genPushes old il n3_) (c08ListCalls isHalo view old cf rndExact il b cells [fst x])) bs)).
    clear Hsched Hthreads steps bases.
    induction schedule as [|bs l IH]; [reflexivity|]. cbn [flat_map concat]. rewrite map_app.
    assert (S : forall l1 l2, flat_map (genPushes old il n3_) (lcInteract isHalo view old cf il len cells (c08StepsDir near dims ov (l1 ++ l2))) =
       flat_map (genPushes old il n3_) (lcInteract isHalo view old cf il len cells (c08StepsDir near dims ov l1)) ++
       flat_map (genPushes old il n3_) (lcInteract isHalo view old cf il len cells (c08StepsDir near dims ov l2))).
    { intros l1 l2. unfold c08StepsDir, lcInteract. now rewrite !flat_map_app. }
    rewrite S. f_equal.
    - clear -S. induction bs as [|[base t] bs IH]; [reflexivity|]. cbn [flat_map map fst]. change (base :: map fst bs) with ([base] ++ map fst bs).
      rewrite S, IH. reflexivity.
    - apply IH.
  Qed.

  Lemma step_writes k t p q calls : In (k, t, calls) steps -> In (p, q) (flat_map (genPushes old il n3_) calls) ->
    exists color base, nth_error (c08Colors dims ov) k = Some color /\ In base color /\
      (exists sch, nth_error schedule k = Some sch /\ In (base, t) sch) /\ In p ps /\ In q ps /\
      forall x, x = p \/ x = q -> forall kx, inGrid dims kx -> at__ kx x ->
        accesses (c08ProcessBaseCell (computePairwiseCellOffsetsC08 near ov dims) (threeToOneD base dims)) (threeToOneD kx dims).
  Proof.
    intros Hs H. destruct (steps_in k t calls Hs) as (sch & base & Hk & Hin & ->). destruct (sched_nth k sch Hk) as (color & Hc & Hp).
    assert (F : gridFits dims ov) by exact (v_fits old view il csf bMin bMax ps Hgrid Hview).
    assert (Hbase : In base color). { eapply Permutation_in; [exact Hp|]. apply in_map_iff. exists (base, t). auto. }
    assert (Hdir : directed dims (c08StepsDir near dims ov [base])).
    { apply c08StepsDir_directed; [exact F|]. intros k' [<-|[]]. apply c08_bases_box; [exact F|]. apply in_concat. exists color.
      split; [eapply nth_error_In; eauto|exact Hbase]. }
    destruct (pushes_sub pid isHalo old view cf il csf bMin bMax ps Hview Hids cells Hb _ p q Hdir H) as (Ip & Iq & k1 & k2 & dir & Hcall & G1 & G2 & Hat).
    exists color, base. split; [exact Hc|]. split; [exact Hbase|]. split; [eauto|]. split; [exact Ip|]. split; [exact Iq|].
    intros x Hx kx Gx Ax.
    assert (Hacc : forall c, c = threeToOneD k1 dims \/ c = threeToOneD k2 dims ->
      accesses (c08ProcessBaseCell (computePairwiseCellOffsetsC08 near ov dims) (threeToOneD base dims)) c).
    { intros c Hc'. exists (threeToOneD k1 dims, threeToOneD k2 dims). split; [|exact Hc'].
      apply (in_map fst) in Hcall. fold b in Hcall. fold dims in Hcall. fold near ov in Hcall. rewrite c08StepsDir_fst in Hcall.
      unfold c08BaseSteps in Hcall. cbn [flat_map] in Hcall. rewrite app_nil_r in Hcall. exact Hcall. }
    apply Hacc.
    assert (U : forall k', inGrid dims k' -> at__ k' x -> threeToOneD kx dims = threeToOneD k' dims).
    { intros k' G' A'. f_equal. apply (at_unique old il csf bMin bMax kx k' x); assumption. }
    destruct Hx as [-> | ->]; destruct Hat as [[A1 A2]|(_ & A1 & A2)]; [left|right|right|left]; apply U; assumption.
  Qed.

  Lemma steps_bounds k t calls : In (k, t, calls) steps -> (k < vvlNumColors)%nat /\ (t < threads)%nat.
  Proof.
    intros H. destruct (steps_in k t calls H) as (sch & base & Hk & Hin & _). split.
    - rewrite <- sched_colors. apply nth_error_Some. congruence.
    - apply (Hthreads sch base t); [eapply nth_error_In; eauto|exact Hin].
  Qed.

  Lemma vvl_all : exists st calls,
    vvlBuild pid old il n3_ (vvlInit threads) steps = Some st /\
    vvlTraverse pid lay n3_ cells st = Some calls /\
    everyPairOnce pid isHalo now cut ps (concat (concat calls)) /\ Forall noSharedWrites calls.
  Proof.
    destruct (c08_every pid isHalo old view cf il csf bMin bMax ps Hgrid Hview Hids Hps cells Hb now cut skin Hcut Hskin eq_refl Hmoved Hadd bases sched_bases Hn) as [Hdir Hev].
    destruct (vvlBuild_spec pid ps Hids old il n3_ threads steps (vvlInit threads) (fun _ _ => []) (vvlInit_holds ps threads)) as (st & E & Hh).
    { intros k t calls H. destruct (steps_bounds k t calls H) as [B1 B2]. split; [exact B1|]. split; [exact B2|].
      intros i j Hij. destruct (step_writes k t i j calls H Hij) as (_ & _ & _ & _ & _ & Ii & _). exact Ii. }
    assert (Hpush : forall k t bt l p q, nth_error st k = Some bt -> nth_error bt t = Some l -> In (p, q) (pairsOf l) ->
      exists calls, In (k, t, calls) steps /\ In (p, q) (flat_map (genPushes old il n3_) calls)).
    { intros k t bt l p q E1 E2 H. destruct Hh as (_ & _ & Hh). destruct (Hh k t bt l E1 E2) as [_ Hp].
      eapply Permutation_in in H; [|exact Hp]. rewrite app_nil_r in H. now apply in_stepPushes. }
    assert (Hall : forall p, In p (allParticles cells) <-> In p ps) by (intros p; apply (all_in isHalo old view il csf bMin bMax ps Hgrid Hview Hps cells Hb)).
    pose proof (all_ids pid old il csf bMin bMax ps Hids cells Hb) as Hd.
    exists st, (map (map (fun l => pushCalls n3_ (pairsOf l))) st). split; [exact E|]. split; [|split].
    - unfold vvlTraverse. apply mapM_some. intros bt Hbt. apply mapM_some. intros l Hl.
      apply In_nth_error in Hbt as [k Ek]. apply In_nth_error in Hl as [t Et]. apply cellListCalls_ok; [exact Hd| |].
      + intros p Hp. apply Hall. destruct Hh as (_ & _ & Hh). exact (proj1 (Hh k t bt l Ek Et) p Hp).
      + intros p q Hpq. destruct (Hpush k t bt l p q Ek Et Hpq) as (calls & H1 & H2).
        destruct (step_writes k t p q calls H1 H2) as (_ & _ & _ & _ & _ & _ & Iq & _). now apply Hall.
    - assert (Ec : concat (concat (map (map (fun l => pushCalls n3_ (pairsOf l))) st)) = pushCalls n3_ (flat_map (flat_map pairsOf) st)).
      { unfold pushCalls. clear. induction st as [|bt st IH]; [reflexivity|]. cbn [map concat flat_map]. rewrite concat_app, IH, map_app. f_equal.
        induction bt as [|l bt IHb]; [reflexivity|]. cbn [map concat flat_map]. now rewrite IHb, map_app. }
      rewrite Ec. eapply every_perm; [|exact Hev]. apply pushCalls_perm. symmetry. rewrite (holds_all ps _ _ _ _ Hh).
      transitivity (flat_map (fun s => flat_map (genPushes old il n3_) (snd s)) steps); [|rewrite steps_pushes; reflexivity].
      rewrite <- (stepPushes_all old il n3_ vvlNumColors threads steps steps_bounds).
      apply flat_map_pointwise. intros k _. apply flat_map_pointwise. intros t _. now rewrite app_nil_r.
    - assert (F : gridFits dims ov) by exact (v_fits old view il csf bMin bMax ps Hgrid Hview).
      apply Forall_forall. intros calls Hc. apply In_nth_error in Hc as [k Hc]. rewrite nth_error_map in Hc.
      destruct (nth_error st k) as [bt|] eqn:Ek; [|discriminate]. injection Hc as <-.
      intros i j t1 t2 p Hij E1 E2 W1 W2. rewrite nth_error_map in E1, E2.
      destruct (nth_error bt i) as [l1|] eqn:N1; [|discriminate]. destruct (nth_error bt j) as [l2|] eqn:N2; [|discriminate].
      injection E1 as <-. injection E2 as <-.
      assert (A : forall t l, nth_error bt t = Some l -> writes (pushCalls n3_ (pairsOf l)) p ->
        exists color base sch, nth_error (c08Colors dims ov) k = Some color /\ In base color /\ nth_error schedule k = Some sch /\ In (base, t) sch /\
          In p ps /\ forall kx, inGrid dims kx -> at__ kx p ->
          accesses (c08ProcessBaseCell (computePairwiseCellOffsetsC08 near ov dims) (threeToOneD base dims)) (threeToOneD kx dims)).
      { intros t l Nt (f & Hf & Hw). unfold pushCalls in Hf. apply in_map_iff in Hf as ([x y] & <- & Hxy). cbn [fstP sndP n3] in Hw.
        destruct (Hpush k t bt l x y Ek Nt Hxy) as (cs & H1 & H2).
        destruct (step_writes k t x y cs H1 H2) as (color & base & Q1 & Q2 & (sch & Q3 & Q3') & Q4 & Q5 & Q6).
        exists color, base, sch. repeat (split; [assumption|]). destruct Hw as [<-|[_ <-]]; (split; [assumption|]); apply Q6; auto. }
      destruct (A i l1 N1 W1) as (color & b1 & sch & C1 & I1 & S1 & T1 & Ip & A1).
      destruct (A j l2 N2 W2) as (color' & b2 & sch' & C2 & I2 & S2 & T2 & _ & A2).
      rewrite C1 in C2. injection C2 as <-. rewrite S1 in S2. injection S2 as <-.
      destruct (sched_nth k sch S1) as (color' & C1' & Hp). rewrite C1 in C1'. injection C1' as <-.
      assert (Hnd : NoDup color).
      { pose proof (c08_stride_pos dims ov F) as Hs. eapply colorTraversal_color_NoDup; [exact Hs|]. eapply nth_error_In. exact C1. }
      assert (Hne : b1 <> b2).
      { intros <-. assert (Hns : NoDup (map fst sch)) by (eapply Permutation_NoDup; [symmetry; exact Hp|exact Hnd]). apply Hij.
        clear -Hns T1 T2. induction sch as [|[x t] r IH]; [destruct T1|]. cbn [map fst] in Hns. inversion Hns as [|? ? Hni Hns']; subst.
        assert (Q : forall t', In (b1, t') r -> In b1 (map fst r)) by (intros t' H; apply in_map_iff; exists (b1, t'); auto).
        destruct T1 as [T1|T1], T2 as [T2|T2]; [congruence| | |auto].
        - injection T1 as -> ->. elim Hni. eauto.
        - injection T2 as -> ->. elim Hni. eauto. }
      destruct (v_at isHalo old il csf bMin bMax ps Hgrid Hps p Ip) as (kp & G & At & _).
      pose proof (proj1 (Forall_forall _ _) (c08_raceFree near dims ov F)) as Hr.
      apply In_nth_error in I1 as [i1 I1]. apply In_nth_error in I2 as [i2 I2].
      eapply (Hr _ (in_map _ _ _ (nth_error_In _ _ C1)) i1 i2); [congruence| | |apply (A1 kp G At)|apply (A2 kp G At)].
      + now rewrite nth_error_map, I1.
      + now rewrite nth_error_map, I2.
  Qed.
End AsBuilt.
