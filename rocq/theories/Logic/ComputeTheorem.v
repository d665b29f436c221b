(** One interaction computation after any history: the theorem. *)
From Coq Require Import Reals Lra.
From Verif.Base Require Import ZRange Lists Occ OptionM.
From Verif.Grid Require Import IndexModel IndexSpec IndexProofs CellBlockModel CellBlockSpec CellBlockProofs CellBlockExact.
From Verif.Functor Require Import CellFunctorModel FunctorSpec SortModel SortSpec SortProofs.
From Verif.Container Require Import LinkedCellsModel LinkedCellsSpec LinkedCellsGeo IteratorModel IteratorContainers IteratorSpec IteratorLemmas IteratorInstances IteratorRegion
  ParticleModel CollectModel CollectSpec CollectProofs CollectRun CollectContainers CollectTheorems UpdateModel UpdateProofs ForEachModel ForEachProofs DirectSumProofs.
From Verif.Logic Require Import BalanceModel BalanceProofs HandlerModel HandlerSpec HandlerCont HandlerUpdate HandlerProofs HandlerExact HandlerTotal HandlerFields HandlerNear HandlerHalo HandlerAge HandlerDrift
  RemainderModel RemainderSpec RemainderProofs RemainderContainers ComputeModel ComputeSpec ComputeSlots ComputeProofs.
Import ListNotations.
Local Open Scope Z_scope.

Lemma resizedSince_cons e r l : resizedSince r (e :: l) = resizedSince (resizedSince1 r e) l.
Proof. destruct e; reflexivity. Qed.

Lemma disciplined_last spt es : forall m a b ks, disciplined spt m (es ++ [Compute a ks]) -> disciplined spt m (es ++ [Compute b ks]).
Proof. induction es as [|e l IH]; intros m a b ks D; [exact D|]. cbn [app] in *. apply disciplined_cons in D as (D1 & D2). apply disciplined_cons. split; [exact D1|apply (IH _ a), D2]. Qed.

Lemma select_last cutoff spt freq : forall ks s s', select cutoff spt freq s ks = Some s' -> kind (cont s') = last ks (kind (cont s)).
Proof.
  assert (SK : forall a b, sameKind a b = true -> a = b).
  { intros [|x] [|y]; cbn; try discriminate; [reflexivity|]. destruct (Req_EM_T x y); [intros _; congruence|discriminate]. }
  assert (La : forall (r : list Kind) (k d : Kind), last (k :: r) d = last r k).
  { induction r as [|a r IH]; intros k d; [reflexivity|]. change (last (k :: a :: r) d) with (last (a :: r) d). rewrite !IH. reflexivity. }
  induction ks as [|k r IH]; intros s s' E; cbn [select] in E; [injection E as <-; reflexivity|]. rewrite La.
  destruct (sameKind _ _) eqn:S; [apply SK in S; rewrite <- S; apply IH, E|].
  destruct (generate _ _ _ _ _ _ _) as [c|] eqn:G; [|discriminate]. rewrite (IH _ _ E). cbn [cont]. f_equal.
  destruct (select_kind cutoff spt freq [k] s (mkState (boxLo s) (boxHi s) c 0 (bufs s) (halos s) (valid s) (steps s) (calls s) (nOwned s) (nHalo s))) as [X|[X|[]]].
  - cbn [select]. rewrite S, G. reflexivity.
  - cbn [cont] in X. exfalso.
    assert (E2 : kind c = k).
    { unfold generate in G. clear - G. set (c0 := mkCont k (emptyCells cutoff spt freq k (boxLo s) (boxHi s))) in G. change k with (kind c0). clearbody c0. revert c0 G.
      induction (filter _ _) as [|p l IHl]; intros c0 G; cbn [copyInto] in G; [injection G as <-; reflexivity|].
      destruct (if isOwned p then _ else _) as [c1|] eqn:N in G; [|discriminate]. rewrite (IHl c1 G).
      assert (AO : forall c', addOwned cutoff spt freq (boxLo s) (boxHi s) c0 p = Some c' -> kind c' = kind c0).
      { unfold addOwned. intros c' A. destruct (kind c0) eqn:K; [destruct (pushAt _ _ _) in A|destruct (lcInsert _ _ _ _) in A]; cbn in A; try discriminate; injection A as <-; reflexivity. }
      assert (AH : forall c', addHaloC cutoff spt freq (boxLo s) (boxHi s) c0 p = Some c' -> kind c' = kind c0).
      { unfold addHaloC. intros c' A. destruct (kind c0) eqn:K; [destruct (dsHaloCell _ _ _) in A; [destruct (pushAt _ _ _) in A|]|destruct (lcInsert _ _ _ _) in A]; cbn in A; try discriminate; injection A as <-; congruence || reflexivity. }
      destruct (isOwned p), (inBoxb _ _ _); try discriminate; auto. }
    rewrite E2 in X. rewrite <- X in S. unfold sameKind in S. destruct k; [discriminate|]. destruct (Req_EM_T csf csf); [discriminate|contradiction].
  - exact (eq_sym X).
Qed.

Section Theorem_.
  Variables (cutoff spt : R) (freq : Z).
  Hypothesis Hopt : validOptions cutoff spt freq.
  Variable fac : R.
  Hypothesis Hfac : (0 <= fac)%R.
  Notation far := (imageDistance cutoff spt freq fac).

  Lemma calm_prefix a b : calmImages spt far (a ++ b) -> calmImages spt far a.
  Proof. intros H x p t y q u z E. apply (H x p t y q u (z ++ b)). rewrite E. rewrite <- !app_assoc. cbn [app]. rewrite <- !app_assoc. reflexivity. Qed.

  Lemma Dr_history s h s' : properHistory cutoff spt freq s h s' -> forall past n m r, Ex cutoff spt freq n m s -> Hal cutoff spt freq s -> HI cutoff spt freq past s -> bounded freq fac s ->
    Dr cutoff spt freq past m r s -> disciplined spt m (map fst h) -> calm spt (map fst h) ->
    n + computations (map fst h) < 2 ^ 32 -> calmImages spt far (past ++ map fst h) -> factorsAtMost fac (map fst h) -> 
    Dr cutoff spt freq (past ++ map fst h) (movedSince m (map fst h)) (resizedSince r (map fst h)) s'.
  Proof.
    induction 1 as [s|s e out s1 h s2 V P S H IH]; intros past n m r E Hh HI0 Bd Dr0 D Ca B Mv Fa; [cbn [map app movedSince resizedSince]; rewrite app_nil_r; exact Dr0|]. cbn [map fst] in *.
    apply disciplined_cons in D as (D1 & D2). rewrite computations_cons in B. assert (Q := computations_pos (map fst h)).
    destruct (Ex_step cutoff spt freq Hopt n m s e s1 out E V D1 ltac:(lia) S) as (E1 & _).
    rewrite movedSince_cons, resizedSince_cons.
    replace (past ++ e :: map fst h) with ((past ++ [e]) ++ map fst h) in * by (rewrite <- app_assoc; reflexivity).
    assert (Mv1 := calm_prefix _ _ Mv).
    apply (IH _ _ _ _ E1); [apply (Hal_step cutoff spt freq n m s e s1 out E Hh V P S)| | | |exact D2| |lia|exact Mv|].
    - apply (HI_step cutoff spt freq Hopt fac Hfac n m past s e s1 out E Hh HI0 Bd V P (calm_moving cutoff spt freq Hopt fac _ Mv1) S).
    - apply (bounded_step cutoff spt freq Hopt fac s e s1 out (ex_inv _ _ _ _ _ _ E) V); [|exact S|exact Bd]. intros pw ks ->. apply (Fa pw). left. reflexivity.
    - apply (Dr_step cutoff spt freq Hopt fac Hfac n m r past s e s1 out E Hh HI0 Bd Dr0 V P D1); [|exact Mv1|lia|exact S]. intros f [->|[]]. apply Ca. left. reflexivity.
    - intros f Hf. apply Ca. right. exact Hf.
    - intros pw ks Hk. apply (Fa pw). right. exact Hk.
  Qed.

  Lemma start_dr s : validStart cutoff spt freq s -> Dr cutoff spt freq [] false false s.
  Proof.
    intros (k & lo & hi & t & _ & _ & ->).
    assert (N : forall i p, In p (nth i (emptyCells cutoff spt freq k lo hi) []) -> False) by (intros i p Hi; unfold emptyCells in Hi; destruct k; rewrite nth_repeat in Hi; destruct Hi).
    assert (R : forall j, concat (repeat (@nil Particle) j) = []) by (induction j as [|j IHj]; [reflexivity|exact IHj]).
    constructor; cbn [initial cont ccells boxLo boxHi bufs halos].
    - intros i q Hq. destruct (N i q Hq).
    - intros i q Hq. destruct (N i q Hq).
    - rewrite R. intros _ _ p [].
    - rewrite R. intros p [].
    - rewrite !repeat_length. reflexivity.
  Qed.

  (** What is known when the traversals start. *)
  Lemma ready s0 h s ks : validStart cutoff spt freq s0 -> properHistory cutoff spt freq s0 h s ->
    disciplined spt false (map fst h ++ [Compute true ks]) -> computations (map fst h ++ [Compute true ks]) < 2 ^ 32 ->
    calm spt (map fst h) -> resizedSince false (map fst h) = false ->
    factorAtMost fac (kind (cont s0)) -> factorsAtMost fac (map fst h ++ [Compute true ks]) -> calmImages spt far (map fst h) ->
    validCall cutoff spt freq s (Compute true ks) ->
    exists s1 past, select cutoff spt freq s ks = Some s1 /\ Inv cutoff spt freq s /\ Inv cutoff spt freq s1 /\ Dr cutoff spt freq past false false s1 /\ 0 <= contSteps s1 <= freq.
  Proof.
    intros Vs H D B Ca Re F0 Fa Mv V.
    assert (D' := disciplined_last spt (map fst h) false true false ks D).
    assert (B' : computations (map fst h ++ [Compute false ks]) < 2 ^ 32) by (rewrite computations_app in *; exact B).
    assert (Fa' : factorsAtMost fac (map fst h)) by (intros pw k Hk; apply (Fa pw); apply in_or_app; left; exact Hk).
    destruct (no_failure cutoff spt freq Hopt s0 h s (Compute false ks) Vs H D' B' V Logic.I) as (((s', out) & Hst) & _).
    destruct (start_hal cutoff spt freq s0 Vs) as (Hh0 & HI0). assert (E0 := Ex_initial cutoff spt freq s0 Vs).
    assert (Bd0 : bounded freq fac s0) by (split; [exact F0|destruct Vs as (k & lo & hi & t & _ & _ & ->); destruct Hopt as (_ & _ & Hf); cbn; lia]).
    assert (Dh : disciplined spt false (map fst h)).
    { clear - D. revert D. generalize false. induction (map fst h) as [|x r IH]; intros m D; [exact Logic.I|]. cbn [app] in D. apply disciplined_cons in D as (D1 & D2). apply disciplined_cons. split; [exact D1|]. apply IH, D2. }
    assert (Bh : 0 + computations (map fst h) < 2 ^ 32) by (rewrite computations_app in B; assert (Q := computations_pos [Compute true ks]); lia).
    destruct (HI_history cutoff spt freq Hopt fac Hfac s0 h s H [] 0 false E0 Hh0 HI0 Bd0 Dh Bh (calm_moving cutoff spt freq Hopt fac _ Mv) Fa') as (HI1 & Bd1). cbn [app] in HI1.
    assert (Hh1 := Hal_history cutoff spt freq Hopt s0 h s H 0 false E0 Hh0 Dh Bh).
    assert (Dr1 := Dr_history s0 h s H [] 0 false false E0 Hh0 HI0 Bd0 (start_dr s0 Vs) Dh Ca Bh Mv Fa'). cbn [app] in Dr1. rewrite Re in Dr1.
    destruct (Ex_history cutoff spt freq Hopt s0 h s (proper_history cutoff spt freq s0 h s H) 0 false E0 [Compute false ks] D') as (E1 & De); [lia|].
    assert (Mv' : calmImages spt far (map fst h ++ [Compute false ks])).
    { intros x p t y q u z Eq. destruct z as [|z0 z] using rev_ind.
      - replace (x ++ AddHalo p t :: y ++ [AddHalo q u]) with ((x ++ AddHalo p t :: y) ++ [AddHalo q u]) in Eq by (rewrite <- app_assoc; reflexivity).
        apply app_inj_tail in Eq as (_ & Eq). discriminate.
      - clear IHz. apply (Mv x p t y q u z). replace (x ++ AddHalo p t :: y ++ AddHalo q u :: z ++ [z0]) with ((x ++ AddHalo p t :: y ++ AddHalo q u :: z) ++ [z0]) in Eq by (rewrite <- !app_assoc; cbn [app]; rewrite <- !app_assoc; reflexivity).
        apply app_inj_tail in Eq as (Eq & _). exact Eq. }
    assert (Dr2 := Dr_step cutoff spt freq Hopt fac Hfac _ _ _ _ s (Compute false ks) s' out E1 Hh1 HI1 Bd1 Dr1 V Logic.I De). cbn [movedSince] in Dr2.
    assert (Hm : movedSince false (map fst h) = false) by (destruct De as (De & _); exact De). rewrite Hm in *.
    assert (Ca1 : calm spt [Compute false ks]) by (intros f [X|[]]; discriminate).
    assert (Bn : 0 + computations (map fst h) + computations [Compute false ks] < 2 ^ 32) by (rewrite computations_app in B'; lia).
    specialize (Dr2 Ca1 Mv' Bn Hst).
    destruct (Ex_step cutoff spt freq Hopt _ _ s (Compute false ks) s' out E1 V De Bn Hst) as (E2 & _).
    assert (Fk : forall pw k, Compute false ks = Compute pw k -> Forall (factorAtMost fac) k) by (intros pw k [= <- <-]; apply (Fa true); apply in_or_app; right; left; reflexivity).
    assert (Bd2 := bounded_step cutoff spt freq Hopt fac s (Compute false ks) s' out (ex_inv _ _ _ _ _ _ E1) V Fk Hst Bd1).
    cbn [step] in Hst. unfold doCompute in Hst. destruct (select cutoff spt freq s ks) as [s1|] eqn:Se; [|discriminate]. injection Hst as -> ->.
    exists s1, (map fst h ++ [Compute false ks]). split; [reflexivity|].
    destruct (select_inv cutoff spt freq ks s s1 Se (ex_inv _ _ _ _ _ _ E1) V) as (J & _).
    split; [exact (ex_inv _ _ _ _ _ _ E1)|]. split; [exact J|]. split.
    - destruct Dr2 as [A1 A2 A3 A4 A5]. constructor; [exact A1|exact A2|exact A3|exact A4|exact A5].
    - destruct (ex_steps _ _ _ _ _ _ E2) as (X1 & X2). destruct Bd2 as (_ & X3). cbn in X1, X2, X3. lia.
  Qed.

  (** The particles of the state before the traversals. *)
  Lemma stored_live s : Inv cutoff spt freq s -> Permutation (ownedParticles s ++ haloParticles s) (concat (bufs s) ++ concat (halos s) ++ filter live (concat (ccells (cont s)))).
  Proof.
    intros I. unfold ownedParticles, haloParticles. etransitivity; [apply filter_two; intros p _ E; apply Z.eqb_eq in E; apply Z.eqb_neq; lia|].
    unfold stored. rewrite !filter_app.
    rewrite (filter_all _ (concat (bufs s))) by (intros p Hp; rewrite (inv_bufs _ _ _ s I p Hp); reflexivity).
    rewrite (filter_all _ (concat (halos s))) by (intros p Hp; rewrite (inv_halos _ _ _ s I p Hp); reflexivity).
    rewrite (filter_ext_in _ live).
    - etransitivity; [apply Permutation_app_comm|]. rewrite <- app_assoc. reflexivity.
    - intros p Hp. apply in_cells in Hp as (k & Hp). destruct (proj1 (proj2 (inv_placed _ _ _ s I) k p Hp)) as [O|[O|O]]; unfold live, isDummy, stDummy; rewrite O; reflexivity.
  Qed.

  Lemma closer_dist a b : (0 < cutoff)%R -> closer cutoff a b -> (dist3 a b <= cutoff)%R.
  Proof. intros C H. apply dist3_sq; [lra|]. unfold dot, rsub. cbn [rx ry rz]. unfold closer in H. lra. Qed.

  Lemma drift_le s past m x : Dr cutoff spt freq past false m s -> 0 <= contSteps s <= freq -> In x (allSlots (ccells (cont s))) ->
    exists x0, inGrownBox (il cutoff spt freq) (boxLo s) (boxHi s) x0 /\ cellFor cutoff spt freq (boxLo s) (boxHi s) (kind (cont s)) (fst x) x0 /\
      (inBox (boxLo s) (boxHi s) x0 <-> ~ haloCell cutoff spt freq (boxLo s) (boxHi s) (kind (cont s)) (fst x)) /\
      (dist3 x0 (slotPos (ccells (cont s)) x) <= skin spt freq / 2)%R.
  Proof.
    intros D C Hx. assert (Hp := slot_in _ _ Hx). destruct (spt_bounds cutoff spt freq Hopt) as (T1 & T2 & T3 & T4).
    assert (Dec : haloCell cutoff spt freq (boxLo s) (boxHi s) (kind (cont s)) (fst x) \/ ~ haloCell cutoff spt freq (boxLo s) (boxHi s) (kind (cont s)) (fst x)).
    { unfold haloCell. destruct (kind (cont s)); [lia|]. destruct (cellCanContainHaloParticles _ _); [left; reflexivity|right; discriminate]. }
    assert (Le : forall n, n <= freq -> (spt / 2 * IZR n <= skin spt freq / 2)%R).
    { intros n Hn. unfold skin. apply IZR_le in Hn. assert (spt * IZR n <= spt * IZR freq)%R by (apply Rmult_le_compat_l; assumption). lra. }
    destruct Dec as [Hc|Hc].
    - destruct (dr_halo _ _ _ _ _ _ _ D _ _ Hp Hc) as (x0 & a & p & t & b & _ & _ & _ & _ & _ & N & G & F & X). exists x0. split; [exact G|]. split; [exact F|]. split; [tauto|].
      eapply Rle_trans; [exact X|]. apply Le. assert (0 <= updates b) by (unfold updates; lia). lia.
    - destruct (dr_own _ _ _ _ _ _ _ D _ _ Hp Hc) as (x0 & N & F & X). exists x0. split; [apply box_grown; [lra|exact N]|]. split; [exact F|]. split; [tauto|].
      eapply Rle_trans; [exact X|]. apply Le. unfold steps'. lia.
  Qed.

  Lemma compute_parts s0 h s ks : validStart cutoff spt freq s0 -> properHistory cutoff spt freq s0 h s ->
    disciplined spt false (map fst h ++ [Compute true ks]) -> computations (map fst h ++ [Compute true ks]) < 2 ^ 32 ->
    calm spt (map fst h) -> resizedSince false (map fst h) = false ->
    factorAtMost fac (kind (cont s0)) -> factorsAtMost fac (map fst h ++ [Compute true ks]) -> calmImages spt far (map fst h) ->
    validCall cutoff spt freq s (Compute true ks) -> NoDup (ownedParticles s ++ haloParticles s) ->
    forall view t lay newton3 threshold, (forall pos dir l, isSortedView pos dir l (view pos dir l)) ->
    suits cutoff spt freq (boxLo s) (boxHi s) (last ks (kind (cont s))) t newton3 ->
    exists s1 calls rest, select cutoff spt freq s ks = Some s1 /\
      containerCalls cutoff spt freq view (boxLo s1) (boxHi s1) (cont s1) t lay newton3 threshold = Some calls /\
      remainder2B rndExact newton3 cutoff (inRegionOf cutoff spt freq (boxLo s1) (boxHi s1) (cont s1)) (Nat.max 2 (length (bufs s1))) (bufs s1) (halos s1) = Some rest /\
      Permutation (ownedParticles s ++ haloParticles s) (concat (bufs s1) ++ concat (halos s1) ++ filter live (concat (ccells (cont s1)))) /\
      NoDup (concat (bufs s1) ++ concat (halos s1) ++ filter live (concat (ccells (cont s1)))) /\
      remainderCorrect cutoff (concat (bufs s1) ++ concat (halos s1)) (filter live (concat (ccells (cont s1)))) (flat_map forces rest) /\
      (forall a c, In a (allSlots (ccells (cont s1))) -> In c (allSlots (ccells (cont s1))) -> a <> c -> pown (slotParticle (ccells (cont s1)) a) = 1 ->
        (dist3 (slotPos (ccells (cont s1)) a) (slotPos (ccells (cont s1)) c) <= cutoff)%R -> received slotId calls a c = 1%nat) /\
      (forall x, In x calls -> fstP x <> sndP x) /\
      (forall p, In p (concat (bufs s1)) -> pown p = 1) /\ (forall p, In p (concat (halos s1)) -> pown p = 2).
  Proof.
    intros Vs H D B Ca Re F0 Fa Mv V Nd view t lay newton3 threshold Hview Su.
    destruct (ready s0 h s ks Vs H D B Ca Re F0 Fa Mv V) as (s1 & past & Se & I & J & Dd & Cs).
    destruct (select_inv cutoff spt freq ks s s1 Se I V) as (_ & A1 & A2 & A3 & A4 & _ & _ & _ & _ & _ & QO & QH & _).
    rewrite <- (select_last cutoff spt freq ks s s1 Se) in Su.
    assert (QS : Permutation (ownedParticles s ++ haloParticles s) (ownedParticles s1 ++ haloParticles s1)) by (apply Permutation_app; assumption).
    apply (Permutation_NoDup QS) in Nd. rewrite (stored_live s1 J) in QS.
    assert (Nd1 := Permutation_NoDup (stored_live s1 J) Nd). clear Nd.
    destruct (spt_bounds cutoff spt freq Hopt) as (T1 & T2 & T3 & T4). destruct Hopt as (Hc0 & _ & Hf).
    assert (Nl : NoDup (filter live (concat (ccells (cont s1))))) by (rewrite app_assoc in Nd1; apply NoDup_app_inv in Nd1; apply Nd1).
    destruct (inv_placed _ _ _ s1 J) as (Sz & Pl). assert (Kv := inv_kind _ _ _ s1 J).
    assert (Bb : forall p, In p (concat (bufs s1)) -> pown p = 1 /\ inGrownBox (il cutoff spt freq) (boxLo s1) (boxHi s1) (ppos p)).
    { intros p Hp. split; [apply (inv_bufs _ _ _ s1 J p Hp)|]. apply box_grown; [lra|]. apply (dr_bufs _ _ _ _ _ _ _ Dd eq_refl eq_refl p Hp). }
    assert (Bh : forall p, In p (concat (halos s1)) -> pown p = 2 /\ inGrownBox (il cutoff spt freq) (boxLo s1) (boxHi s1) (ppos p)).
    { intros p Hp. split; [apply (inv_halos _ _ _ s1 J p Hp)|apply (dr_hbufs _ _ _ _ _ _ _ Dd p Hp)]. }
    assert (Ln := dr_lens _ _ _ _ _ _ _ Dd).
    set (cells := ccells (cont s1)) in *.
    assert (Main : exists calls rest, containerCalls cutoff spt freq view (boxLo s1) (boxHi s1) (cont s1) t lay newton3 threshold = Some calls /\
      remainder2B rndExact newton3 cutoff (inRegionOf cutoff spt freq (boxLo s1) (boxHi s1) (cont s1)) (Nat.max 2 (length (bufs s1))) (bufs s1) (halos s1) = Some rest /\
      remainderCorrect cutoff (concat (bufs s1) ++ concat (halos s1)) (filter live (concat cells)) (flat_map forces rest) /\
      (forall a c, In a (allSlots cells) -> In c (allSlots cells) -> a <> c -> pown (slotParticle cells a) = 1 -> (dist3 (slotPos cells a) (slotPos cells c) <= cutoff)%R ->
        received slotId calls a c = 1%nat) /\
      forall x, In x calls -> fstP x <> sndP x).
    { assert (Dl := fun x => drift_le s1 past false x Dd Cs). fold cells in Dl.
      unfold containerCalls, inRegionOf. fold cells. unfold suits in Su. rewrite A1, A2 in *. destruct (kind (cont s1)) as [|csf] eqn:K.
      - destruct t; try contradiction. unfold size, numberOfCells in Sz. assert (H7 : length cells = 7%nat) by lia.
        destruct (remainder_ds_live cutoff cells (bufs s1) (halos s1) newton3 (Nat.max 2 (length (bufs s1))) Hc0 H7) as (rest & R1 & R2); auto; [intros p Hp; apply Bb, Hp|intros p Hp; apply Bh, Hp|lia|].
        eexists _, rest. split; [reflexivity|]. split; [exact R1|]. split; [exact R2|]. split; [|apply ds_noself; assumption]. intros a c Ha Hc Hne O Di.
        assert (Za : fst a = 0%nat). { destruct (Nat.eq_dec (fst a) 0) as [Z|Z]; [exact Z|]. exfalso. exact (proj2 (proj2 (Pl _ _ (slot_in cells a Ha))) Z O). }
        apply (ds_container cutoff spt freq Hopt view Hview (boxLo s) (boxHi s) cells lay newton3 threshold H7 Su); auto.
        + intros p Hp. destruct (proj2 (Pl 0%nat p Hp)) as (X & _). specialize (X eq_refl). unfold isHaloP, stHalo. apply Z.eqb_neq, X.
        + intros x Hx. destruct (Dl x Hx) as (x0 & _ & F & In0 & X). exists x0. split; [|exact X]. cbn [cellFor haloCell] in F, In0.
          destruct (Nat.eq_dec (fst x) 0) as [Z|Z]; [left; split; [exact Z|apply In0; lia]|right]. destruct F as [F|F]; [contradiction|exact F].
      - set (b := grid cutoff spt freq csf (boxLo s) (boxHi s)) in *. cbn [validKind] in Kv.
        assert (Gh : forall x, inGrownBox (il cutoff spt freq) (boxLo s) (boxHi s) x -> inBox (getHaloBoxMin b) (getHaloBoxMax b) x) by (intros x Hx; apply grown_halo; assumption).
        assert (Kx : exists calls both, lcCalls cutoff spt freq b t = Some (calls, both)) by (destruct t; [contradiction|..]; eexists _, _; reflexivity).
        destruct Kx as (calls & both & Kx). rewrite Kx.
        destruct (remainder_lc_live cutoff (skin spt freq) csf (boxLo s) (boxHi s) cells (bufs s1) (halos s1) newton3 (Nat.max 2 (length (bufs s1)))) as (rest & R1 & R2); auto; [lra| |lia|].
        { intros k p Hp. destruct (Pl k p Hp) as (X1 & X2 & X3). split; [exact X1|]. split; [exact X2|]. split; [exact X3|].
          apply In_nth with (d := mkParticle 0 (mkR3 0 0 0) stDummy 0) in Hp as (j & Hj & Ej).
          destruct (Dl (k, j)) as (x0 & G & F & _ & X); [apply in_allSlots; exact Hj|]. exists x0. split; [apply Gh, G|]. split; [exact F|].
          unfold slotPos, slotParticle in X. cbn [fst snd] in X. rewrite Ej in X. eapply within_le; [|exact (dist3_within _ _ _ X)]. lra. }
        eexists _, rest. split; [reflexivity|]. split; [exact R1|]. split; [exact R2|]. split; [|apply (lc_noself cutoff spt freq view Hview (boxLo s) (boxHi s) cells lay newton3 threshold csf t calls both Kv Kx); destruct t; try exact Su; exact Logic.I]. intros a c Ha Hc Hne O Di.
        apply (lc_container cutoff spt freq Hopt view Hview (boxLo s) (boxHi s) cells lay newton3 threshold csf t calls both); auto.
        + intros k p Hp Ow. unfold isHaloP, stHalo. apply Z.eqb_neq. intros O2. apply (proj2 (Pl k p Hp)) in O2. change (negb (cellCanContainHaloParticles b (Z.of_nat k)) = true) in Ow. fold b in O2. rewrite O2 in Ow. discriminate.
        + intros x Hx. destruct (Dl x Hx) as (x0 & G & F & _ & X). exists x0. split; [apply Gh, G|]. split; [exact F|exact X].
        + destruct t; try exact Su; try exact Logic.I.
        + apply (proj2 (Pl (fst a) _ (slot_in cells a Ha))), O. }
    destruct Main as (calls & rest & E1 & E2 & Rm & Hrec & Hself). exists s1, calls, rest.
    split; [exact Se|]. split; [exact E1|]. split; [exact E2|]. split; [exact QS|]. split; [exact Nd1|]. split; [exact Rm|]. split; [exact Hrec|]. split; [exact Hself|].
    split; [intros p Hp; apply (Bb p Hp)|intros p Hp; apply (Bh p Hp)].
  Qed.

  Theorem compute_exact s0 h s ks : validStart cutoff spt freq s0 -> properHistory cutoff spt freq s0 h s ->
    disciplined spt false (map fst h ++ [Compute true ks]) -> computations (map fst h ++ [Compute true ks]) < 2 ^ 32 ->
    calm spt (map fst h) -> resizedSince false (map fst h) = false ->
    factorAtMost fac (kind (cont s0)) -> factorsAtMost fac (map fst h ++ [Compute true ks]) -> calmImages spt far (map fst h) ->
    validCall cutoff spt freq s (Compute true ks) -> NoDup (ownedParticles s ++ haloParticles s) ->
    forall view t lay newton3 threshold, (forall pos dir l, isSortedView pos dir l (view pos dir l)) ->
    suits cutoff spt freq (boxLo s) (boxHi s) (last ks (kind (cont s))) t newton3 ->
    exists pairs, computePairs cutoff spt freq view s ks t lay newton3 threshold = Some pairs /\
      (forall p q, In p (ownedParticles s) -> In q (ownedParticles s ++ haloParticles s) -> p <> q -> closer cutoff (ppos p) (ppos q) -> exactlyOnce (p, q) pairs) /\
      forall p, In p (ownedParticles s) -> ~ In (p, p) pairs.
  Proof.
    intros Vs H D B Ca Re F0 Fa Mv V Nd view t lay newton3 threshold Hview Su.
    destruct (compute_parts s0 h s ks Vs H D B Ca Re F0 Fa Mv V Nd view t lay newton3 threshold Hview Su) as (s1 & calls & rest & Se & E1 & E2 & QS & Nd1 & (Rn & Rc & Rs) & Hrec & Hself & _).
    assert (Hc0 : (0 < cutoff)%R) by (destruct Hopt as (Hc0 & _); exact Hc0).
    set (cells := ccells (cont s1)) in *.
    assert (Nl : NoDup (filter live (concat cells))) by (rewrite app_assoc in Nd1; apply NoDup_app_inv in Nd1; apply Nd1).
    exists (pairsOf cells calls ++ flat_map forces rest). split; [unfold computePairs; rewrite Se, E1, E2; reflexivity|].
    split.
    2: { intros p Hp X. apply filter_In in Hp as (_ & Op). apply Z.eqb_eq in Op. apply in_app_or in X as [X|X]; [|exact (Rs p Op X)].
         unfold pairsOf in X. apply in_map_iff in X as ((a, c) & [= X1 X2] & X). cbn [fst snd] in *. subst p.
         assert (Eac : a = c) by (apply (slot_unique cells Nl); [symmetry; exact X2|lia]). subst c.
         apply in_flat_map in X as (x & Hx & X). apply (Hself x Hx). unfold added in X. destruct X as [X|X]; [congruence|]. destruct (n3 x); [|destruct X]. destruct X as [X|[]]; congruence. }
    intros p q Hp Hq Hne Hcl.
    assert (Op : pown p = 1) by (apply filter_In in Hp as (_ & Hp); apply Z.eqb_eq, Hp).
    assert (Oq : pown q <> 0) by (apply in_app_or in Hq as [Hq|Hq]; apply filter_In in Hq as (_ & Hq); apply Z.eqb_eq in Hq; lia).
    assert (Hp' : In p (ownedParticles s ++ haloParticles s)) by (apply in_or_app; left; exact Hp).
    apply (Permutation_in _ QS) in Hp', Hq.
    assert (Dj : forall x, In x (concat (bufs s1) ++ concat (halos s1)) -> In x (filter live (concat cells)) -> False).
    { intros x X1 X2. rewrite app_assoc in Nd1. apply NoDup_app_inv in Nd1. destruct Nd1 as (_ & _ & X). exact (X x X1 X2). }
    rewrite app_assoc in Hp', Hq.
    assert (R := Rc p q Hp' Hq Hne Op Oq Hcl).
    assert (Cn : forall x, In x (concat cells) -> pown x <> 0 -> In x (concat (bufs s1) ++ concat (halos s1)) -> False).
    { intros x X1 X2 X3. apply (Dj x X3). apply filter_In. split; [exact X1|apply live_iff, X2]. }
    assert (Buffered : In p (concat (bufs s1) ++ concat (halos s1)) \/ In q (concat (bufs s1) ++ concat (halos s1)) -> exactlyOnce (p, q) (pairsOf cells calls ++ flat_map forces rest)).
    { intros Bu. apply exactlyOnce_right; [|apply exactlyOnce_nodup; [exact Rn|apply R, Bu]]. intros X. apply pairs_in in X as (X1 & X2); [|lia|exact Oq].
      destruct Bu as [Bu|Bu]; [apply (Cn p X1)|apply (Cn q X2)]; try exact Bu; try lia; exact Oq. }
    apply in_app_or in Hp' as [Hp'|Hp']; [apply Buffered; left; exact Hp'|].
    apply in_app_or in Hq as [Hq|Hq]; [apply Buffered; right; exact Hq|]. clear Buffered.
    apply exactlyOnce_left.
    - apply filter_In in Hp' as (Hp1 & _), Hq as (Hq1 & _). apply slot_of in Hp1 as (a & Ha & Ea), Hq1 as (c & Hc & Ec). subst p q.
      apply pairs_once; [exact Nl|intros ->; contradiction|lia|exact Oq|]. apply Hrec; auto; [intros ->; contradiction|]. apply closer_dist; assumption.
    - intros X. apply R in X as [X|X]; [exact (Dj p X Hp')|exact (Dj q X Hq)].
  Qed.
End Theorem_.
