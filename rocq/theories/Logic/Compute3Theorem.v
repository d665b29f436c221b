(** One interaction computation with a three-body functor after any history: the theorem. *)
From Coq Require Import Reals Lra.
From Verif.Base Require Import ZRange Lists Occ OptionM.
From Verif.Grid Require Import IndexModel IndexSpec IndexProofs CellBlockModel CellBlockSpec CellBlockProofs CellBlockExact.
From Verif.Functor Require Import CellFunctorModel CellFunctor3BModel FunctorSpec Functor3BSpec SortModel SortSpec SortProofs.
From Verif.Container Require Import LinkedCellsModel LinkedCellsSpec LinkedCellsGeo IteratorModel IteratorContainers IteratorSpec IteratorLemmas IteratorInstances IteratorRegion
  ParticleModel CollectModel CollectSpec CollectProofs CollectRun CollectContainers CollectTheorems UpdateModel UpdateProofs ForEachModel ForEachProofs CellCallsModel CellCallsSpec DirectSumProofs.
From Verif.Logic Require Import BalanceModel BalanceProofs HandlerModel HandlerSpec HandlerCont HandlerUpdate HandlerProofs HandlerExact HandlerTotal HandlerFields HandlerNear HandlerHalo HandlerAge HandlerDrift HandlerSize
  RemainderModel RemainderSpec RemainderProofs RemainderContainers ComputeModel ComputeSpec ComputeSlots ComputeProofs ComputeTheorem
  Remainder3Model Remainder3Core Remainder3Region Remainder3Containers Compute3Slots Compute3Spec.
Import ListNotations.
Local Open Scope Z_scope.

Lemma occ_once p q r l : occ (isTriple p q r) l = 1%nat -> tripleOnce p q r l.
Proof.
  induction l as [|x l IH]; [discriminate|]. rewrite occ_cons. destruct (isTriple p q r x) eqn:E; intros H.
  - exists [], x, l. split; [reflexivity|]. split; [apply isTriple_iff, E|]. cbn [app]. intros y Hy X. apply isTriple_iff in X.
    assert (O : occ (isTriple p q r) l = 0%nat) by lia. clear - Hy X O. induction l as [|z l IH]; [destruct Hy|]. rewrite occ_cons in O. destruct Hy as [->|Hy]; [rewrite X in O; discriminate|].
    apply IH; [exact Hy|lia].
  - destruct (IH ltac:(lia)) as (l1 & y & l2 & -> & S & N). exists (x :: l1), y, l2. split; [reflexivity|]. split; [exact S|].
    intros z [<-|Hz]; [|apply N, Hz]. intros X. apply isTriple_iff in X. congruence.
Qed.

Lemma additions_sum es : Z.of_nat (list_sum (map added1 es)) = additions es.
Proof. unfold additions. f_equal. induction es as [|e r IH]; [reflexivity|]. cbn [map filter]. change (list_sum (added1 e :: map added1 r)) with (added1 e + list_sum (map added1 r))%nat. rewrite IH. destruct e; reflexivity. Qed.

Section Theorem3.
  Variables (cutoff spt : R) (freq : Z).
  Hypothesis Hopt : validOptions cutoff spt freq.
  Variable fac : R.
  Hypothesis Hfac : (0 <= fac)%R.
  Notation far := (imageDistance cutoff spt freq fac).

  Lemma drift_steps s past m k q : Dr cutoff spt freq past false m s -> 0 <= contSteps s <= freq -> In q (nth k (ccells (cont s)) []) ->
    exists x0, inGrownBox (il cutoff spt freq) (boxLo s) (boxHi s) x0 /\ cellFor cutoff spt freq (boxLo s) (boxHi s) (kind (cont s)) k x0 /\ within (spt * IZR (contSteps s)) x0 (ppos q).
  Proof.
    intros D C Hp. destruct (spt_bounds cutoff spt freq Hopt) as (T1 & T2 & T3 & T4).
    assert (Le : forall n, n <= contSteps s -> (spt / 2 * IZR n <= spt * IZR (contSteps s))%R).
    { intros n Hn. apply IZR_le in Hn. assert (spt * IZR n <= spt * IZR (contSteps s))%R by (apply Rmult_le_compat_l; assumption).
      assert (0 <= spt * IZR (contSteps s))%R by (apply Rmult_le_pos; [assumption|apply IZR_le; lia]). lra. }
    assert (Dec : haloCell cutoff spt freq (boxLo s) (boxHi s) (kind (cont s)) k \/ ~ haloCell cutoff spt freq (boxLo s) (boxHi s) (kind (cont s)) k).
    { unfold haloCell. destruct (kind (cont s)); [lia|]. destruct (cellCanContainHaloParticles _ _); [left; reflexivity|right; discriminate]. }
    destruct Dec as [Hc|Hc].
    - destruct (dr_halo _ _ _ _ _ _ _ D _ _ Hp Hc) as (x0 & a & p & t & b & _ & _ & _ & _ & _ & N & G & F & X). exists x0. split; [exact G|]. split; [exact F|].
      apply dist3_within. eapply Rle_trans; [exact X|]. apply Le. assert (0 <= updates b) by (unfold updates; lia). lia.
    - destruct (dr_own _ _ _ _ _ _ _ D _ _ Hp Hc) as (x0 & N & F & X). exists x0. split; [apply box_grown; [lra|exact N]|]. split; [exact F|].
      apply dist3_within. eapply Rle_trans; [exact X|]. apply Le. unfold steps'. lia.
  Qed.

  Theorem compute3_parts s0 h s ks : validStart cutoff spt freq s0 -> properHistory cutoff spt freq s0 h s ->
    disciplined spt false (map fst h ++ [Compute false ks]) -> computations (map fst h ++ [Compute false ks]) < 2 ^ 32 -> additions (map fst h) < 2 ^ 64 - 1 ->
    calm spt (map fst h) -> resizedSince false (map fst h) = false ->
    factorAtMost fac (kind (cont s0)) -> factorsAtMost fac (map fst h ++ [Compute false ks]) -> calmImages spt far (map fst h) ->
    validCall cutoff spt freq s (Compute false ks) -> NoDup (ownedParticles s ++ haloParticles s) ->
    forall view t lay newton3 threshold, (forall pos dir l, isSortedView pos dir l (view pos dir l)) ->
    suits3 cutoff spt freq (boxLo s) (boxHi s) (last ks (kind (cont s))) t newton3 ->
    exists s1 calls rest, select cutoff spt freq s ks = Some s1 /\
      containerCalls3 cutoff spt freq view (boxLo s1) (boxHi s1) (cont s1) t lay newton3 threshold = Some calls /\
      remainder3B rndExact newton3 cutoff (inRegionOf cutoff spt freq (boxLo s1) (boxHi s1) (cont s1)) (regionPairsOf cutoff spt freq (boxLo s1) (boxHi s1) (cont s1) (contSteps s1)) (bufs s1) (halos s1) = Some rest /\
      let cells := ccells (cont s1) in
      Permutation (ownedParticles s ++ haloParticles s) (concat (bufs s1) ++ concat (halos s1) ++ filter live (concat cells)) /\
      NoDup (concat (bufs s1) ++ concat (halos s1) ++ filter live (concat cells)) /\
      remainder3Correct cutoff (concat (bufs s1) ++ concat (halos s1)) (filter live (concat cells)) (flat_map added3 rest) /\
      (forall x, In x calls -> callDiff x) /\
      forall a c d, In a (allSlots cells) -> In c (allSlots cells) -> In d (allSlots cells) -> a <> c -> a <> d -> c <> d -> pown (slotParticle cells a) = 1 ->
        pairwiseWithin (slotPos cells) cutoff a c d -> received3 slotId calls a c d = 1%nat.
  Proof.
    intros Vs H D B Ad Ca Re F0 Fa Mv V Nd view t lay newton3 threshold Hview Su. set (visible := ownedParticles s ++ haloParticles s) in *.
    assert (Dt := disciplined_last spt (map fst h) false false true ks D).
    assert (Bt : computations (map fst h ++ [Compute true ks]) < 2 ^ 32) by (rewrite computations_app in *; exact B).
    assert (Fat : factorsAtMost fac (map fst h ++ [Compute true ks])).
    { intros pw k Hk. apply in_app_or in Hk as [Hk|[Hk|[]]]; [apply (Fa pw), in_or_app; left; exact Hk|]. injection Hk as <- <-. apply (Fa false), in_or_app. right. left. reflexivity. }
    destruct (ready cutoff spt freq Hopt fac Hfac s0 h s ks Vs H Dt Bt Ca Re F0 Fat Mv V) as (s1 & past & Se & I & J & Dd & Cs).
    destruct (select_inv cutoff spt freq ks s s1 Se I V) as (_ & A1 & A2 & A3 & A4 & _ & _ & _ & _ & _ & QO & QH & _).
    rewrite <- (select_last cutoff spt freq ks s s1 Se) in Su.
    assert (Many : size (concat (ccells (cont s1))) < sizeMax).
    { assert (X1 := size_history cutoff spt freq s0 h s H). rewrite (size_start cutoff spt freq s0 Vs) in X1. assert (X2 := size_select cutoff spt freq ks s s1 Se).
      rewrite size_eq in X2. unfold len in X2. assert (X3 := additions_sum (map fst h)). unfold size, sizeMax, sizeMod. lia. }
    assert (QS : Permutation visible (ownedParticles s1 ++ haloParticles s1)) by (apply Permutation_app; assumption).
    apply (Permutation_NoDup QS) in Nd. rewrite (stored_live cutoff spt freq s1 J) in QS.
    assert (Nd1 := Permutation_NoDup (stored_live cutoff spt freq s1 J) Nd). clear Nd.
    destruct (spt_bounds cutoff spt freq Hopt) as (T1 & T2 & T3 & T4).
    assert (Hc0 : (0 < cutoff)%R) by apply Hopt.
    assert (Nl : NoDup (filter live (concat (ccells (cont s1))))) by (rewrite app_assoc in Nd1; apply NoDup_app_inv in Nd1; apply Nd1).
    destruct (inv_placed _ _ _ s1 J) as (Sz & Pl). assert (Kv := inv_kind _ _ _ s1 J).
    assert (Bx : forall p, In p (concat (bufs s1)) -> inBox (boxLo s1) (boxHi s1) (ppos p)) by (intros p Hp; apply (dr_bufs _ _ _ _ _ _ _ Dd eq_refl eq_refl p Hp)).
    assert (Bb : forall p, In p (concat (bufs s1)) -> pown p = 1 /\ inGrownBox (il cutoff spt freq) (boxLo s1) (boxHi s1) (ppos p)).
    { intros p Hp. split; [apply (inv_bufs _ _ _ s1 J p Hp)|]. apply box_grown; [lra|]. apply Bx, Hp. }
    assert (Bh : forall p, In p (concat (halos s1)) -> pown p = 2 /\ inGrownBox (il cutoff spt freq) (boxLo s1) (boxHi s1) (ppos p)).
    { intros p Hp. split; [apply (inv_halos _ _ _ s1 J p Hp)|apply (dr_hbufs _ _ _ _ _ _ _ Dd p Hp)]. }
    assert (Dl := fun x => drift_le cutoff spt freq Hopt s1 past false x Dd Cs).
    assert (Ds := fun k q => drift_steps s1 past false k q Dd Cs).
    set (cells := ccells (cont s1)) in *.
    assert (OwnCell : forall k p, In p (nth k cells []) -> pown p = 1 -> ~ haloCell cutoff spt freq (boxLo s1) (boxHi s1) (kind (cont s1)) k).
    { intros k p Hp O Hc. assert (X := proj2 (Pl k p Hp)). unfold haloCell in Hc. destruct (kind (cont s1)) as [|csf]; destruct X as (X1 & X2).
      - exact (X2 Hc O).
      - specialize (X1 O). unfold cellCanContainOwnedParticles in X1. rewrite Hc in X1. discriminate. }
    assert (Bo : forall p, In p ((concat (bufs s1) ++ concat (halos s1)) ++ filter live (concat cells)) -> pown p = 1 -> exists x0, inBox (boxLo s1) (boxHi s1) x0 /\ within (skin spt freq / 2) x0 (ppos p)).
    { intros p Hp O. apply in_app_or in Hp as [Hp|Hp]; [apply in_app_or in Hp as [Hp|Hp]|].
      - exists (ppos p). split; [apply Bx, Hp|]. apply dist3_within. rewrite dist3_refl. unfold skin in *. lra.
      - apply Bh in Hp as (Hp & _). lia.
      - apply filter_In in Hp as (Hp & _). apply in_cells in Hp as (k & Hp).
        destruct (dr_own _ _ _ _ _ _ _ Dd k p Hp (OwnCell k p Hp O)) as (x0 & N & _ & X). exists x0. split; [exact N|]. apply dist3_within. eapply Rle_trans; [exact X|].
        unfold steps', skin. destruct Cs as (_ & Cs). apply IZR_le in Cs. rewrite Z.add_0_r. assert (spt * IZR (contSteps s1) <= spt * IZR freq)%R by (apply Rmult_le_compat_l; assumption). lra. }
    assert (Main : exists calls rest, containerCalls3 cutoff spt freq view (boxLo s1) (boxHi s1) (cont s1) t lay newton3 threshold = Some calls /\
      remainder3B rndExact newton3 cutoff (inRegionOf cutoff spt freq (boxLo s1) (boxHi s1) (cont s1)) (regionPairsOf cutoff spt freq (boxLo s1) (boxHi s1) (cont s1) (contSteps s1)) (bufs s1) (halos s1) = Some rest /\
      remainder3Correct cutoff (concat (bufs s1) ++ concat (halos s1)) (filter live (concat cells)) (flat_map added3 rest) /\
      (forall x, In x calls -> callDiff x) /\
      forall a c d, In a (allSlots cells) -> In c (allSlots cells) -> In d (allSlots cells) -> a <> c -> a <> d -> c <> d -> pown (slotParticle cells a) = 1 ->
        pairwiseWithin (slotPos cells) cutoff a c d -> received3 slotId calls a c d = 1%nat).
    { unfold containerCalls3. fold cells. unfold suits3 in Su. destruct (kind (cont s1)) as [|csf] eqn:K.
      - destruct t; try contradiction. unfold size, numberOfCells in Sz. assert (H7 : length cells = 7%nat) by lia.
        destruct (remainder3_ds cutoff spt freq newton3 (boxLo s1) (boxHi s1) (cont s1) (contSteps s1) (bufs s1) (halos s1)) as (rest & R1 & R2); auto.
        eexists _, rest. split; [reflexivity|]. split; [exact R1|]. split; [exact R2|].
        destruct (ds_container3 cutoff spt freq Hopt view Hview (boxLo s1) (boxHi s1) cells lay newton3 threshold H7 Su) as (C1 & C2).
        + intros p Hp. destruct (proj2 (Pl 0%nat p Hp)) as (X & _). specialize (X eq_refl). unfold isHaloP, stHalo. apply Z.eqb_neq, X.
        + intros x Hx. destruct (Dl x Hx) as (x0 & _ & F & In0 & X). exists x0. split; [|exact X]. cbn [cellFor haloCell] in F, In0.
          destruct (Nat.eq_dec (fst x) 0) as [Z|Z]; [left; split; [exact Z|apply In0; lia]|right]. destruct F as [F|F]; [contradiction|exact F].
        + split; [exact C1|]. intros a c d Ha Hc Hd N1 N2 N3 O Di. apply C2; auto.
          destruct (Nat.eq_dec (fst a) 0) as [Z|Z]; [exact Z|]. exfalso. exact (proj2 (proj2 (Pl _ _ (slot_in cells a Ha))) Z O).
      - destruct t; try contradiction. destruct Su as (-> & Nc). rewrite <- A1, <- A2 in Nc.
        set (b := grid cutoff spt freq csf (boxLo s1) (boxHi s1)) in *. cbn [validKind] in Kv.
        assert (Gh : forall x, inGrownBox (il cutoff spt freq) (boxLo s1) (boxHi s1) x -> inBox (getHaloBoxMin b) (getHaloBoxMax b) x) by (intros x Hx; apply grown_halo; assumption).
        change (numCells (blockDims b) < 2 ^ 64 - 1) in Nc.
        assert (Sz' : size cells = numCells (blockDims b)) by exact Sz.
        destruct (remainder3_lc cutoff spt freq false (boxLo s1) (boxHi s1) (cont s1) (contSteps s1) (bufs s1) (halos s1) Hopt Cs Many Nd1 Bb Bh Bo csf K Kv Sz') as (rest & R1 & R2).
        { fold cells. rewrite Sz'. exact Nc. }
        { intros k p Hp. destruct (Pl k p Hp) as (X1 & X2 & X3). split; [exact X1|]. split; [exact X2|]. split; [exact X3|].
          destruct (Ds k p Hp) as (x0 & G & F & X). exists x0. split; [apply Gh, G|]. split; [exact F|exact X]. }
        eexists _, rest. split; [reflexivity|]. split; [exact R1|]. split; [exact R2|].
        destruct (lc_container3 cutoff spt freq Hopt view Hview (boxLo s1) (boxHi s1) cells lay threshold csf Kv Sz') as (C1 & C2).
        + intros k p Hp Ow. unfold isHaloP, stHalo. apply Z.eqb_neq. intros O2. apply (proj2 (Pl k p Hp)) in O2. change (negb (cellCanContainHaloParticles b (Z.of_nat k)) = true) in Ow. fold b in O2. rewrite O2 in Ow. discriminate.
        + intros x Hx. destruct (Dl x Hx) as (x0 & G & F & _ & X). exists x0. split; [apply Gh, G|]. split; [exact F|exact X].
        + split; [exact C1|]. intros a c d Ha Hc Hd N1 N2 N3 O Di. apply C2; auto.
          apply (proj2 (Pl (fst a) _ (slot_in cells a Ha))), O. }
    destruct Main as (calls & rest & E1 & E2 & X). exists s1, calls, rest. split; [exact Se|]. split; [exact E1|]. split; [exact E2|].
    cbv zeta. fold cells. split; [exact QS|]. split; [exact Nd1|exact X].
  Qed.

  Theorem compute3_exact s0 h s ks : validStart cutoff spt freq s0 -> properHistory cutoff spt freq s0 h s ->
    disciplined spt false (map fst h ++ [Compute false ks]) -> computations (map fst h ++ [Compute false ks]) < 2 ^ 32 -> additions (map fst h) < 2 ^ 64 - 1 ->
    calm spt (map fst h) -> resizedSince false (map fst h) = false ->
    factorAtMost fac (kind (cont s0)) -> factorsAtMost fac (map fst h ++ [Compute false ks]) -> calmImages spt far (map fst h) ->
    validCall cutoff spt freq s (Compute false ks) -> NoDup (ownedParticles s ++ haloParticles s) ->
    forall view t lay newton3 threshold, (forall pos dir l, isSortedView pos dir l (view pos dir l)) ->
    suits3 cutoff spt freq (boxLo s) (boxHi s) (last ks (kind (cont s))) t newton3 ->
    let visible := ownedParticles s ++ haloParticles s in
    exists triples, computeTriplets cutoff spt freq view s ks t lay newton3 threshold = Some triples /\
      (forall p q r, In p (ownedParticles s) -> In q visible -> In r visible -> p <> q -> p <> r -> q <> r ->
        closer cutoff (ppos p) (ppos q) -> closer cutoff (ppos p) (ppos r) -> closer cutoff (ppos q) (ppos r) -> tripleOnce p q r triples) /\
      forall p q r, In p (ownedParticles s) -> In q visible -> In r visible -> In (p, (q, r)) triples -> p <> q /\ p <> r /\ q <> r.
  Proof.
    intros Vs H D B Ad Ca Re F0 Fa Mv V Nd view t lay newton3 threshold Hview Su visible.
    destruct (compute3_parts s0 h s ks Vs H D B Ad Ca Re F0 Fa Mv V Nd view t lay newton3 threshold Hview Su) as (s1 & calls & rest & Se & E1 & E2 & QS & Nd1 & (Rn & Rc) & Hdiff & Hrec).
    set (cells := ccells (cont s1)) in *. fold visible in QS.
    assert (Hc0 : (0 < cutoff)%R) by apply Hopt.
    assert (Nl : NoDup (filter live (concat cells))) by (rewrite app_assoc in Nd1; apply NoDup_app_inv in Nd1; apply Nd1).
    exists (triplesOf cells calls ++ flat_map added3 rest). split; [unfold computeTriplets; rewrite Se, E1, E2; reflexivity|].
    assert (Vis : forall p, In p visible -> In p ((concat (bufs s1) ++ concat (halos s1)) ++ filter live (concat cells)) /\ pown p <> 0).
    { intros p Hp. split; [rewrite <- app_assoc; apply (Permutation_in _ QS), Hp|]. apply in_app_or in Hp as [Hp|Hp]; apply filter_In in Hp as (_ & Hp); apply Z.eqb_eq in Hp; lia. }
    assert (Own : forall p, In p (ownedParticles s) -> In p visible /\ pown p = 1).
    { intros p Hp. split; [apply in_or_app; left; exact Hp|]. apply filter_In in Hp as (_ & Hp). apply Z.eqb_eq, Hp. }
    split.
    2: { intros p q r Hp Hq Hr X. apply Own in Hp as (_ & Op). apply Vis in Hq as (_ & Oq), Hr as (_ & Or). apply in_app_or in X as [X|X]; [|exact (proj1 (Rn p q r X))].
         apply (triples_diff cells Nl calls Hdiff p q r X); [lia|exact Oq|exact Or]. }
    intros p q r Hp Hq Hr N1 N2 N3 C1 C2 C3. apply Own in Hp as (Hp & Op). apply Vis in Hp as (Hp & _), Hq as (Hq & Oq), Hr as (Hr & Or).
    destruct (Rc p q r Hp Hq Hr N1 N2 N3 Op C1 C2 C3) as (R1 & R2).
    apply occ_once. rewrite occ_app.
    assert (Dj : forall x, In x (concat (bufs s1) ++ concat (halos s1)) -> In x (filter live (concat cells)) -> False).
    { intros x X1 X2. rewrite app_assoc in Nd1. apply NoDup_app_inv in Nd1. destruct Nd1 as (_ & _ & X). exact (X x X1 X2). }
    assert (Cn : forall x, In x (concat cells) -> pown x <> 0 -> In x (concat (bufs s1) ++ concat (halos s1)) -> False).
    { intros x X1 X2 X3. apply (Dj x X3). apply filter_In. split; [exact X1|apply live_iff, X2]. }
    assert (Buffered : In p (concat (bufs s1) ++ concat (halos s1)) \/ In q (concat (bufs s1) ++ concat (halos s1)) \/ In r (concat (bufs s1) ++ concat (halos s1)) ->
      (occ (isTriple p q r) (triplesOf cells calls) + occ (isTriple p q r) (flat_map added3 rest))%nat = 1%nat).
    { intros Bu. rewrite (R1 Bu). assert (Z : occ (isTriple p q r) (triplesOf cells calls) = 0%nat); [|lia].
      apply occ_zero. intros x Hx. destruct (isTriple p q r x) eqn:E; [exfalso|reflexivity].
      assert (X : (In p (concat cells)) /\ (In q (concat cells)) /\ (In r (concat cells))).
      { apply isTriple_iff in E as [-> | ->]; apply triples_in in Hx as (Y1 & Y2 & Y3); repeat split; auto; apply Y1; lia. }
      destruct X as (Y1 & Y2 & Y3), Bu as [Bu|[Bu|Bu]]; [apply (Cn p Y1)|apply (Cn q Y2)|apply (Cn r Y3)]; auto; lia. }
    apply in_app_or in Hp as [Hp|Hp]; [apply Buffered; left; exact Hp|].
    apply in_app_or in Hq as [Hq|Hq]; [apply Buffered; right; left; exact Hq|].
    apply in_app_or in Hr as [Hr|Hr]; [apply Buffered; right; right; exact Hr|]. clear Buffered.
    rewrite (R2 Hp Hq Hr). apply filter_In in Hp as (Hp & _), Hq as (Hq & _), Hr as (Hr & _). apply slot_of in Hp as (a & Ha & Ea), Hq as (c & Hc & Ec), Hr as (d & Hd & Ed). subst p q r.
    rewrite (triples_once cells Nl calls a c d); [reflexivity|repeat split; congruence|lia|exact Oq|exact Or|].
    apply Hrec; auto; try congruence. unfold pairwiseWithin, slotPos. split; [|split]; apply closer_dist; assumption.
  Qed.
End Theorem3.
