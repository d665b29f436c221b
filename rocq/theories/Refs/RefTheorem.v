(** The container of references after any history. *)
From Coq Require Import Reals Permutation Bool.
From Verif.Base Require Import ZRange Lists OptionM.
From Verif.Grid Require Import IndexModel IndexSpec CellBlockModel CellBlockSpec.
From Verif.Functor Require Import SortModel.
From Verif.Container Require Import IteratorModel IteratorContainers IteratorSpec IteratorLemmas IteratorRegion IteratorInstances ParticleModel UpdateProofs.
From Verif.Logic Require Import HandlerModel.
From Verif.Refs Require Import RefModel RefSpec RefProofs RefSweep RefAdd.
Import ListNotations.
Local Open Scope Z_scope.

Section History.
  Variable rnd : R -> R.
  Variable grow : nat -> nat.
  Variable b : Block.
  Variable il : R.
  Variables bMin bMax : R3.
  Variable skin : R.
  Hypothesis Hgrow : forall n, (n < grow n)%nat.
  Notation ok := (ok il bMin bMax).
  Hypothesis Hplace : forall p, ok p -> exists i, get1DIndexOfPosition rnd b (ppos p) = Some i /\ 0 <= i < numCells (blockDims b) /\
    (if isHaloP p then cellCanContainHaloParticles b i else cellCanContainOwnedParticles b i) = true.
  Hypothesis Hbounds : forall k x, 0 <= k < numCells (blockDims b) -> cellCanContainOwnedParticles b k = true ->
    (let bb := getCellBoundingBox rnd b (oneToThreeD k (blockDims b)) in inBox (fst bb) (snd bb) x) -> inBox bMin bMax x.
  Hypothesis Hclear : forall cells : list (list Ref), Z.of_nat (length cells) = numCells (blockDims b) ->
    exists r, clearHaloCells b cells = Some r /\ length r = length cells.
  Hypothesis Hnear : forall x, haloPosition il bMin bMax x -> exists is, nearbyHaloCells b x skin = Some is /\
    forall i, In i is -> 0 <= i < numCells (blockDims b) /\ cellCanContainHaloParticles b i = true.
  Hypothesis Hnum : 0 <= numCells (blockDims b).

  Notation liveParts st := (filter live (vParts (rVec st))).
  Notation step := (step rnd grow b bMin bMax skin).
  Notation allowed := (allowed il bMin bMax).
  Notation after := (after bMin bMax).

  Lemma all_ok st l : Inv b st -> Permutation (liveParts st) l -> ownedSettled bMin bMax l -> halosSettled il bMin bMax l ->
    forall q, In q (vParts (rVec st)) -> pown q = 0 \/ ok q.
  Proof.
    intros I P Ho Hh q Hq. destruct (c_states _ _ _ (i_core _ _ I) q Hq) as [V|[V|V]]; [left; exact V| |]; right.
    - left. split; [exact V|]. apply Ho; [|exact V]. apply (Permutation_in _ P), filter_In. split; [exact Hq|apply live_iff; lia].
    - right. split; [exact V|]. apply Hh; [|exact V]. apply (Permutation_in _ P), filter_In. split; [exact Hq|apply live_iff; lia].
  Qed.

  Lemma live_of p o : pown p = o -> o <> 0 -> live p = true.
  Proof. intros E N. apply live_iff. congruence. Qed.

  (** Overwriting a particle that a cell refers to. *)
  Lemma overwrite st k r q p : Inv b st -> In r (nth k (rCells st) []) -> deref (rVec st) r = Some q -> kindOk b k p -> validState (pown p) ->
    exists v, assign (rVec st) r p = Some v /\ Inv b (mkRefs v (rCells st)) /\
      Permutation (p :: vParts (rVec st)) (q :: vParts v).
  Proof.
    intros I Hr Hq Kp Vp. set (v0 := rVec st) in *. destruct I as [C Cl Ix Cap]. fold v0 in C, Cl, Ix, Cap.
    destruct (assign_some v0 r p q Hq) as (v & E & B & K & D & X & P). exists v. split; [exact E|].
    assert (V : forall r', deref v r' = if refDec r r' then Some p else deref v0 r') by (intros r'; apply (deref_assigned v0 v r p q r' Hq B P)).
    split; [|rewrite P; apply setAt_perm; apply deref_inv in Hq; apply Hq].
    constructor; cbn [rVec rCells]; [|congruence|rewrite P, setAt_length; congruence|rewrite P, setAt_length; lia].
    constructor.
    - intros j r' H. rewrite B, P, setAt_length. apply (c_valid _ _ _ C j r' H).
    - apply (c_nodup _ _ _ C).
    - intros i p' A N. rewrite B. rewrite P in A. apply nth_setAt in A as [(A & _)|A]; [|apply (c_cover _ _ _ C i p' A N)].
      destruct (c_valid _ _ _ C k r Hr) as (V1 & _). rewrite <- A, <- (ref_eta r v0 V1). apply in_concat_nth. exists k. exact Hr.
    - intros j r' p' H A. rewrite V in A. destruct (refDec r r') as [<-|N]; [|apply (c_kind _ _ _ C j r' p' H A)].
      injection A as <-. assert (j = k); [|subst; exact Kp].
      (* a pointer is in one cell only *)
      assert (ND := c_nodup _ _ _ C). clear - ND H Hr. revert j k H Hr. induction (rCells st) as [|c t IH]; intros j k H Hr; [destruct j; destruct H|].
      cbn [concat] in ND. apply NoDup_app_inv in ND as (_ & N2 & N3). destruct j as [|j], k as [|k]; cbn [nth] in *; [reflexivity| | |f_equal; apply (IH N2); assumption].
      + exfalso. apply (N3 r H). apply in_concat_nth. exists k. exact Hr.
      + exfalso. apply (N3 r Hr). apply in_concat_nth. exists j. exact H.
    - intros p' H. rewrite P in H. apply In_nth_error in H as (i & H). apply nth_setAt in H as [(_ & ->)|H]; [exact Vp|]. apply (c_states _ _ _ C). apply nth_error_In in H. exact H.
    - apply (c_len _ _ _ C).
  Qed.

  Lemma refAt_in st c k r : refAt st c k = Some r -> In r (nth c (rCells st) []).
  Proof.
    unfold refAt. destruct (nth_error (rCells st) c) as [cell|] eqn:E; [|discriminate]. intros H. rewrite (nth_error_nth _ _ _ E). apply nth_error_In in H. exact H.
  Qed.

  (** updateHaloParticle. *)
  Lemma updateInCell_spec st k p : Inv b st -> kindOk b k p -> validState (pown p) -> forall cell, (forall r, In r cell -> In r (nth k (rCells st) [])) ->
    exists v o, updateInCell (rVec st) cell p = Some (v, o) /\
    match o with
    | None => v = rVec st
    | Some q => pid q = pid p /\ kindOk b k q /\ validState (pown q) /\ In q (vParts (rVec st)) /\ Inv b (mkRefs v (rCells st)) /\ Permutation (p :: vParts (rVec st)) (q :: vParts v)
    end.
  Proof.
    intros I Kp Vp. induction cell as [|r t IH]; intros H; cbn [updateInCell].
    { exists (rVec st), None. auto. }
    assert (Hr := H r (or_introl eq_refl)). destruct (deref_core b _ _ k r (i_core _ _ I) Hr) as (q & Hq & Hn). rewrite Hq.
    destruct (Z.eqb_spec (pid q) (pid p)) as [E|E].
    - destruct (overwrite st k r q p I Hr Hq Kp Vp) as (v & Ea & I' & P). rewrite Ea. exists v, (Some q). split; [reflexivity|]. split; [exact E|].
      split; [apply (c_kind _ _ _ (i_core _ _ I) k r q Hr Hq)|]. split; [apply (c_states _ _ _ (i_core _ _ I)); apply nth_error_In in Hn; exact Hn|split; [apply nth_error_In in Hn; exact Hn|auto]].
    - apply IH. intros x Hx. apply H. right. exact Hx.
  Qed.

  Lemma updateInCells_spec st p : Inv b st -> pown p = 2 -> forall is, (forall i, In i is -> 0 <= i < numCells (blockDims b) /\ cellCanContainHaloParticles b i = true) ->
    exists v o, updateInCells (rVec st) (rCells st) is p = Some (v, o) /\
    match o with
    | None => v = rVec st
    | Some q => pid q = pid p /\ pown q <> 1 /\ validState (pown q) /\ In q (vParts (rVec st)) /\ Inv b (mkRefs v (rCells st)) /\ Permutation (p :: vParts (rVec st)) (q :: vParts v)
    end.
  Proof.
    intros I O. induction is as [|i is IH]; intros H; cbn [updateInCells]; [exists (rVec st), None; auto|].
    destruct (H i (or_introl eq_refl)) as (Ri & Hi). assert (L := c_len _ _ _ (i_core _ _ I)).
    destruct (nth_error (rCells st) (Z.to_nat i)) as [cell|] eqn:E; [|apply nth_error_None in E; lia].
    assert (Ea : at_ (rCells st) i = Some cell) by (unfold at_; destruct (Z.ltb_spec i 0); [lia|exact E]). rewrite Ea.
    destruct (updateInCell_spec st (Z.to_nat i) p I) with (cell := cell) as (v & o & Eu & S).
    - split; [lia|]. intros _. rewrite Z2Nat.id by lia. exact Hi.
    - rewrite O. unfold validState. auto.
    - intros r Hr. rewrite (nth_error_nth _ _ _ E). exact Hr.
    - rewrite Eu. destruct o as [q|]; [|apply IH; intros j Hj; apply H; right; exact Hj].
      exists v, (Some q). split; [reflexivity|]. destruct S as (S1 & S2 & S3). split; [exact S1|]. split; [|exact S3]. intros X. apply S2 in X.
      rewrite Z2Nat.id in X by lia. unfold cellCanContainOwnedParticles in X. rewrite Hi in X. discriminate.
  Qed.

  (** Reinsertion during updateContainer. *)
  Lemma reinsert_spec : forall order st, Inv b st -> (forall q, In q (vParts (rVec st)) -> pown q = 0 \/ ok q) -> (forall p, In p order -> pown p = 1) ->
    exists st' out, updateReinsert rnd grow b bMin bMax st order = Some (st', out) /\ Inv b st' /\
      (forall q, In q (vParts (rVec st')) -> pown q = 0 \/ ok q) /\
      vParts (rVec st') = vParts (rVec st) ++ filter (fun p => inBoxb bMin bMax (ppos p)) order /\
      out = filter (fun p => negb (inBoxb bMin bMax (ppos p))) order.
  Proof.
    induction order as [|p t IH]; intros st I Hok Ho; cbn [updateReinsert filter].
    { exists st, []. rewrite app_nil_r. auto. }
    destruct (inBoxb bMin bMax (ppos p)) eqn:B; cbn [negb].
    - apply inBoxb_iff in B. assert (Op : ok p) by (left; split; [apply Ho; left; reflexivity|exact B]).
      destruct (add_spec rnd grow b il bMin bMax Hgrow Hplace st p I Hok Op) as (st1 & E & I1 & P1). rewrite E.
      destruct (IH st1 I1) as (st' & out & E' & I' & K' & P' & O'); [|intros q Hq; apply Ho; right; exact Hq|].
      { rewrite P1. intros q Hq. apply in_app_or in Hq as [Hq|[<-|[]]]; auto. }
      exists st', out. split; [exact E'|]. split; [exact I'|]. split; [exact K'|]. split; [rewrite P', P1, <- app_assoc; reflexivity|exact O'].
    - destruct (IH st I Hok) as (st' & out & E' & I' & K' & P' & O'); [intros q Hq; apply Ho; right; exact Hq|]. rewrite E'.
      exists st', (p :: out). split; [reflexivity|]. split; [exact I'|]. split; [exact K'|]. split; [exact P'|]. congruence.
  Qed.

  Lemma finish_spec st : Inv b st -> (forall q, In q (vParts (rVec st)) -> pown q = 0 \/ ok q) ->
    exists st', updateFinish rnd b st = Some st' /\ Inv b st' /\ vParts (rVec st') = filter isOwned (vParts (rVec st)) /\ placed b rnd st'.
  Proof.
    intros I Hok. unfold updateFinish, deleteHaloParticles. destruct (Hclear (rCells st) (c_len _ _ _ (i_core _ _ I))) as (cells & Ec & Lc). rewrite Ec. cbn [rVec rCells].
    assert (E : filter (fun p => negb (isDummy p)) (filter (fun p => negb (isHaloP p)) (vParts (rVec st))) = filter isOwned (vParts (rVec st))).
    { assert (V := c_states _ _ _ (i_core _ _ I)). clear - V. induction (vParts (rVec st)) as [|p t IH]; [reflexivity|]. cbn [filter].
      assert (T := IH (fun q Hq => V q (or_intror Hq))). unfold isHaloP, isOwned, isDummy, stHalo, stOwned, stDummy in *.
      destruct (V p (or_introl eq_refl)) as [O|[O|O]]; rewrite O; cbn [Z.eqb Pos.eqb negb filter]; rewrite ?O; cbn [Z.eqb Pos.eqb negb]; rewrite T; reflexivity. }
    destruct (renew_all rnd grow b il bMin bMax Hgrow Hplace
      (mkRefs (deleteDummyParticles (clearHaloParticles (rVec st))) cells)) as (st' & E' & I' & P' & _ & Pl); cbn [rVec rCells deleteDummyParticles clearHaloParticles vDirty vIndex vParts vCap vBuf]; auto.
    - rewrite E. assert (Cp := i_cap _ _ I). assert (F : forall (f : Particle -> bool) l, (length (filter f l) <= length l)%nat).
      { induction l as [|x l IHl]; cbn; [lia|]. destruct (f x); cbn; lia. } specialize (F isOwned (vParts (rVec st))). lia.
    - rewrite Lc. apply (c_len _ _ _ (i_core _ _ I)).
    - intros p Hp. rewrite E in Hp. apply filter_In in Hp as (Hp & _). apply Hok, Hp.
    - exists st'. split; [exact E'|]. split; [exact I'|]. split; [rewrite P'; exact E|exact Pl].
  Qed.

  Lemma swept st l : Inv b st -> Permutation (liveParts st) l -> halosSettled il bMin bMax l ->
    exists v' cells' moved, updateSweep rnd b st = Some (mkRefs v' cells', moved) /\ Inv b (mkRefs v' cells') /\
      (forall q, In q (vParts v') -> pown q = 0 \/ ok q) /\ Permutation (liveParts st) (moved ++ filter live (vParts v')) /\ (forall p, In p moved -> pown p = 1).
  Proof.
    intros I P A.
      destruct (sweepCells_spec rnd b (rCells st) [] (rVec st)) as (v' & cells' & out' & E & C' & B' & K' & Y' & X' & L' & P' & A' & O').
      { apply (i_core _ _ I). } { intros [|k] r p []. }
      cbn [length Z.of_nat] in E. cbn [app] in C', A'.
      assert (I1 : Inv b (mkRefs v' cells')).
      { constructor; cbn [rVec rCells]; [exact C'|rewrite Y'; apply (i_clean _ _ I)|rewrite X', L'; apply (i_index _ _ I)|rewrite L', K'; apply (i_cap _ _ I)]. }
      assert (Hlive : forall q, In q (vParts v') -> live q = true -> In q l).
      { intros q Hq Lq. apply (Permutation_in _ P), (Permutation_in _ (Permutation_sym P')), in_or_app. right. apply filter_In. auto. }
      assert (Hok : forall q, In q (vParts v') -> pown q = 0 \/ ok q).
      { intros q Hq. destruct (c_states _ _ _ C' q Hq) as [V|[V|V]]; [left; exact V| |]; right.
        - left. split; [exact V|]. apply In_nth_error in Hq as (i & Hq). assert (H := c_cover _ _ _ C' i q Hq ltac:(lia)).
          apply in_concat_nth in H as (k & H). assert (D : deref v' (vBuf v', i) = Some q) by (unfold deref; cbn [fst snd]; now rewrite Nat.eqb_refl).
          assert (Lk : (k < length cells')%nat) by (destruct (Nat.lt_ge_cases k (length cells')) as [X|X]; [exact X|destruct (eq_ind _ (fun y => In (vBuf v', i) y) H _ (nth_overflow cells' [] X))]).
          assert (Ln := c_len _ _ _ C'). apply (Hbounds (Z.of_nat k)); [lia|apply (c_kind _ _ _ C' k _ q H D), V|]. cbv zeta. apply (A' k _ q H D V).
        - right. split; [exact V|]. apply A; [|exact V]. apply Hlive; [exact Hq|apply live_iff; lia]. }
      exists v', cells', out'. unfold updateSweep. rewrite E. auto.
  Qed.

  (** One event. *)
  Lemma step_spec st l e o : Inv b st -> Permutation (liveParts st) l -> allowed l e -> step st e o ->
    exists st' l', o = Some st' /\ after l e l' /\ Inv b st' /\ Permutation (liveParts st') l' /\
      (forall out, e = EUpdate out -> placed b rnd st').
  Proof.
    intros I P A S. destruct S as [st p|st p|st p st' found E|st p found E|st p c k r R D|st p p' c k r R D|st st1 moved order st2 out E1 E2 E3|st out E1|st st1 moved order out E1 E2 E3|st];
      cbn [RefSpec.allowed] in A.
    - (* add *) destruct A as (O & B & Ho & Hh).
      destruct (add_spec rnd grow b il bMin bMax Hgrow Hplace st p I (all_ok st l I P Ho Hh) (or_introl (conj O B))) as (st' & E & I' & P').
      exists st', (p :: l). split; [exact E|]. split; [cbn; reflexivity|]. split; [exact I'|]. split; [|discriminate].
      rewrite P', filter_app. cbn [filter]. rewrite (live_of p 1 O) by lia. rewrite P, Permutation_app_comm. reflexivity.
    - destruct A as (O & B & Ho & Hh).
      destruct (add_spec rnd grow b il bMin bMax Hgrow Hplace st p I (all_ok st l I P Ho Hh) (or_intror (conj O B))) as (st' & E & I' & P').
      exists st', (p :: l). split; [exact E|]. split; [cbn; reflexivity|]. split; [exact I'|]. split; [|discriminate].
      rewrite P', filter_app. cbn [filter]. rewrite (live_of p 2 O) by lia. rewrite P, Permutation_app_comm. reflexivity.
    - (* update halo *) destruct A as (O & B). unfold updateHaloParticle in E. destruct (Hnear _ B) as (is & Ei & Hi). rewrite Ei in E.
      destruct (updateInCells_spec st p I O is Hi) as (v & o & Eu & Su). rewrite Eu in E. injection E as <- <-. destruct o as [q|].
      + destruct Su as (Q1 & Q2 & Q3 & Q4 & I' & P'). apply (filter_perm live) in P'. cbn [filter] in P'. rewrite (live_of p 2 O) in P' by lia.
        exists (mkRefs v (rCells st)), (filter live (vParts v)). split; [reflexivity|]. split; [|split; [exact I'|split; [reflexivity|discriminate]]].
        cbn. split; [exact Q1|]. destruct Q3 as [Q3|[Q3|Q3]]; [left|contradiction|right]; (split; [exact Q3|]).
        * assert (Lq : live q = false) by (unfold live, isDummy, stDummy; rewrite Q3; reflexivity). rewrite Lq in P'. rewrite <- P'. constructor. exact P.
        * assert (Lq := live_of q 2 Q3 ltac:(lia)). rewrite Lq in P'.
          assert (Hq : In q (liveParts st)) by (apply filter_In; auto). apply in_split in Hq as (l1 & l2 & Hq).
          assert (Pq : Permutation (liveParts st) (q :: l1 ++ l2)) by (rewrite Hq; symmetry; apply Permutation_middle).
          exists (l1 ++ l2). split; [rewrite <- P; exact Pq|]. apply (Permutation_cons_inv (a := q)). rewrite <- P', Pq. apply perm_swap.
      + subst v. exists (mkRefs (rVec st) (rCells st)), l. split; [reflexivity|]. split; [cbn; reflexivity|]. split; [destruct st; exact I|]. split; [exact P|discriminate].
    - exfalso. destruct A as (O & B). unfold updateHaloParticle in E. destruct (Hnear _ B) as (is & Ei & Hi). rewrite Ei in E.
      destruct (updateInCells_spec st p I O is Hi) as (v & o & Eu & Su). rewrite Eu in E. discriminate.
    - (* delete *) assert (Hr := refAt_in st c k r R). unfold deleteParticle. rewrite R, D.
      destruct (overwrite st c r p (withOwn stDummy p) I Hr D) as (v & Ea & I' & P'); [split; cbn; discriminate|left; reflexivity|]. rewrite Ea.
      apply (filter_perm live) in P'. cbn [filter] in P'. rewrite withOwn_dummy in P'.
      assert (Lp : live p = true) by (apply (Permutation_in _ (Permutation_sym P)), filter_In in A; apply A). rewrite Lp in P'.
      exists (mkRefs v (rCells st)), (filter live (vParts v)). split; [reflexivity|]. split; [cbn; rewrite <- P'; symmetry; exact P|]. split; [exact I'|]. split; [reflexivity|discriminate].
    - (* modify *) destruct A as (A & O). assert (Hr := refAt_in st c k r R). unfold modifyParticle. rewrite R.
      assert (Kp := c_kind _ _ _ (i_core _ _ I) c r p Hr D). assert (Hn : In p (vParts (rVec st))) by (apply deref_inv in D as (_ & D); apply nth_error_In in D; exact D).
      destruct (overwrite st c r p p' I Hr D) as (v & Ea & I' & P').
      { unfold kindOk in *. rewrite O. exact Kp. }
      { rewrite O. apply (c_states _ _ _ (i_core _ _ I) p Hn). }
      rewrite Ea. apply (filter_perm live) in P'. cbn [filter] in P'.
      assert (Lp : live p = true) by (apply (Permutation_in _ (Permutation_sym P)), filter_In in A; apply A).
      assert (Lp' : live p' = true) by (apply live_iff; rewrite O; apply live_iff, Lp). rewrite Lp, Lp' in P'.
      assert (Hp : In p (liveParts st)) by (apply filter_In; auto). apply in_split in Hp as (l1 & l2 & Hp).
      assert (Pq : Permutation (liveParts st) (p :: l1 ++ l2)) by (rewrite Hp; symmetry; apply Permutation_middle).
      exists (mkRefs v (rCells st)), (filter live (vParts v)). split; [reflexivity|]. split; [|split; [exact I'|split; [reflexivity|discriminate]]].
      cbn. exists (l1 ++ l2). split; [rewrite <- P; exact Pq|]. apply (Permutation_cons_inv (a := p)). rewrite <- P', Pq. apply perm_swap.
    - (* update *)
      destruct (swept st l I P A) as (v' & cells' & out' & E & I1 & Hok & P' & O'). rewrite E in E1. injection E1 as <- <-.
      assert (Oo : forall p, In p order -> pown p = 1) by (intros p Hp; apply O', (Permutation_in _ E2 Hp)).
      destruct (reinsert_spec order _ I1 Hok Oo) as (st2' & outs & E3' & I2 & K2 & P2 & Out). rewrite E3' in E3. injection E3 as -> ->.
      destruct (finish_spec st2 I2 K2) as (st3 & E4 & I3 & P3 & Pl). cbn [rVec] in P2.
      exists st3, (vParts (rVec st3)). split; [exact E4|].
      assert (Lv : forall l : list Particle, filter live (filter isOwned l) = filter isOwned l).
      { clear. induction l as [|p t IH]; [reflexivity|]. cbn [filter]. destruct (isOwned p) eqn:O; [|exact IH]. cbn [filter].
        assert (L : live p = true) by (unfold isOwned, stOwned in O; apply Z.eqb_eq in O; apply live_iff; lia). rewrite L, IH. reflexivity. }
      assert (Ow : Permutation (filter isOwned l) (order ++ filter isOwned (vParts v'))).
      { assert (L2 : forall l : list Particle, filter isOwned (filter live l) = filter isOwned l).
        { clear. induction l as [|p t IH]; [reflexivity|]. cbn [filter]. destruct (live p) eqn:L; cbn [filter]; rewrite IH; [reflexivity|].
          unfold live, isDummy, stDummy in L. apply negb_false_iff, Z.eqb_eq in L. unfold isOwned, stOwned. rewrite L. reflexivity. }
        rewrite <- (filter_perm isOwned _ _ P), (filter_perm isOwned _ _ P'), filter_app, L2, (filter_all isOwned out').
        - rewrite E2. reflexivity.
        - intros p Hp. unfold isOwned, stOwned. apply Z.eqb_eq, O', Hp. }
      assert (In2 : forall p, In p (filter isOwned (vParts v')) -> inBoxb bMin bMax (ppos p) = true).
      { intros p Hp. apply filter_In in Hp as (Hp & O). unfold isOwned, stOwned in O. apply Z.eqb_eq in O. apply inBoxb_iff.
        destruct (Hok p Hp) as [X|[(_ & X)|(X & _)]]; [lia|exact X|lia]. }
      assert (FF : forall (f : Particle -> bool) l, filter f (filter isOwned l) = filter (fun p => isOwned p && f p) l).
      { intros f. clear. induction l as [|x l IH]; [reflexivity|]. cbn [filter]. destruct (isOwned x); cbn [andb filter]; [destruct (f x)|]; rewrite IH; reflexivity. }
      split; [|split; [exact I3|split; [rewrite P3, Lv; reflexivity|intros o Ho; exact Pl]]].
      cbn. exists (fun p => isOwned p && inBoxb bMin bMax (ppos p)), (fun p => isOwned p && negb (inBoxb bMin bMax (ppos p))).
      destruct (kept_reflect bMin bMax) as (F1 & F2). split; [exact F1|]. split; [exact F2|]. rewrite <- !FF. rewrite P3, P2, filter_app. split.
      + rewrite (filter_perm _ _ _ Ow), filter_app, (filter_all _ (filter isOwned (vParts v')) In2), Permutation_app_comm. apply Permutation_app_tail.
        rewrite (filter_all isOwned); [reflexivity|]. intros p Hp. apply filter_In in Hp as (Hp & _). unfold isOwned, stOwned. apply Z.eqb_eq, Oo, Hp.
      + rewrite Out, (filter_perm _ _ _ Ow), filter_app. rewrite (filter_nil _ (filter isOwned (vParts v'))), app_nil_r; [reflexivity|].
        intros p Hp. rewrite (In2 p Hp). reflexivity.
    - exfalso. destruct (swept st l I P A) as (v' & cells' & out' & E & _). congruence.
    - exfalso. destruct (swept st l I P A) as (v' & cells' & out' & E & I1 & Hok & P' & O'). rewrite E in E1. injection E1 as <- <-.
      assert (Oo : forall p, In p order -> pown p = 1) by (intros p Hp; apply O', (Permutation_in _ E2 Hp)).
      destruct (reinsert_spec order _ I1 Hok Oo) as (st2' & outs & E3' & _). congruence.
    - (* rebuild *) unfold rebuildNeighborLists, updateDirtyParticleReferences. rewrite (i_clean _ _ I).
      exists st, l. split; [reflexivity|]. split; [cbn; reflexivity|]. split; [exact I|]. split; [exact P|discriminate].
  Qed.

  Lemma empty_inv : Inv b (emptyRefs b).
  Proof.
    assert (N : forall k, nth k (repeat (@nil Ref) (Z.to_nat (numCells (blockDims b)))) [] = []).
    { intros k. generalize (Z.to_nat (numCells (blockDims b))). intros n. revert k. induction n; intros [|k]; cbn; auto. }
    assert (Cc : concat (repeat (@nil Ref) (Z.to_nat (numCells (blockDims b)))) = []).
    { generalize (Z.to_nat (numCells (blockDims b))). induction n; cbn; auto. }
    constructor; cbn [emptyRefs rVec rCells vDirty vIndex vParts vCap]; auto.
    constructor; cbn [vParts vBuf].
    - intros k r H. rewrite N in H. destruct H.
    - rewrite Cc. constructor.
    - intros [|i] p E; discriminate.
    - intros k r p H. rewrite N in H. destruct H.
    - intros p [].
    - rewrite repeat_length. lia.
  Qed.

  Lemma reached_inv st l : Reached rnd grow b il bMin bMax skin st l -> Inv b st /\ Permutation (liveParts st) l.
  Proof.
    induction 1 as [|st l e st' l' _ (I & P) A S F].
    { split; [apply empty_inv|reflexivity]. }
    destruct (step_spec st l e _ I P A S) as (st1 & l1 & E & F1 & I1 & P1 & _). injection E as <-. split; [exact I1|]. rewrite P1.
    (* what an event leaves is determined *)
    clear - F F1 P. destruct e as [p|p|p [q|]|p|p p'|out|]; cbn in F, F1.
    - rewrite F, F1. reflexivity.
    - rewrite F, F1. reflexivity.
    - destruct F as (_ & [(O & F)|(O & r & F2 & F)]), F1 as (_ & [(O1 & F1)|(O1 & r1 & F3 & F1)]); try lia.
      + rewrite F, F1. reflexivity.
      + rewrite F, F1. constructor. apply (Permutation_cons_inv (a := q)). rewrite <- F2, <- F3. reflexivity.
    - rewrite F, F1. reflexivity.
    - apply (Permutation_cons_inv (a := p)). rewrite <- F, <- F1. reflexivity.
    - destruct F as (r & F2 & F), F1 as (r1 & F3 & F1). rewrite F, F1. constructor. apply (Permutation_cons_inv (a := p)). rewrite <- F2, <- F3. reflexivity.
    - destruct F as (s1 & _ & S1 & _ & F & _), F1 as (s2 & _ & S2 & _ & F1 & _). rewrite F, F1.
      rewrite (filter_ext s2 s1); [reflexivity|]. intros p. specialize (S1 p). specialize (S2 p). destruct (s1 p), (s2 p); auto; exfalso; destruct S1 as (X1 & X2), S2 as (Y1 & Y2);
        [specialize (Y2 (X1 eq_refl))|specialize (X2 (Y1 eq_refl))]; discriminate.
    - rewrite F, F1. reflexivity.
  Qed.

  Theorem references st l : Reached rnd grow b il bMin bMax skin st l ->
    holds st l /\ sorted b st /\
    forall e o, allowed l e -> step st e o -> exists st' l', o = Some st' /\ after l e l' /\ holds st' l' /\ (forall out, e = EUpdate out -> placed b rnd st').
  Proof.
    intros H. destruct (reached_inv st l H) as (I & P). split; [apply (inv_holds b); assumption|]. split; [apply inv_sorted, I|].
    intros e o A S. destruct (step_spec st l e o I P A S) as (st1 & l1 & E & F1 & I1 & P1 & Pl). exists st1, l1. split; [exact E|]. split; [exact F1|].
    split; [apply (inv_holds b); assumption|exact Pl].
  Qed.
End History.
