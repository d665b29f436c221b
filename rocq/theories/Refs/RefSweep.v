(** The sweep over the cells of updateContainer. *)
From Coq Require Import Reals Permutation Bool.
From Verif.Base Require Import ZRange Lists OptionM.
From Verif.Grid Require Import IndexModel IndexSpec CellBlockModel CellBlockSpec.
From Verif.Functor Require Import SortModel.
From Verif.Container Require Import IteratorModel IteratorContainers IteratorSpec IteratorLemmas IteratorRegion ParticleModel.
From Verif.Refs Require Import RefModel RefSpec RefProofs.
Import ListNotations.
Local Open Scope Z_scope.

Lemma withOwn_dummy p : live (withOwn stDummy p) = false.
Proof. reflexivity. Qed.

Section Sweep.
  Variable rnd : R -> R.
  Variable b : Block.

  Lemma assign_some v r p q : deref v r = Some q -> exists v', assign v r p = Some v' /\ vBuf v' = vBuf v /\ vCap v' = vCap v /\
    vDirty v' = vDirty v /\ vIndex v' = vIndex v /\ vParts v' = setAt (vParts v) (snd r) p.
  Proof. intros E. unfold assign. rewrite E. eexists. split; [reflexivity|]. cbn. auto. Qed.

  Lemma deref_assigned v v' r p q r' : deref v r = Some q -> vBuf v' = vBuf v -> vParts v' = setAt (vParts v) (snd r) p ->
    deref v' r' = if refDec r r' then Some p else deref v r'.
  Proof.
    intros E Hb Hp. apply deref_inv in E as (B & E). unfold deref. rewrite Hb, Hp.
    assert (L : (snd r < length (vParts v))%nat) by (apply nth_error_Some; congruence).
    destruct (refDec r r') as [<-|N].
    - rewrite B, Nat.eqb_refl. apply setAt_same, L.
    - destruct (Nat.eqb_spec (fst r') (vBuf v)) as [B'|B']; [|reflexivity]. apply setAt_other. intros X. apply N. destruct r, r'. cbn in *. congruence.
  Qed.

  (** One swap-delete. *)
  Lemma swap_out v pre c0 bk rest r p q : Core b v (pre ++ (c0 ++ [bk]) :: rest) -> In r (c0 ++ [bk]) ->
    deref v r = Some p -> pown p <> 0 -> deref v bk = Some q ->
    exists v1, assign v r q = Some v1 /\ deref v1 bk = Some q /\
    exists v2, assign v1 bk (withOwn stDummy q) = Some v2 /\ Core b v2 (pre ++ c0 :: rest) /\
      vBuf v2 = vBuf v /\ vCap v2 = vCap v /\ vDirty v2 = vDirty v /\ vIndex v2 = vIndex v /\ length (vParts v2) = length (vParts v) /\
      Permutation (filter live (vParts v)) (p :: filter live (vParts v2)) /\
      (forall r', r' <> r -> r' <> bk -> deref v2 r' = deref v r').
  Proof.
    intros C Hr Hp Np Hq.
    destruct (assign_some v r q p Hp) as (v1 & E1 & B1 & K1 & D1 & I1 & P1). exists v1. split; [exact E1|].
    assert (Hq1 : deref v1 bk = Some q) by (rewrite (deref_assigned v v1 r q p bk Hp B1 P1); destruct (refDec r bk); [reflexivity|exact Hq]).
    split; [exact Hq1|].
    destruct (assign_some v1 bk (withOwn stDummy q) q Hq1) as (v2 & E2 & B2 & K2 & D2 & I2 & P2). exists v2. split; [exact E2|].
    assert (Len : length (vParts v2) = length (vParts v)) by (rewrite P2, P1, !setAt_length; reflexivity).
    assert (Val : forall r', deref v2 r' = if refDec bk r' then Some (withOwn stDummy q) else if refDec r r' then Some q else deref v r').
    { intros r'. rewrite (deref_assigned v1 v2 bk _ q r' Hq1 B2 P2). destruct (refDec bk r'); [reflexivity|]. apply (deref_assigned v v1 r q p r' Hp B1 P1). }
    assert (Same : forall r', r' <> r -> r' <> bk -> deref v2 r' = deref v r').
    { intros r' N1 N2. rewrite Val. destruct (refDec bk r'); [congruence|]. destruct (refDec r r'); [congruence|reflexivity]. }
    assert (ND : NoDup (c0 ++ [bk])).
    { assert (N := c_nodup _ _ _ C). rewrite concat_app in N. cbn [concat] in N. apply NoDup_app_inv in N as (_ & N & _). apply NoDup_app_inv in N as (N & _). exact N. }
    assert (Nbk : ~ In bk c0) by (apply NoDup_app_inv in ND as (_ & _ & N); intros X; apply (N bk X); left; reflexivity).
    assert (Kq : kindOk b (length pre) q).
    { apply (c_kind _ _ _ C (length pre) bk q); [|exact Hq]. rewrite nth_middle. apply in_or_app. right. left. reflexivity. }
    split; [|split; [congruence|split; [congruence|split; [congruence|split; [congruence|split; [exact Len|split]]]]]].
    - apply (core_change b v v2 pre (c0 ++ [bk]) c0 rest C); [congruence|exact Len| | | | | |].
      + intros r' N. apply Same; intros ->; apply N; [exact Hr|apply in_or_app; right; left; reflexivity].
      + intros x Hx. apply in_or_app. left. exact Hx.
      + apply NoDup_app_inv in ND as (N & _). exact N.
      + intros r' p' H D N. rewrite Val in D. destruct (refDec bk r') as [<-|Nb]; [injection D as <-; cbn in N; destruct (N eq_refl)|].
        apply in_app_or in H as [H|[H|[]]]; [exact H|congruence].
      + intros r' p' H D. rewrite Val in D. destruct (refDec bk r') as [<-|Nb]; [destruct (Nbk H)|].
        destruct (refDec r r') as [<-|Nr]; [injection D as <-; exact Kq|]. apply (c_kind _ _ _ C (length pre) r' p'); [|exact D].
        rewrite nth_middle. apply in_or_app. left. exact H.
      + intros x Hx. rewrite P2, P1 in Hx. apply In_nth_error in Hx as (i & Hx). apply deref_inv in Hq as (_ & Hq). apply nth_error_In in Hq.
        apply nth_setAt in Hx as [(_ & ->)|Hx]; [left; reflexivity|]. apply nth_setAt in Hx as [(_ & ->)|Hx]; apply (c_states _ _ _ C); [exact Hq|apply nth_error_In in Hx; exact Hx].
    - assert (Q1 : Permutation (q :: vParts v) (p :: vParts v1)) by (rewrite P1; apply setAt_perm; apply deref_inv in Hp; apply Hp).
      assert (Q2 : Permutation (withOwn stDummy q :: vParts v1) (q :: vParts v2)) by (rewrite P2; apply setAt_perm; apply deref_inv in Hq1; apply Hq1).
      assert (Q3 : Permutation (withOwn stDummy q :: vParts v) (p :: vParts v2)).
      { apply (Permutation_cons_inv (a := q)). transitivity (withOwn stDummy q :: q :: vParts v); [apply perm_swap|].
        rewrite Q1. transitivity (p :: withOwn stDummy q :: vParts v1); [apply perm_swap|]. rewrite Q2. apply perm_swap. }
      apply (filter_perm live) in Q3. cbn [filter] in Q3. rewrite withOwn_dummy in Q3. assert (Lp : live p = true) by (apply live_iff, Np). rewrite Lp in Q3. exact Q3.
    - exact Same.
  Qed.

  Definition inside (lo hi : R3) (p : Particle) : Prop := pown p = 1 -> inBox lo hi (ppos p).

  Lemma sweepRefs_spec lo hi pre rest : forall fuel v cell i out, Core b v (pre ++ cell :: rest) -> (length cell - i < fuel)%nat -> (i <= length cell)%nat ->
    (forall j r p, (j < i)%nat -> nth_error cell j = Some r -> deref v r = Some p -> inside lo hi p) ->
    exists v' cell' out', sweepRefs fuel lo hi v cell i out = Some (v', cell', out ++ out') /\ Core b v' (pre ++ cell' :: rest) /\
      vBuf v' = vBuf v /\ vCap v' = vCap v /\ vDirty v' = vDirty v /\ vIndex v' = vIndex v /\ length (vParts v') = length (vParts v) /\
      Permutation (filter live (vParts v)) (out' ++ filter live (vParts v')) /\ incl cell' cell /\
      (forall r p, In r cell' -> deref v' r = Some p -> inside lo hi p) /\
      (forall p, In p out' -> pown p = 1) /\ (forall r, ~ In r cell -> deref v' r = deref v r).
  Proof.
    induction fuel as [|f IH]; intros v cell i out C Hf Hi Hin; [lia|]. cbn [sweepRefs].
    destruct (nth_error cell i) as [r|] eqn:Er.
    2:{ apply nth_error_None in Er. exists v, cell, []. rewrite app_nil_r. split; [reflexivity|]. split; [exact C|].
        repeat (split; [reflexivity|]). split; [apply incl_refl|]. split; [|split; [intros p []|auto]].
        intros r p H D. apply In_nth_error in H as (j & H). apply (Hin j r p); [|exact H|exact D]. assert (j < length cell)%nat by (apply nth_error_Some; congruence). lia. }
    assert (Li : (i < length cell)%nat) by (apply nth_error_Some; congruence).
    assert (Hr : In r cell) by (apply nth_error_In in Er; exact Er).
    destruct (deref_core b v _ (length pre) r C) as (p & Hp & Hn); [rewrite nth_middle; exact Hr|]. rewrite Hp.
    destruct (isOwned p && negb (inBoxb lo hi (ppos p))) eqn:Out.
    - apply andb_true_iff in Out as (O1 & O2). unfold isOwned, stOwned in O1. apply Z.eqb_eq in O1.
      destruct (exists_last (l := cell)) as (c0 & bk & Ec); [intros ->; destruct Hr|]. subst cell.
      rewrite last_last, removelast_last.
      destruct (deref_core b v _ (length pre) bk C) as (q & Hq & _); [rewrite nth_middle; apply in_or_app; right; left; reflexivity|]. rewrite Hq.
      destruct (swap_out v pre c0 bk rest r p q C Hr Hp ltac:(lia) Hq) as (v1 & E1 & D1 & v2 & E2 & C2 & B2 & K2 & Y2 & I2 & L2 & P2 & S2).
      rewrite E1, D1, E2.
      assert (ND : NoDup (c0 ++ [bk])).
      { assert (N := c_nodup _ _ _ C). rewrite concat_app in N. cbn [concat] in N. apply NoDup_app_inv in N as (_ & N & _). apply NoDup_app_inv in N as (N & _). exact N. }
      rewrite app_length in Hf, Li. cbn [length] in Hf, Li.
      destruct (IH v2 c0 i (out ++ [p]) C2 ltac:(lia) ltac:(lia)) as (v' & cell' & out' & E & C' & B' & K' & Y' & I' & L' & P' & N' & A' & O' & S').
      + intros j r' p' Lj Hj D. assert (Hj' : nth_error (c0 ++ [bk]) j = Some r') by (rewrite nth_error_app1 by lia; exact Hj).
        apply (Hin j r' p' Lj Hj'). rewrite S2 in D; [exact D| |].
        * intros ->. assert (j = i); [|lia]. apply (proj1 (NoDup_nth_error _) ND); [rewrite app_length; cbn; lia|congruence].
        * intros ->. assert (j = length c0); [|lia]. apply (proj1 (NoDup_nth_error _) ND); [rewrite app_length; cbn; lia|].
          rewrite Hj', nth_error_app2 by lia. rewrite Nat.sub_diag. reflexivity.
      + exists v', cell', (p :: out'). split; [rewrite E, <- app_assoc; reflexivity|]. split; [exact C'|].
        split; [congruence|]. split; [congruence|]. split; [congruence|]. split; [congruence|]. split; [congruence|].
        split; [cbn [app]; rewrite P2; constructor; exact P'|]. split; [intros x Hx; apply in_or_app; left; apply N', Hx|]. split; [exact A'|].
        split; [intros x [<-|Hx]; [exact O1|apply O', Hx]|].
        intros r' Hr'. rewrite S' by (intros X; apply Hr', in_or_app; left; exact X). apply S2; intros ->; apply Hr'; [exact Hr|apply in_or_app; right; left; reflexivity].
    - apply IH; [exact C|lia|lia|]. intros j r' p' Lj Hj D. destruct (Nat.eq_dec j i) as [->|N]; [|apply (Hin j r' p'); [lia|exact Hj|exact D]].
      assert (r' = r) by congruence. subst r'. assert (p' = p) by congruence. subst p'. intros O. unfold isOwned, stOwned in Out. rewrite O in Out. cbn [Z.eqb Pos.eqb andb] in Out.
      apply inBoxb_iff. destruct (inBoxb lo hi (ppos p)); [reflexivity|discriminate].
  Qed.

  Lemma dropDummies_spec v : forall cell, (forall r, In r cell -> exists p, deref v r = Some p) -> NoDup cell ->
    exists cell', dropDummies v cell = Some cell' /\ incl cell' cell /\ NoDup cell' /\
      (forall r p, In r cell -> deref v r = Some p -> pown p <> 0 -> In r cell').
  Proof.
    induction cell as [|r t IH]; intros H N; [exists []; repeat split; auto; apply incl_refl|].
    cbn [dropDummies]. destruct (H r (or_introl eq_refl)) as (p & E). rewrite E. inversion N as [|? ? N1 N2]; subst.
    destruct IH as (t' & Et & I & Nt & K); [intros x Hx; apply H; right; exact Hx|exact N2|]. rewrite Et. destruct (isDummy p) eqn:D.
    - exists t'. split; [reflexivity|]. split; [intros x Hx; right; apply I, Hx|]. split; [exact Nt|].
      intros r' p' [<-|Hr] E' O; [|apply (K r' p' Hr E' O)]. assert (p' = p) by congruence. subst. rewrite dummy_live in D. apply live_iff in O. rewrite O in D. discriminate.
    - exists (r :: t'). split; [reflexivity|]. split; [intros x [<-|Hx]; [left; reflexivity|right; apply I, Hx]|].
      split; [constructor; [intros X; apply N1, I, X|exact Nt]|]. intros r' p' [<-|Hr] E' O; [left; reflexivity|right; apply (K r' p' Hr E' O)].
  Qed.

  Definition bounds (k : nat) (p : Particle) : Prop :=
    let bb := getCellBoundingBox rnd b (oneToThreeD (Z.of_nat k) (blockDims b)) in inside (fst bb) (snd bb) p.

  Lemma sweepCells_spec : forall cells pre v, Core b v (pre ++ cells) ->
    (forall k r p, In r (nth k pre []) -> deref v r = Some p -> bounds k p) ->
    exists v' cells' out, sweepCells rnd b v (Z.of_nat (length pre)) cells = Some (v', cells', out) /\ Core b v' (pre ++ cells') /\
      vBuf v' = vBuf v /\ vCap v' = vCap v /\ vDirty v' = vDirty v /\ vIndex v' = vIndex v /\ length (vParts v') = length (vParts v) /\
      Permutation (filter live (vParts v)) (out ++ filter live (vParts v')) /\
      (forall k r p, In r (nth k (pre ++ cells') []) -> deref v' r = Some p -> bounds k p) /\
      (forall p, In p out -> pown p = 1).
  Proof.
    induction cells as [|c t IH]; intros pre v C Hpre; cbn [sweepCells].
    { rewrite app_nil_r in C. exists v, [], []. rewrite app_nil_r. split; [reflexivity|]. split; [exact C|]. repeat (split; [reflexivity|]). split; [exact Hpre|intros p []]. }
    assert (Nc : NoDup c /\ forall r, In r c -> ~ In r (concat pre)).
    { assert (N := c_nodup _ _ _ C). rewrite concat_app in N. cbn [concat] in N. apply NoDup_app_inv in N as (_ & N & M). split; [apply NoDup_app_inv in N as (N & _); exact N|].
      intros r Hr X. apply (M r X), in_or_app. left. exact Hr. }
    destruct Nc as (Nc & Dc).
    destruct (dropDummies_spec v c) as (c0 & E0 & I0 & N0 & K0); [|exact Nc|].
    { intros r Hr. destruct (deref_core b v _ (length pre) r C) as (p & Hp & _); [rewrite nth_middle; exact Hr|]. exists p. exact Hp. }
    rewrite E0. destruct (getCellBoundingBox rnd b (oneToThreeD (Z.of_nat (length pre)) (blockDims b))) as (lo, hi) eqn:Eb.
    assert (C0 : Core b v (pre ++ c0 :: t)).
    { apply (core_change b v v pre c c0 t C); auto; [|apply (c_states _ _ _ C)].
      intros r p Hr D. apply (c_kind _ _ _ C (length pre) r p); [rewrite nth_middle; apply I0, Hr|exact D]. }
    destruct (sweepRefs_spec lo hi pre t (S (length c0)) v c0 0 [] C0 ltac:(lia) ltac:(lia)) as (v1 & c1 & out & E1 & C1 & B1 & K1 & Y1 & X1 & L1 & P1 & N1 & A1 & O1 & S1);
      [intros; lia|]. rewrite E1. cbn [app].
    assert (Ka : pre ++ c1 :: t = (pre ++ [c1]) ++ t) by (rewrite <- app_assoc; reflexivity).
    destruct (IH (pre ++ [c1]) v1) as (v2 & t' & out' & E2 & C2 & B2 & K2 & Y2 & X2 & L2 & P2 & A2 & O2).
    - rewrite <- Ka. exact C1.
    - intros k r p Hk D. destruct (Nat.lt_total k (length pre)) as [Lk|[->|Lk]].
      + rewrite app_nth1 in Hk by exact Lk. apply (Hpre k r p Hk). rewrite <- (S1 r); [exact D|]. intros X. apply (Dc r); [apply I0, X|].
        apply in_concat_nth. exists k. exact Hk.
      + rewrite nth_middle in Hk. unfold bounds. rewrite Eb. cbv zeta. cbn [fst snd]. apply (A1 r p Hk D).
      + rewrite nth_overflow in Hk by (rewrite app_length; cbn; lia). destruct Hk.
    - rewrite app_length in E2. cbn [length] in E2. replace (Z.of_nat (length pre) + 1) with (Z.of_nat (length pre + 1)) by lia. rewrite E2.
      exists v2, (c1 :: t'), (out ++ out'). split; [reflexivity|]. rewrite <- app_assoc in C2, A2. split; [exact C2|].
      split; [congruence|]. split; [congruence|]. split; [congruence|]. split; [congruence|]. split; [congruence|].
      split; [rewrite P1, P2, app_assoc; reflexivity|]. split; [exact A2|]. intros p Hp. apply in_app_or in Hp as [Hp|Hp]; auto.
  Qed.
End Sweep.
