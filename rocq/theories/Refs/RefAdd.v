(** Adding particles and renewing the pointers. *)
From Coq Require Import Reals Permutation Bool.
From Verif.Base Require Import ZRange Lists OptionM.
From Verif.Grid Require Import IndexModel IndexSpec CellBlockModel CellBlockSpec.
From Verif.Functor Require Import SortModel.
From Verif.Container Require Import IteratorModel IteratorContainers IteratorSpec IteratorLemmas IteratorRegion ParticleModel.
From Verif.Refs Require Import RefModel RefSpec RefProofs RefSweep.
Import ListNotations.
Local Open Scope Z_scope.

Lemma pushRef_spec : forall cells i (r : Ref), (i < length cells)%nat -> exists cells', pushRef cells i r = Some cells' /\ length cells' = length cells /\
  Permutation (concat cells') (r :: concat cells) /\
  (forall k q, In q (nth k cells' []) <-> In q (nth k cells []) \/ (k = i /\ q = r)).
Proof.
  induction cells as [|c t IH]; intros [|i] r H; cbn [length] in H; try lia; cbn [pushRef].
  - exists ((c ++ [r]) :: t). split; [reflexivity|]. split; [reflexivity|]. split.
    + cbn [concat]. rewrite <- app_assoc. symmetry. apply Permutation_middle.
    + intros [|k] q; cbn [nth]; [|split; [tauto|intros [A|(A & _)]; [exact A|discriminate]]].
      rewrite in_app_iff. cbn [In]. split; [intros [A|[A|[]]]; auto|intros [A|(_ & A)]; auto].
  - destruct (IH i r ltac:(lia)) as (t' & E & L & P & Q). rewrite E. exists (c :: t'). split; [reflexivity|]. split; [cbn; congruence|]. split.
    + cbn [concat]. rewrite P. symmetry. apply Permutation_middle.
    + intros [|k] q; cbn [nth]; [split; [tauto|intros [A|(A & _)]; [exact A|discriminate]]|]. rewrite Q. split; intros [A|(A & B)]; auto.
Qed.

Section Add.
  Variable rnd : R -> R.
  Variable grow : nat -> nat.
  Variable b : Block.
  Variable il : R.
  Variables bMin bMax : R3.
  Hypothesis Hgrow : forall n, (n < grow n)%nat.

  (** Where a particle belongs. *)
  Definition ok (p : Particle) : Prop := (pown p = 1 /\ inBox bMin bMax (ppos p)) \/ (pown p = 2 /\ haloPosition il bMin bMax (ppos p)).
  Hypothesis Hplace : forall p, ok p -> exists i, get1DIndexOfPosition rnd b (ppos p) = Some i /\ 0 <= i < numCells (blockDims b) /\
    (if isHaloP p then cellCanContainHaloParticles b i else cellCanContainOwnedParticles b i) = true.

  Fixpoint newRefs (buf i : nat) (ps : list Particle) : list Ref :=
    match ps with [] => [] | p :: r => if isDummy p then newRefs buf (S i) r else (buf, i) :: newRefs buf (S i) r end.
  Lemma newRefs_in buf : forall ps i r, In r (newRefs buf i ps) <-> exists j p, r = (buf, i + j)%nat /\ nth_error ps j = Some p /\ pown p <> 0.
  Proof.
    induction ps as [|p t IH]; intros i r; cbn [newRefs].
    - split; [intros []|intros ([|j] & p & _ & E & _); discriminate].
    - rewrite dummy_live. destruct (live p) eqn:L; cbn [negb In]; rewrite IH.
      + split.
        * intros [<-|(j & q & -> & E & N)]; [exists 0%nat, p; rewrite Nat.add_0_r; repeat split; apply live_iff, L|exists (S j), q; rewrite <- plus_n_Sm; auto].
        * intros ([|j] & q & -> & E & N); [left; now rewrite Nat.add_0_r|right; exists j, q; rewrite <- plus_n_Sm; auto].
      + split; [intros (j & q & -> & E & N); exists (S j), q; rewrite <- plus_n_Sm; auto|].
        intros ([|j] & q & -> & E & N); [injection E as <-; apply live_iff in N; congruence|exists j, q; rewrite <- plus_n_Sm; auto].
  Qed.
  Lemma newRefs_nodup buf : forall ps i, NoDup (newRefs buf i ps).
  Proof.
    induction ps as [|p t IH]; intros i; cbn [newRefs]; [constructor|]. destruct (isDummy p); [apply IH|]. constructor; [|apply IH].
    rewrite newRefs_in. intros (j & q & E & _). injection E. lia.
  Qed.

  Lemma addDirty_spec buf : forall ps cells i, (forall p, In p ps -> pown p <> 0 -> ok p) -> Z.of_nat (length cells) = numCells (blockDims b) ->
    exists cells', addDirty rnd b buf cells i ps = Some cells' /\ length cells' = length cells /\
      Permutation (concat cells') (newRefs buf i ps ++ concat cells) /\
      (forall k r, In r (nth k cells' []) -> In r (nth k cells []) \/
         exists j p, r = (buf, i + j)%nat /\ nth_error ps j = Some p /\ pown p <> 0 /\ get1DIndexOfPosition rnd b (ppos p) = Some (Z.of_nat k)).
  Proof.
    induction ps as [|p t IH]; intros cells i H L; cbn [addDirty newRefs].
    { exists cells. repeat split; auto. }
    rewrite dummy_live. destruct (live p) eqn:Lp; cbn [negb].
    - destruct (Hplace p (H p (or_introl eq_refl) (proj1 (live_iff p) Lp))) as (c & E & R & K). rewrite E. unfold addParticleReference.
      rewrite K. destruct (Z.ltb_spec c 0); [lia|]. cbn [orb negb].
      destruct (pushRef_spec cells (Z.to_nat c) (buf, i)) as (cs & Ep & Lc & Pc & Qc); [lia|]. rewrite Ep.
      destruct (IH cs (S i)) as (cells' & E' & L' & P' & Q'); [intros q Hq; apply H; right; exact Hq|congruence|].
      exists cells'. split; [exact E'|]. split; [congruence|]. split.
      + rewrite P', Pc. cbn [app]. symmetry. apply Permutation_middle.
      + intros k r Hr. destruct (Q' k r Hr) as [A|(j & q & -> & A)]; [|right; exists (S j), q; rewrite <- plus_n_Sm; auto].
        apply Qc in A as [A|(-> & ->)]; [left; exact A|right]. exists 0%nat, p. rewrite Nat.add_0_r, Z2Nat.id by lia. repeat split; auto. apply live_iff, Lp.
    - destruct (IH cells (S i)) as (cells' & E' & L' & P' & Q'); [intros q Hq; apply H; right; exact Hq|exact L|].
      exists cells'. split; [exact E'|]. split; [exact L'|]. split; [exact P'|].
      intros k r Hr. destruct (Q' k r Hr) as [A|(j & q & -> & A)]; [left; exact A|right; exists (S j), q; rewrite <- plus_n_Sm; auto].
  Qed.

  Lemma kind_of_index p k : ok p -> get1DIndexOfPosition rnd b (ppos p) = Some (Z.of_nat k) -> kindOk b k p.
  Proof.
    intros O E. destruct (Hplace p O) as (i & E' & _ & K). assert (i = Z.of_nat k) by congruence. subst i. unfold isHaloP, stHalo in K.
    split; intros Hp; rewrite Hp in K; exact K.
  Qed.
  Lemma ok_state p : ok p -> validState (pown p).
  Proof. intros [(H & _)|(H & _)]; rewrite H; unfold validState; auto. Qed.

  Lemma concat_cleared {A B} (cells : list A) : concat (map (fun _ => @nil B) cells) = [].
  Proof. induction cells; auto. Qed.
  Lemma nth_cleared {A B} (cells : list A) k : nth k (map (fun _ => @nil B) cells) [] = [].
  Proof. revert k. induction cells as [|c t IH]; intros [|k]; cbn; auto. Qed.

  (** All pointers are renewed. *)
  Lemma renew_all st : vDirty (rVec st) = true -> vIndex (rVec st) = 0%nat -> (length (vParts (rVec st)) <= vCap (rVec st))%nat ->
    Z.of_nat (length (rCells st)) = numCells (blockDims b) ->
    (forall p, In p (vParts (rVec st)) -> pown p = 0 \/ ok p) ->
    exists st', updateDirtyParticleReferences rnd b st = Some st' /\ Inv b st' /\ vParts (rVec st') = vParts (rVec st) /\ vCap (rVec st') = vCap (rVec st) /\
      placed b rnd st'.
  Proof.
    intros D I Lc L Hok. unfold updateDirtyParticleReferences. rewrite D, I. cbn [Nat.eqb skipn].
    set (v := rVec st) in *.
    destruct (addDirty_spec (vBuf v) (vParts v) (map (fun _ => []) (rCells st)) 0) as (cells' & E & L' & P & Q).
    { intros p Hp N. destruct (Hok p Hp) as [X|X]; [contradiction|exact X]. }
    { rewrite map_length. exact L. }
    rewrite E. eexists. split; [reflexivity|]. rewrite concat_cleared, app_nil_r in P.
    assert (Q' : forall k r, In r (nth k cells' []) -> exists p, deref v r = Some p /\ nth_error (vParts v) (snd r) = Some p /\ fst r = vBuf v /\ pown p <> 0 /\ ok p /\
              get1DIndexOfPosition rnd b (ppos p) = Some (Z.of_nat k)).
    { intros k r H. destruct (Q k r H) as [A|(j & p & -> & A & N & G)]; [rewrite nth_cleared in A; destruct A|]. exists p. unfold deref. cbn [fst snd].
      rewrite Nat.eqb_refl. cbn [Nat.add]. split; [exact A|]. split; [exact A|]. split; [reflexivity|]. split; [exact N|]. split; [|exact G].
      destruct (Hok p (nth_error_In _ _ A)); [contradiction|assumption]. }
    split; [constructor; cbn [rVec rCells markAsClean vDirty vIndex vParts vCap]; auto|split; [reflexivity|split; [reflexivity|]]].
    - constructor; cbn [rVec rCells markAsClean vBuf vDirty vIndex vParts vCap].
      + intros k r H. destruct (Q' k r H) as (p & _ & A & B & _). split; [exact B|]. apply nth_error_Some. congruence.
      + apply (Permutation_NoDup (Permutation_sym P)), newRefs_nodup.
      + intros i p A N. apply (Permutation_in _ (Permutation_sym P)), newRefs_in. exists i, p. auto.
      + intros k r p H A. destruct (Q' k r H) as (p' & B & _ & _ & N & O & G). change (deref (markAsClean v) r) with (deref v r) in A.
        assert (p' = p) by congruence. subst p'. apply kind_of_index; assumption.
      + intros p H. destruct (Hok p H) as [A|A]; [left; exact A|apply ok_state, A].
      + rewrite L', map_length. exact L.
    - intros cells k p V H. destruct (view_nth _ _ _ _ _ V H) as (r & H1 & H2). cbn [rCells] in H1. destruct (Q' k r H1) as (p' & B & _ & _ & _ & _ & G).
      cbn [rVec] in H2. change (deref (markAsClean v) r) with (deref v r) in H2. assert (p' = p) by congruence. subst p'. exact G.
  Qed.

  (** Adding a particle. *)
  Lemma add_spec st p : Inv b st -> (forall q, In q (vParts (rVec st)) -> pown q = 0 \/ ok q) -> ok p ->
    exists st', addParticle rnd grow b st p = Some st' /\ Inv b st' /\ vParts (rVec st') = vParts (rVec st) ++ [p].
  Proof.
    intros I Hok Hp. unfold addParticle, push_back. set (v := rVec st) in *. destruct I as [C Cl Ix Cap]. fold v in C, Cl, Ix, Cap.
    assert (Hall : forall q, In q (vParts v ++ [p]) -> pown q = 0 \/ ok q) by (intros q Hq; apply in_app_or in Hq as [Hq|[<-|[]]]; auto).
    destruct (Nat.eqb_spec (vCap v) (length (vParts v))) as [Full|Free].
    - destruct (renew_all (mkRefs (mkVec (S (vBuf v)) (grow (length (vParts v))) (vParts v ++ [p]) true 0) (rCells st))) as (st' & E & I' & P & _);
        cbn [rVec rCells vDirty vIndex vParts vCap]; auto.
      + rewrite app_length. cbn [length]. specialize (Hgrow (length (vParts v))). lia.
      + apply (c_len _ _ _ C).
      + exists st'. auto.
    - destruct (Nat.eq_dec (length (vParts v)) 0) as [Z0|NZ].
      + destruct (renew_all (mkRefs (mkVec (vBuf v) (vCap v) (vParts v ++ [p]) true (vIndex v)) (rCells st))) as (st' & E & I' & P & _);
          cbn [rVec rCells vDirty vIndex vParts vCap]; auto.
        * congruence.
        * rewrite app_length. cbn [length]. lia.
        * apply (c_len _ _ _ C).
        * exists st'. auto.
      + unfold updateDirtyParticleReferences. cbn [rVec rCells vDirty vIndex vParts vCap vBuf]. rewrite Ix.
        destruct (Nat.eqb_spec (length (vParts v)) 0); [lia|]. rewrite skipn_app, skipn_all, Nat.sub_diag. cbn [skipn app].
        destruct (addDirty_spec (vBuf v) [p] (rCells st) (length (vParts v))) as (cells' & E & L' & P & Q).
        { intros q [<-|[]] _. exact Hp. }
        { apply (c_len _ _ _ C). }
        rewrite E. eexists. split; [reflexivity|].
        assert (Np : pown p <> 0) by (destruct Hp as [(X & _)|(X & _)]; lia).
        assert (Lp : isDummy p = false) by (rewrite dummy_live; apply live_iff in Np; rewrite Np; reflexivity).
        cbn [newRefs] in P. rewrite Lp in P. cbn [app] in P.
        assert (Q' : forall k r, In r (nth k cells' []) -> In r (nth k (rCells st) []) \/ (r = (vBuf v, length (vParts v)) /\ get1DIndexOfPosition rnd b (ppos p) = Some (Z.of_nat k))).
        { intros k r H. destruct (Q k r H) as [A|([|j] & q & -> & A & N & G)]; [left; exact A| |destruct j; discriminate].
          injection A as <-. rewrite Nat.add_0_r. right. auto. }
        split; [|reflexivity].
        constructor; cbn [rVec rCells markAsClean vDirty vIndex vParts vCap]; auto; [|rewrite app_length; cbn [length]; lia].
        constructor; cbn [rVec rCells markAsClean vBuf vDirty vIndex vParts vCap].
        * intros k r H. rewrite app_length. cbn [length]. destruct (Q' k r H) as [A|(-> & _)]; [|cbn; lia]. destruct (c_valid _ _ _ C k r A). lia.
        * apply (Permutation_NoDup (Permutation_sym P)). constructor; [|apply (c_nodup _ _ _ C)].
          intros X. apply in_concat_nth in X as (k & X). destruct (c_valid _ _ _ C k _ X) as (_ & X'). cbn in X'. lia.
        * intros i q A N. apply (Permutation_in _ (Permutation_sym P)). destruct (Nat.lt_ge_cases i (length (vParts v))) as [Li|Li].
          -- rewrite nth_error_app1 in A by exact Li. right. apply (c_cover _ _ _ C i q A N).
          -- left. f_equal. assert (i < length (vParts v ++ [p]))%nat by (apply nth_error_Some; congruence). rewrite app_length in H. cbn [length] in H. lia.
        * intros k r q H A. apply deref_inv in A as (B & A). cbn [markAsClean vBuf vParts] in A, B. destruct (Q' k r H) as [F|(-> & G)].
          -- destruct (c_valid _ _ _ C k r F) as (V1 & V2). rewrite nth_error_app1 in A by exact V2. apply (c_kind _ _ _ C k r q F). unfold deref. rewrite V1, Nat.eqb_refl. exact A.
          -- cbn [snd] in A. rewrite nth_error_app2, Nat.sub_diag in A by lia. injection A as <-. apply kind_of_index; assumption.
        * intros q Hq. destruct (Hall q Hq) as [A|A]; [left; exact A|apply ok_state, A].
        * rewrite L'. apply (c_len _ _ _ C).
  Qed.
End Add.
