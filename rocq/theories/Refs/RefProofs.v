(** The invariant of the container of references. *)
From Coq Require Import Reals Permutation Bool.
From Verif.Base Require Import ZRange Lists OptionM.
From Verif.Grid Require Import IndexModel IndexSpec CellBlockModel CellBlockSpec.
From Verif.Functor Require Import SortModel.
From Verif.Container Require Import IteratorModel IteratorContainers IteratorSpec IteratorLemmas IteratorRegion ParticleModel.
From Verif.Logic Require Import HandlerModel.
From Verif.Refs Require Import RefModel RefSpec.
Import ListNotations.
Local Open Scope Z_scope.

Definition live (p : Particle) : bool := negb (isDummy p).
Lemma live_iff p : live p = true <-> pown p <> 0.
Proof. unfold live, isDummy, stDummy. rewrite negb_true_iff, Z.eqb_neq. reflexivity. Qed.
Lemma dummy_live p : isDummy p = negb (live p).
Proof. unfold live. now rewrite negb_involutive. Qed.

Lemma setAt_perm {A} (l : list A) i x y : nth_error l i = Some x -> Permutation (y :: l) (x :: setAt l i y).
Proof.
  revert i. induction l as [|a l IH]; intros [|i] E; try discriminate; cbn [setAt].
  - injection E as ->. apply perm_swap.
  - cbn in E. transitivity (a :: y :: l); [apply perm_swap|]. transitivity (a :: x :: setAt l i y); [constructor; apply IH, E|]. apply perm_swap.
Qed.
Lemma nth_setAt {A} (l : list A) i j y z : nth_error (setAt l i y) j = Some z -> (i = j /\ z = y) \/ nth_error l j = Some z.
Proof.
  intros H. destruct (Nat.eq_dec i j) as [->|N].
  - left. split; [reflexivity|]. assert (L : (j < length l)%nat) by (rewrite <- (setAt_length l j y); apply nth_error_Some; congruence).
    rewrite setAt_same in H by exact L. congruence.
  - right. rewrite setAt_other in H by exact N. exact H.
Qed.

Lemma nth_error_same {A} (l m : list A) : (forall i, nth_error l i = nth_error m i) -> l = m.
Proof.
  revert m. induction l as [|x l IH]; intros [|y m] H; [reflexivity|specialize (H 0%nat); discriminate|specialize (H 0%nat); discriminate|].
  assert (H0 := H 0%nat). injection H0 as ->. f_equal. apply IH. intros i. exact (H (S i)).
Qed.
Definition refDec (x y : Ref) : {x = y} + {x <> y}.
Proof. decide equality; apply Nat.eq_dec. Defined.

Section Inv.
  Variable b : Block.
  Variables bMin bMax : R3.

  Definition kindOk (k : nat) (p : Particle) : Prop :=
    (pown p = 1 -> cellCanContainOwnedParticles b (Z.of_nat k) = true) /\
    (pown p = 2 -> cellCanContainHaloParticles b (Z.of_nat k) = true).

  Record Core (v : PVec) (cells : list (list Ref)) : Prop := {
    c_valid : forall k r, In r (nth k cells []) -> fst r = vBuf v /\ (snd r < length (vParts v))%nat;
    c_nodup : NoDup (concat cells);
    c_cover : forall i p, nth_error (vParts v) i = Some p -> pown p <> 0 -> In (vBuf v, i) (concat cells);
    c_kind : forall k r p, In r (nth k cells []) -> deref v r = Some p -> kindOk k p;
    c_states : forall p, In p (vParts v) -> validState (pown p);
    c_len : Z.of_nat (length cells) = numCells (blockDims b) }.
  Record Inv (st : Refs) : Prop := {
    i_core : Core (rVec st) (rCells st);
    i_clean : vDirty (rVec st) = false;
    i_index : vIndex (rVec st) = length (vParts (rVec st));
    i_cap : (length (vParts (rVec st)) <= vCap (rVec st))%nat }.

  Lemma in_concat_nth {A} (cells : list (list A)) r : In r (concat cells) <-> exists k, In r (nth k cells []).
  Proof.
    split.
    - intros H. apply in_concat in H as (c & Hc & H). apply In_nth with (d := []) in Hc as (k & _ & <-). exists k. exact H.
    - intros (k & H). apply in_concat. exists (nth k cells []). split; [|exact H]. apply nth_In.
      destruct (Nat.lt_ge_cases k (length cells)) as [L|L]; [exact L|]. rewrite nth_overflow in H by exact L. destruct H.
  Qed.

  Lemma deref_some v r : fst r = vBuf v -> (snd r < length (vParts v))%nat -> exists p, deref v r = Some p /\ nth_error (vParts v) (snd r) = Some p.
  Proof.
    intros E L. unfold deref. rewrite E, Nat.eqb_refl. destruct (nth_error (vParts v) (snd r)) as [p|] eqn:N; [|apply nth_error_None in N; lia].
    exists p. auto.
  Qed.
  Lemma deref_inv v r p : deref v r = Some p -> fst r = vBuf v /\ nth_error (vParts v) (snd r) = Some p.
  Proof. unfold deref. destruct (Nat.eqb_spec (fst r) (vBuf v)); [auto|discriminate]. Qed.
  Lemma deref_core v cells k r : Core v cells -> In r (nth k cells []) -> exists p, deref v r = Some p /\ nth_error (vParts v) (snd r) = Some p.
  Proof. intros C H. destruct (c_valid v cells C k r H). now apply deref_some. Qed.
  Lemma ref_eta (r : Ref) v : fst r = vBuf v -> r = (vBuf v, snd r).
  Proof. destruct r. cbn. congruence. Qed.

  (** What the invariant says about what can be seen. *)
  Lemma mapM_total {A B} (f : A -> option B) l : (forall a, In a l -> exists x, f a = Some x) -> exists r, mapM f l = Some r.
  Proof.
    induction l as [|a l IH]; intros H; [exists []; reflexivity|]. cbn [mapM].
    destruct (H a (or_introl eq_refl)) as (x & E). rewrite E. destruct IH as (r & Er); [intros y Hy; apply H; right; exact Hy|].
    rewrite Er. exists (x :: r). reflexivity.
  Qed.
  Lemma mapM_pointwise {A B} (f : A -> option B) l : forall r, mapM f l = Some r -> Forall2 (fun a x => f a = Some x) l r.
  Proof.
    induction l as [|a l IH]; intros r E; cbn [mapM] in E; [injection E as <-; constructor|].
    destruct (f a) eqn:Ea; [|discriminate]. destruct (mapM f l) eqn:El; [|discriminate]. injection E as <-. constructor; auto.
  Qed.
  Lemma view_concat v cells r : mapM (mapM (deref v)) cells = Some r -> Forall2 (fun a x => deref v a = Some x) (concat cells) (concat r).
  Proof.
    revert r. induction cells as [|c cells IH]; intros r E; cbn [mapM] in E; [injection E as <-; constructor|].
    destruct (mapM (deref v) c) eqn:Ec; [|discriminate]. destruct (mapM _ cells) eqn:Er; [|discriminate]. injection E as <-.
    cbn [concat]. apply Forall2_app; [apply mapM_pointwise, Ec|apply IH; reflexivity].
  Qed.
  Lemma view_nth v cells r k p : mapM (mapM (deref v)) cells = Some r -> In p (nth k r []) -> exists a, In a (nth k cells []) /\ deref v a = Some p.
  Proof.
    revert r k. induction cells as [|c cells IH]; intros r k E H; cbn [mapM] in E.
    - injection E as <-. destruct k; destruct H.
    - destruct (mapM (deref v) c) as [c'|] eqn:Ec; [|discriminate]. destruct (mapM _ cells) as [r'|] eqn:Er; [|discriminate]. injection E as <-.
      destruct k as [|k]; cbn [nth] in *; [|apply (IH r' k eq_refl H)].
      apply mapM_pointwise in Ec. clear - Ec H. induction Ec as [|a x c c' Ha Ec IH]; [destruct H|].
      destruct H as [<-|H]; [exists a; split; [left; reflexivity|exact Ha]|]. destruct (IH H) as (y & Y1 & Y2). exists y. split; [right; exact Y1|exact Y2].
  Qed.

  Definition nobody : Particle := mkParticle 0 (mkR3 0 0 0) 0 0.
  Definition get (v : PVec) (r : Ref) : Particle := match deref v r with Some p => p | None => nobody end.
  Lemma forall2_get v refs ps : Forall2 (fun a x => deref v a = Some x) refs ps -> ps = map (get v) refs.
  Proof. induction 1 as [|a x refs ps E _ IH]; [reflexivity|]. cbn [map]. unfold get at 1. rewrite E. congruence. Qed.
  Lemma filter_map_get v refs : filter live (map (get v) refs) = map (get v) (filter (fun r => live (get v r)) refs).
  Proof. induction refs as [|a l IH]; [reflexivity|]. cbn [map filter]. destruct (live (get v a)); cbn [map]; rewrite IH; reflexivity. Qed.
  Lemma parts_get v : vParts v = map (get v) (map (pair (vBuf v)) (seq 0 (length (vParts v)))).
  Proof.
    rewrite map_map. apply nth_error_same. intros i. destruct (Nat.lt_ge_cases i (length (vParts v))) as [L|L].
    - assert (E : nth_error (seq 0 (length (vParts v))) i = Some i).
      { rewrite (nth_error_nth' _ 0%nat) by (rewrite seq_length; exact L). rewrite seq_nth by exact L. reflexivity. }
      rewrite (map_nth_error _ _ _ E). unfold get, deref. cbn [fst snd]. rewrite Nat.eqb_refl.
      destruct (nth_error (vParts v) i) eqn:N; [reflexivity|]. apply nth_error_None in N. lia.
    - transitivity (@None Particle); [|symmetry]; apply nth_error_None; [exact L|]. rewrite map_length, seq_length. exact L.
  Qed.

  Lemma core_view v cells : Core v cells -> exists r, mapM (mapM (deref v)) cells = Some r /\
    Permutation (filter live (concat r)) (filter live (vParts v)).
  Proof.
    intros C. destruct (mapM_total (mapM (deref v)) cells) as (r & E).
    { intros c Hc. apply In_nth with (d := []) in Hc as (k & _ & <-). apply mapM_total. intros a Ha.
      destruct (deref_core v cells k a C Ha) as (p & Ep & _). exists p. exact Ep. }
    exists r. split; [exact E|]. apply view_concat, forall2_get in E. rewrite E, (parts_get v), !filter_map_get. apply Permutation_map.
    apply NoDup_Permutation.
    - apply NoDup_filter, (c_nodup v cells C).
    - apply NoDup_filter, FinFun.Injective_map_NoDup; [intros x y; congruence|apply seq_NoDup].
    - intros a. rewrite !filter_In. split; intros (H & L); (split; [|exact L]).
      + apply in_concat_nth in H as (k & H). destruct (c_valid v cells C k a H) as (A & B). apply in_map_iff. exists (snd a).
        split; [symmetry; apply ref_eta, A|apply in_seq; lia].
      + apply in_map_iff in H as (i & <- & H). apply in_seq in H. unfold get in L. destruct (deref v (vBuf v, i)) as [p|] eqn:D; [|discriminate].
        apply deref_inv in D as (_ & D). cbn [snd] in D. apply (c_cover v cells C i p D). apply live_iff, L.
  Qed.

  Lemma inv_holds st l : Inv st -> Permutation (filter live (vParts (rVec st))) l -> holds st l.
  Proof.
    intros I P. destruct (core_view _ _ (i_core st I)) as (r & E & Pr). exists r, live. split; [exact E|]. split; [exact live_iff|].
    split; [apply (c_nodup _ _ (i_core st I))|]. split; [rewrite Pr; exact P|exact P].
  Qed.
  Lemma inv_sorted st : Inv st -> sorted b st.
  Proof.
    intros I cells k p E H. destruct (view_nth _ _ _ _ _ E H) as (a & A1 & A2). apply (c_kind _ _ (i_core st I) k a p A1 A2).
  Qed.

  (** ** Changing one cell and the particles it refers to *)
  Lemma nth_middle_cases {A} (pre : list (list A)) c rest k r : In r (nth k (pre ++ c :: rest) []) ->
    (k = length pre /\ In r c) \/ (k <> length pre /\ forall c', In r (nth k (pre ++ c' :: rest) []) /\ In r (concat pre ++ concat rest)).
  Proof.
    intros H. destruct (Nat.lt_total k (length pre)) as [L|[->|L]].
    - rewrite app_nth1 in H by exact L. right. split; [lia|]. intros c'. rewrite app_nth1 by exact L. split; [exact H|].
      apply in_or_app. left. apply in_concat_nth. exists k. exact H.
    - rewrite nth_middle in H. left. auto.
    - right. split; [lia|]. intros c'. rewrite app_nth2 in * by lia. destruct (k - length pre)%nat as [|n] eqn:E; [lia|]. cbn [nth] in *.
      split; [exact H|]. apply in_or_app. right. apply in_concat_nth. exists n. exact H.
  Qed.

  Lemma core_change v v' pre cur cur' rest : Core v (pre ++ cur :: rest) ->
    vBuf v' = vBuf v -> length (vParts v') = length (vParts v) ->
    (forall r, ~ In r cur -> deref v' r = deref v r) -> incl cur' cur -> NoDup cur' ->
    (forall r p, In r cur -> deref v' r = Some p -> pown p <> 0 -> In r cur') ->
    (forall r p, In r cur' -> deref v' r = Some p -> kindOk (length pre) p) ->
    (forall p, In p (vParts v') -> validState (pown p)) -> Core v' (pre ++ cur' :: rest).
  Proof.
    intros C Hb Hl Hsame Hincl Hnd Hcover Hkind Hst.
    assert (ND := c_nodup _ _ C). rewrite concat_app in ND. cbn [concat] in ND.
    assert (Hdis : forall r, In r cur -> ~ In r (concat pre ++ concat rest)).
    { intros r Hr Hin. apply NoDup_app_inv in ND as (N1 & N2 & N3). apply in_app_or in Hin as [Hin|Hin].
      - apply (N3 r Hin). apply in_or_app. left. exact Hr.
      - apply NoDup_app_inv in N2 as (_ & _ & N4). apply (N4 r Hr Hin). }
    constructor.
    - intros k r H. rewrite Hb, Hl. apply nth_middle_cases in H as [(-> & H)|(_ & H)].
      + apply (c_valid _ _ C (length pre)). rewrite nth_middle. apply Hincl, H.
      + apply (c_valid _ _ C k). apply H.
    - rewrite concat_app. cbn [concat]. apply NoDup_app_inv in ND as (N1 & N2 & N3). apply NoDup_app_inv in N2 as (_ & N4 & N5).
      apply NoDup_app_intro; [exact N1| |].
      + apply NoDup_app_intro; [exact Hnd|exact N4|]. intros x Hx. apply N5, Hincl, Hx.
      + intros x Hx Hin. apply (N3 x Hx). apply in_app_or in Hin as [Hin|Hin]; apply in_or_app; [left; apply Hincl, Hin|right; exact Hin].
    - intros i p E N. rewrite concat_app. cbn [concat].
      assert (D : deref v' (vBuf v', i) = Some p) by (unfold deref; cbn [fst snd]; now rewrite Nat.eqb_refl).
      destruct (in_dec refDec (vBuf v', i) cur) as [Hin|Hin].
      + apply in_or_app. right. apply in_or_app. left. apply (Hcover _ p Hin D N).
      + rewrite (Hsame _ Hin) in D. apply deref_inv in D as (_ & D). cbn [snd] in D. assert (H := c_cover _ _ C i p D N).
        rewrite <- Hb in H. rewrite concat_app in H. cbn [concat] in H.
        apply in_app_or in H as [H|H]; [apply in_or_app; left; exact H|]. apply in_app_or in H as [H|H]; [destruct (Hin H)|].
        apply in_or_app. right. apply in_or_app. right. exact H.
    - intros k r p H D. apply nth_middle_cases in H as [(-> & H)|(_ & H)]; [apply (Hkind r p H D)|].
      rewrite Hsame in D by (intros X; apply (Hdis r X); apply (H cur)). apply (c_kind _ _ C k r p); [apply (H cur)|exact D].
    - exact Hst.
    - rewrite <- (c_len _ _ C), !app_length. cbn [length]. lia.
  Qed.
End Inv.
