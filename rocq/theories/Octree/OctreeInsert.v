(** Insertion into the octree. *)
From Coq Require Import Reals Lra Permutation.
From Verif.Base Require Import ZRange.
From Verif.Functor Require Import SortModel SortSpec.
From Verif.Grid Require Import CellBlockModel CellBlockSpec.
From Verif.Container Require Import IteratorModel IteratorContainers.
From Verif.Octree Require Import DirectionModel OctreeModel OctreeSpec OctreeBase OctreeAxis OctreeNeighbor OctreeTouch.
Local Open Scope Z_scope.

Lemma inBoxb_iff lo hi x : inBoxb lo hi x = true <-> inBox lo hi x.
Proof.
  unfold inBoxb, inBox. repeat destruct (Rle_dec _ _); repeat destruct (Rlt_dec _ _); cbn; split; intros H; try discriminate; try reflexivity; try tauto; lra.
Qed.

Section Insert.
  Context {P : Type}.
  Variable pos : P -> R3.
  Variable rnd : R -> R.
  Variable threshold : nat.
  Variable il : R.
  Notation Tree := (Tree P).
  Notation insert := (insert pos rnd threshold il).

  Lemma child_cover lo hi x : inBox lo hi x -> exists v, inBox (childMin rnd lo hi (vertexToIndex v)) (childMax rnd lo hi (vertexToIndex v)) x.
  Proof.
    intros (X & Y & Z).
    exists (mkV (if Rlt_dec (rx x) (center rnd (rx lo) (rx hi)) then false else true)
                (if Rlt_dec (ry x) (center rnd (ry lo) (ry hi)) then false else true)
                (if Rlt_dec (rz x) (center rnd (rz lo) (rz hi)) then false else true)).
    unfold inBox, childMin, childMax. cbn [rx ry rz].
    destruct (index_bits (mkV (if Rlt_dec (rx x) (center rnd (rx lo) (rx hi)) then false else true)
                (if Rlt_dec (ry x) (center rnd (ry lo) (ry hi)) then false else true)
                (if Rlt_dec (rz x) (center rnd (rz lo) (rz hi)) then false else true))) as (-> & -> & ->).
    destruct (mkV_bits (if Rlt_dec (rx x) (center rnd (rx lo) (rx hi)) then false else true)
                (if Rlt_dec (ry x) (center rnd (ry lo) (ry hi)) then false else true)
                (if Rlt_dec (rz x) (center rnd (rz lo) (rz hi)) then false else true)) as (-> & -> & ->).
    repeat destruct (Rlt_dec _ _); lra.
  Qed.

  Lemma child_unique lo hi x v w : inBox (childMin rnd lo hi (vertexToIndex v)) (childMax rnd lo hi (vertexToIndex v)) x ->
    inBox (childMin rnd lo hi (vertexToIndex w)) (childMax rnd lo hi (vertexToIndex w)) x -> v = w.
  Proof.
    unfold inBox, childMin, childMax. cbn [rx ry rz]. destruct (index_bits v) as (-> & -> & ->). destruct (index_bits w) as (-> & -> & ->).
    intros (X & Y & Z) (X' & Y' & Z'). apply vertex_bits.
    - destruct (vx v), (vx w); try reflexivity; lra.
    - destruct (vy v), (vy w); try reflexivity; lra.
    - destruct (vz v), (vz w); try reflexivity; lra.
  Qed.

  Lemma insertFirst_spec ins x (cs cs' : list Tree) : insertFirst ins x cs = Some cs' ->
    (exists l1 c l2 c', cs = l1 ++ c :: l2 /\ cs' = l1 ++ c' :: l2 /\ ins c = Some c' /\ inBox (boxMin c) (boxMax c) x) \/
    (cs' = cs /\ forall c, In c cs -> ~ inBox (boxMin c) (boxMax c) x).
  Proof.
    revert cs'. induction cs as [|c cs IH]; intros cs' H; cbn in H.
    - injection H as <-. right. split; [reflexivity|]. intros c [].
    - destruct (inBoxb (boxMin c) (boxMax c) x) eqn:B.
      + destruct (ins c) as [c'|] eqn:I; [|discriminate]. injection H as <-. left. exists [], c, cs, c'. apply inBoxb_iff in B. auto.
      + destruct (insertFirst ins x cs) as [r|] eqn:E; [|discriminate]. injection H as <-.
        destruct (IH r eq_refl) as [(l1 & d & l2 & d' & -> & -> & I & J)|[-> N]].
        * left. exists (c :: l1), d, l2, d'. auto.
        * right. split; [reflexivity|]. intros d [<-|I]; [|now apply N]. intros J. apply inBoxb_iff in J. congruence.
  Qed.

  Lemma nth_error_same {A} (l1 l2 : list A) c i : nth_error (l1 ++ c :: l2) i = if (i =? length l1)%nat then Some c else nth_error (l1 ++ l2) (if (i <? length l1)%nat then i else (i - 1)%nat).
  Proof.
    destruct (Nat.eqb_spec i (length l1)) as [->|N].
    - rewrite nth_error_app2 by lia. now rewrite Nat.sub_diag.
    - destruct (Nat.ltb_spec i (length l1)).
      + now rewrite !nth_error_app1 by lia.
      + rewrite nth_error_app2 by lia. rewrite nth_error_app2 by lia.
        destruct (i - length l1)%nat as [|k] eqn:E; [lia|]. cbn. f_equal. lia.
  Qed.

  Lemma wf_replace lo hi l1 (c c' : Tree) l2 : wf rnd il (Inner lo hi (l1 ++ c :: l2)) -> boxMin c' = boxMin c -> boxMax c' = boxMax c -> wf rnd il c' ->
    wf rnd il (Inner lo hi (l1 ++ c' :: l2)).
  Proof.
    intros W B1 B2 W'. inversion W as [|? ? ? L B C T]; subst. constructor; auto.
    - rewrite app_length in *. exact L.
    - intros i d. rewrite nth_error_same. destruct (Nat.eqb_spec i (length l1)) as [->|N].
      + intros E. injection E as <-. rewrite B1, B2. apply B. rewrite nth_error_app2, Nat.sub_diag by lia. reflexivity.
      + intros E. apply B. rewrite nth_error_same. destruct (Nat.eqb_spec i (length l1)); [lia|exact E].
    - intros i d. rewrite nth_error_same. destruct (Nat.eqb_spec i (length l1)) as [->|N].
      + intros E. now injection E as <-.
      + intros E. apply (C i). rewrite nth_error_same. destruct (Nat.eqb_spec i (length l1)); [lia|exact E].
  Qed.

  Lemma wf_newInner lo hi : tooSmall rnd il lo hi = false -> wf rnd il (@newInner P rnd lo hi).
  Proof.
    intros T. unfold newInner. constructor; auto.
    - intros i c H. rewrite nth_error_map in H. destruct (nth_error (seq 0 8) i) as [k|] eqn:E; [|discriminate]. injection H as <-.
      assert (k = i) as ->.
      { pose proof (proj1 (nth_error_Some (seq 0 8) i) ltac:(congruence)) as L. rewrite seq_length in L.
        apply (nth_error_nth _ _ 0%nat) in E. now rewrite seq_nth in E by exact L. }
      auto.
    - intros i c H. rewrite nth_error_map in H. destruct (nth_error (seq 0 8) i); [|discriminate]. injection H as <-. constructor.
  Qed.

  (** Structure. *)
  Definition preserves (ins : Tree -> P -> option Tree) : Prop := forall t p t', wf rnd il t -> ins t p = Some t' ->
    wf rnd il t' /\ boxMin t' = boxMin t /\ boxMax t' = boxMax t.

  Lemma foldInsert_preserves ins : preserves ins -> forall ps t t', wf rnd il t -> foldInsert ins t ps = Some t' ->
    wf rnd il t' /\ boxMin t' = boxMin t /\ boxMax t' = boxMax t.
  Proof.
    intros H ps. induction ps as [|p ps IH]; intros t t' W E; cbn in E.
    - injection E as <-. auto.
    - destruct (ins t p) as [t1|] eqn:E1; [|discriminate]. destruct (H _ _ _ W E1) as (W1 & A & B).
      destruct (IH _ _ W1 E) as (W2 & A' & B'). split; [exact W2|]. split; congruence.
  Qed.

  Lemma insert_preserves fuel : preserves (insert fuel).
  Proof.
    induction fuel as [|f IH]; intros t p t' W E; [discriminate|]. cbn [OctreeModel.insert] in E. destruct t as [lo hi ps|lo hi cs].
    - destruct ((length ps <? threshold)%nat || tooSmall rnd il lo hi)%bool eqn:C.
      + injection E as <-. cbn. repeat split. constructor.
      + apply orb_false_iff in C as [_ T]. destruct (insert f (newInner rnd lo hi) p) as [t1|] eqn:E1; [|discriminate].
        destruct (IH _ _ _ (wf_newInner lo hi T) E1) as (W1 & A & B).
        destruct (foldInsert_preserves _ IH _ _ _ W1 E) as (W2 & A' & B'). split; [exact W2|].
        rewrite A', B', A, B. auto.
    - destruct (insertFirst (fun c => insert f c p) (pos p) cs) as [cs'|] eqn:E1; [|discriminate]. injection E as <-. cbn [boxMin boxMax].
      split; [|auto]. apply insertFirst_spec in E1 as [(l1 & c & l2 & c' & -> & -> & I & _)|[-> _]]; [|exact W].
      assert (Wc : wf rnd il c).
      { inversion W as [|? ? ? L B C T]; subst. apply (C (length l1)). rewrite nth_error_app2, Nat.sub_diag by lia. reflexivity. }
      destruct (IH _ _ _ Wc I) as (W' & A & B). now apply (wf_replace lo hi l1 c c' l2).
  Qed.

  (** Contents. *)
  Definition keeps (ins : Tree -> P -> option Tree) : Prop := forall t p t', wf rnd il t -> placed pos t -> inBox (boxMin t) (boxMax t) (pos p) ->
    ins t p = Some t' -> placed pos t' /\ Permutation (collectAllParticles t') (p :: collectAllParticles t).

  Lemma foldInsert_keeps ins : preserves ins -> keeps ins -> forall ps t t', wf rnd il t -> placed pos t ->
    Forall (fun p => inBox (boxMin t) (boxMax t) (pos p)) ps -> foldInsert ins t ps = Some t' ->
    placed pos t' /\ Permutation (collectAllParticles t') (ps ++ collectAllParticles t).
  Proof.
    intros Hp H ps. induction ps as [|p ps IH]; intros t t' W Pl F E; cbn in E.
    - injection E as <-. cbn. auto.
    - destruct (ins t p) as [t1|] eqn:E1; [|discriminate]. inversion F as [|? ? Fp F']; subst.
      destruct (Hp _ _ _ W E1) as (W1 & A & B). destruct (H _ _ _ W Pl Fp E1) as (P1 & Q1).
      rewrite <- A, <- B in F'. destruct (IH _ _ W1 P1 F' E) as (P2 & Q2). split; [exact P2|].
      rewrite Q2, Q1. cbn. symmetry. apply Permutation_middle.
  Qed.

  Lemma collect_newInner lo hi : collectAllParticles (@newInner P rnd lo hi) = [].
  Proof. reflexivity. Qed.
  Lemma placed_newInner lo hi : placed pos (newInner rnd lo hi).
  Proof. unfold newInner. constructor. cbn. repeat (constructor; [constructor; constructor|]). constructor. Qed.

  Lemma insert_keeps fuel : keeps (insert fuel).
  Proof.
    induction fuel as [|f IH]; intros t p t' W Pl Ip E; [discriminate|]. cbn [OctreeModel.insert] in E. destruct t as [lo hi ps|lo hi cs].
    - destruct ((length ps <? threshold)%nat || tooSmall rnd il lo hi)%bool eqn:C.
      + injection E as <-. cbn in *. inversion Pl as [? ? ? F|]; subst. split.
        * constructor. apply Forall_app. split; [exact F|]. now constructor.
        * symmetry. apply Permutation_cons_append.
      + apply orb_false_iff in C as [_ T]. destruct (insert f (newInner rnd lo hi) p) as [t1|] eqn:E1; [|discriminate].
        destruct (insert_preserves f _ _ _ (wf_newInner lo hi T) E1) as (W1 & A & B).
        destruct (IH _ _ _ (wf_newInner lo hi T) (placed_newInner lo hi) Ip E1) as (P1 & Q1).
        assert (F : Forall (fun p => inBox (boxMin t1) (boxMax t1) (pos p)) ps).
        { rewrite A, B. inversion Pl; subst. assumption. }
        destruct (foldInsert_keeps _ (insert_preserves f) IH _ _ _ W1 P1 F E) as (P2 & Q2). split; [exact P2|].
        rewrite Q2, Q1, collect_newInner. cbn. symmetry. apply Permutation_cons_append.
    - destruct (insertFirst (fun c => insert f c p) (pos p) cs) as [cs'|] eqn:E1; [|discriminate]. injection E as <-. cbn [boxMin boxMax] in *.
      apply insertFirst_spec in E1 as [(l1 & c & l2 & c' & -> & -> & I & J)|[-> N]].
      + inversion W as [|? ? ? L B C T]; subst. inversion Pl as [|? ? ? F]; subst.
        apply Forall_app in F as [F1 F2]. inversion F2 as [|? ? Fc F3]; subst.
        assert (Wc : wf rnd il c) by (apply (C (length l1)); rewrite nth_error_app2, Nat.sub_diag by lia; reflexivity).
        destruct (IH _ _ _ Wc Fc J I) as (Pc & Q). split.
        * constructor. apply Forall_app. split; [exact F1|]. now constructor.
        * cbn [collectAllParticles]. rewrite !flat_map_app. cbn [flat_map]. rewrite Q. cbn. symmetry. apply Permutation_middle.
      + exfalso. destruct (child_cover lo hi (pos p) Ip) as (v & Iv). destruct (son_exists rnd il lo hi cs v W) as (c & S). cbn [SON] in S.
        inversion W as [|? ? ? L B C T]; subst. destruct (B _ _ S) as [B1 B2]. apply (N c); [now apply nth_error_In in S|]. now rewrite B1, B2.
  Qed.

  Lemma built_good lo hi ps t : builtBy pos rnd threshold il lo hi ps t ->
    wf rnd il t /\ placed pos t /\ boxMin t = lo /\ boxMax t = hi /\ Permutation (collectAllParticles t) ps.
  Proof.
    induction 1 as [|ps t p fuel t' _ (W & Pl & A & B & Q) I E].
    - repeat split; constructor; constructor.
    - destruct (insert_preserves fuel _ _ _ W E) as (W' & A' & B'). rewrite <- A, <- B in I.
      destruct (insert_keeps fuel _ _ _ W Pl I E) as (P' & Q').
      split; [exact W'|]. split; [exact P'|]. split; [congruence|]. split; [congruence|].
      rewrite Q', Q. apply Permutation_cons_append.
  Qed.

  (** More fuel does not change the result. *)
  Lemma foldInsert_mono (i1 i2 : Tree -> P -> option Tree) : (forall t p t', i1 t p = Some t' -> i2 t p = Some t') ->
    forall ps t t', foldInsert i1 t ps = Some t' -> foldInsert i2 t ps = Some t'.
  Proof.
    intros H ps. induction ps as [|p ps IH]; intros t t' E; cbn in *; [exact E|].
    destruct (i1 t p) as [t1|] eqn:E1; [|discriminate]. rewrite (H _ _ _ E1). now apply IH.
  Qed.
  Lemma insertFirst_mono (i1 i2 : Tree -> option Tree) x : (forall t t', i1 t = Some t' -> i2 t = Some t') ->
    forall cs cs', insertFirst i1 x cs = Some cs' -> insertFirst i2 x cs = Some cs'.
  Proof.
    intros H cs. induction cs as [|c cs IH]; intros cs' E; cbn in *; [exact E|].
    destruct (inBoxb (boxMin c) (boxMax c) x).
    - destruct (i1 c) as [c1|] eqn:E1; [|discriminate]. now rewrite (H _ _ E1).
    - destruct (insertFirst i1 x cs) as [r|]; [|discriminate]. now rewrite (IH r eq_refl).
  Qed.
  Lemma insert_mono fuel fuel' t p t' : (fuel <= fuel')%nat -> insert fuel t p = Some t' -> insert fuel' t p = Some t'.
  Proof.
    revert fuel' t p t'. induction fuel as [|f IH]; intros [|f'] t p t' L E; try lia; [discriminate|discriminate|].
    cbn [OctreeModel.insert] in *. destruct t as [lo hi ps|lo hi cs].
    - destruct ((length ps <? threshold)%nat || tooSmall rnd il lo hi)%bool; [exact E|].
      destruct (insert f (newInner rnd lo hi) p) as [t1|] eqn:E1; [|discriminate].
      rewrite (IH f' _ _ _ ltac:(lia) E1). eapply foldInsert_mono; [|exact E]. intros. apply IH; [lia|assumption].
    - destruct (insertFirst (fun c => insert f c p) (pos p) cs) as [cs'|] eqn:E1; [|discriminate].
      rewrite (insertFirst_mono _ (fun c => insert f' c p) _ (fun t t' H => IH f' t p t' ltac:(lia) H) _ _ E1). exact E.
  Qed.

  (** Points and leaves of a tree without flat leaves. *)
  Lemma solid_inner lo hi (cs : list Tree) : wf rnd il (Inner lo hi cs) -> solidLeaves (Inner lo hi cs) ->
    (rx lo < center rnd (rx lo) (rx hi) < rx hi)%R /\ (ry lo < center rnd (ry lo) (ry hi) < ry hi)%R /\
    (rz lo < center rnd (rz lo) (rz hi) < rz hi)%R.
  Proof.
    intros Wt H. inversion Wt as [|? ? ? L B W T]; subst. destruct (length8 cs L) as (c0 & c1 & c2 & c3 & c4 & c5 & c6 & c7 & ->).
    pose proof (solid_node rnd il c0 (W 0%nat c0 eq_refl) (solid_son _ c0 LDB H eq_refl)) as S0.
    pose proof (solid_node rnd il c7 (W 7%nat c7 eq_refl) (solid_son _ c7 RUF H eq_refl)) as S7.
    destruct (B 0%nat c0 eq_refl) as [A0 B0]. destruct (B 7%nat c7 eq_refl) as [A7 B7]. rewrite A0, B0 in S0. rewrite A7, B7 in S7.
    unfold below, childMin, childMax in *. cbn in *. lra.
  Qed.

  Definition within (lo hi lo' hi' : R3) : Prop :=
    (rx lo' <= rx lo /\ rx hi <= rx hi')%R /\ (ry lo' <= ry lo /\ ry hi <= ry hi')%R /\ (rz lo' <= rz lo /\ rz hi <= rz hi')%R.
  Lemma within_in lo hi lo' hi' x : within lo hi lo' hi' -> inBox lo hi x -> inBox lo' hi' x.
  Proof. unfold within, inBox. lra. Qed.

  Lemma son_within (t c : Tree) v : wf rnd il t -> solidLeaves t -> SON t v = Some c -> within (boxMin c) (boxMax c) (boxMin t) (boxMax t).
  Proof.
    intros W H E. destruct t as [|lo hi cs]; [discriminate|]. pose proof (solid_inner lo hi cs W H) as M.
    inversion W as [|? ? ? L B C T]; subst. cbn [SON] in E. destruct (B _ _ E) as [-> ->].
    unfold within, childMin, childMax. cbn [rx ry rz boxMin boxMax]. repeat destruct (Nat.testbit _ _); lra.
  Qed.

  Lemma node_within (t n : Tree) (q : Path) : wf rnd il t -> solidLeaves t -> nodeAt t q = Some n ->
    within (boxMin n) (boxMax n) (boxMin t) (boxMax t) /\ solidLeaves n.
  Proof.
    intros W H. revert n. induction q as [|v q IH]; intros n E.
    - injection E as <-. split; [unfold within; lra|exact H].
    - cbn in E. destruct (nodeAt t q) as [f|] eqn:F; [|discriminate]. destruct (IH f eq_refl) as (A & B).
      pose proof (son_within f n v (wf_node rnd il t q f W F) B E) as C. split; [unfold within in *; lra|]. exact (solid_son f n v B E).
  Qed.

  Lemma leaf_cover (t : Tree) x : wf rnd il t -> inBox (boxMin t) (boxMax t) x -> exists q lo hi ps, leafAt t q lo hi ps /\ inBox lo hi x.
  Proof.
    induction 1 as [lo hi ps|lo hi cs L B W IH T]; intros I.
    - exists [], lo, hi, ps. auto. split; [reflexivity|exact I].
    - cbn [boxMin boxMax] in I. destruct (child_cover lo hi x I) as (v & Iv).
      destruct (son_exists rnd il lo hi cs v (wfInner rnd il lo hi cs L B W T)) as (c & S). cbn [SON] in S. destruct (B _ _ S) as [B1 B2].
      rewrite <- B1, <- B2 in Iv. destruct (IH _ _ S Iv) as (q & lo' & hi' & ps & Lq & Iq).
      exists (q ++ [v]), lo', hi', ps. split; [|exact Iq]. unfold leafAt. rewrite nodeAt_last. cbn [SON]. now rewrite S.
  Qed.

  Lemma leaf_unique (t : Tree) x : wf rnd il t -> solidLeaves t -> forall p lo1 hi1 ps1 q lo2 hi2 ps2,
    leafAt t p lo1 hi1 ps1 -> inBox lo1 hi1 x -> leafAt t q lo2 hi2 ps2 -> inBox lo2 hi2 x -> p = q.
  Proof.
    induction 1 as [lo hi ps|lo hi cs L B W IH T]; intros H p lo1 hi1 ps1 q lo2 hi2 ps2 Lp Ip Lq Iq; unfold leafAt in *.
    - destruct (list_eq_dec vertex_dec p []) as [->|N].
      + destruct (list_eq_dec vertex_dec q []) as [->|N]; [reflexivity|].
        destruct (exists_last N) as (m & v & ->). rewrite nodeAt_last in Lq. discriminate.
      + destruct (exists_last N) as (m & v & ->). rewrite nodeAt_last in Lp. discriminate.
    - destruct (list_eq_dec vertex_dec p []) as [->|N]; [discriminate|]. destruct (exists_last N) as (m & v & ->).
      destruct (list_eq_dec vertex_dec q []) as [->|N']; [discriminate|]. destruct (exists_last N') as (m' & v' & ->).
      rewrite nodeAt_last in Lp, Lq. cbn [SON] in *.
      destruct (nth_error cs (vertexToIndex v)) as [c|] eqn:C; [|discriminate]. destruct (nth_error cs (vertexToIndex v')) as [c'|] eqn:C'; [|discriminate].
      pose proof (proj1 (node_within c _ m (W _ _ C) (solid_son (Inner lo hi cs) c v H C) Lp)) as A. cbn [boxMin boxMax] in A.
      pose proof (proj1 (node_within c' _ m' (W _ _ C') (solid_son (Inner lo hi cs) c' v' H C') Lq)) as A'. cbn [boxMin boxMax] in A'.
      pose proof (within_in _ _ _ _ _ A Ip) as J. pose proof (within_in _ _ _ _ _ A' Iq) as J'.
      destruct (B _ _ C) as [B1 B2]. destruct (B _ _ C') as [B1' B2']. rewrite B1, B2 in J. rewrite B1', B2' in J'.
      pose proof (child_unique lo hi x v v' J J') as ->. rewrite C in C'. injection C' as <-.
      f_equal. exact (IH _ _ C (solid_son (Inner lo hi cs) c v' H C) m _ _ _ m' _ _ _ Lp Ip Lq Iq).
  Qed.

  Lemma placed_in (t : Tree) p : wf rnd il t -> solidLeaves t -> placed pos t -> In p (collectAllParticles t) -> inBox (boxMin t) (boxMax t) (pos p).
  Proof.
    induction 1 as [lo hi ps|lo hi cs L B W IH T]; intros H Pl I.
    - inversion Pl as [? ? ? F|]; subst. rewrite Forall_forall in F. now apply F.
    - cbn in I. apply in_flat_map in I as (c & Ic & I). inversion Pl as [|? ? ? F]; subst. rewrite Forall_forall in F.
      apply In_nth_error in Ic as (i & E). assert (Li : (i < 8)%nat) by (rewrite <- L; apply nth_error_Some; congruence).
      destruct (index_surj i Li) as (v & <-). pose proof (son_within (Inner lo hi cs) c v (wfInner rnd il lo hi cs L B W T) H E) as A.
      eapply within_in; [exact A|]. apply (IH _ _ E); auto. exact (solid_son (Inner lo hi cs) c v H E). apply F. now apply nth_error_In in E.
  Qed.

  Lemma filter_none {A} (f : A -> bool) l : (forall x, In x l -> f x = false) -> filter f l = [].
  Proof. induction l as [|a l IH]; intros H; cbn; [reflexivity|]. rewrite (H a (or_introl eq_refl)). apply IH. intros x I. apply H. now right. Qed.
  Lemma filter_all {A} (f : A -> bool) l : (forall x, In x l -> f x = true) -> filter f l = l.
  Proof. induction l as [|a l IH]; intros H; cbn; [reflexivity|]. rewrite (H a (or_introl eq_refl)). f_equal. apply IH. intros x I. apply H. now right. Qed.

  (** A leaf has exactly the particles that are in its box. *)
  Lemma leaf_contents (t : Tree) : wf rnd il t -> solidLeaves t -> placed pos t -> forall q lo1 hi1 ps, leafAt t q lo1 hi1 ps ->
    filter (fun p => inBoxb lo1 hi1 (pos p)) (collectAllParticles t) = ps.
  Proof.
    induction 1 as [lo hi ps0|lo hi cs L B W IH T]; intros H Pl q lo1 hi1 ps E; unfold leafAt in E.
    - destruct (list_eq_dec vertex_dec q []) as [->|N].
      + injection E as <- <- <-. apply filter_all. intros x I. apply inBoxb_iff. inversion Pl as [? ? ? F|]; subst. rewrite Forall_forall in F. now apply F.
      + destruct (exists_last N) as (m & v & ->). rewrite nodeAt_last in E. discriminate.
    - destruct (list_eq_dec vertex_dec q []) as [->|N]; [discriminate|]. destruct (exists_last N) as (m & v & ->).
      rewrite nodeAt_last in E. cbn [SON] in E. destruct (nth_error cs (vertexToIndex v)) as [c|] eqn:C; [|discriminate].
      cbn [collectAllParticles]. inversion Pl as [|? ? ? F]; subst. pose proof (proj1 (Forall_forall _ _) F) as FF. clear F.
      pose proof (proj1 (node_within c _ m (W _ _ C) (solid_son (Inner lo hi cs) c v H C) E)) as A. cbn [boxMin boxMax] in A.
      assert (Other : forall i d, nth_error cs i = Some d -> i <> vertexToIndex v -> filter (fun p => inBoxb lo1 hi1 (pos p)) (collectAllParticles d) = []).
      { intros i d D Ni. apply filter_none. intros p I. destruct (inBoxb lo1 hi1 (pos p)) eqn:Bp; [|reflexivity]. exfalso. apply inBoxb_iff in Bp.
        assert (Li : (i < 8)%nat) by (rewrite <- L; apply nth_error_Some; congruence). destruct (index_surj i Li) as (w & <-).
        pose proof (within_in _ _ _ _ _ A Bp) as J.
        pose proof (placed_in d p (W _ _ D) (solid_son (Inner lo hi cs) d w H D) (FF d (nth_error_In _ _ D)) I) as J'.
        destruct (B _ _ C) as [B1 B2]. destruct (B _ _ D) as [B1' B2']. rewrite B1, B2 in J. rewrite B1', B2' in J'.
        apply Ni. f_equal. exact (child_unique lo hi (pos p) w v J' J). }
      destruct (nth_error_split _ _ C) as (l1 & l2 & -> & L1).
      rewrite flat_map_app, filter_app. cbn [flat_map]. rewrite filter_app.
      assert (Z : forall l (Hl : forall d, In d l -> exists i, nth_error (l1 ++ c :: l2) i = Some d /\ i <> vertexToIndex v),
        filter (fun p => inBoxb lo1 hi1 (pos p)) (flat_map collectAllParticles l) = []).
      { induction l as [|d l IHl]; intros Hl; [reflexivity|]. cbn [flat_map]. rewrite filter_app, IHl by (intros; apply Hl; now right).
        destruct (Hl d (or_introl eq_refl)) as (i & D & Ni). now rewrite (Other i d D Ni). }
      rewrite (Z l1), (Z l2).
      + rewrite app_nil_r. cbn [app]. apply (IH _ _ C (solid_son (Inner lo hi (l1 ++ c :: l2)) c v H C) (FF c (nth_error_In _ _ C)) m). exact E.
      + intros d I. apply In_nth_error in I as (i & D). exists (S (length l1) + i)%nat. split; [|lia].
        rewrite nth_error_app2 by lia. replace (S (length l1) + i - length l1)%nat with (S i) by lia. exact D.
      + intros d I. apply In_nth_error in I as (i & D). exists i. assert (i < length l1)%nat by (apply nth_error_Some; congruence). split; [|lia].
        rewrite nth_error_app1 by lia. exact D.
  Qed.

  (** Sufficient precision. *)
  Section Precise.
    Variables M eps : R.
    Hypothesis Hacc : accurate rnd M eps.
    Hypothesis Heps : (0 <= eps <= M)%R.
    Hypothesis Hil8 : (8 * eps <= il)%R.
    Hypothesis Hil : (0 < il)%R.

    Lemma rnd_bounds x : (- (2 * M) <= x <= 2 * M)%R -> (x - eps <= rnd x <= x + eps)%R.
    Proof. intros H. assert (H0 : (Rabs x <= 2 * M)%R) by (apply Rabs_le; lra). pose proof (Hacc x H0) as H1. unfold Rabs in H1. destruct (Rcase_abs _) in H1; lra. Qed.

    Lemma center_bounds a b : (- M <= a)%R -> (b <= M)%R -> (a < b)%R -> ((a + b) / 2 - 3 / 2 * eps <= center rnd a b <= (a + b) / 2 + 3 / 2 * eps)%R.
    Proof.
      intros A B L. unfold center. pose proof (rnd_bounds (a + b)%R ltac:(lra)) as R1.
      pose proof (rnd_bounds (rnd (a + b) * / 2)%R ltac:(lra)) as R2. lra.
    Qed.

    Lemma tooSmall1_false a b : (- M <= a)%R -> (b <= M)%R -> (a < b)%R -> tooSmall1 rnd il a b = false -> (il - 3 / 2 * eps <= (b - a) / 2)%R.
    Proof.
      intros A B L. unfold tooSmall1. destruct (Rlt_dec _ _) as [|N]; [discriminate|]. intros _.
      pose proof (rnd_bounds (b - a)%R ltac:(lra)) as R1. pose proof (rnd_bounds (rnd (b - a) * / 2)%R ltac:(lra)) as R2. lra.
    Qed.

    Lemma tooSmall_iff lo hi : tooSmall rnd il lo hi = false <-> tooSmall1 rnd il (rx lo) (rx hi) = false /\ tooSmall1 rnd il (ry lo) (ry hi) = false /\ tooSmall1 rnd il (rz lo) (rz hi) = false.
    Proof. unfold tooSmall. rewrite !orb_false_iff. tauto. Qed.

    Lemma child_precise lo hi i : boxUpTo M lo hi -> below lo hi -> tooSmall rnd il lo hi = false ->
      boxUpTo M (childMin rnd lo hi i) (childMax rnd lo hi i) /\ below (childMin rnd lo hi i) (childMax rnd lo hi i) /\
      wideBox (il - 3 * eps) (childMin rnd lo hi i) (childMax rnd lo hi i) /\
      (rx (childMax rnd lo hi i) - rx (childMin rnd lo hi i) <= 3 / 4 * (rx hi - rx lo))%R.
    Proof.
      intros (U1 & U2 & U3) (L1 & L2 & L3) T. apply tooSmall_iff in T as (T1 & T2 & T3).
      pose proof (tooSmall1_false _ _ (proj1 U1) (proj2 U1) L1 T1). pose proof (tooSmall1_false _ _ (proj1 U2) (proj2 U2) L2 T2).
      pose proof (tooSmall1_false _ _ (proj1 U3) (proj2 U3) L3 T3).
      pose proof (center_bounds _ _ (proj1 U1) (proj2 U1) L1). pose proof (center_bounds _ _ (proj1 U2) (proj2 U2) L2).
      pose proof (center_bounds _ _ (proj1 U3) (proj2 U3) L3).
      unfold boxUpTo, below, wideBox, childMin, childMax. cbn [rx ry rz].
      repeat split; repeat destruct (Nat.testbit _ _); lra.
    Qed.

    Lemma wf_precise (t : Tree) : wf rnd il t -> boxUpTo M (boxMin t) (boxMax t) -> below (boxMin t) (boxMax t) ->
      solidLeaves t /\ forall q lo hi ps, leafAt t q lo hi ps -> q <> [] -> wideBox (il - 3 * eps) lo hi.
    Proof.
      induction 1 as [lo hi ps|lo hi cs L B W IH T]; intros U D; cbn [boxMin boxMax] in *.
      - split.
        + intros q a b l E. unfold leafAt in E. destruct (list_eq_dec vertex_dec q []) as [->|N]; [injection E as <- <- <-; exact D|].
          destruct (exists_last N) as (m & v & ->). rewrite nodeAt_last in E. discriminate.
        + intros q a b l E N. unfold leafAt in E. destruct (exists_last N) as (m & v & ->). rewrite nodeAt_last in E. discriminate.
      - assert (Q : forall q a b l, leafAt (Inner lo hi cs) q a b l -> exists m v c, q = m ++ [v] /\ nth_error cs (vertexToIndex v) = Some c /\ leafAt c m a b l).
        { intros q a b l E. unfold leafAt in *. destruct (list_eq_dec vertex_dec q []) as [->|N]; [discriminate|].
          destruct (exists_last N) as (m & v & ->). rewrite nodeAt_last in E. cbn [SON] in E. destruct (nth_error cs (vertexToIndex v)) as [c|] eqn:C; [|discriminate]. eauto 10. }
        split.
        + intros q a b l E. destruct (Q _ _ _ _ E) as (m & v & c & -> & C & E'). destruct (child_precise lo hi (vertexToIndex v) U D T) as (U' & D' & _ & _).
          destruct (B _ _ C) as [B1 B2]. rewrite <- B1, <- B2 in U', D'. exact (proj1 (IH _ _ C U' D') m a b l E').
        + intros q a b l E _. destruct (Q _ _ _ _ E) as (m & v & c & -> & C & E'). destruct (child_precise lo hi (vertexToIndex v) U D T) as (U' & D' & W' & _).
          destruct (B _ _ C) as [B1 B2]. rewrite <- B1, <- B2 in U', D', W'. destruct m as [|w m].
          * unfold leafAt in E'. injection E' as ->. exact W'.
          * apply (proj2 (IH _ _ C U' D') (w :: m) a b l E'). discriminate.
    Qed.

    (** Termination. *)
    Lemma foldInsert_total ins ps : preserves ins -> forall (t : Tree), wf rnd il t ->
      (forall t' p, wf rnd il t' -> boxMin t' = boxMin t -> boxMax t' = boxMax t -> exists t'', ins t' p = Some t'') -> exists t', foldInsert ins t ps = Some t'.
    Proof.
      intros Hp. induction ps as [|p ps IH]; intros t W H; cbn; [eauto|].
      destruct (H t p W eq_refl eq_refl) as (t1 & E). rewrite E. destruct (Hp _ _ _ W E) as (W1 & A & B). apply IH; [exact W1|].
      intros t' p' W' A' B'. apply H; [exact W'|congruence|congruence].
    Qed.

    Lemma insert_total k : forall (t : Tree) p, wf rnd il t -> boxUpTo M (boxMin t) (boxMax t) -> below (boxMin t) (boxMax t) ->
      (rx (boxMax t) - rx (boxMin t) <= il * (4 / 3) ^ k)%R -> exists t', insert (2 * k + 2) t p = Some t'.
    Proof.
      induction k as [|k IH]; intros t p W U D H.
      - assert (T : forall lo hi, boxUpTo M lo hi -> below lo hi -> (rx hi - rx lo <= il * (4 / 3) ^ 0)%R -> tooSmall rnd il lo hi = true).
        { intros lo hi (U1 & _) (L1 & _) H1. destruct (tooSmall rnd il lo hi) eqn:T; [reflexivity|]. exfalso. apply tooSmall_iff in T as (T1 & _).
          pose proof (tooSmall1_false _ _ (proj1 U1) (proj2 U1) L1 T1). cbn in H1. lra. }
        destruct t as [lo hi ps|lo hi cs]; cbn [boxMin boxMax] in *.
        + cbn [Nat.mul Nat.add OctreeModel.insert]. rewrite (T lo hi U D H), orb_true_r. eauto.
        + inversion W as [|? ? ? ? ? ? F]; subst. rewrite (T lo hi U D H) in F. discriminate.
      - replace (2 * S k + 2)%nat with (S (S (2 * k + 2))) by lia.
        assert (Inn : forall lo hi cs p, wf rnd il (Inner lo hi cs) -> boxUpTo M lo hi -> below lo hi -> (rx hi - rx lo <= il * (4 / 3) ^ S k)%R ->
          exists t', insert (S (2 * k + 2)) (Inner lo hi cs) p = Some t').
        { clear t p W U D H. intros lo hi cs p W U D H. cbn [OctreeModel.insert]. inversion W as [|? ? ? L B C T]; subst.
          assert (X : exists cs', insertFirst (fun c => insert (2 * k + 2) c p) (pos p) cs = Some cs').
          { assert (Y : forall c, In c cs -> exists c', insert (2 * k + 2) c p = Some c').
            { intros c I. apply In_nth_error in I as (i & E). destruct (B _ _ E) as [B1 B2].
              destruct (child_precise lo hi i U D T) as (U' & D' & _ & W'). rewrite <- B1, <- B2 in U', D', W'.
              apply IH; [apply (C i); exact E|exact U'|exact D'|]. cbn [pow] in H. lra. }
            clear - Y. induction cs as [|c cs IHc]; cbn [insertFirst]; [eauto|]. destruct (inBoxb (boxMin c) (boxMax c) (pos p)).
            - destruct (Y c (or_introl eq_refl)) as (c' & ->). eauto.
            - destruct IHc as (r & ->); [intros; apply Y; now right|]. eauto. }
          destruct X as (cs' & ->). eauto. }
        destruct t as [lo hi ps|lo hi cs]; cbn [boxMin boxMax] in *.
        + cbn [OctreeModel.insert]. destruct ((length ps <? threshold)%nat || tooSmall rnd il lo hi)%bool eqn:C; [eauto|].
          apply orb_false_iff in C as [_ T]. change (OctreeModel.insert pos rnd threshold il ?f) with (insert f).
          destruct (Inn lo hi _ p (wf_newInner lo hi T) U D H) as (t1 & E). change (Inner lo hi _) with (@newInner P rnd lo hi) in E.
          cbn [OctreeModel.insert] in E |- *. rewrite E.
          destruct (insert_preserves (S (2 * k + 2)) _ _ _ (wf_newInner lo hi T) E) as (W1 & A & B).
          change (exists t', foldInsert (insert (S (2 * k + 2))) t1 ps = Some t').
          assert (I1 : exists cs1, t1 = Inner lo hi cs1).
          { cbn [OctreeModel.insert newInner] in E. destruct (insertFirst _ _ _); [|discriminate]. injection E as <-. eauto. }
          destruct I1 as (cs1 & ->). clear E A B W. revert cs1 W1. induction ps as [|p' ps IHp]; intros cs1 W1; cbn [foldInsert]; [eauto|].
          destruct (Inn lo hi cs1 p' W1 U D H) as (t2 & E). rewrite E.
          destruct (insert_preserves _ _ _ _ W1 E) as (W2 & _ & _).
          assert (I2 : exists cs2, t2 = Inner lo hi cs2).
          { cbn [OctreeModel.insert] in E. destruct (insertFirst _ _ _); [|discriminate]. injection E as <-. eauto. }
          destruct I2 as (cs2 & ->). now apply IHp.
        + destruct (Inn lo hi cs p W U D H) as (t' & E). exists t'. apply (insert_mono (S (2 * k + 2))); [lia|exact E].
    Qed.

    Lemma insert_terminates (t : Tree) p : wf rnd il t -> boxUpTo M (boxMin t) (boxMax t) -> below (boxMin t) (boxMax t) ->
      exists fuel t', insert fuel t p = Some t'.
    Proof.
      intros W U D. destruct (Pow_x_infinity (4 / 3) ltac:(rewrite Rabs_pos_eq; lra) ((rx (boxMax t) - rx (boxMin t)) / il)) as (k & Hk).
      specialize (Hk k (Nat.le_refl k)). rewrite Rabs_pos_eq in Hk by (apply pow_le; lra).
      exists (2 * k + 2)%nat. apply insert_total; auto.
      apply Rge_le in Hk. apply (Rmult_le_compat_l il) in Hk; [|lra]. replace (il * ((rx (boxMax t) - rx (boxMin t)) / il))%R with (rx (boxMax t) - rx (boxMin t))%R in Hk by (field; lra). exact Hk.
    Qed.
  End Precise.
End Insert.
