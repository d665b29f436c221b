(** Which particles the calls of the remainder traversal involve. *)
From Coq Require Import Reals Lia Permutation.
From Verif.Base Require Import ZRange OptionM.
From Verif.Grid Require Import IndexModel IndexSpec CellBlockModel.
From Verif.Functor Require Import SortModel.
From Verif.Container Require Import IteratorModel IteratorContainers ParticleModel ForEachModel.
From Verif.Logic Require Import BalanceModel BalanceProofs RemainderModel.

Lemma mapM_some_in {A B} (f : A -> option B) l r : mapM f l = Some r -> forall y, In y r -> exists x, In x l /\ f x = Some y.
Proof.
  revert r. induction l as [|a l IH]; intros r H y Hy; cbn in H; [injection H as <-; destruct Hy|].
  destruct (f a) as [b|] eqn:F; [|discriminate]. destruct (mapM f l) as [r'|]; [|discriminate]. injection H as <-.
  destruct Hy as [<-|Hy]; [exists a; split; [left; reflexivity|exact F]|]. destruct (IH r' eq_refl y Hy) as (x & X1 & X2). exists x. split; [right; exact X1|exact X2].
Qed.
Lemma flatM_in {A B} (f : A -> option (list B)) l r : flatM f l = Some r -> forall y, In y r -> exists x ys, In x l /\ f x = Some ys /\ In y ys.
Proof.
  unfold flatM. destruct (mapM f l) as [m|] eqn:E; [|discriminate]. intros [= <-] y Hy. apply in_concat in Hy as (ys & H1 & H2).
  destruct (mapM_some_in _ _ _ E ys H1) as (x & X1 & X2). exists x, ys. auto.
Qed.
Lemma nth_part {A} (l : list (list A)) i : exists r, Permutation (concat l) (nth i l [] ++ r).
Proof.
  revert i. induction l as [|a l IH]; intros [|i]; cbn; try (exists []; reflexivity).
  - exists (concat l). reflexivity.
  - destruct (IH i) as (r & H). exists (a ++ r). rewrite H, !app_assoc. apply Permutation_app_tail, Permutation_app_comm.
Qed.
Lemma nth_parts {A} (l : list (list A)) i j : i <> j -> exists r, Permutation (concat l) (nth i l [] ++ nth j l [] ++ r).
Proof.
  revert i j. induction l as [|a l IH]; intros i j N.
  - exists []. destruct i, j; reflexivity.
  - destruct i as [|i], j as [|j]; cbn [nth concat]; [contradiction| | |].
    + destruct (nth_part l j) as (r & H). exists r. apply Permutation_app_head, H.
    + destruct (nth_part l i) as (r & H). exists r. rewrite H, !app_assoc. apply Permutation_app_tail, Permutation_app_comm.
    + destruct (IH i j) as (r & H); [congruence|]. exists (a ++ r). rewrite H, !app_assoc. apply Permutation_app_tail.
      rewrite <- app_assoc. apply Permutation_app_comm.
Qed.

(** [l] is a part of [whole], as a multiset. *)
Definition partOf {A} (l whole : list A) : Prop := exists r, Permutation whole (l ++ r).

Section Shape.
  Variables (rnd : R -> R) (newton3 : bool) (cutoff : R) (inRegion : Z -> R3 -> R3 -> option (list Particle)).
  Variable contained : list Particle.
  Hypothesis Hin : forall b l h ps, inRegion b l h = Some ps -> incl ps contained.
  Definition shape (buffered : list Particle) (c : Call) : Prop :=
    match c with
    | AoSFunctor i j _ => (In i buffered /\ In j contained) \/ (In i contained /\ In j buffered)
    | SoAFunctorSingle l _ => partOf l buffered
    | SoAFunctorPair a b _ => partOf (a ++ b) buffered
    end.

  Lemma shape_perm b b' c : Permutation b b' -> shape b c -> shape b' c.
  Proof.
    intros P. destruct c as [i j n|l n|x y n]; cbn [shape].
    - intros [(H1 & H2)|(H1 & H2)]; [left|right]; (split; try assumption; apply (Permutation_in _ P); assumption).
    - intros (r & H). exists r. rewrite <- P. exact H.
    - intros (r & H). exists r. rewrite <- P. exact H.
  Qed.

  Lemma remainder_shape nl bs hs rest : remainder2B rnd newton3 cutoff inRegion nl bs hs = Some rest ->
    forall c, In c rest -> shape (concat bs ++ concat hs) c.
  Proof.
    unfold remainder2B. destruct (nl <? length bs)%nat; [discriminate|].
    destruct (balance_correct bs 1 (le_n 1)) as (pb & E1 & P1 & _). destruct (balance_correct hs 1 (le_n 1)) as (hb & E2 & P2 & _). rewrite E1, E2.
    destruct (bufferContainer rnd newton3 cutoff inRegion pb hb) as [cc|] eqn:E3; [|discriminate]. intros [= <-] c Hc.
    apply (shape_perm (concat pb ++ concat hb)); [symmetry; apply Permutation_app; assumption|].
    apply in_app_or in Hc as [Hc|Hc]; [|apply in_app_or in Hc as [Hc|Hc]].
    - unfold bufferContainer in E3. destruct (flatM_in _ _ _ E3 c Hc) as (id & ys & _ & X1 & X2).
      destruct (nth_error pb id) as [b|] eqn:N1; [|discriminate]. destruct (nth_error hb id) as [hbuf|] eqn:N2; [|discriminate].
      apply nth_error_In in N1, N2.
      destruct (flatM (bufferParticle _ _ _ _) b) as [xs|] eqn:F1; [|discriminate]. destruct (flatM (haloBufferParticle _ _ _ _) hbuf) as [zs|] eqn:F2; [|discriminate].
      injection X1 as <-. apply in_app_or in X2 as [X2|X2].
      + destruct (flatM_in _ _ _ F1 c X2) as (p1 & us & Y1 & Y2 & Y3). unfold bufferParticle in Y2. destruct (inRegion _ _ _) as [ps|] eqn:R; [|discriminate].
        injection Y2 as <-. apply in_flat_map in Y3 as (p2 & Z1 & Z2). apply (Hin _ _ _ _ R) in Z1.
        assert (In p1 (concat pb ++ concat hb)) by (apply in_or_app; left; apply in_concat; exists b; auto).
        destruct newton3.
        * destruct Z2 as [<-|[]]. cbn. left. auto.
        * destruct Z2 as [<-|Z2]; [cbn; left; auto|]. destruct (negb (isHaloP p2)); [|destruct Z2]. destruct Z2 as [<-|[]]. cbn. right. auto.
      + destruct (flatM_in _ _ _ F2 c X2) as (p1 & us & Y1 & Y2 & Y3). unfold haloBufferParticle in Y2. destruct (inRegion _ _ _) as [ps|] eqn:R; [|discriminate].
        injection Y2 as <-. apply in_map_iff in Y3 as (p2 & <- & Z1). apply (Hin _ _ _ _ R) in Z1. cbn. right. split; [exact Z1|].
        apply in_or_app; right; apply in_concat; exists hbuf; auto.
    - unfold bufferBuffer in Hc. apply in_flat_map in Hc as (i & _ & Hc). apply in_map_iff in Hc as (jj & <- & _).
      destruct (Nat.eqb_spec i ((i + jj) mod length pb)) as [Q|Q].
      + destruct (nth_part pb i) as (r & H). exists (r ++ concat hb). rewrite H, <- app_assoc. reflexivity.
      + destruct (nth_parts pb i _ Q) as (r & H). exists (r ++ concat hb). rewrite H, <- !app_assoc. reflexivity.
    - unfold bufferHaloBuffer in Hc. apply in_flat_map in Hc as (o & _ & Hc). apply in_map_iff in Hc as (i & <- & _).
      destruct (nth_part pb i) as (r & H). destruct (nth_part hb ((i + o) mod length hb)) as (r' & H').
      exists (r ++ r'). rewrite H, H', <- !app_assoc. apply Permutation_app_head. rewrite !app_assoc. apply Permutation_app_tail, Permutation_app_comm.
  Qed.
End Shape.

(** forEachInRegion only yields particles of the container. *)
Lemma cellForEach_incl b f cell ps : cellForEach b f cell = Some ps -> incl ps cell.
Proof.
  revert ps. induction cell as [|p r IH]; intros ps H; cbn in H; [injection H as <-; apply incl_refl|].
  destruct (behaviorContains b p) as [c|]; [|discriminate]. destruct (cellForEach b f r) as [l|]; [|discriminate]. injection H as <-.
  destruct (c && f (ppos p)).
  - intros x [<-|Hx]; [left; reflexivity|right; apply (IH l eq_refl x Hx)].
  - intros x Hx. right. apply (IH l eq_refl x Hx).
Qed.
Lemma at_in {A} (l : list A) i x : at_ l i = Some x -> In x l.
Proof. unfold at_. destruct (i <? 0); [discriminate|]. intros H. eapply nth_error_In, H. Qed.
Lemma lcRegion_incl rnd b skin be lo hi cells ps : lcForEachInRegion rnd b skin be lo hi cells = Some ps -> incl ps (concat cells).
Proof.
  unfold lcForEachInRegion, visitCells. destruct (get3DIndexOfPosition _ _ _); [|discriminate]. destruct (get3DIndexOfPosition _ _ _); [|discriminate].
  destruct (mapM _ _) as [ls|] eqn:E; [|discriminate]. intros [= <-] p Hp. apply in_concat in Hp as (l & H1 & H2).
  destruct (mapM_some_in _ _ _ E l H1) as (ii & _ & X). destruct (ignoreCellForIteration b ii be); [injection X as <-; destruct H2|].
  destruct (at_ cells ii) as [cell|] eqn:A; [|discriminate]. apply cellForEach_incl in X. apply in_concat. exists cell. split; [exact (at_in _ _ _ A)|apply X, H2].
Qed.
Lemma dsRegion_incl be lo hi cells ps : dsForEachInRegion be lo hi cells = Some ps -> incl ps (concat cells).
Proof.
  unfold dsForEachInRegion. destruct cells as [|o h]; [discriminate|]. destruct (negb _); [discriminate|].
  destruct (mapM _ _) as [ls|] eqn:E; [|discriminate]. intros [= <-] p Hp. apply in_concat in Hp as (l & H1 & H2).
  destruct (mapM_some_in _ _ _ E l H1) as (cell & C & X). apply cellForEach_incl in X. apply in_concat. exists cell. split; [|apply X, H2].
  apply in_app_or in C as [C|C].
  - destruct (hasFlag be bhOwned); [|destruct C]. destruct C as [<-|[]]. left. reflexivity.
  - destruct (hasFlag be bhHalo); [right; exact C|destruct C].
Qed.
