(** [occ f l]: how many elements of the event list [l] satisfy [f]. *)
From Verif.Base Require Import ZRange.

Definition occ {A} (f : A -> bool) (l : list A) : nat := length (filter f l).

Lemma occ_nil {A} (f : A -> bool) : occ f [] = 0%nat.
Proof. reflexivity. Qed.

Lemma occ_cons {A} (f : A -> bool) a l :
  occ f (a :: l) = ((if f a then 1 else 0) + occ f l)%nat.
Proof. unfold occ. simpl. destruct (f a); reflexivity. Qed.

Lemma occ_app {A} (f : A -> bool) l1 l2 : occ f (l1 ++ l2) = (occ f l1 + occ f l2)%nat.
Proof. unfold occ. now rewrite filter_app, app_length. Qed.

Lemma occ_zero {A} (f : A -> bool) l : (forall x, In x l -> f x = false) -> occ f l = 0%nat.
Proof.
  induction l as [|a l IH]; intros H; [reflexivity|].
  rewrite occ_cons, H, IH; auto with datatypes.
Qed.

Lemma occ_zero_inv {A} (f : A -> bool) l : occ f l = 0%nat -> forall x, In x l -> f x = false.
Proof.
  induction l as [|a l IH]; intros H x Hx; [destruct Hx|].
  rewrite occ_cons in H. destruct Hx as [->|Hx].
  - destruct (f x); [lia|reflexivity].
  - apply IH; [lia|assumption].
Qed.

Lemma occ_map {A B} (f : B -> bool) (g : A -> B) l : occ f (map g l) = occ (fun x => f (g x)) l.
Proof. induction l as [|a l IH]; [reflexivity|]. simpl. now rewrite !occ_cons, IH. Qed.

Lemma occ_ext {A} (f g : A -> bool) l : (forall x, In x l -> f x = g x) -> occ f l = occ g l.
Proof.
  induction l as [|a l IH]; intros H; [reflexivity|].
  rewrite !occ_cons, H, IH; auto with datatypes.
Qed.

Lemma occ_flat_map_zero {A B} (f : B -> bool) (g : A -> list B) l :
  (forall x, In x l -> occ f (g x) = 0%nat) -> occ f (flat_map g l) = 0%nat.
Proof.
  induction l as [|a l IH]; intros H; [reflexivity|].
  simpl. rewrite occ_app, H, IH; auto with datatypes.
Qed.

Lemma occ_flat_map_unique {A B} (f : B -> bool) (g : A -> list B) l x0 :
  NoDup l -> In x0 l ->
  (forall x, In x l -> x <> x0 -> occ f (g x) = 0%nat) ->
  occ f (flat_map g l) = occ f (g x0).
Proof.
  induction l as [|a l IH]; intros Hnd Hin H0; [destruct Hin|].
  inversion Hnd as [|? ? Hna Hnd']; subst.
  simpl. rewrite occ_app. destruct Hin as [->|Hin].
  - rewrite (occ_flat_map_zero f g l); [lia|].
    intros x Hx. apply H0; [now right|]. intros ->. contradiction.
  - rewrite (H0 a); [|now left|intros ->; contradiction].
    simpl. apply IH; auto with datatypes.
Qed.

Lemma occ_le_one_of_unique {A} (f : A -> bool) l :
  NoDup l -> (forall x y, In x l -> In y l -> f x = true -> f y = true -> x = y) ->
  (occ f l <= 1)%nat.
Proof.
  induction l as [|a l IH]; intros Hnd Hu; [rewrite occ_nil; lia|].
  inversion Hnd as [|? ? Hna Hnd']; subst.
  rewrite occ_cons. destruct (f a) eqn:Ha.
  - rewrite occ_zero; [lia|]. intros x Hx. destruct (f x) eqn:Hfx; [|reflexivity].
    exfalso. apply Hna. rewrite (Hu a x); auto with datatypes.
  - simpl. apply IH; auto with datatypes.
Qed.

Lemma occ_pos_of_in {A} (f : A -> bool) l x : In x l -> f x = true -> (1 <= occ f l)%nat.
Proof.
  induction l as [|a l IH]; intros Hin Hf; [destruct Hin|].
  rewrite occ_cons. destruct Hin as [->|Hin].
  - rewrite Hf. lia.
  - specialize (IH Hin Hf). lia.
Qed.

Lemma occ_one_of_unique {A} (f : A -> bool) l x :
  NoDup l -> In x l -> f x = true ->
  (forall y, In y l -> f y = true -> y = x) -> occ f l = 1%nat.
Proof.
  intros Hnd Hin Hf Hu.
  pose proof (occ_pos_of_in f l x Hin Hf).
  assert (occ f l <= 1)%nat; [|lia].
  apply occ_le_one_of_unique; [assumption|].
  intros y z Hy Hz Hfy Hfz. rewrite (Hu y), (Hu z); auto.
Qed.

Lemma occ_pos_in {A} (f : A -> bool) l : (1 <= occ f l)%nat -> exists x, In x l /\ f x = true.
Proof.
  induction l as [|a l IH]; intros H; [rewrite occ_nil in H; lia|].
  rewrite occ_cons in H. destruct (f a) eqn:Ha.
  - exists a. auto with datatypes.
  - destruct IH as (x & Hx & Hfx); [lia|]. exists x. auto with datatypes.
Qed.

Lemma occ_perm {A} (f : A -> bool) l1 l2 : Permutation l1 l2 -> occ f l1 = occ f l2.
Proof.
  intros H. induction H.
  - reflexivity.
  - rewrite !occ_cons. lia.
  - rewrite !occ_cons. lia.
  - congruence.
Qed.

Lemma NoDup_flat_map {A B} (g : A -> list B) l :
  NoDup l -> (forall x, In x l -> NoDup (g x)) ->
  (forall x y b, In x l -> In y l -> In b (g x) -> In b (g y) -> x = y) ->
  NoDup (flat_map g l).
Proof.
  induction l as [|a l IH]; intros Hnd Hg Hd; simpl; [constructor|].
  inversion Hnd as [|? ? Hna Hnd']; subst.
  assert (Happ : forall l1 l2 : list B, NoDup l1 -> NoDup l2 ->
            (forall b, In b l1 -> In b l2 -> False) -> NoDup (l1 ++ l2)).
  { clear. induction l1 as [|x l1 IH1]; intros l2 H1 H2 H; simpl; [assumption|].
    inversion H1; subst. constructor.
    - rewrite in_app_iff. intros [?|?]; [contradiction|]. apply (H x); [now left|assumption].
    - apply IH1; auto. intros b Hb1 Hb2. apply (H b); [now right|assumption]. }
  apply Happ.
  - apply Hg; now left.
  - apply IH; auto with datatypes.
    intros x y b Hx Hy. apply Hd; now right.
  - intros b Hb1 Hb2. apply in_flat_map in Hb2 as (y & Hy & Hby).
    apply Hna. rewrite (Hd a y b); auto with datatypes.
Qed.
