(** List lemmas missing in the standard library. *)
From Verif.Base Require Import ZRange.

Lemma NoDup_app_inv {A} (l1 l2 : list A) :
  NoDup (l1 ++ l2) -> NoDup l1 /\ NoDup l2 /\ (forall x, In x l1 -> In x l2 -> False).
Proof.
  induction l1 as [|x l1 IH]; intros H; simpl in *.
  - split; [constructor|]. split; [assumption|]. auto.
  - inversion H as [|? ? Hn Hd]; subst. destruct (IH Hd) as (I1 & I2 & I3). split; [|split].
    + constructor; [|assumption]. intros Hin. apply Hn. apply in_or_app. now left.
    + assumption.
    + intros y [->|Hy] Hy2; [|eauto]. apply Hn. apply in_or_app. now right.
Qed.

Lemma NoDup_app_intro {A} (l1 l2 : list A) :
  NoDup l1 -> NoDup l2 -> (forall x, In x l1 -> In x l2 -> False) -> NoDup (l1 ++ l2).
Proof.
  induction l1 as [|x l1 IH]; intros H1 H2 H; simpl; [assumption|].
  inversion H1; subst. constructor.
  - rewrite in_app_iff. intros [?|?]; [contradiction|]. apply (H x); [now left|assumption].
  - apply IH; auto. intros b Hb1 Hb2. apply (H b); [now right|assumption].
Qed.
