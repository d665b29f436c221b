From Verif.Base Require Import ZRange Occ.
From Verif.Grid Require Import IndexModel IndexSpec IndexProofs.
From Verif.Traversal Require Import CellSpec.

Definition same3 (a b : I3) (c : I3 * I3) : bool :=
  (i3eqb (fst c) a && i3eqb (snd c) b) || (i3eqb (fst c) b && i3eqb (snd c) a).

Lemma same3_true a b c : same3 a b c = true <->
  (fst c = a /\ snd c = b) \/ (fst c = b /\ snd c = a).
Proof. unfold same3. rewrite orb_true_iff, !andb_true_iff, !i3eqb_eq. tauto. Qed.

Lemma samePair_true a b c : samePair a b c = true <->
  (fst c = a /\ snd c = b) \/ (fst c = b /\ snd c = a).
Proof. unfold samePair. rewrite orb_true_iff, !andb_true_iff, !Z.eqb_eq. tauto. Qed.

Definition flat2 (dims : I3) (c : I3 * I3) : Z * Z :=
  (threeToOneD (fst c) dims, threeToOneD (snd c) dims).

Lemma bool_iff_eq (x y : bool) : (x = true <-> y = true) -> x = y.
Proof. destruct x, y; intuition congruence. Qed.

Lemma timesProcessed_flat dims calls3 a b :
  (forall c, In c calls3 -> inGrid dims (fst c) /\ inGrid dims (snd c)) ->
  inGrid dims a -> inGrid dims b ->
  timesProcessed dims (map (flat2 dims) calls3) a b = occ (same3 a b) calls3.
Proof.
  intros Hin Ha Hb. unfold timesProcessed. rewrite occ_map. apply occ_ext.
  intros c Hc. destruct (Hin c Hc) as [H1 H2].
  apply bool_iff_eq. rewrite samePair_true, same3_true. unfold flat2; simpl.
  split; intros [[E1 E2]|[E1 E2]].
  - left; split; now apply (threeToOneD_inj dims).
  - right; split; now apply (threeToOneD_inj dims).
  - left; split; congruence.
  - right; split; congruence.
Qed.

Lemma inBounds_flat dims calls3 :
  (forall c, In c calls3 -> inGrid dims (fst c) /\ inGrid dims (snd c)) ->
  inBounds dims (map (flat2 dims) calls3).
Proof.
  intros Hin c1 c2 H. apply in_map_iff in H as (c & E & Hc). injection E as <- <-.
  destruct (Hin c Hc). split; now apply threeToOneD_range.
Qed.

Lemma concat_map_map {A B} (f : A -> B) (ll : list (list A)) :
  concat (map (map f) ll) = map f (concat ll).
Proof. symmetry. apply concat_map. Qed.

Lemma concat_tasks {A B} (f : A -> list B) (ll : list (list A)) :
  concat (concat (map (map f) ll)) = flat_map f (concat ll).
Proof. now rewrite concat_map_map, flat_map_concat_map. Qed.

(** Race freedom of [map f bases] from pairwise disjointness over distinct bases. *)
Lemma raceFree_map {A} (f : A -> list (Z * Z)) (bases : list A) :
  NoDup bases ->
  (forall b1 b2 c, In b1 bases -> In b2 bases -> b1 <> b2 ->
     accesses (f b1) c -> accesses (f b2) c -> False) ->
  raceFree (map f bases).
Proof.
  intros Hnd H i j t1 t2 Hij H1 H2 c A1 A2.
  rewrite nth_error_map in H1, H2.
  destruct (nth_error bases i) as [b1|] eqn:E1; [|discriminate].
  destruct (nth_error bases j) as [b2|] eqn:E2; [|discriminate].
  simpl in H1, H2. injection H1 as <-. injection H2 as <-.
  apply (H b1 b2 c); auto.
  - eapply nth_error_In; eauto.
  - eapply nth_error_In; eauto.
  - intros ->. apply Hij.
    apply (proj1 (NoDup_nth_error bases) Hnd); [|congruence].
    apply nth_error_Some. congruence.
Qed.
