(** lc_c04_combined_SoA: what the rows hold after a list of pairs of cells has been
    processed. *)
From Verif.Base Require Import ZRange Occ.
From Verif.Grid Require Import IndexModel IndexSpec IndexProofs.
From Verif.Traversal Require Import CellSpec.
From Verif.Container Require Import CombinedC04Model CombinedC04Sim CombinedC04Spec.
Local Open Scope Z_scope.

Section Count.
  Context {P : Type}.
  Variable pid : P -> Z.
  Notation Logic := (Z -> list (Row P)).

  Definition num (a : P) (l : list P) : nat := occ (fun p => pid p =? pid a) l.
  Definition cnt (a c : P) (l : list (Row P)) : nat := occ (isPair pid a c) (contributions l).
  Definition b2n (b : bool) : nat := if b then 1%nat else 0%nat.

  Lemma num_cons a p l : num a (p :: l) = (b2n (pid p =? pid a)%Z + num a l)%nat.
  Proof. unfold num. rewrite occ_cons. unfold b2n. now destruct (pid p =? pid a). Qed.
  Lemma num_app a l l' : num a (l ++ l') = (num a l + num a l')%nat.
  Proof. unfold num. apply occ_app. Qed.

  Lemma occ_map_pair a c p l : occ (isPair pid a c) (map (pair p) l) = (b2n (pid p =? pid a)%Z * num c l)%nat.
  Proof.
    induction l as [|q l IH]; [cbn; destruct (pid p =? pid a); reflexivity|].
    cbn [map]. rewrite occ_cons, IH, num_cons. unfold isPair. cbn [fst snd]. unfold b2n.
    destruct (pid p =? pid a), (pid q =? pid c); cbn; lia.
  Qed.

  Lemma cnt_cons a c r l : cnt a c (r :: l) = (b2n (pid (rowP r) =? pid a)%Z * num c (got r) + cnt a c l)%nat.
  Proof. unfold cnt, contributions. cbn [flat_map]. now rewrite occ_app, occ_map_pair. Qed.

  Lemma cnt_gain a c qs l : cnt a c (map (gain qs) l) = (cnt a c l + num a (map rowP l) * num c qs)%nat.
  Proof.
    induction l as [|r l IH]; [reflexivity|]. cbn [map]. rewrite !cnt_cons, IH, num_cons. cbn [gain rowP got]. rewrite num_app.
    unfold b2n. destruct (pid (rowP r) =? pid a); lia.
  Qed.

  Lemma cnt_gainOthers a c l : pid a <> pid c -> forall bef,
    cnt a c (gainOthers bef l) = (cnt a c l + num a (map rowP l) * num c (bef ++ map rowP l))%nat.
  Proof.
    intros Hne. induction l as [|r l IH]; intros bef; [reflexivity|]. cbn [gainOthers map].
    rewrite !cnt_cons, IH, num_cons. cbn [gain rowP got]. rewrite !num_app, !num_cons. unfold b2n.
    destruct (Z.eqb_spec (pid (rowP r)) (pid a)) as [E|E], (Z.eqb_spec (pid (rowP r)) (pid c)) as [E'|E']; try lia.
    all: change (num c []) with 0%nat; lia.
  Qed.

  Lemma cnt_gainOthers_self a l : forall bef, (num a (bef ++ map rowP l) <= 1)%nat -> cnt a a (gainOthers bef l) = cnt a a l.
  Proof.
    induction l as [|r l IH]; intros bef H; [reflexivity|]. cbn [gainOthers map] in *. rewrite !cnt_cons. cbn [gain rowP got].
    rewrite IH. 2:{ rewrite !num_app, !num_cons in *. change (num a []) with 0%nat. lia. }
    rewrite !num_app, !num_cons in *. unfold b2n in *. destruct (pid (rowP r) =? pid a); lia.
  Qed.

  Lemma names_step (L : Logic) e k : names (stepE L e) k = names L k.
  Proof.
    destruct e as [i j]. unfold stepE, names. destruct (i =? j).
    - destruct (Z.eqb_spec k i) as [->|]; [apply rowP_gainOthers|reflexivity].
    - destruct (Z.eqb_spec k i) as [->|]; [apply rowP_gain|]. destruct (Z.eqb_spec k j) as [->|]; [apply rowP_gain|reflexivity].
  Qed.

  Lemma names_steps es : forall (L : Logic) k, names (fold_left stepE es L) k = names L k.
  Proof. induction es as [|e es IH]; intros L k; [reflexivity|]. cbn [fold_left]. now rewrite IH, names_step. Qed.

  Lemma length_steps es (L : Logic) k : length (fold_left stepE es L k) = length (L k).
  Proof. pose proof (f_equal (@length P) (names_steps es L k)) as H. unfold names in H. now rewrite !map_length in H. Qed.

  Lemma step_cnt (L : Logic) a c ka kc e : pid a <> pid c ->
    (forall k, num a (names L k) = b2n (k =? ka)%Z) -> (forall k, num c (names L k) = b2n (k =? kc)%Z) ->
    forall k, cnt a c (stepE L e k) = (cnt a c (L k) + b2n (k =? ka)%Z * b2n (samePair ka kc e))%nat.
  Proof.
    intros Hne Ha Hc k. destruct e as [i j]. unfold stepE, samePair. cbn [fst snd]. unfold names in *.
    destruct (Z.eqb_spec i j) as [<-|Hij].
    - destruct (Z.eqb_spec k i) as [->|Hk].
      + rewrite cnt_gainOthers by exact Hne. cbn [app]. rewrite Ha, Hc. unfold b2n. destruct (i =? ka), (i =? kc); cbn; lia.
      + unfold b2n. destruct (Z.eqb_spec k ka) as [->|]; [|lia]. apply not_eq_sym, Z.eqb_neq in Hk. rewrite Hk, andb_false_r. cbn. lia.
    - destruct (Z.eqb_spec k i) as [->|Hki]; [|destruct (Z.eqb_spec k j) as [->|Hkj]].
      + rewrite cnt_gain, Ha, Hc. unfold b2n. destruct (Z.eqb_spec i ka) as [->|]; [|reflexivity].
        apply not_eq_sym, Z.eqb_neq in Hij. rewrite Hij, andb_false_r, orb_false_r. cbn. destruct (j =? kc); lia.
      + rewrite cnt_gain, Ha, Hc. unfold b2n. destruct (Z.eqb_spec j ka) as [->|]; [|reflexivity].
        apply Z.eqb_neq in Hij. rewrite Hij, andb_true_r. cbn. destruct (i =? kc); lia.
      + unfold b2n. destruct (Z.eqb_spec k ka) as [->|]; [|lia].
        apply not_eq_sym, Z.eqb_neq in Hki. apply not_eq_sym, Z.eqb_neq in Hkj. rewrite Hki, Hkj, andb_false_r. cbn. lia.
  Qed.

  Lemma steps_cnt a c ka kc es : pid a <> pid c -> forall L : Logic,
    (forall k, num a (names L k) = b2n (k =? ka)%Z) -> (forall k, num c (names L k) = b2n (k =? kc)%Z) ->
    forall k, cnt a c (fold_left stepE es L k) = (cnt a c (L k) + b2n (k =? ka)%Z * occ (samePair ka kc) es)%nat.
  Proof.
    intros Hne. induction es as [|e es IH]; intros L Ha Hc k; [rewrite Nat.mul_0_r; cbn [fold_left]; lia|].
    cbn [fold_left]. rewrite IH by (intros k'; rewrite names_step; auto). rewrite (step_cnt L a c ka kc e Hne Ha Hc k), occ_cons.
    unfold b2n. destruct (k =? ka), (samePair ka kc e); lia.
  Qed.

  Lemma steps_self a ka es : forall L : Logic, (forall k, num a (names L k) = b2n (k =? ka)%Z) ->
    forall k, cnt a a (fold_left stepE es L k) = cnt a a (L k).
  Proof.
    induction es as [|e es IH]; intros L Ha k; [reflexivity|]. cbn [fold_left]. rewrite IH by (intros k'; rewrite names_step; auto).
    destruct e as [i j]. unfold stepE. unfold names in *. destruct (Z.eqb_spec i j) as [<-|Hij].
    - destruct (Z.eqb_spec k i) as [->|Hk]; [|reflexivity]. apply cnt_gainOthers_self. cbn [app]. rewrite Ha. unfold b2n. destruct (i =? ka); lia.
    - destruct (Z.eqb_spec k i) as [->|Hki]; [|destruct (Z.eqb_spec k j) as [->|Hkj]; [|reflexivity]].
      + rewrite cnt_gain, !Ha. unfold b2n. destruct (Z.eqb_spec i ka) as [->|]; [|lia]. apply not_eq_sym, Z.eqb_neq in Hij. rewrite Hij. lia.
      + rewrite cnt_gain, !Ha. unfold b2n. destruct (Z.eqb_spec j ka) as [->|]; [|lia]. apply Z.eqb_neq in Hij. rewrite Hij. lia.
  Qed.

  (** Only the cells of the pairs matter and change. *)
  Lemma steps_local (C : Z -> Prop) es : (forall e, In e es -> C (fst e) /\ C (snd e)) -> forall L L' : Logic,
    (forall k, C k -> L k = L' k) ->
    (forall k, C k -> fold_left stepE es L k = fold_left stepE es L' k) /\ (forall k, ~ C k -> fold_left stepE es L k = L k).
  Proof.
    induction es as [|e es IH]; intros He L L' HL; [now split|].
    cbn [fold_left]. destruct (He e (or_introl eq_refl)) as [C1 C2]. destruct e as [i j]. cbn [fst snd] in *.
    destruct (IH (fun e H => He e (or_intror H)) (stepE L (i, j)) (stepE L' (i, j))) as [G1 G2].
    - intros k Hk. unfold stepE, names. now rewrite !(HL i C1), !(HL j C2), (HL k Hk).
    - split; [exact G1|]. intros k Hk. rewrite G2 by exact Hk. unfold stepE.
      assert (k <> i) by (intros ->; contradiction). assert (k <> j) by (intros ->; contradiction).
      rewrite (proj2 (Z.eqb_neq k i)), (proj2 (Z.eqb_neq k j)) by assumption. now destruct (i =? j).
  Qed.
End Count.
