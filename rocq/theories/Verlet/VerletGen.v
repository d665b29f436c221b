(** What the generator functors write into the lists. *)
From Coq Require Import Reals Lra.
From Verif.Base Require Import ZRange Occ OptionM.
From Verif.Grid Require Import IndexModel.
From Verif.Functor Require Import CellFunctorModel FunctorSpec SortModel SortSpec SortProofs.
From Verif.Container Require Import LinkedCellsModel LinkedCellsSpec LinkedCellsCount LinkedCellsGeo.
From Verif.Verlet Require Import VerletModel VerletSpec.
Open Scope Z_scope.

Lemma dot_sym a b : dot (rsub a b) (rsub a b) = dot (rsub b a) (rsub b a).
Proof. unfold dot, rsub. cbn [rx ry rz]. ring. Qed.

Lemma listPair_sym {P} (pos : P -> R3) il p q : listPair pos il p q = listPair pos il q p.
Proof. unfold listPair. now rewrite dot_sym. Qed.

Lemma listPair_true {P} (pos : P -> R3) il p q : (0 < il)%R -> (dist3 (pos p) (pos q) < il)%R -> listPair pos il p q = true.
Proof.
  intros Hil Hd. unfold listPair. destruct (Rlt_dec _ _) as [H|H]; [reflexivity|]. exfalso. apply H. unfold dist3 in Hd.
  assert (Hn : (0 <= dot (rsub (pos p) (pos q)) (rsub (pos p) (pos q)))%R).
  { unfold dot. pose proof (Rle_0_sqr (rx (rsub (pos p) (pos q)))). pose proof (Rle_0_sqr (ry (rsub (pos p) (pos q)))).
    pose proof (Rle_0_sqr (rz (rsub (pos p) (pos q)))). unfold Rsqr in *. lra. }
  rewrite <- (sqrt_sqrt _ Hn). pose proof (sqrt_pos (dot (rsub (pos p) (pos q)) (rsub (pos p) (pos q)))). nra.
Qed.

(** The pushes as functor calls of the traversal. *)
Definition pushCalls {P} (newton3 : bool) (l : list (P * P)) : list (Call P) :=
  map (fun '(p, q) => mkCall p q newton3) l.

Lemma pushCalls_app {P} n3 (l1 l2 : list (P * P)) : pushCalls n3 (l1 ++ l2) = pushCalls n3 l1 ++ pushCalls n3 l2.
Proof. apply map_app. Qed.

Section Gen.
  Context {P : Type}.
  Variables (pid : P -> Z) (pos : P -> R3) (il : R) (newton3 : bool) (ps : list P) (calls : list (Call P)).
  Hypothesis Hids : distinctIds pid ps.
  Hypothesis Hin : forall c, In c calls -> In (fstP c) ps /\ In (sndP c) ps.
  Hypothesis Hn3 : newton3 = true -> forall c, In c calls -> n3 c = true.

  Lemma gen_received a c : In a ps -> In c ps -> a <> c ->
    received pid (pushCalls newton3 (flat_map (genPushes pos il newton3) calls)) a c =
    if listPair pos il a c then received pid calls a c else 0%nat.
  Proof.
    intros Ia Ic Hne. revert Hin Hn3. induction calls as [|f l IH]; intros Hin Hn3.
    - now destruct (listPair pos il a c).
    - cbn [flat_map]. rewrite pushCalls_app. unfold received in *. rewrite occ_app, occ_cons.
      rewrite IH; [|intros x Hx; apply Hin; now right|intros E x Hx; apply Hn3; [exact E|now right]].
      destruct (Hin f (or_introl eq_refl)) as [If Is].
      assert (Hp : pid a <> pid c) by (intros E; apply Hne; now apply (ids_inj pid ps)).
      assert (Hhere : occ (contributes pid (pid a) (pid c)) (pushCalls newton3 (genPushes pos il newton3 f)) =
                      if listPair pos il a c then (if contributes pid (pid a) (pid c) f then 1 else 0)%nat else 0%nat).
      { destruct (contributes pid (pid a) (pid c) f) eqn:E.
        - assert (El : listPair pos il (fstP f) (sndP f) = listPair pos il a c).
          { unfold contributes in E. rewrite orb_true_iff, !andb_true_iff, !Z.eqb_eq in E.
            destruct E as [[E1 E2]|[[_ E1] E2]].
            - now rewrite (ids_inj pid ps _ _ Hids If Ia E1), (ids_inj pid ps _ _ Hids Is Ic E2).
            - rewrite (ids_inj pid ps _ _ Hids If Ic E1), (ids_inj pid ps _ _ Hids Is Ia E2). apply listPair_sym. }
          unfold genPushes. rewrite El. destruct (listPair pos il a c); [|reflexivity].
          unfold contributes in E. rewrite orb_true_iff, !andb_true_iff, !Z.eqb_eq in E.
          destruct newton3 eqn:En.
          + rewrite andb_false_r. cbn [pushCalls map]. rewrite occ_cons, occ_nil. unfold contributes. cbn [fstP sndP n3].
            destruct E as [[E1 E2]|[[_ E1] E2]].
            * rewrite E1, E2, !Z.eqb_refl. reflexivity.
            * rewrite E1, E2, !Z.eqb_refl. cbn [andb]. rewrite orb_true_r. reflexivity.
          + cbn [negb]. rewrite andb_true_r. destruct E as [[E1 E2]|[[E0 E1] E2]].
            * assert (Ha : (pid c =? pid a) = false) by (apply Z.eqb_neq; congruence).
              assert (Hb : (pid a =? pid c) = false) by (apply Z.eqb_neq; congruence).
              destruct (n3 f); cbn [pushCalls map]; rewrite ?occ_cons, occ_nil; unfold contributes; cbn [fstP sndP n3];
                rewrite E1, E2, !Z.eqb_refl, ?Ha, ?Hb; reflexivity.
            * assert (Ha : (pid c =? pid a) = false) by (apply Z.eqb_neq; congruence).
              assert (Hb : (pid a =? pid c) = false) by (apply Z.eqb_neq; congruence).
              rewrite E0. cbn [pushCalls map]; rewrite ?occ_cons, occ_nil; unfold contributes; cbn [fstP sndP n3];
                rewrite E1, E2, !Z.eqb_refl, ?Ha, ?Hb. reflexivity.
        - assert (Hz : occ (contributes pid (pid a) (pid c)) (pushCalls newton3 (genPushes pos il newton3 f)) = 0%nat).
          { apply occ_zero. intros x Hx. unfold genPushes in Hx. destruct (listPair pos il (fstP f) (sndP f)); [|destruct Hx].
            cbn [pushCalls map] in Hx. unfold contributes in E. apply orb_false_iff in E as [E1 E2].
            destruct Hx as [<-|Hx].
            - unfold contributes. cbn [fstP sndP n3]. rewrite E1. cbn [orb]. destruct newton3 eqn:En; [|reflexivity].
              rewrite (Hn3 eq_refl f (or_introl eq_refl)) in E2. exact E2.
            - destruct (n3 f) eqn:Ef; [|destruct Hx]. destruct newton3; [destruct Hx|]. cbn in Hx. destruct Hx as [<-|[]].
              unfold contributes. cbn [fstP sndP n3 andb]. rewrite orb_false_r. cbn [andb] in E2. rewrite andb_comm. exact E2. }
          rewrite Hz. now destruct (listPair pos il a c). }
      rewrite Hhere. destruct (listPair pos il a c); reflexivity.
  Qed.

  Lemma gen_in p q : In (p, q) (flat_map (genPushes pos il newton3) calls) -> In p ps /\ In q ps.
  Proof.
    intros H. apply in_flat_map in H as (c & Hc & H). destruct (Hin c Hc) as [H1 H2]. unfold genPushes in H.
    destruct (listPair pos il (fstP c) (sndP c)); [|destruct H]. destruct H as [H|H]; [injection H as <- <-; tauto|].
    destruct (n3 c && negb newton3); [|destruct H]. destruct H as [H|[]]. injection H as <- <-. tauto.
  Qed.

  (** Lists built from all pairs within the interaction length stay complete while
      no particle moves half the skin. *)
  Variables (isHalo : P -> bool) (now : P -> R3) (cut skin : R).
  Hypothesis Hcut : (0 < cut)%R.
  Hypothesis Hskin : (0 <= skin)%R.
  Hypothesis Hil : il = (cut + skin)%R.
  Hypothesis Hmoved : movedLess pos now skin ps.
  Hypothesis Hcalls : forall a c, In a ps -> In c ps -> a <> c ->
    (received pid calls a c <= 1)%nat /\
    (isHalo a = false \/ isHalo c = false -> (dist3 (pos a) (pos c) <= il)%R -> received pid calls a c = 1%nat).

  Lemma moved_close a c : In a ps -> In c ps -> (dist3 (now a) (now c) <= cut)%R -> (dist3 (pos a) (pos c) < il)%R.
  Proof.
    intros Ia Ic Hd. unfold movedLess in Hmoved. rewrite Forall_forall in Hmoved.
    pose proof (Hmoved a Ia) as Ha. pose proof (Hmoved c Ic) as Hc.
    pose proof (dist3_triangle (pos a) (now a) (pos c)). pose proof (dist3_triangle (now a) (now c) (pos c)).
    rewrite (dist3_sym (pos a) (now a)) in *. lra.
  Qed.

  Lemma gen_every : everyPairOnce pid isHalo now cut ps (pushCalls newton3 (flat_map (genPushes pos il newton3) calls)).
  Proof.
    intros a c Ia Ic Hne. rewrite gen_received by assumption. destruct (Hcalls a c Ia Ic Hne) as [H1 H2]. split.
    - destruct (listPair pos il a c); [exact H1|apply Nat.le_0_l].
    - intros Ho Hd. pose proof (moved_close a c Ia Ic Hd). rewrite listPair_true; [|lra|assumption]. apply H2; [exact Ho|lra].
  Qed.
End Gen.
