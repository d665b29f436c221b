(** What the particles receive from a list of cell functor calls. *)
From Coq Require Import Reals Lra ZifyBool.
From Verif.Base Require Import ZRange Occ Lists.
From Verif.Grid Require Import IndexModel.
From Verif.Functor Require Import CellFunctorModel FunctorSpec CellFunctorProofs SortModel SortSpec SortProofs
  CellFunctor3BModel Functor3BSpec CellFunctor3BProofs CellFunctor3BCounts.
From Verif.Container Require Import LinkedCellsModel LinkedCellsGeo CellCallsModel.
Local Open Scope Z_scope.

(** In pair and triple calls the newton3 flag is the one of the cell functor. *)
Section Flag.
  Context {P : Type}.
  Variables (view : list P -> list P) (far : P -> P -> bool) (cf : CFSettings).

  Lemma interactPair3_flag cf' trs c : In c (flat_map (@interactPair3 P cf') trs) -> p3n c = useNewton3 cf'.
  Proof.
    intros H. apply in_flat_map in H as ([[[p q] s] f] & _ & H). unfold interactPair3 in H.
    destruct (useNewton3 cf').
    - destruct H as [<-|[]]. reflexivity.
    - destruct H as [<-|H]; [reflexivity|]. apply in_app_iff in H as [H|H];
        destruct f, (bidirectional cf'); cbn in H; repeat destruct H as [<-|H]; try reflexivity; try destruct H.
  Qed.
  Lemma pair3_flag hasDir c1 c2 c : In c (processCellPair3 view far cf hasDir c1 c2) -> p3n c = useNewton3 cf.
  Proof.
    unfold processCellPair3. destruct (parts c1), (parts c2); try (intros []).
    destruct (_ || _); [intros []|]. destruct (layout cf).
    - apply interactPair3_flag.
    - rewrite !soaPair3_eq. destruct (useNewton3 cf) eqn:E; [apply interactPair3_flag|].
      intros H. apply in_app_iff in H as [H|H]; [exact (interactPair3_flag _ _ _ H)|].
      destruct (bidirectional cf); [exact (interactPair3_flag _ _ _ H)|destruct H].
  Qed.
  Lemma interactTriple3_flag cf' trs c : In c (flat_map (@interactTriple3 P cf') trs) -> p3n c = useNewton3 cf'.
  Proof.
    intros H. apply in_flat_map in H as ([[p q] s] & _ & H). unfold interactTriple3 in H.
    destruct (useNewton3 cf').
    - destruct H as [<-|[]]. reflexivity.
    - destruct (bidirectional cf'); cbn in H; repeat destruct H as [<-|H]; try reflexivity; destruct H.
  Qed.
  Lemma triple3_flag hasDir c1 c2 c3 c : In c (processCellTriple3 view far cf hasDir c1 c2 c3) -> p3n c = useNewton3 cf.
  Proof.
    unfold processCellTriple3. destruct (parts c1), (parts c2), (parts c3); try (intros []).
    destruct (_ || _); [intros []|]. destruct (layout cf).
    - apply interactTriple3_flag.
    - rewrite !soaTriple3_eq. destruct (useNewton3 cf) eqn:E; [apply interactTriple3_flag|].
      intros H. apply in_app_iff in H as [H|H]; [exact (interactTriple3_flag _ _ _ H)|].
      destruct (bidirectional cf); [|destruct H].
      apply in_app_iff in H as [H|H]; exact (interactTriple3_flag _ _ _ H).
  Qed.
End Flag.

Lemma filter_distinct {P} (pid : P -> Z) f l : distinctIds pid l -> distinctIds pid (filter f l).
Proof.
  unfold distinctIds. induction l as [|x l IH]; [constructor|]. cbn [map]. intros H. inversion H as [|? ? Hn Hd]; subst.
  cbn [filter]. destruct (f x); [|now apply IH]. cbn [map]. constructor; [|now apply IH].
  intros H'. apply Hn. apply in_map_iff in H' as (y & E & Hy). apply filter_In in Hy as [Hy _]. rewrite <- E. now apply in_map.
Qed.

Lemma two_cases ka kb kd k1 k2 (n : bool) :
  ((ka =? k1) || (ka =? k2)) && ((kb =? k1) || (kb =? k2)) && ((kd =? k1) || (kd =? k2)) &&
  negb ((ka =? kb) && (kb =? kd)) && (n || (ka =? k1)) = true ->
  (ka = k1 /\ kb = k1 /\ kd = k2) \/ (ka = k1 /\ kb = k2 /\ kd = k1) \/ (ka = k1 /\ kb = k2 /\ kd = k2) \/
  (n = true /\ ((ka = k2 /\ kb = k1 /\ kd = k1) \/ (ka = k2 /\ kb = k1 /\ kd = k2) \/ (ka = k2 /\ kb = k2 /\ kd = k1))).
Proof.
  rewrite !andb_true_iff, !orb_true_iff, negb_true_iff, andb_false_iff, !Z.eqb_eq, !Z.eqb_neq.
  intros ((((A & B) & D) & N) & E).
  destruct A as [A|A], B as [B|B], D as [D|D]; subst ka kb kd; try (exfalso; destruct N as [N|N]; now apply N); auto 10;
    destruct E as [E|E]; auto 10; subst k2; tauto.
Qed.
Lemma three_cases ka kb kd k1 k2 k3 (n : bool) :
  (ka =? k1) && ((kb =? k2) && (kd =? k3) || (kb =? k3) && (kd =? k2)) ||
  n && ((ka =? k2) && ((kb =? k1) && (kd =? k3) || (kb =? k3) && (kd =? k1)) ||
        (ka =? k3) && ((kb =? k1) && (kd =? k2) || (kb =? k2) && (kd =? k1))) = true ->
  (ka = k1 /\ kb = k2 /\ kd = k3) \/ (ka = k1 /\ kd = k2 /\ kb = k3) \/
  (n = true /\ ((ka = k2 /\ kb = k1 /\ kd = k3) \/ (ka = k2 /\ kd = k1 /\ kb = k3) \/
    (ka = k3 /\ kb = k1 /\ kd = k2) \/ (ka = k3 /\ kd = k1 /\ kb = k2))).
Proof.
  repeat rewrite ?orb_true_iff, ?andb_true_iff, ?Z.eqb_eq. tauto.
Qed.

Section Count.
  Context {P : Type}.
  Variables (pid : P -> Z) (isHalo : P -> bool) (pos : P -> R3) (view : R3 -> list P -> list P).
  Variables (cf : CFSettings) (sc : R) (cellDir : R3).
  Variables (ps : list P) (at_ : P -> Z) (own : Z -> bool) (cells : list (Cell P)).
  Hypothesis Hview : forall dir l, isSortedView pos dir l (view dir l).
  Hypothesis Hcd : (dot cellDir cellDir <= 1)%R.
  Hypothesis Hids : distinctIds pid ps.
  Hypothesis Hown : forall p, In p ps -> own (at_ p) = negb (isHalo p).
  Hypothesis Hbi : bidirectional cf = false.

  Definition content (i : Z) : list P := filter (fun p => at_ p =? i) ps.
  Definition cellAt (i : Z) : Cell P := mkCell (content i) (own i).
  Definition stored (i : Z) : Prop := nth_error cells (Z.to_nat i) = Some (cellAt i).
  (** The sorting direction does not lead back. *)
  Definition leads (c1 c2 : Z) (dir : option R3) : Prop :=
    match dir with
    | Some d => (dot d d <= 1)%R /\ forall p q, In p (content c1) -> In q (content c2) ->
                  (projection pos d p - projection pos d q <= sc)%R
    | None => True
    end.
  Definition wellCalled (call : CellCall) : Prop :=
    match call with
    | OneCell c => stored c
    | TwoCells c1 c2 dir => stored c1 /\ stored c2 /\ c1 <> c2 /\ leads c1 c2 dir
    | ThreeCells c1 c2 c3 dir => stored c1 /\ stored c2 /\ stored c3 /\ c1 <> c2 /\ c1 <> c3 /\ c2 <> c3 /\ leads c1 c2 dir
    end.

  Let viewPerm d l : Permutation l (view d l).
  Proof. apply Hview. Qed.
  Let viewIn d l x : In x (view d l) -> In x l.
  Proof. intros H. eapply Permutation_in; [apply Permutation_sym, viewPerm|exact H]. Qed.

  Lemma content_in i p : In p (content i) <-> In p ps /\ at_ p = i.
  Proof. unfold content. rewrite filter_In, Z.eqb_eq. tauto. Qed.
  Lemma inj x y : In x ps -> In y ps -> pid x = pid y -> x = y.
  Proof. intros Hx Hy E. exact (distinct_inj pid ps x y Hids Hx Hy E). Qed.
  Lemma ids_sub f : distinctIds pid (filter f ps).
  Proof. now apply filter_distinct. Qed.
  Lemma ids_app l l' : distinctIds pid l -> distinctIds pid l' -> (forall x y, In x l -> In y l' -> pid x <> pid y) -> distinctIds pid (l ++ l').
  Proof.
    intros H1 H2 H. unfold distinctIds in *. rewrite map_app. apply NoDup_app_intro; auto.
    intros z A B. apply in_map_iff in A as (x & Ex & Hx). apply in_map_iff in B as (y & Ey & Hy). apply (H x y Hx Hy). congruence.
  Qed.
  Lemma cross_ids i j x y : i <> j -> In x (content i) -> In y (content j) -> pid x <> pid y.
  Proof. intros N Hx Hy E. apply content_in in Hx as [Ix Ex]. apply content_in in Hy as [Iy Ey]. pose proof (inj x y Ix Iy E). subst y. congruence. Qed.
  Lemma ids_two i j : i <> j -> distinctIds pid (content i ++ content j).
  Proof. intros N. apply ids_app; try apply ids_sub. intros x y. now apply cross_ids. Qed.
  Lemma ids_three i j k : i <> j -> i <> k -> j <> k -> distinctIds pid (content i ++ content j ++ content k).
  Proof.
    intros N1 N2 N3. apply ids_app; [apply ids_sub|now apply ids_two|].
    intros x y Hx Hy. apply in_app_iff in Hy as [Hy|Hy]; [apply (cross_ids i j)|apply (cross_ids i k)]; assumption.
  Qed.
  Lemma safe c1 c2 d p : leads c1 c2 (Some d) -> In p (content c1) -> breakSafe (farAlong pos sc d) p (view d (content c2)).
  Proof. intros [_ Hl] Hp. apply sorted_breakSafe; [apply Hview|]. intros q Hq. apply Hl; [exact Hp|]. now apply viewIn in Hq. Qed.
  Lemma safeAll d l : suffixesSafe (farAlong pos sc d) (view d l).
  Proof. apply sorted_suffixesSafe. apply Hview. Qed.

  (** * Pairwise *)
  Section Pair.
    Variables a c : P.
    Hypothesis Ia : In a ps.
    Hypothesis Ic : In c ps.
    Hypothesis Hne : a <> c.

    (** The call handles the two cells of a and c, for a. *)
    Definition handles (call : CellCall) : bool :=
      match call with
      | OneCell k => (at_ a =? k) && (at_ c =? k)
      | TwoCells k1 k2 _ => (at_ a =? k1) && (at_ c =? k2) || useNewton3 cf && (at_ a =? k2) && (at_ c =? k1)
      | ThreeCells _ _ _ _ => false
      end.

    Lemma pair_other call : wellCalled call -> handles call = false ->
      received pid (pairCalls isHalo view pos cf sc cellDir cells call) a c = 0%nat.
    Proof.
      intros Hw Hh. unfold received. apply occ_zero. intros f Hf.
      destruct (contributes pid (pid a) (pid c) f) eqn:E; [exfalso|reflexivity].
      unfold contributes in E. rewrite orb_true_iff, !andb_true_iff, !Z.eqb_eq in E.
      destruct call as [k|k1 k2 dir|k1 k2 k3 dir]; cbn [wellCalled pairCalls handles] in *; [| |destruct Hf].
      - unfold cellNo in Hf. rewrite Hw in Hf.
        apply (processCell_sub pid) in Hf; [|intros x; apply viewIn| |apply ids_sub].
        2: { unfold distinctIds. eapply Permutation_NoDup; [apply Permutation_map, viewPerm|apply (ids_sub (fun p => at_ p =? k))]. }
        cbn [cellAt parts] in Hf. destruct Hf as (F1 & F2 & _). apply content_in in F1 as [I1 E1]. apply content_in in F2 as [I2 E2].
        assert (X : at_ a = k /\ at_ c = k).
        { destruct E as [[G1 G2]|[[_ G1] G2]].
          - rewrite <- (inj _ _ I1 Ia G1), <- (inj _ _ I2 Ic G2). auto.
          - rewrite <- (inj _ _ I2 Ia G2), <- (inj _ _ I1 Ic G1). auto. }
        destruct X as [X1 X2]. rewrite X1, X2, Z.eqb_refl in Hh. discriminate.
      - destruct Hw as (W1 & W2 & N & L). unfold cellNo in Hf. rewrite W1, W2 in Hf.
        assert (Hn3 : n3 f = true -> useNewton3 cf = true).
        { clear -Hf Hbi. unfold processCellPair in Hf. destruct (parts (cellAt k1)), (parts (cellAt k2)); try (now destruct Hf).
          destruct (_ || _) in Hf; [destruct Hf|]. destruct (useNewton3 cf) eqn:En; [auto|]. intros Ht. exfalso.
          destruct (layout cf).
          - unfold processCellPairAoS in Hf. apply in_flat_map in Hf as ([p' q'] & _ & Hc).
            unfold interactPair in Hc. rewrite En, Hbi in Hc. cbn in Hc. destruct Hc as [<-|[]]. discriminate.
          - unfold processCellPairSoA in Hf. rewrite En, Hbi, app_nil_r in Hf. unfold soaPair in Hf.
            apply in_flat_map in Hf as (p' & _ & Hc). apply in_map_iff in Hc as (q' & <- & _). discriminate. }
        apply (processCellPair_sub pid _ isHalo) in Hf; [|intros ? x _; apply viewIn].
        cbn [cellAt parts] in Hf. rewrite Hbi in Hf.
        assert (X : (at_ a = k1 /\ at_ c = k2) \/ (useNewton3 cf = true /\ at_ a = k2 /\ at_ c = k1)).
        { destruct Hf as [[F1 F2]|(Hn & F1 & F2)]; apply content_in in F1 as [I1 E1]; apply content_in in F2 as [I2 E2];
            (destruct E as [[G1 G2]|[[Hn' G1] G2]];
             [rewrite <- (inj _ _ I1 Ia G1), <- (inj _ _ I2 Ic G2)|rewrite <- (inj _ _ I2 Ia G2), <- (inj _ _ I1 Ic G1)]).
          - auto.
          - right. auto.
          - right. split; [|auto]. destruct Hn; [auto|discriminate].
          - auto. }
        destruct X as [[X1 X2]|(Hn & X1 & X2)].
        + rewrite X1, X2, !Z.eqb_refl in Hh. discriminate.
        + rewrite X1, X2, Hn, !Z.eqb_refl in Hh. cbn [andb] in Hh. rewrite orb_true_r in Hh. discriminate.
    Qed.

    Definition handled2 (call : CellCall) : nat := if handles call then 1%nat else 0%nat.

    Lemma pair_call call : wellCalled call ->
      (received pid (pairCalls isHalo view pos cf sc cellDir cells call) a c <= handled2 call)%nat /\
      (isHalo a = false \/ (useNewton3 cf = true /\ isHalo c = false) -> (dist3 (pos a) (pos c) <= sc)%R ->
       received pid (pairCalls isHalo view pos cf sc cellDir cells call) a c = handled2 call).
    Proof.
      intros Hw. unfold handled2. destruct (handles call) eqn:Hh; [|rewrite (pair_other call Hw Hh); auto].
      destruct call as [k|k1 k2 dir|k1 k2 k3 dir]; cbn [wellCalled pairCalls handles] in *; [| |discriminate].
      - unfold cellNo. rewrite Hw. apply andb_true_iff in Hh as [Ha Hc]. apply Z.eqb_eq in Ha, Hc.
        assert (Ja : In a (content k)) by (apply content_in; auto). assert (Jc : In c (content k)) by (apply content_in; auto).
        assert (O : own k = negb (isHalo a)) by (rewrite <- Ha; now apply Hown).
        assert (Oc : own k = negb (isHalo c)) by (rewrite <- Hc; now apply Hown).
        assert (Hperm : Permutation (parts (cellAt k)) (view cellDir (parts (cellAt k)))) by apply viewPerm.
        destruct (isHalo a) eqn:Eh; cbn [negb] in O.
        + assert (Z0 : processCell isHalo (view cellDir) (farAlong pos sc cellDir) cf (cellAt k) = []).
          { unfold processCell. cbn [cellAt parts mayOwn]. rewrite O. cbn. now destruct (content k). }
          rewrite Z0. split; [cbn; lia|]. intros [?|[_ Ec]]; [discriminate|]. rewrite Ec in Oc. cbn in Oc. congruence.
        + destruct (processCell_received pid (farAlong pos sc cellDir) isHalo (view cellDir) cf (cellAt k) a c Hperm
            (ids_sub (fun p => at_ p =? k)) O Ja Jc Hne) as [Hle Heq].
          assert (X : expectedSame isHalo cf a = 1%nat).
          { unfold expectedSame. rewrite Eh. cbn [negb]. rewrite orb_true_r. now destruct (layout cf). }
          rewrite X in *. split; [exact Hle|]. intros _ D. apply Heq. right. right.
          split; [apply safeAll|]. split; apply far_false_of_near; auto. now rewrite dist3_sym.
      - destruct Hw as (W1 & W2 & N & L). unfold cellNo. rewrite W1, W2.
        assert (Hcase : forall x y, In x (content k1) -> In y (content k2) ->
          let calls := processCellPair (view (orZero dir)) (farAlong pos sc (orZero dir)) cf (given dir) (cellAt k1) (cellAt k2) in
          let back := if useNewton3 cf then 1%nat else 0%nat in
          ((received pid calls x y <= 1)%nat /\ (received pid calls y x <= back)%nat) /\
          ((isHalo x = false \/ (useNewton3 cf = true /\ isHalo y = false)) -> (dist3 (pos x) (pos y) <= sc)%R ->
           received pid calls x y = 1%nat /\ received pid calls y x = back)).
        { intros x y Hx Hy. cbv zeta.
          assert (Ox : own k1 = negb (isHalo x)) by (apply content_in in Hx as [I <-]; now apply Hown).
          assert (Oy : own k2 = negb (isHalo y)) by (apply content_in in Hy as [I <-]; now apply Hown).
          destruct (Bool.bool_dec (own k1 || own k2 && useNewton3 cf) true) as [Hr|Hr].
          - assert (Hrel : pairRelevant cf (cellAt k1) (cellAt k2)).
            { unfold pairRelevant. cbn [cellAt mayOwn]. apply orb_true_iff in Hr as [Hr|Hr]; [now left|].
              apply andb_true_iff in Hr as [H1 H2]. right. auto. }
            destruct (processCellPair_received pid (farAlong pos sc (orZero dir)) (view (orZero dir)) cf (given dir) (cellAt k1) (cellAt k2) x y
              ltac:(intros; apply viewPerm) (ids_two k1 k2 N) Hrel Hx Hy) as (H1 & H2 & H3).
            rewrite Hbi, orb_false_r in H2, H3. split; [split; [exact H1|exact H2]|].
            intros _ D. apply H3. destruct dir as [d|]; [|cbn [given]; auto]. right. right. right. cbn [orZero].
            split; [now apply (safe k1 k2)|]. apply far_false_of_near; [exact (proj1 L)|exact D].
          - assert (Z0 : processCellPair (view (orZero dir)) (farAlong pos sc (orZero dir)) cf (given dir) (cellAt k1) (cellAt k2) = []).
            { unfold processCellPair. cbn [cellAt parts mayOwn]. rewrite Hbi.
              destruct (own k1), (own k2), (useNewton3 cf); cbn in Hr; try (exfalso; apply Hr; reflexivity); cbn;
                destruct (content k1), (content k2); reflexivity. }
            rewrite Z0. cbn. split; [split; [|destruct (useNewton3 cf)]; lia|].
            intros Ho _. exfalso. apply Hr. rewrite Ox, Oy. destruct Ho as [->|[-> ->]]; cbn; [reflexivity|apply orb_true_r]. }
        apply orb_true_iff in Hh as [Hh|Hh].
        + apply andb_true_iff in Hh as [Ha Hc]. apply Z.eqb_eq in Ha, Hc.
          destruct (Hcase a c) as [[H1 _] H2]; [apply content_in; auto..|]. split; [exact H1|]. intros Ho D. now apply H2.
        + apply andb_true_iff in Hh as [Hh Hc]. apply andb_true_iff in Hh as [Hn Ha]. apply Z.eqb_eq in Ha, Hc.
          destruct (Hcase c a) as [[_ H1] H2]; [apply content_in; auto..|]. rewrite Hn in H1, H2. split; [exact H1|].
          intros Ho D. rewrite dist3_sym in D. apply H2; [|exact D]. destruct Ho as [Ho|[_ Ho]]; auto.
    Qed.

    Lemma pair_total calls : Forall wellCalled calls ->
      let got := received pid (flat_map (pairCalls isHalo view pos cf sc cellDir cells) calls) a c in
      (got <= occ handles calls)%nat /\
      (isHalo a = false \/ (useNewton3 cf = true /\ isHalo c = false) -> (dist3 (pos a) (pos c) <= sc)%R -> got = occ handles calls).
    Proof.
      cbv zeta. induction 1 as [|x l Hx Hl [IH1 IH2]]; [split; [apply Nat.le_refl|reflexivity]|].
      cbn [flat_map]. unfold received in *. rewrite occ_app, occ_cons.
      destruct (pair_call x Hx) as [H1 H2]. unfold received, handled2 in H1, H2. split; [lia|].
      intros Ho D. now rewrite IH2, H2.
    Qed.
  End Pair.

  (** * Three-body *)
  Section Triple.
    Variables a b d : P.
    Hypothesis Ia : In a ps.
    Hypothesis Ib : In b ps.
    Hypothesis Id : In d ps.
    Hypothesis Nab : a <> b.
    Hypothesis Nad : a <> d.
    Hypothesis Nbd : b <> d.

    Definition isOneOf (k1 k2 k : Z) : bool := (k =? k1) || (k =? k2).
    (** The call handles the cells of a, b and d, for a. *)
    Definition handles3 (call : CellCall) : bool :=
      match call with
      | OneCell k => (at_ a =? k) && (at_ b =? k) && (at_ d =? k)
      | TwoCells k1 k2 _ =>
          isOneOf k1 k2 (at_ a) && isOneOf k1 k2 (at_ b) && isOneOf k1 k2 (at_ d) &&
          negb ((at_ a =? at_ b) && (at_ b =? at_ d)) && (useNewton3 cf || (at_ a =? k1))
      | ThreeCells k1 k2 k3 _ =>
          (at_ a =? k1) && ((at_ b =? k2) && (at_ d =? k3) || (at_ b =? k3) && (at_ d =? k2)) ||
          useNewton3 cf &&
          ((at_ a =? k2) && ((at_ b =? k1) && (at_ d =? k3) || (at_ b =? k3) && (at_ d =? k1)) ||
           (at_ a =? k3) && ((at_ b =? k1) && (at_ d =? k2) || (at_ b =? k2) && (at_ d =? k1)))
      end.

    Lemma contrib_cases f : contributes3 pid (pid a) (pid b) (pid d) f = true ->
      In (p3a f) ps -> In (p3b f) ps -> In (p3c f) ps ->
      (p3a f = a /\ (p3b f = b /\ p3c f = d \/ p3b f = d /\ p3c f = b)) \/
      (p3n f = true /\
       ((p3b f = a /\ (p3a f = b /\ p3c f = d \/ p3a f = d /\ p3c f = b)) \/
        (p3c f = a /\ (p3a f = b /\ p3b f = d \/ p3a f = d /\ p3b f = b)))).
    Proof.
      intros H I1 I2 I3. unfold contributes3, samePairId in H.
      rewrite !orb_true_iff, !andb_true_iff, !orb_true_iff, !andb_true_iff, !orb_true_iff, !andb_true_iff, !Z.eqb_eq in H.
      destruct H as [[H1 [[H2 H3]|[H2 H3]]]|[Hn [[H1 [[H2 H3]|[H2 H3]]]|[H1 [[H2 H3]|[H2 H3]]]]]];
        apply inj in H1; auto; apply inj in H2; auto; apply inj in H3; auto; auto 10.
    Qed.

    Lemma triple_other call : wellCalled call -> handles3 call = false ->
      received3 pid (tripleCalls isHalo view pos cf sc cellDir cells call) a b d = 0%nat.
    Proof.
      intros Hw Hh. unfold received3. apply occ_zero. intros f Hf.
      destruct (contributes3 pid (pid a) (pid b) (pid d) f) eqn:E; [exfalso|reflexivity].
      destruct call as [k|k1 k2 dir|k1 k2 k3 dir]; cbn [wellCalled tripleCalls handles3] in *.
      - unfold cellNo in Hf. rewrite Hw in Hf.
        apply (processCell3_sub pid isHalo) in Hf; [|intros x; apply viewIn].
        destruct Hf as (F1 & F2 & F3). cbn [cellAt parts] in *. apply content_in in F1 as [I1 E1]. apply content_in in F2 as [I2 E2]. apply content_in in F3 as [I3 E3].
        pose proof (contrib_cases f E I1 I2 I3) as C.
        destruct C as [(X1 & [[X2 X3]|[X2 X3]])|(_ & [(X1 & [[X2 X3]|[X2 X3]])|(X1 & [[X2 X3]|[X2 X3]])])];
          rewrite X1 in *; rewrite X2 in *; rewrite X3 in *; lia.
      - destruct Hw as (W1 & W2 & N & L). unfold cellNo in Hf. rewrite W1, W2 in Hf.
        pose proof (ids_two k1 k2 N) as Hd2.
        apply (processCellPair3_sub pid isHalo) in Hf; [|intros ? x _; apply viewIn].
        destruct Hf as ((F1 & F2 & F3) & Hn & N1 & N2). cbn [cellAt parts] in *. rewrite Hbi, orb_false_r in Hn.
        rewrite !in_app_iff, !content_in in F1, F2, F3.
        rewrite !content_in in N1, N2.
        assert (I1 : In (p3a f) ps) by tauto. assert (I2 : In (p3b f) ps) by tauto. assert (I3 : In (p3c f) ps) by tauto.
        assert (G1 : at_ (p3a f) = k1 \/ at_ (p3a f) = k2) by tauto. assert (G2 : at_ (p3b f) = k1 \/ at_ (p3b f) = k2) by tauto.
        assert (G3 : at_ (p3c f) = k1 \/ at_ (p3c f) = k2) by tauto.
        assert (M1 : ~ (at_ (p3a f) = k1 /\ at_ (p3b f) = k1 /\ at_ (p3c f) = k1)) by tauto.
        assert (M2 : ~ (at_ (p3a f) = k2 /\ at_ (p3b f) = k2 /\ at_ (p3c f) = k2)) by tauto.
        assert (Hn' : useNewton3 cf = false -> at_ (p3a f) = k1 /\ p3n f = false).
        { intros En. destruct (Hn En) as [Q1 Q2]. apply content_in in Q1. tauto. }
        clear Hn F1 F2 F3 N1 N2 Hd2.
        pose proof (contrib_cases f E I1 I2 I3) as C. clear E I1 I2 I3. unfold isOneOf in Hh.
        destruct (useNewton3 cf) eqn:En.
        + clear Hn'. destruct C as [(E1 & [[E2 E3]|[E2 E3]])|(_ & [(E1 & [[E2 E3]|[E2 E3]])|(E1 & [[E2 E3]|[E2 E3]])])];
            rewrite E1 in *; rewrite E2 in *; rewrite E3 in *; lia.
        + destruct (Hn' eq_refl) as [Q1 Q2]. rewrite Q2 in C.
          destruct C as [(E1 & [[E2 E3]|[E2 E3]])|(Q3 & _)]; [| |discriminate]; rewrite E1 in *; rewrite E2 in *; rewrite E3 in *; lia.
      - destruct Hw as (W1 & W2 & W3 & N1 & N2 & N3 & L). unfold cellNo in Hf. rewrite W1, W2, W3 in Hf.
        pose proof (triple3_flag _ _ _ _ _ _ _ _ Hf) as Hn.
        apply (processCellTriple3_sub pid isHalo) in Hf; [|intros ? x _; apply viewIn].
        destruct Hf as (p & q & s & F1 & F2 & F3 & Hf). cbn [cellAt parts] in *. rewrite !content_in in F1, F2, F3.
        destruct Hf as [(Ef1 & Ef2 & Ef3)|(Hb & _)]; [|congruence].
        pose proof (contrib_cases f E) as C. rewrite Ef1, Ef2, Ef3, Hn in C.
        specialize (C (proj1 F1) (proj1 F2) (proj1 F3)). destruct F1 as [_ F1], F2 as [_ F2], F3 as [_ F3].
        destruct C as [(E1 & [[E2 E3]|[E2 E3]])|(En & [(E1 & [[E2 E3]|[E2 E3]])|(E1 & [[E2 E3]|[E2 E3]])])];
          try rewrite En in Hh; clear -Hh F1 F2 F3 E1 E2 E3; subst p q s; lia.
    Qed.

    Definition handledN (call : CellCall) : nat := if handles3 call then 1%nat else 0%nat.
    Definition allWithin : Prop := (dist3 (pos a) (pos b) <= sc)%R /\ (dist3 (pos a) (pos d) <= sc)%R /\ (dist3 (pos b) (pos d) <= sc)%R.

    Let both x y : (dist3 (pos x) (pos y) <= sc)%R -> within pos sc x y.
    Proof. intros H. split; [exact H|]. rewrite dist3_sym. exact H. Qed.

    Lemma triple_call call : wellCalled call ->
      (received3 pid (tripleCalls isHalo view pos cf sc cellDir cells call) a b d <= handledN call)%nat /\
      (isHalo a = false -> allWithin ->
       received3 pid (tripleCalls isHalo view pos cf sc cellDir cells call) a b d = handledN call).
    Proof.
      intros Hw. unfold handledN. destruct (handles3 call) eqn:Hh; [|rewrite (triple_other call Hw Hh); auto].
      assert (Oa : forall k, at_ a = k -> own k = negb (isHalo a)) by (intros k <-; now apply Hown).
      assert (Ob : forall k, at_ b = k -> own k = negb (isHalo b)) by (intros k <-; now apply Hown).
      assert (Od : forall k, at_ d = k -> own k = negb (isHalo d)) by (intros k <-; now apply Hown).
      assert (Ja : forall k, at_ a = k -> In a (content k)) by (intros k H; now apply content_in).
      assert (Jb : forall k, at_ b = k -> In b (content k)) by (intros k H; now apply content_in).
      assert (Jd : forall k, at_ d = k -> In d (content k)) by (intros k H; now apply content_in).
      destruct call as [k|k1 k2 dir|k1 k2 k3 dir]; cbn [wellCalled tripleCalls handles3] in *.
      - unfold cellNo. rewrite Hw. rewrite !andb_true_iff, !Z.eqb_eq in Hh. destruct Hh as [[Ha Hb] Hd].
        assert (Hperm : Permutation (parts (cellAt k)) (view cellDir (parts (cellAt k)))) by apply viewPerm.
        destruct (isHalo a) eqn:Eh; cbn [negb] in Oa.
        + assert (Z0 : processCell3 isHalo (view cellDir) (farAlong pos sc cellDir) cf (cellAt k) = []).
          { unfold processCell3. cbn [cellAt parts mayOwn]. rewrite (Oa k Ha). cbn. now destruct (content k). }
          rewrite Z0. split; [cbn; lia|]. discriminate.
        + destruct (processCell3_received pid isHalo (view cellDir) (farAlong pos sc cellDir) cf (cellAt k) a b d Hperm
            (ids_sub (fun p => at_ p =? k)) (Oa k Ha) (Ja k Ha) (Jb k Hb) (Jd k Hd) Nab Nad Nbd) as [Hle Heq].
          assert (X : expectedSame isHalo cf a = 1%nat).
          { unfold expectedSame. rewrite Eh. cbn [negb]. rewrite orb_true_r. now destruct (layout cf). }
          rewrite X in *. split; [exact Hle|]. intros _ (D1 & D2 & D3). apply Heq. right. right.
          split; [apply safeAll|]. apply (near_of pos); [exact Hcd|now apply both..].
      - destruct Hw as (W1 & W2 & N & L). unfold cellNo. rewrite W1, W2.
        set (calls := processCellPair3 (view (orZero dir)) (farAlong pos sc (orZero dir)) cf (given dir) (cellAt k1) (cellAt k2)).
        assert (Hperm : forall c, c = cellAt k1 \/ c = cellAt k2 -> Permutation (parts c) (view (orZero dir) (parts c))) by (intros; apply viewPerm).
        destruct (Bool.bool_dec (own k1 || own k2 && useNewton3 cf) true) as [Hr|Hr].
        2: { assert (Z0 : calls = []).
             { unfold calls, processCellPair3. cbn [cellAt parts mayOwn]. rewrite Hbi.
               destruct (own k1), (own k2), (useNewton3 cf); cbn in Hr; try (exfalso; apply Hr; reflexivity); cbn;
                 destruct (content k1), (content k2); reflexivity. }
             rewrite Z0. cbn. split; [lia|]. intros Ho _. exfalso. apply Hr. unfold isOneOf in Hh. rewrite Ho in Oa. cbn in Oa.
             assert (X : at_ a = k1 \/ at_ a = k2 /\ useNewton3 cf = true) by (apply two_cases in Hh; tauto). destruct X as [X|[X En]].
             - now rewrite (Oa _ X).
             - rewrite (Oa _ X), En. apply orb_true_r. }
        assert (Hrel : pairRelevant cf (cellAt k1) (cellAt k2)).
        { unfold pairRelevant. cbn [cellAt mayOwn]. apply orb_true_iff in Hr as [Hr|Hr]; [now left|].
          apply andb_true_iff in Hr as [H1 H2]. right. auto. }
        assert (AB : forall x y z, In x (content k1) -> In y (content k1) -> x <> y -> In z (content k2) ->
          ((received3 pid calls x y z <= 1)%nat /\ (received3 pid calls z x y <= bidir cf 1)%nat) /\
          ((dist3 (pos x) (pos y) <= sc)%R -> (dist3 (pos x) (pos z) <= sc)%R -> (dist3 (pos y) (pos z) <= sc)%R ->
           received3 pid calls x y z = 1%nat /\ received3 pid calls z x y = bidir cf 1)).
        { intros x y z Hx Hy Nxy Hz.
          destruct (processCellPair3_AB pid isHalo (view (orZero dir)) (farAlong pos sc (orZero dir)) cf (given dir) (cellAt k1) (cellAt k2) x y z
            Hperm (ids_two k1 k2 N) Hrel Hx Hy Nxy Hz) as [H1 H2]. split; [exact H1|]. intros D1 D2 D3.
          destruct H2 as (R1 & _ & R3); [|split; [exact R1|exact R3]].
          unfold sortedPairOK. destruct dir as [v|]; [|cbn [given]; auto]. right. right. right. cbn [orZero].
          split; [split; [apply safeAll|split; now apply (safe k1 k2)]|]. apply (near_of pos); [exact (proj1 L)|now apply both..]. }
        assert (BD : forall x y z, In x (content k1) -> In y (content k2) -> y <> z -> In z (content k2) ->
          ((received3 pid calls x y z <= 1)%nat /\ (received3 pid calls y x z <= bidir cf 1)%nat) /\
          ((dist3 (pos x) (pos y) <= sc)%R -> (dist3 (pos x) (pos z) <= sc)%R -> (dist3 (pos y) (pos z) <= sc)%R ->
           received3 pid calls x y z = 1%nat /\ received3 pid calls y x z = bidir cf 1)).
        { intros x y z Hx Hy Nyz Hz.
          destruct (processCellPair3_BD pid isHalo (view (orZero dir)) (farAlong pos sc (orZero dir)) cf (given dir) (cellAt k1) (cellAt k2) x y z
            Hperm (ids_two k1 k2 N) Hrel Hx Hy Nyz Hz) as [H1 H2]. split; [exact H1|]. intros D1 D2 D3.
          destruct H2 as (R1 & R2 & _); [|split; [exact R1|exact R2]].
          unfold sortedPairOK. destruct dir as [v|]; [|cbn [given]; auto]. right. right. right. cbn [orZero].
          split; [split; [apply safeAll|now apply (safe k1 k2)]|]. apply (near_of pos); [exact (proj1 L)|now apply both..]. }
        assert (Sy : forall x y, (dist3 (pos x) (pos y) <= sc)%R -> (dist3 (pos y) (pos x) <= sc)%R) by (intros x y; now rewrite dist3_sym).
        unfold allWithin. clear Hr Hrel Hperm W1 W2 L.
        assert (Cases : (at_ a = k1 /\ at_ b = k1 /\ at_ d = k2) \/ (at_ a = k1 /\ at_ b = k2 /\ at_ d = k1) \/
                        (at_ a = k1 /\ at_ b = k2 /\ at_ d = k2) \/
                        (useNewton3 cf = true /\ ((at_ a = k2 /\ at_ b = k1 /\ at_ d = k1) \/
                          (at_ a = k2 /\ at_ b = k1 /\ at_ d = k2) \/ (at_ a = k2 /\ at_ b = k2 /\ at_ d = k1)))).
        { exact (two_cases _ _ _ _ _ _ Hh). }
        unfold bidir in AB, BD. rewrite Hbi in AB, BD.
        destruct Cases as [(A & B & D)|[(A & B & D)|[(A & B & D)|(En & [(A & B & D)|[(A & B & D)|(A & B & D)]])]]];
          try rewrite En in AB, BD; cbn [orb] in AB, BD; specialize (Ja _ A); specialize (Jb _ B); specialize (Jd _ D).
        + destruct (AB a b d Ja Jb Nab Jd) as [[H1 _] H2]. split; [exact H1|]. intros _ (D1 & D2 & D3). now apply H2.
        + rewrite (received3_swap12 pid). destruct (AB a d b Ja Jd Nad Jb) as [[H1 _] H2]. split; [exact H1|]. intros _ (D1 & D2 & D3). apply H2; auto.
        + destruct (BD a b d Ja Jb Nbd Jd) as [[H1 _] H2]. split; [exact H1|]. intros _ (D1 & D2 & D3). now apply H2.
        + destruct (AB b d a Jb Jd Nbd Ja) as [[_ H1] H2]. split; [exact H1|]. intros _ (D1 & D2 & D3). apply H2; auto.
        + destruct (BD b a d Jb Ja Nad Jd) as [[_ H1] H2]. split; [exact H1|]. intros _ (D1 & D2 & D3). apply H2; auto.
        + rewrite (received3_swap12 pid). destruct (BD d a b Jd Ja Nab Jb) as [[_ H1] H2]. split; [exact H1|]. intros _ (D1 & D2 & D3). apply H2; auto.
      - destruct Hw as (W1 & W2 & W3 & N1 & N2 & N3 & L). unfold cellNo. rewrite W1, W2, W3.
        set (calls := processCellTriple3 (view (orZero dir)) (farAlong pos sc (orZero dir)) cf (given dir) (cellAt k1) (cellAt k2) (cellAt k3)).
        assert (Hperm : forall c, c = cellAt k1 \/ c = cellAt k2 -> Permutation (parts c) (view (orZero dir) (parts c))) by (intros; apply viewPerm).
        destruct (Bool.bool_dec (own k1 || (own k2 || own k3) && useNewton3 cf) true) as [Hr|Hr].
        2: { assert (Z0 : calls = []).
             { unfold calls, processCellTriple3. cbn [cellAt parts mayOwn]. rewrite Hbi.
               destruct (own k1), (own k2), (own k3), (useNewton3 cf); cbn in Hr; try (exfalso; apply Hr; reflexivity); cbn;
                 destruct (content k1), (content k2), (content k3); reflexivity. }
             rewrite Z0. cbn. split; [lia|]. intros Ho _. exfalso. apply Hr. rewrite Ho in Oa. cbn in Oa.
             assert (X : at_ a = k1 \/ (at_ a = k2 \/ at_ a = k3) /\ useNewton3 cf = true) by (apply three_cases in Hh; tauto). destruct X as [X|[[X|X] En]].
             - now rewrite (Oa _ X).
             - rewrite (Oa _ X), En. apply orb_true_r.
             - rewrite (Oa _ X), En, orb_true_r. apply orb_true_r. }
        assert (Hrel : tripleRelevant cf (cellAt k1) (cellAt k2) (cellAt k3)).
        { unfold tripleRelevant. cbn [cellAt mayOwn]. apply orb_true_iff in Hr as [Hr|Hr]; [now left|].
          apply andb_true_iff in Hr as [H1 H2]. apply orb_true_iff in H1. right. auto. }
        assert (T : forall x y z, In x (content k1) -> In y (content k2) -> In z (content k3) ->
          ((received3 pid calls x y z <= 1)%nat /\ (received3 pid calls y x z <= bidir cf 1)%nat /\ (received3 pid calls z x y <= bidir cf 1)%nat) /\
          ((dist3 (pos x) (pos y) <= sc)%R ->
           received3 pid calls x y z = 1%nat /\ received3 pid calls y x z = bidir cf 1 /\ received3 pid calls z x y = bidir cf 1)).
        { intros x y z Hx Hy Hz.
          destruct (processCellTriple3_received pid isHalo (view (orZero dir)) (farAlong pos sc (orZero dir)) cf (given dir) (cellAt k1) (cellAt k2) (cellAt k3) x y z
            Hperm (ids_three k1 k2 k3 N1 N2 N3) Hrel Hx Hy Hz) as [H1 H2]. split; [exact H1|]. intros D1. apply H2.
          destruct dir as [v|]; [|cbn [given]; auto]. right. right. right. cbn [orZero].
          split; [now apply (safe k1 k2)|]. apply far_false_of_near; [exact (proj1 L)|exact D1]. }
        assert (Sy : forall x y, (dist3 (pos x) (pos y) <= sc)%R -> (dist3 (pos y) (pos x) <= sc)%R) by (intros x y; now rewrite dist3_sym).
        unfold allWithin. clear Hr Hrel Hperm W1 W2 W3 L.
        assert (Cases : (at_ a = k1 /\ at_ b = k2 /\ at_ d = k3) \/ (at_ a = k1 /\ at_ d = k2 /\ at_ b = k3) \/
                        (useNewton3 cf = true /\ ((at_ a = k2 /\ at_ b = k1 /\ at_ d = k3) \/ (at_ a = k2 /\ at_ d = k1 /\ at_ b = k3) \/
                          (at_ a = k3 /\ at_ b = k1 /\ at_ d = k2) \/ (at_ a = k3 /\ at_ d = k1 /\ at_ b = k2)))).
        { exact (three_cases _ _ _ _ _ _ _ Hh). }
        unfold bidir in T. rewrite Hbi in T.
        destruct Cases as [(A & B & D)|[(A & B & D)|(En & [(A & B & D)|[(A & B & D)|[(A & B & D)|(A & B & D)]]])]];
          try rewrite En in T; cbn [orb] in T; specialize (Ja _ A).
        + destruct (T a b d Ja (Jb _ B) (Jd _ D)) as [(H1 & _ & _) H2]. split; [exact H1|]. intros _ (D1 & D2 & D3). now apply H2.
        + rewrite (received3_swap12 pid). destruct (T a d b Ja (Jd _ B) (Jb _ D)) as [(H1 & _ & _) H2]. split; [exact H1|]. intros _ (D1 & D2 & D3). now apply H2.
        + destruct (T b a d (Jb _ B) Ja (Jd _ D)) as [(_ & H1 & _) H2]. split; [exact H1|]. intros _ (D1 & D2 & D3). apply H2; auto.
        + rewrite (received3_swap12 pid). destruct (T d a b (Jd _ B) Ja (Jb _ D)) as [(_ & H1 & _) H2]. split; [exact H1|]. intros _ (D1 & D2 & D3). apply H2; auto.
        + destruct (T b d a (Jb _ B) (Jd _ D) Ja) as [(_ & _ & H1) H2]. split; [exact H1|]. intros _ (D1 & D2 & D3). apply H2; auto.
        + rewrite (received3_swap12 pid). destruct (T d b a (Jd _ B) (Jb _ D) Ja) as [(_ & _ & H1) H2]. split; [exact H1|]. intros _ (D1 & D2 & D3). apply H2; auto.
    Qed.

    Lemma triple_total calls : Forall wellCalled calls ->
      let got := received3 pid (flat_map (tripleCalls isHalo view pos cf sc cellDir cells) calls) a b d in
      (got <= occ handles3 calls)%nat /\ (isHalo a = false -> allWithin -> got = occ handles3 calls).
    Proof.
      cbv zeta. induction 1 as [|x l Hx Hl [IH1 IH2]]; [split; [apply Nat.le_refl|reflexivity]|].
      cbn [flat_map]. unfold received3 in *. rewrite occ_app, occ_cons.
      destruct (triple_call x Hx) as [H1 H2]. unfold received3, handledN in H1, H2. split; [lia|].
      intros Ho D. now rewrite IH2, H2.
    Qed.
  End Triple.
End Count.
