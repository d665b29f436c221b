From Coq Require Import ZArith List Bool Permutation Lia.
From Verif.Tuning Require Import TunerModel TunerSpec.
Import ListNotations.
Local Open Scope Z_scope.

(** * The optimum *)
Definition phaseEv (k : nat) (m : Evidences) : list (Z * Z) :=
  flat_map (fun ce => map (fun e => (fst ce, evValue e)) (filter (fun e => Nat.eqb (evPhase e) k) (snd ce))) m.

Lemma phaseEv_add k m c e : Permutation (phaseEv k (addEvidence m c e))
  ((if Nat.eqb (evPhase e) k then [(c, evValue e)] else []) ++ phaseEv k m).
Proof.
  induction m as [|[d es] m IH]; cbn [addEvidence].
  - unfold phaseEv. cbn [flat_map fst snd filter]. destruct (Nat.eqb (evPhase e) k); cbn; auto.
  - destruct (Z.eqb_spec c d) as [->|N].
    + unfold phaseEv. cbn [flat_map fst snd filter]. destruct (Nat.eqb (evPhase e) k); cbn; auto.
    + destruct (c <? d).
      * unfold phaseEv. cbn [flat_map fst snd filter]. destruct (Nat.eqb (evPhase e) k); cbn; auto.
      * change (phaseEv k ((d, es) :: addEvidence m c e)) with
          (map (fun e => (d, evValue e)) (filter (fun e => Nat.eqb (evPhase e) k) es) ++ phaseEv k (addEvidence m c e)).
        rewrite IH. change (phaseEv k ((d, es) :: m)) with
          (map (fun e => (d, evValue e)) (filter (fun e => Nat.eqb (evPhase e) k) es) ++ phaseEv k m).
        apply Permutation_app_swap_app.
Qed.

Lemma improves_spec k best es c :
  NoDup (map fst (map (fun e => (c : Z, evValue e)) (filter (fun e => Nat.eqb (evPhase e) k) es))) ->
  match improves k best es with
  | Some v => v < best /\ map (fun e => (c, evValue e)) (filter (fun e => Nat.eqb (evPhase e) k) es) = [(c, v)]
  | None => forall v, In (c, v) (map (fun e => (c, evValue e)) (filter (fun e => Nat.eqb (evPhase e) k) es)) -> best <= v
  end.
Proof.
  induction es as [|e es IH]; cbn [improves filter]; intros N; [intros v []|].
  destruct (Nat.eqb (evPhase e) k) eqn:E; cbn [andb].
  - cbn [map fst] in N. inversion N as [|? ? N1 N2]; subst.
    assert (Z0 : filter (fun e => Nat.eqb (evPhase e) k) es = []).
    { destruct (filter _ es) as [|a l]; [reflexivity|]. exfalso. apply N1. now left. }
    destruct (Z.ltb_spec (evValue e) best) as [L|L].
    + cbn [map]. rewrite Z0. cbn. auto.
    + specialize (IH N2). destruct (improves k best es) as [v|].
      * rewrite Z0 in IH. now destruct IH.
      * intros v [[= <-]|I]; [exact L|]. rewrite Z0 in I. destruct I.
  - apply IH. exact N.
Qed.

Lemma NoDup_app_l {A} (l1 l2 : list A) : NoDup (l1 ++ l2) -> NoDup l1.
Proof. induction l1; cbn; intros N; [constructor|]. inversion N; subst. constructor; [|auto]. intros I. apply H1, in_or_app; auto. Qed.
Lemma NoDup_app_r {A} (l1 l2 : list A) : NoDup (l1 ++ l2) -> NoDup l2.
Proof. induction l1; cbn; intros N; [exact N|]. inversion N; auto. Qed.

Lemma scan_spec k : forall m opt best, NoDup (map fst (phaseEv k m)) ->
  (exists c v, scan k opt best m = Some c /\ In (c, v) (phaseEv k m) /\ v < best /\ forall c' v', In (c', v') (phaseEv k m) -> v <= v') \/
  (scan k opt best m = opt /\ forall c' v', In (c', v') (phaseEv k m) -> best <= v').
Proof.
  induction m as [|[c es] m IH]; intros opt best N; cbn [scan]; [right; split; [reflexivity|intros ? ? []]|].
  set (here := map (fun e => (c, evValue e)) (filter (fun e => Nat.eqb (evPhase e) k) es)).
  change (phaseEv k ((c, es) :: m)) with (here ++ phaseEv k m) in *. rewrite map_app in N.
  pose proof (improves_spec k best es c (NoDup_app_l _ _ N)) as I. fold here in I. apply NoDup_app_r in N.
  assert (K : forall c' v', In (c', v') here -> c' = c).
  { unfold here. intros c' v' J. apply in_map_iff in J. destruct J as (e & [= <- _] & _). reflexivity. }
  destruct (improves k best es) as [v|].
  - destruct I as [L E]. destruct (IH (Some c) v N) as [(c1 & v1 & S & J & L1 & M)|[S M]].
    + left. exists c1, v1. split; [exact S|]. split; [apply in_or_app; auto|]. split; [lia|].
      intros c' v' J'. apply in_app_or in J'. destruct J' as [J'|J']; [|eauto]. rewrite E in J'. destruct J' as [[= <- <-]|[]]. lia.
    + left. exists c, v. split; [exact S|]. split; [apply in_or_app; left; rewrite E; now left|]. split; [exact L|].
      intros c' v' J'. apply in_app_or in J'. destruct J' as [J'|J']; [|eauto]. rewrite E in J'. destruct J' as [[= <- <-]|[]]. lia.
  - destruct (IH opt best N) as [(c1 & v1 & S & J & L1 & M)|[S M]].
    + left. exists c1, v1. split; [exact S|]. split; [apply in_or_app; auto|]. split; [lia|].
      intros c' v' J'. apply in_app_or in J'. destruct J' as [J'|J']; [|eauto]. rewrite (K _ _ J') in J'. apply I in J'. lia.
    + right. split; [exact S|]. intros c' v' J'. apply in_app_or in J'. destruct J' as [J'|J']; [|eauto]. rewrite (K _ _ J') in J'. auto.
Qed.

Lemma optimal_spec k m : NoDup (map fst (phaseEv k m)) -> phaseEv k m <> [] -> Forall (fun cv => snd cv < longMax) (phaseEv k m) ->
  exists c v, getOptimal k m = Some c /\ In (c, v) (phaseEv k m) /\ forall c' v', In (c', v') (phaseEv k m) -> v <= v'.
Proof.
  intros N E F. destruct (scan_spec k m None longMax N) as [(c & v & S & J & _ & M)|[S M]].
  - exists c, v. auto.
  - exfalso. destruct (phaseEv k m) as [|[c v] l]; [congruence|]. inversion F; subst. specialize (M c v (or_introl eq_refl)). cbn in *. lia.
Qed.

(** * Strategies that reorder *)
Lemma reorders_all app fs : Forall (reorders app) fs -> forall q m, exists q', applyAll fs q m = Some q' /\ Permutation q q' /\
  (q <> [] -> app (last q 0) = true -> app (last q' 0) = true).
Proof.
  induction 1 as [|f fs R _ IH]; intros q m; cbn [applyAll]; [exists q; auto|].
  destruct (R q m) as (q1 & w & E & P & L). rewrite E.
  assert (X : match q1 with [] => if w then [] else q | _ => q1 end = q1).
  { destruct q1; [|reflexivity]. apply Permutation_sym, Permutation_nil in P. subst q. destruct w; reflexivity. }
  rewrite X. destruct (IH q1 m) as (q2 & E2 & P2 & L2). exists q2. split; [exact E2|]. split; [now rewrite P|].
  intros NE A. apply L2; auto. intros ->. now apply Permutation_sym, Permutation_nil in P.
Qed.
Lemma reorders_plain app fs : Forall (reorders app) fs -> forall q m, exists q', applyPlain fs q m = Some q' /\ Permutation q q' /\
  (q <> [] -> app (last q 0) = true -> app (last q' 0) = true).
Proof.
  induction 1 as [|f fs R _ IH]; intros q m; cbn [applyPlain]; [exists q; auto|].
  destruct (R q m) as (q1 & w & E & P & L). rewrite E.
  destruct (IH q1 m) as (q2 & E2 & P2 & L2). exists q2. split; [exact E2|]. split; [now rewrite P|].
  intros NE A. apply L2; auto. intros ->. now apply Permutation_sym, Permutation_nil in P.
Qed.

(** * Lists *)
Lemma filter_ne_cons c q : NoDup (c :: q) -> filter (fun d => negb (d =? c)) (c :: q) = q.
Proof.
  intros N. inversion N as [|? ? N1 N2]; subst. cbn. rewrite Z.eqb_refl. cbn. clear N N2.
  induction q as [|d q IH]; [reflexivity|]. cbn. destruct (Z.eqb_spec d c) as [->|X]; [exfalso; apply N1; now left|].
  cbn. f_equal. apply IH. intros I. apply N1. now right.
Qed.
Lemma last_filter (f : Z -> bool) l d : l <> [] -> f (last l d) = true -> last (filter f l) d = last l d.
Proof.
  induction l as [|a l IH]; [congruence|]. intros _ L. destruct l as [|b l'].
  - cbn in *. now rewrite L.
  - change (last (a :: b :: l') d) with (last (b :: l') d) in *. specialize (IH ltac:(discriminate) L).
    change (filter f (a :: b :: l')) with (if f a then a :: filter f (b :: l') else filter f (b :: l')).
    assert (X : In (last (b :: l') d) (filter f (b :: l'))).
    { apply filter_In. split; [|exact L]. rewrite (app_removelast_last d (l := b :: l')) at 2 by discriminate. apply in_or_app. right. now left. }
    destruct (f a); [|exact IH]. destruct (filter f (b :: l')) as [|x y]; [destruct X|]. exact IH.
Qed.
Lemma filter_perm {A} (f : A -> bool) l l' : Permutation l l' -> Permutation (filter f l) (filter f l').
Proof. induction 1; cbn; auto; [destruct (f x); auto|destruct (f x), (f y); auto; constructor|etransitivity; eauto]. Qed.
Lemma filter_filter_imp {A} (f g : A -> bool) l : (forall x, In x l -> f x = true -> g x = true) -> filter f (filter g l) = filter f l.
Proof.
  induction l as [|a l IH]; intros H; [reflexivity|]. cbn. specialize (IH (fun x I => H x (or_intror I))).
  destruct (g a) eqn:G; cbn; [now rewrite IH|]. destruct (f a) eqn:F; [|exact IH]. rewrite (H a (or_introl eq_refl) F) in G. discriminate.
Qed.

Section Run.
  Variables (interval maxSamples freq : nat) (est : list Z -> list Z -> Z) (app forever : Z -> bool) (usable : list Z).
  Hypothesis Hm : (1 <= maxSamples)%nat.
  Hypothesis Hu : NoDup usable.
  Hypothesis HT : (length usable * maxSamples < interval)%nat.
  Hypothesis Hest : fairEstimate est.

  Definition spaceOk (sp : list Z) : Prop := goodSpace app forever sp /\ filter app sp = usable.

  Lemma spaceOk_nontrivial sp : spaceOk sp -> Nat.eqb (length sp) 1 = false.
  Proof.
    intros [(_ & _ & L) _]. apply Nat.eqb_neq. intros E. destruct sp as [|a [|b l]]; try discriminate.
    cbn in L. destruct (app a || negb (forever a)); cbn in L; lia.
  Qed.
  Lemma spaceOk_ne sp : spaceOk sp -> sp <> [].
  Proof. intros [(_ & _ & L) _] ->. cbn in L. lia. Qed.
  Lemma spaceOk_remove sp c : spaceOk sp -> app c = false -> forever c = true -> spaceOk (filter (fun d => negb (d =? c)) sp).
  Proof.
    intros S A F. pose proof (spaceOk_ne _ S) as NE. destruct S as [(N & L & G) U].
    assert (LC : negb (last sp 0 =? c) = true) by (destruct (Z.eqb_spec (last sp 0) c) as [E|]; [rewrite E in L; congruence|reflexivity]).
    split; [split; [now apply NoDup_filter|split]|].
    - rewrite last_filter; auto.
    - rewrite filter_filter_imp; [exact G|]. intros x _ X. destruct (Z.eqb_spec x c) as [->|]; [rewrite A, F in X; discriminate|reflexivity].
    - rewrite filter_filter_imp; [exact U|]. intros x _ X. destruct (Z.eqb_spec x c) as [->|]; [congruence|reflexivity].
  Qed.

  (** The queue: nonempty, no duplicates, its last element applicable. *)
  Definition queueOk (q : list Z) : Prop := q <> [] /\ NoDup q /\ app (last q 0) = true.

  Lemma reject_ok opts t c q : Forall (reorders app) opts -> spaceOk (space t) -> queueOk (queue t) -> queue t = c :: q -> app c = false ->
    exists t' c' q', rejectConfig opts c (forever c) t = Some (t', c', true) /\ queue t' = c' :: q' /\ queueOk (queue t') /\ Permutation q (queue t') /\
      spaceOk (space t') /\ sRebuild t' = sRebuild t /\ sNoRebuild t' = sNoRebuild t /\ iter t' = iter t /\ phase t' = phase t /\
      baseline t' = baseline t /\ isTuning t' = isTuning t /\ forced t' = forced t /\ evs t' = evs t.
  Proof.
    intros R S (NE & N & L) Q A. unfold rejectConfig, trivial. rewrite (spaceOk_nontrivial _ S). rewrite Q in *.
    rewrite filter_ne_cons by exact N.
    destruct (reorders_plain app opts R q (evs t)) as (q1 & E & P & L1). rewrite E. clear E.
    assert (QE : q <> []). { intros ->. cbn in L. congruence. }
    assert (QL : last q 0 = last (c :: q) 0) by (destruct q; [congruence|reflexivity]).
    destruct q1 as [|c' q']; [now apply Permutation_sym, Permutation_nil in P|]. cbv zeta. cbn [current hd_error queue option_map].
    eexists _, c', q'. split; [reflexivity|]. cbn [queue space sRebuild sNoRebuild iter phase baseline isTuning forced evs].
    split; [reflexivity|]. split.
    { split; [discriminate|]. split; [eapply Permutation_NoDup; [exact P|now inversion N]|]. apply L1; [exact QE|]. now rewrite QL. }
    split; [exact P|]. split; [|auto 10].
    destruct (forever c) eqn:F; [now apply spaceOk_remove|exact S].
  Qed.

  Lemma loop_ok opts : Forall (reorders app) opts -> forall fuel t c q still, queue t = c :: q -> (length q < fuel)%nat ->
    spaceOk (space t) -> queueOk (queue t) -> (app c = true \/ still = true) ->
    exists t' c' q', rejectLoop app forever fuel opts t c still = Some (t', c', still) /\ queue t' = c' :: q' /\ queueOk (queue t') /\ app c' = true /\
      Permutation (filter app (c :: q)) (filter app (queue t')) /\
      spaceOk (space t') /\ sRebuild t' = sRebuild t /\ sNoRebuild t' = sNoRebuild t /\ iter t' = iter t /\ phase t' = phase t /\
      baseline t' = baseline t /\ isTuning t' = isTuning t /\ forced t' = forced t /\ evs t' = evs t.
  Proof.
    intros R fuel. induction fuel as [|fuel IH]; intros t c q still Q F S QO St; [lia|]. cbn [rejectLoop].
    destruct (app c) eqn:A.
    - exists t, c, q. rewrite Q in *. auto 20.
    - destruct St as [St| ->]; [discriminate|].
      destruct (reject_ok opts t c q R S QO Q A) as (t1 & c1 & q1 & E & Q1 & QO1 & P1 & S1 & X1 & X2 & X3 & X4 & X5 & X6 & X7 & X8).
      rewrite E. destruct (IH t1 c1 q1 true Q1) as (t2 & c2 & q2 & E2 & Q2 & QO2 & A2 & P2 & S2 & Y1 & Y2 & Y3 & Y4 & Y5 & Y6 & Y7 & Y8); auto.
      + rewrite Q1 in P1. apply Permutation_length in P1. cbn in P1. lia.
      + exists t2, c2, q2. split; [exact E2|]. split; [exact Q2|]. split; [exact QO2|]. split; [exact A2|].
        split; [cbn [filter]; rewrite A, <- P2, <- Q1; now apply filter_perm|]. split; [exact S2|].
        rewrite Y1, Y2, Y3, Y4, Y5, Y6, Y7, Y8. auto 10.
  Qed.

  (** * One phase *)
  Variable k : nat.
  Definition from : nat := k * interval.
  Definition blockOut (c : Z) : list (Z * bool * bool) := map (fun r => (c, true, Nat.eqb (S r) maxSamples)) (seq 0 maxSamples).
  Definition rebuilt (is : list Input) := map inSample (filter inRebuilt is).
  Definition notRebuilt (is : list Input) := map inSample (filter (fun i => negb (inRebuilt i)) is).
  Definition noLater (t : Tuner) : Prop := forall k', (k < k')%nat -> phaseEv k' (evs t) = [].

  Definition ready (t : Tuner) : Prop :=
    queue t <> [] /\ (maxSamples <= numSamples t)%nat /\ isTuning t = false /\ forced t = false /\ iter t = from /\ phase t = k /\
    spaceOk (space t) /\ phaseEv k (evs t) = [] /\ noLater t.

  Definition sampling (is : list Input) (outs : list (Z * bool * bool)) (t : Tuner) : Prop :=
    exists don blocks cur q blk,
      is = concat blocks ++ blk /\ length blocks = length don /\ Forall (fun b => length b = maxSamples) blocks /\
      (1 <= length blk <= maxSamples)%nat /\
      outs = concat (map blockOut don) ++ firstn (length blk) (blockOut cur) /\
      queue t = cur :: q /\ queueOk (queue t) /\ app cur = true /\ Permutation (don ++ filter app (queue t)) usable /\
      sRebuild t = rebuilt blk /\ sNoRebuild t = notRebuilt blk /\
      iter t = (from + length is)%nat /\ phase t = k /\ baseline t = length is /\ isTuning t = true /\ forced t = false /\ spaceOk (space t) /\
      noLater t /\
      Permutation (phaseEv k (evs t)) (combine don (map (valueOf est) blocks) ++ if Nat.eqb (length blk) maxSamples then [(cur, valueOf est blk)] else []).

  Definition settled (is : list Input) (outs : list (Z * bool * bool)) (t : Tuner) : Prop :=
    exists don blocks best rest,
      is = concat blocks ++ rest /\ length blocks = length don /\ Forall (fun b => length b = maxSamples) blocks /\
      (1 <= length rest)%nat /\ Permutation don usable /\ (best < length don)%nat /\
      (forall j, (j < length don)%nat -> valueOf est (nth best blocks []) <= valueOf est (nth j blocks [])) /\
      outs = concat (map blockOut don) ++ map (fun r => (nth best don 0, false, Nat.eqb (Nat.modulo (S r) freq) 0)) (seq 0 (length rest)) /\
      queue t = [nth best don 0] /\ (maxSamples <= numSamples t)%nat /\
      iter t = (from + length is)%nat /\ phase t = (if Nat.eqb (length is) interval then S k else k) /\ baseline t = length rest /\
      isTuning t = false /\ forced t = false /\ spaceOk (space t) /\ noLater t.

  Lemma samples_length blk : (length (notRebuilt blk) + length (rebuilt blk) = length blk)%nat.
  Proof. unfold rebuilt, notRebuilt. rewrite !map_length. induction blk as [|i l IH]; [reflexivity|]. cbn. destruct (inRebuilt i); cbn; lia. Qed.
  Lemma rebuilt_snoc blk i : rebuilt (blk ++ [i]) = if inRebuilt i then rebuilt blk ++ [inSample i] else rebuilt blk.
  Proof. unfold rebuilt. rewrite filter_app, map_app. cbn. destruct (inRebuilt i); cbn; [reflexivity|now rewrite app_nil_r]. Qed.
  Lemma notRebuilt_snoc blk i : notRebuilt (blk ++ [i]) = if inRebuilt i then notRebuilt blk else notRebuilt blk ++ [inSample i].
  Proof. unfold notRebuilt. rewrite filter_app, map_app. cbn. destruct (inRebuilt i); cbn; [now rewrite app_nil_r|reflexivity]. Qed.
  Lemma valueOf_fair blk : blk <> [] -> Forall (tame app) blk -> valueOf est blk < longMax.
  Proof.
    intros NE F. apply Hest.
    - pose proof (samples_length blk) as L. intros E. apply app_eq_nil in E. destruct E as [E1 E2]. unfold rebuilt, notRebuilt in L. rewrite E1, E2 in L.
      destruct blk; [congruence|discriminate].
    - apply Forall_app. split; apply Forall_map, Forall_forall; intros i I; apply filter_In in I; rewrite Forall_forall in F; destruct (F i (proj1 I)) as (_ & _ & B); exact B.
  Qed.
  Lemma concat_length (blocks : list (list Input)) : Forall (fun b => length b = maxSamples) blocks -> length (concat blocks) = (length blocks * maxSamples)%nat.
  Proof. clear. induction 1 as [|b l E _ IH]; [reflexivity|]. cbn. rewrite app_length, E, IH. lia. Qed.
  Lemma firstn_seq : forall n a s, (a <= n)%nat -> firstn a (seq s n) = seq s a.
  Proof. induction n as [|n IH]; intros [|a] s H; try reflexivity; [lia|]. cbn. f_equal. apply IH. lia. Qed.
  Lemma firstn_blockOut r c : (r < maxSamples)%nat -> firstn (S r) (blockOut c) = firstn r (blockOut c) ++ [(c, true, Nat.eqb (S r) maxSamples)].
  Proof. intros H. unfold blockOut. now rewrite !firstn_map, !firstn_seq, seq_S, map_app by lia. Qed.
  Lemma blockOut_all c : firstn maxSamples (blockOut c) = blockOut c.
  Proof. apply firstn_all2. unfold blockOut. now rewrite map_length, seq_length. Qed.

  Lemma mod_inside n : (0 < n < interval)%nat -> Nat.eqb (Nat.modulo (from + n) interval) 0 = false.
  Proof.
    intros H. apply Nat.eqb_neq. unfold from. rewrite Nat.add_comm, Nat.mod_add by lia. rewrite Nat.mod_small; lia.
  Qed.

  (** The sample of a computation in a tuning phase is taken, and the counters bumped. *)
  Lemma measure_ok i is blocks don blk cur q t :
    length (blocks : list (list Input)) = length don -> Forall (fun b => length b = maxSamples) blocks -> is = concat blocks ++ blk -> (length blk < maxSamples)%nat ->
    queue t = cur :: q -> queueOk (queue t) -> app cur = true -> Permutation (don ++ filter app (queue t)) usable ->
    sRebuild t = rebuilt blk -> sNoRebuild t = notRebuilt blk -> iter t = (from + length is)%nat -> phase t = k -> baseline t = length is ->
    isTuning t = true -> forced t = false -> spaceOk (space t) -> noLater t -> Permutation (phaseEv k (evs t)) (combine don (map (valueOf est) blocks)) ->
    exists t', addMeasurement maxSamples est (inSample i) (inRebuilt i) t = Some t' /\
      willRebuild interval maxSamples freq t' = Nat.eqb (S (length blk)) maxSamples /\
      sampling (is ++ [i]) (concat (map blockOut don) ++ firstn (length blk) (blockOut cur) ++ [(cur, true, Nat.eqb (S (length blk)) maxSamples)]) (bump interval (inWait i) t').
  Proof.
    intros LB FB EI LT Q QO A P SR SN IT PH BA TU FO SP NL EV. unfold addMeasurement, numSamples. rewrite Q, SR, SN.
    rewrite samples_length. destruct (Nat.leb_spec maxSamples (length blk)) as [X|_]; [lia|].
    rewrite <- rebuilt_snoc, <- notRebuilt_snoc, samples_length, app_length. cbn [length].
    set (m' := if Nat.eqb (length blk + 1) maxSamples then _ else _). eexists. split; [reflexivity|].
    set (t' := mkTuner _ _ _ _ _ _ _ _ _ _).
    assert (NU : (length don < length usable)%nat).
    { apply Permutation_length in P. rewrite app_length, Q in P. cbn [filter] in P. rewrite A in P. cbn in P. lia. }
    assert (LI : (length is + 1 <= length usable * maxSamples)%nat).
    { rewrite EI, app_length, concat_length, LB by exact FB. nia. }
    assert (IN : inTuningPhase interval t' = true).
    { unfold inTuningPhase, trivial, t'. cbn [isTuning forced space]. rewrite (spaceOk_nontrivial _ SP), TU. now rewrite orb_true_r. }
    split.
    { unfold willRebuild. rewrite IN. unfold t'. cbn [forced baseline]. rewrite FO, BA, EI, app_length, concat_length by exact FB.
      replace (S (length blocks * maxSamples + length blk)) with (S (length blk) + length blocks * maxSamples)%nat by lia.
      rewrite Nat.mod_add by lia. destruct (Nat.eqb_spec (S (length blk)) maxSamples) as [E|E].
      - rewrite E, Nat.mod_same by lia. reflexivity.
      - rewrite Nat.mod_small by lia. reflexivity. }
    exists don, blocks, cur, q, (blk ++ [i]). unfold bump. rewrite IN. unfold t'.
    rewrite orb_true_r. cbn [negb orb]. cbn [queue sRebuild sNoRebuild iter phase baseline isTuning forced space evs].
    split; [rewrite EI; now rewrite app_assoc|]. split; [exact LB|]. split; [exact FB|]. rewrite !app_length. cbn [length].
    split; [lia|]. split; [rewrite (Nat.add_1_r (length blk)), firstn_blockOut by exact LT; now rewrite app_assoc|].
    rewrite Q in QO, P. split; [reflexivity|]. split; [exact QO|]. split; [exact A|]. split; [exact P|]. split; [reflexivity|]. split; [reflexivity|].
    rewrite IT. split; [lia|]. split.
    { replace (S (from + length is)) with (from + S (length is))%nat by lia. rewrite mod_inside by lia. exact PH. }
    rewrite BA. split; [lia|]. split; [exact TU|]. split; [exact FO|]. split; [exact SP|].
    assert (VE : valueOf est (blk ++ [i]) = est (rebuilt (blk ++ [i])) (notRebuilt (blk ++ [i]))) by reflexivity.
    split.
    - intros k' Hk. cbn [evs]. subst m'. destruct (Nat.eqb (length blk + 1) maxSamples); [|now apply NL].
      apply Permutation_nil, Permutation_sym. rewrite phaseEv_add. cbn [evPhase]. rewrite PH.
      destruct (Nat.eqb_spec k k') as [->|_]; [lia|]. cbn. now rewrite (NL k' Hk).
    - subst m'. destruct (Nat.eqb (length blk + 1) maxSamples).
      + rewrite phaseEv_add. cbn [evPhase evValue]. rewrite PH, Nat.eqb_refl, EV, <- VE. apply Permutation_app_comm.
      + now rewrite app_nil_r.
  Qed.

  (** Choosing the next configuration. *)
  Lemma choose_ok i is blocks don t q :
    tame app i -> length (blocks : list (list Input)) = length don -> Forall (fun b => length b = maxSamples) blocks -> is = concat blocks ->
    queue t = q -> queueOk q -> Permutation (don ++ filter app q) usable ->
    sRebuild t = [] -> sNoRebuild t = [] -> iter t = (from + length is)%nat -> phase t = k -> baseline t = length is ->
    isTuning t = true -> forced t = false -> spaceOk (space t) -> noLater t -> Permutation (phaseEv k (evs t)) (combine don (map (valueOf est) blocks)) ->
    exists c t1, current t = Some c /\ forall o,
      o = match rejectLoop app forever (S (length (queue t))) (inOpts i) t c true with
          | None => None
          | Some (t2, c, still) => if still then option_map (fun t3 => (t3, c, still)) (addMeasurement maxSamples est (inSample i) (inRebuilt i) t2) else Some (t2, c, still)
          end ->
      exists cur, o = Some (t1, cur, true) /\
        sampling (is ++ [i]) (concat (map blockOut don) ++ [(cur, true, willRebuild interval maxSamples freq t1)]) (bump interval (inWait i) t1).
  Proof.
    intros (TR & TO & TB) LB FB EI Q QO P SR SN IT PH BA TU FO SP NL EV.
    destruct q as [|c q]; [destruct QO; congruence|]. unfold current. rewrite Q in *. 
    assert (QO' : queueOk (queue t)) by (rewrite Q; exact QO).
    destruct (loop_ok (inOpts i) TO (S (length (c :: q))) t c q true Q ltac:(cbn; lia) SP QO' (or_intror eq_refl))
      as (t2 & cur & q2 & E & Q2 & QO2 & A2 & P2 & S2 & Y1 & Y2 & Y3 & Y4 & Y5 & Y6 & Y7 & Y8).
    destruct (measure_ok i is blocks don [] cur q2 t2) as (t3 & E3 & W3 & S3); auto.
    - now rewrite app_nil_r.
    - rewrite <- P2. exact P.
    - now rewrite Y1, SR.
    - now rewrite Y2, SN.
    - now rewrite Y3.
    - now rewrite Y4.
    - now rewrite Y5.
    - now rewrite Y6.
    - now rewrite Y7.
    - unfold noLater. now rewrite Y8.
    - now rewrite Y8.
    - exists c, t3. split; [reflexivity|]. intros o ->. rewrite E, E3. exists cur. split; [reflexivity|].
      rewrite W3. exact S3.
  Qed.

  Lemma start_ok i t : ready t -> tame app i ->
    exists t' o, timeStep interval maxSamples freq est app forever i t = Some (t', o) /\ sampling [i] [o] t'.
  Proof.
    intros (Q & NS & TU & FO & IT & PH & SP & EV & NL) TM.
    pose proof TM as (TR & TO & TB).
    assert (M0 : Nat.eqb (Nat.modulo (iter t) interval) 0 = true).
    { rewrite IT. unfold from. rewrite Nat.mod_mul by lia. reflexivity. }
    unfold timeStep, compute, getNextConfig.
    assert (IN : inTuningPhase interval t = true).
    { unfold inTuningPhase, trivial. now rewrite M0, (spaceOk_nontrivial _ SP). }
    rewrite IN. cbn [negb]. destruct (Nat.ltb_spec (numSamples t) maxSamples) as [X|_]; [lia|].
    unfold tuneConfiguration. destruct (queue t) as [|c0 q0] eqn:Q0; [congruence|]. rewrite M0, TU. cbn [negb andb orb].
    destruct (reorders_all app _ TR (space t) (evs t)) as (q & E & P & L). rewrite E.
    pose proof (spaceOk_ne _ SP) as SNE. destruct SP as [(ND & LA & GE) US] eqn:SPE. assert (SP' : spaceOk (space t)) by exact SP. clear SPE.
    destruct q as [|c q]; [now apply Permutation_sym, Permutation_nil in P|].
    set (t1 := mkTuner _ _ _ _ _ _ _ _ _ _).
    destruct (choose_ok i [] [] [] t1 (c :: q) TM eq_refl (Forall_nil _) eq_refl eq_refl) as (c1 & t2 & C & R); auto.
    - split; [discriminate|]. split; [eapply Permutation_NoDup; [exact P|exact ND]|]. apply L; auto.
    - cbn [List.app]. rewrite <- US. apply filter_perm. now apply Permutation_sym.
    - unfold t1. cbn [iter]. rewrite IT. cbn [length]. lia.
    - unfold t1. cbn [evs]. rewrite EV. constructor.
    - destruct (R _ eq_refl) as (cur & E2 & S2). rewrite C. cbn [option_map]. rewrite E2.
      eexists _, _. split; [reflexivity|]. exact S2.
  Qed.

  Lemma NoDup_queue_nil q : queueOk q \/ q = [] -> filter app q = [] -> q = [].
  Proof.
    intros [(NE & _ & L)|E] F; [|exact E]. exfalso. assert (I : In (last q 0) (filter app q)).
    { apply filter_In. split; [|exact L]. rewrite (app_removelast_last 0 (l := q)) at 2 by exact NE. apply in_or_app. right. now left. }
    rewrite F in I. destruct I.
  Qed.

  Lemma in_combine_nth (l : list Z) (v : list Z) c x : length l = length v -> In (c, x) (combine l v) -> exists j, (j < length l)%nat /\ nth j l 0 = c /\ nth j v 0 = x.
  Proof.
    intros E I. destruct (In_nth _ _ (0, 0) I) as (j & L & N). rewrite combine_length, <- E, Nat.min_id in L.
    exists j. split; [exact L|]. rewrite combine_nth in N by exact E. now injection N as -> ->.
  Qed.
  Lemma nth_in_combine (l v : list Z) j : length l = length v -> (j < length l)%nat -> In (nth j l 0, nth j v 0) (combine l v).
  Proof. intros E L. rewrite <- (combine_nth l v j 0 0 E). apply nth_In. rewrite combine_length, <- E, Nat.min_id. exact L. Qed.

  Lemma sampling_ok i is outs t : sampling is outs t -> Forall (tame app) is -> tame app i ->
    exists t' o, timeStep interval maxSamples freq est app forever i t = Some (t', o) /\
      (sampling (is ++ [i]) (outs ++ [o]) t' \/ settled (is ++ [i]) (outs ++ [o]) t').
  Proof.
    intros (don & blocks & cur & q & blk & EI & LB & FB & LK & EO & Q & QO & A & P & SR & SN & IT & PH & BA & TU & FO & SP & NL & EV) TI TM.
    pose proof TM as (TR & TO & TB).
    assert (NU : (length don < length usable)%nat).
    { apply Permutation_length in P. rewrite app_length, Q in P. cbn [filter] in P. rewrite A in P. cbn in P. lia. }
    assert (LI : (length is <= length usable * maxSamples)%nat).
    { rewrite EI, app_length, concat_length, LB by exact FB. nia. }
    unfold timeStep, compute, getNextConfig.
    assert (IN : inTuningPhase interval t = true).
    { unfold inTuningPhase, trivial. now rewrite TU, (spaceOk_nontrivial _ SP), orb_true_r. }
    rewrite IN. cbn [negb]. unfold numSamples. rewrite SR, SN, samples_length.
    destruct (Nat.ltb_spec (length blk) maxSamples) as [LT|GE].
    - (* more samples of the same configuration *)
      unfold current. rewrite Q. cbn [hd_error option_map].
      destruct (loop_ok (inOpts i) TO (S (length (queue t))) t cur q true Q ltac:(rewrite Q; cbn; lia) SP QO (or_introl A))
        as (t2 & c2 & q2 & E & _). rewrite Q in E. cbn [rejectLoop length] in E. rewrite A in E. injection E as -> ->.
      rewrite Q. cbn [rejectLoop length]. rewrite A.
      rewrite (proj2 (Nat.eqb_neq (length blk) maxSamples)) in EV by lia. rewrite app_nil_r in EV.
      destruct (measure_ok i is blocks don blk c2 q t2) as (t3 & E3 & W3 & S3); auto.
      rewrite E3. cbn [option_map]. eexists _, _. split; [reflexivity|]. left. rewrite W3, EO, <- app_assoc. exact S3.
    - (* the configuration is finished *)
      assert (LM : length blk = maxSamples) by lia. rewrite LM, Nat.eqb_refl in EV.
      assert (ISM : Nat.eqb (Nat.modulo (iter t) interval) 0 = false).
      { rewrite IT. apply mod_inside. split; [rewrite EI, app_length; lia|lia]. }
      unfold tuneConfiguration. rewrite Q, ISM, FO. cbn [andb orb].
      destruct (reorders_all app _ TO q (evs t)) as (q' & E & P' & L'). rewrite E. clear E.
      rewrite LM, blockOut_all in EO.
      assert (EO' : outs = concat (map blockOut (don ++ [cur]))) by (rewrite map_app, concat_app; cbn; now rewrite app_nil_r).
      assert (EI' : is = concat (blocks ++ [blk])) by (rewrite concat_app; cbn; now rewrite app_nil_r).
      assert (LB' : length (blocks ++ [blk]) = length (don ++ [cur])) by (rewrite !app_length; cbn; lia).
      assert (FB' : Forall (fun b => length b = maxSamples) (blocks ++ [blk])) by (apply Forall_app; split; [exact FB|constructor; [exact LM|constructor]]).
      assert (EV' : Permutation (phaseEv k (evs t)) (combine (don ++ [cur]) (map (valueOf est) (blocks ++ [blk])))).
      { rewrite EV, map_app. clear - LB. cbn [map]. revert blocks LB. induction don as [|d don IH]; intros [|b bl] LB; try discriminate; cbn; [reflexivity|].
        constructor. apply IH. cbn in LB. lia. }
      assert (PU : Permutation ((don ++ [cur]) ++ filter app q) usable).
      { rewrite <- P, Q. cbn [filter]. rewrite A, <- app_assoc. reflexivity. }
      assert (ND : NoDup (don ++ [cur])) by (eapply NoDup_app_l, Permutation_NoDup; [exact (Permutation_sym PU)|exact Hu]).
      destruct q' as [|c q'].
      + (* end of the phase *)
        apply Permutation_sym, Permutation_nil in P'. subst q. cbn [filter] in PU. rewrite app_nil_r in PU.
        set (D := don ++ [cur]) in *. set (B := blocks ++ [blk]) in *.
        assert (LV : length D = length (map (valueOf est) B)) by (rewrite map_length; now symmetry).
        assert (MF : map fst (combine D (map (valueOf est) B)) = D).
        { clear - LV. revert LV. generalize (map (valueOf est) B). induction D as [|d D IH]; intros [|v l] LV; try discriminate; cbn; [reflexivity|]. f_equal. apply IH. cbn in LV. lia. }
        destruct (optimal_spec k (evs t)) as (c & v & G & I & M).
        * eapply Permutation_NoDup; [apply Permutation_map, Permutation_sym, EV'|]. rewrite MF. exact ND.
        * intros E. rewrite E in EV'. apply Permutation_nil in EV'. apply (f_equal (@length _)) in EV'.
          rewrite combine_length, <- LV, Nat.min_id in EV'. unfold D in EV'. rewrite app_length in EV'. cbn in EV'. lia.
        * rewrite Forall_forall. intros [c v] I. apply (Permutation_in _ EV') in I. apply in_combine_r in I. apply in_map_iff in I. destruct I as (b & <- & I).
          cbn [snd]. apply valueOf_fair; [intros ->; rewrite Forall_forall in FB'; specialize (FB' [] I); cbn in FB'; lia|].
          rewrite EI' in TI. rewrite Forall_forall in *. intros x X. apply TI. apply in_concat. eauto.
        * rewrite PH, G. cbn [current hd_error queue option_map length rejectLoop].
          apply (Permutation_in _ EV') in I. destruct (in_combine_nth D _ c v LV I) as (best & Lb & Nc & Nv).
          assert (AC : app c = true).
          { assert (X : In c usable) by (apply (Permutation_in _ PU); rewrite <- Nc; now apply nth_In). destruct SP as [_ <-]. now apply filter_In in X. }
          rewrite AC. eexists _, _. split; [reflexivity|]. right.
          set (t1 := mkTuner _ _ _ _ _ _ _ _ _ _).
          assert (IN1 : inTuningPhase interval t1 = false).
          { unfold inTuningPhase, t1. cbn [iter isTuning forced]. now rewrite ISM. }
          assert (VN : forall j, (j < length D)%nat -> nth j (map (valueOf est) B) 0 = valueOf est (nth j B [])).
          { intros j J. rewrite (nth_indep _ 0 (valueOf est [])) by (rewrite <- LV; exact J). apply map_nth. }
          exists D, B, best, [i]. split; [now rewrite EI'|]. split; [exact LB'|]. split; [exact FB'|]. split; [cbn; lia|].
          split; [exact PU|]. split; [exact Lb|]. split.
          { intros j J. rewrite <- (VN j J), <- (VN best Lb), Nv. eapply M, (Permutation_in _ (Permutation_sym EV')), nth_in_combine; auto. }
          split.
          { rewrite EO', Nc. unfold willRebuild. rewrite IN1. reflexivity. }
          unfold bump. rewrite IN1, app_length. unfold t1. cbn [queue sRebuild sNoRebuild iter phase baseline isTuning forced space evs length].
          split; [now rewrite Nc|]. split; [unfold numSamples; cbn; rewrite repeat_length; lia|]. rewrite IT. split; [lia|]. split.
          { replace (S (from + length is)) with (from + (length is + 1))%nat by lia.
            destruct (Nat.eqb_spec (length is + 1) interval) as [X|X].
            - rewrite X. unfold from. replace (k * interval + interval)%nat with (S k * interval)%nat by lia. rewrite Nat.mod_mul by lia. reflexivity.
            - rewrite mod_inside by lia. reflexivity. }
          split. { destruct (inWait i), (Nat.ltb_spec 0 interval); cbn; try lia; reflexivity. }
          auto.
      + (* next configuration *)
        set (t1 := mkTuner _ _ _ _ _ _ _ _ _ _).
        assert (QE : q <> []) by (intros ->; now apply Permutation_nil in P').
        destruct (choose_ok i is (blocks ++ [blk]) (don ++ [cur]) t1 (c :: q') TM LB' FB' EI' eq_refl) as (c1 & t2 & C & R); auto.
        * rewrite Q in QO. destruct QO as (_ & N0 & L0). split; [discriminate|]. split; [eapply Permutation_NoDup; [exact P'|now inversion N0]|]. apply L'; [exact QE|].
          destruct q; [congruence|exact L0].
        * rewrite <- PU. apply Permutation_app_head. apply filter_perm. now apply Permutation_sym.
        * destruct (R _ eq_refl) as (cur' & E2 & S2). rewrite C. cbn [option_map]. rewrite E2.
          eexists _, _. split; [reflexivity|]. left. rewrite EO'. exact S2.
  Qed.

  Lemma settled_ok i is outs t : settled is outs t -> (length is < interval)%nat -> tame app i ->
    exists t' o, timeStep interval maxSamples freq est app forever i t = Some (t', o) /\ settled (is ++ [i]) (outs ++ [o]) t'.
  Proof.
    intros (don & blocks & best & rest & EI & LB & FB & LR & P & Lb & M & EO & Q & NS & IT & PH & BA & TU & FO & SP & NL) LT TM.
    assert (ISM : Nat.eqb (Nat.modulo (iter t) interval) 0 = false).
    { rewrite IT. apply mod_inside. split; [rewrite EI, app_length; lia|lia]. }
    assert (IN : inTuningPhase interval t = false) by (unfold inTuningPhase; now rewrite ISM, TU, FO).
    unfold timeStep, compute, getNextConfig. rewrite IN. cbn [negb]. unfold current. rewrite Q. cbn [hd_error option_map length rejectLoop].
    assert (AC : app (nth best don 0) = true).
    { assert (X : In (nth best don 0) usable) by (apply (Permutation_in _ P); now apply nth_In). destruct SP as [_ <-]. now apply filter_In in X. }
    rewrite AC. eexists _, _. split; [reflexivity|].
    exists don, blocks, best, (rest ++ [i]). rewrite EI, !app_length. cbn [length].
    split; [now rewrite app_assoc|]. split; [exact LB|]. split; [exact FB|]. split; [lia|]. split; [exact P|]. split; [exact Lb|]. split; [exact M|]. split.
    { rewrite EO, <- app_assoc. f_equal. replace (length rest + 1)%nat with (S (length rest)) by lia. rewrite seq_S, map_app. cbn [map Nat.add]. unfold willRebuild. rewrite IN, FO, BA. reflexivity. }
    unfold bump. rewrite IN. unfold numSamples. cbn [queue sRebuild sNoRebuild iter phase baseline isTuning forced space evs].
    split; [exact Q|]. split; [exact NS|]. rewrite IT. split; [rewrite EI, !app_length; lia|]. split.
    { replace (S (from + length is)) with (from + (length is + 1))%nat by lia. rewrite PH, (proj2 (Nat.eqb_neq (length is) interval)) by lia.
      replace (length (concat blocks) + length rest + 1)%nat with (length is + 1)%nat by (rewrite EI, app_length; lia).
      destruct (Nat.eqb_spec (length is + 1) interval) as [X|X].
      - rewrite X. unfold from. replace (k * interval + interval)%nat with (S k * interval)%nat by lia. rewrite Nat.mod_mul by lia. reflexivity.
      - rewrite mod_inside by lia. reflexivity. }
    assert (BL : Nat.ltb (baseline t) interval = true) by (apply Nat.ltb_lt; rewrite BA; rewrite EI, app_length in LT; lia).
    rewrite BL, !orb_true_r. cbn [negb]. rewrite BA. split; [lia|]. auto.
  Qed.

  Lemma sampling_not_full is outs t : sampling is outs t -> (length is < interval)%nat.
  Proof.
    intros (don & blocks & cur & q & blk & EI & LB & FB & LK & EO & Q & QO & A & P & _).
    apply Permutation_length in P. rewrite app_length, Q in P. cbn [filter] in P. rewrite A in P. cbn in P.
    rewrite EI, app_length, concat_length, LB by exact FB. nia.
  Qed.

  (** Any number of steps within the phase. *)
  Lemma inside_ok : forall is, Forall (tame app) is -> (1 <= length is <= interval)%nat -> forall t, ready t ->
    exists t' outs, runTuner interval maxSamples freq est app forever is t = Some (t', outs) /\ (sampling is outs t' \/ settled is outs t').
  Proof.
    assert (run_snoc : forall is i t, runTuner interval maxSamples freq est app forever (is ++ [i]) t =
      match runTuner interval maxSamples freq est app forever is t with
      | None => None
      | Some (t', outs) => option_map (fun r => (fst r, outs ++ [snd r])) (timeStep interval maxSamples freq est app forever i t')
      end).
    { induction is as [|a is IH]; intros i t; cbn [List.app runTuner].
      - destruct (timeStep _ _ _ _ _ _ i t) as [[t' o]|]; reflexivity.
      - destruct (timeStep _ _ _ _ _ _ a t) as [[t' o]|]; [|reflexivity]. rewrite IH.
        destruct (runTuner _ _ _ _ _ _ is t') as [[t2 outs]|]; [|reflexivity]. cbn. destruct (timeStep _ _ _ _ _ _ i t2) as [[t3 o3]|]; reflexivity. }
    intros is. induction is as [|i is IH] using rev_ind; intros F L t R; [cbn in L; lia|].
    apply Forall_app in F. destruct F as [F1 F2]. inversion F2 as [|? ? TM _]; subst. rewrite app_length in L. cbn in L.
    destruct is as [|i0 is0].
    - destruct (start_ok i t R TM) as (t' & o & E & S). cbn [List.app runTuner]. rewrite E. cbn. eexists _, _. split; [reflexivity|]. left. exact S.
    - destruct (IH F1 ltac:(cbn in *; lia) t R) as (t1 & outs & E & H). rewrite run_snoc, E. destruct H as [H|H].
      + destruct (sampling_ok i _ _ _ H F1 TM) as (t2 & o & E2 & H2). rewrite E2. cbn [option_map fst snd]. eexists _, _. split; [reflexivity|]. exact H2.
      + destruct (settled_ok i _ _ _ H ltac:(lia) TM) as (t2 & o & E2 & H2). rewrite E2. cbn [option_map fst snd]. eexists _, _. split; [reflexivity|]. right. exact H2.
  Qed.
End Run.

(** * Histories *)
Lemma runTuner_app interval maxSamples freq est app forever : forall a b t,
  runTuner interval maxSamples freq est app forever (a ++ b) t =
  match runTuner interval maxSamples freq est app forever a t with
  | None => None
  | Some (t', outs) => option_map (fun r => (fst r, outs ++ snd r)) (runTuner interval maxSamples freq est app forever b t')
  end.
Proof.
  induction a as [|i a IH]; intros b t; cbn [List.app runTuner].
  - destruct (runTuner _ _ _ _ _ _ b t) as [[t' o]|]; reflexivity.
  - destruct (timeStep _ _ _ _ _ _ i t) as [[t' o]|]; [|reflexivity]. rewrite IH.
    destruct (runTuner _ _ _ _ _ _ a t') as [[t2 outs]|]; [|reflexivity]. cbn. destruct (runTuner _ _ _ _ _ _ b t2) as [[t3 o3]|]; reflexivity.
Qed.
Lemma runTuner_length interval maxSamples freq est app forever : forall a t t' outs,
  runTuner interval maxSamples freq est app forever a t = Some (t', outs) -> length outs = length a.
Proof.
  induction a as [|i a IH]; intros t t' outs; cbn [runTuner]; [now intros [= _ <-]|].
  destruct (timeStep _ _ _ _ _ _ i t) as [[t1 o]|]; [|discriminate].
  destruct (runTuner _ _ _ _ _ _ a t1) as [[t2 os]|] eqn:E; [|discriminate]. cbn. intros [= _ <-]. cbn. f_equal. eauto.
Qed.

Lemma nth_error_concat {A} (f : Z -> list A) n : (forall c, length (f c) = n) -> forall cs j r, (j < length cs)%nat -> (r < n)%nat ->
  nth_error (concat (map f cs)) (j * n + r) = nth_error (f (nth j cs 0)) r.
Proof.
  intros L cs. induction cs as [|c cs IH]; intros j r J R; [cbn in J; lia|]. cbn [map concat]. destruct j as [|j].
  - rewrite nth_error_app1 by (rewrite L; lia). reflexivity.
  - rewrite nth_error_app2 by (rewrite L; lia). rewrite L. replace (S j * n + r - n)%nat with (j * n + r)%nat by lia. apply IH; [cbn in J; lia|exact R].
Qed.
Lemma concat_map_length {A} (f : Z -> list A) n : (forall c, length (f c) = n) -> forall cs, length (concat (map f cs)) = (length cs * n)%nat.
Proof. intros L. induction cs as [|c cs IH]; [reflexivity|]. cbn. rewrite app_length, L, IH. reflexivity. Qed.
Lemma skipn_concat (n : nat) : forall (blocks : list (list Input)) rest j, Forall (fun b => length b = n) blocks -> (j < length blocks)%nat ->
  firstn n (skipn (j * n) (concat blocks ++ rest)) = nth j blocks [].
Proof.
  induction blocks as [|b bl IH]; intros rest j F J; [cbn in J; lia|]. inversion F; subst. cbn [concat]. destruct j as [|j].
  - cbn [Nat.mul skipn nth]. rewrite <- app_assoc, firstn_app, firstn_all, Nat.sub_diag. cbn. now rewrite app_nil_r.
  - rewrite <- app_assoc, skipn_app, skipn_all2 by lia. replace (S j * length b - length b)%nat with (j * length b)%nat by lia. cbn [List.app nth].
    apply IH; [assumption|cbn in J; lia].
Qed.

Lemma settled_phase interval maxSamples freq est app forever usable k is outs t :
  settled interval maxSamples freq est app forever usable k is outs t -> length is = interval ->
  phaseDone interval maxSamples freq est usable is outs 0 /\
  (length usable * maxSamples < interval -> (1 <= maxSamples) -> ready interval maxSamples app forever usable (S k) t)%nat.
Proof.
  intros (don & blocks & best & rest & EI & LB & FB & LR & P & Lb & M & EO & Q & NS & IT & PH & BA & TU & FO & SP & NL) LI. split.
  - exists don, best. split; [exact P|]. split; [exact Lb|].
    assert (LO : forall c, length (blockOut maxSamples c) = maxSamples) by (intros c; unfold blockOut; now rewrite map_length, seq_length).
    split; [|split].
    + intros j r J R. cbn [Nat.add]. rewrite EO, nth_error_app1.
      * rewrite (nth_error_concat _ maxSamples LO) by assumption. unfold blockOut. erewrite map_nth_error; [reflexivity|].
        rewrite nth_error_nth' with (d := 0%nat) by now rewrite seq_length. now rewrite seq_nth.
      * rewrite (concat_map_length _ maxSamples LO). nia.
    + intros j J. unfold sampleOf. cbn [Nat.add]. rewrite EI, !skipn_concat by (auto; lia). apply M, J.
    + intros r R. cbn [Nat.add]. rewrite EO, nth_error_app2; rewrite (concat_map_length _ maxSamples LO); [|lia].
      replace (length don * maxSamples + r - length don * maxSamples)%nat with r by lia.
      assert (LC : length (concat blocks) = (length don * maxSamples)%nat) by (rewrite <- LB; now apply concat_length).
      assert (r < length rest)%nat by (rewrite EI, app_length in LI; lia).
      erewrite map_nth_error; [reflexivity|]. rewrite nth_error_nth' with (d := 0%nat) by now rewrite seq_length. now rewrite seq_nth.
  - intros HT Hm. rewrite LI in IT, PH. rewrite Nat.eqb_refl in PH. split; [rewrite Q; discriminate|]. split; [exact NS|]. split; [exact TU|]. split; [exact FO|].
    split; [rewrite IT; unfold from; lia|]. split; [exact PH|]. split; [exact SP|]. split; [apply NL; lia|]. intros k' K. apply NL. lia.
Qed.

Lemma phaseDone_shift interval maxSamples freq est usable a b oa ob n : length a = n -> length oa = n -> forall from,
  phaseDone interval maxSamples freq est usable b ob from -> phaseDone interval maxSamples freq est usable (a ++ b) (oa ++ ob) (n + from).
Proof.
  intros La Lo from (cs & best & P & L & H1 & H2 & H3). exists cs, best. split; [exact P|]. split; [exact L|]. split; [|split].
  - intros j r J R. rewrite nth_error_app2 by lia. rewrite Lo. replace (n + from + (j * maxSamples + r) - n)%nat with (from + (j * maxSamples + r))%nat by lia. auto.
  - intros j J. unfold sampleOf. assert (E : forall x, skipn (n + from + x) (a ++ b) = skipn (from + x) b).
    { intros x. rewrite skipn_app, skipn_all2 by lia. cbn. f_equal. lia. } rewrite !E. apply H2, J.
  - intros r R. rewrite nth_error_app2 by lia. rewrite Lo. replace (n + from + (length cs * maxSamples + r) - n)%nat with (from + (length cs * maxSamples + r))%nat by lia. auto.
Qed.
Lemma phaseDone_extend interval maxSamples freq est usable a b oa ob from : length a = length oa -> (from + interval <= length a)%nat ->
  (length usable * maxSamples < interval)%nat ->
  phaseDone interval maxSamples freq est usable a oa from -> phaseDone interval maxSamples freq est usable (a ++ b) (oa ++ ob) from.
Proof.
  intros La Lf HT (cs & best & P & L & H1 & H2 & H3). pose proof (Permutation_length P) as LP. exists cs, best. split; [exact P|]. split; [exact L|]. split; [|split].
  - intros j r J R. rewrite nth_error_app1; [auto|]. rewrite <- La. assert ((j + 1) * maxSamples <= length usable * maxSamples)%nat by (apply Nat.mul_le_mono_r; lia). lia.
  - intros j J. unfold sampleOf.
    assert (E : forall x, (x < length cs)%nat -> firstn maxSamples (skipn (from + x * maxSamples) (a ++ b)) = firstn maxSamples (skipn (from + x * maxSamples) a)).
    { intros x X. assert ((x + 1) * maxSamples <= length usable * maxSamples)%nat by (apply Nat.mul_le_mono_r; lia).
      rewrite skipn_app, firstn_app, skipn_length. replace (maxSamples - (length a - (from + x * maxSamples)))%nat with 0%nat by lia. cbn. now rewrite app_nil_r. }
    rewrite !E by assumption. apply H2, J.
  - intros r R. rewrite nth_error_app1; [auto|]. lia.
Qed.

Section Histories.
  Variables (interval maxSamples freq : nat) (est : list Z -> list Z -> Z) (app forever : Z -> bool) (sp : list Z).
  Hypothesis Hm : (1 <= maxSamples)%nat.
  Hypothesis Hsp : goodSpace app forever sp.
  Hypothesis HT : (length (filter app sp) * maxSamples < interval)%nat.
  Hypothesis Hest : fairEstimate est.
  Let usable := filter app sp.
  Lemma usable_nodup : NoDup usable. Proof. apply NoDup_filter. now destruct Hsp. Qed.

  Lemma construct_ready t : construct maxSamples sp = Some t -> ready interval maxSamples app forever usable 0 t.
  Proof.
    intros C. assert (E : sp <> [] /\ t = mkTuner sp (rev sp) [] (repeat 0 maxSamples) 0 0 0 false false []).
    { unfold construct in C. destruct sp; [discriminate|]. injection C as <-. split; [discriminate|reflexivity]. }
    destruct E as [NE ->]. unfold ready, numSamples. cbn [queue sNoRebuild sRebuild isTuning forced iter phase space evs length].
    split. { intros X. apply (f_equal (@length _)) in X. rewrite rev_length in X. destruct sp; [congruence|discriminate]. }
    rewrite repeat_length. split; [lia|]. repeat split; try reflexivity; try apply Hsp.
  Qed.

  Lemma phases_ok : forall n k t is, length is = (n * interval)%nat -> Forall (tame app) is -> ready interval maxSamples app forever usable k t ->
    exists t' outs, runTuner interval maxSamples freq est app forever is t = Some (t', outs) /\ ready interval maxSamples app forever usable (n + k) t' /\
      forall p, (p < n)%nat -> phaseDone interval maxSamples freq est usable is outs (p * interval).
  Proof.
    induction n as [|n IH]; intros k t is L F R.
    - destruct is; [|discriminate]. exists t, []. split; [reflexivity|]. split; [exact R|]. lia.
    - rewrite <- (firstn_skipn interval is) in *. set (a := firstn interval is) in *. set (b := skipn interval is) in *.
      assert (La : length a = interval) by (unfold a; rewrite firstn_length; rewrite app_length in L; unfold a, b in L; rewrite firstn_length, skipn_length in L; lia).
      rewrite app_length in L. apply Forall_app in F. destruct F as [Fa Fb].
      destruct (inside_ok interval maxSamples freq est app forever usable Hm usable_nodup HT Hest k a Fa ltac:(lia) t R) as (t1 & oa & E & ST).
      destruct ST as [ST|ST]; [apply sampling_not_full in ST; [lia|exact Hm|exact HT]|].
      destruct (settled_phase _ _ _ _ _ _ _ _ _ _ _ ST La) as [D R1]. specialize (R1 HT Hm).
      destruct (IH (S k) t1 b ltac:(lia) Fb R1) as (t2 & ob & E2 & R2 & D2).
      rewrite runTuner_app, E, E2. cbn [option_map fst snd]. exists t2, (oa ++ ob). split; [reflexivity|]. split; [replace (S n + k)%nat with (n + S k)%nat by lia; exact R2|].
      pose proof (runTuner_length _ _ _ _ _ _ _ _ _ _ E) as Lo.
      intros p Hp. destruct p as [|p].
      + cbn [Nat.mul]. apply phaseDone_extend; auto; lia.
      + cbn [Nat.mul]. apply phaseDone_shift; [exact La|lia|]. apply D2. lia.
  Qed.

  Theorem tuner_phases : forall n is, length is = (n * interval)%nat -> Forall (tame app) is ->
    exists t0 t outs, construct maxSamples sp = Some t0 /\ runTuner interval maxSamples freq est app forever is t0 = Some (t, outs) /\
      length outs = length is /\
      forall p, (p < n)%nat -> phaseDone interval maxSamples freq est (filter app sp) is outs (p * interval).
  Proof.
    intros n is L F. destruct (construct maxSamples sp) as [t0|] eqn:C.
    - destruct (phases_ok n 0 t0 is L F (construct_ready t0 C)) as (t & outs & E & _ & D). exists t0, t, outs. split; [reflexivity|]. split; [exact E|].
      split; [eapply runTuner_length; eauto|exact D].
    - unfold construct in C. destruct sp as [|a l] eqn:E; [|discriminate]. exfalso. destruct Hsp as (_ & _ & X). cbn in X. lia.
  Qed.

  Theorem tuner_never_fails : forall is, Forall (tame app) is ->
    exists t0 t outs, construct maxSamples sp = Some t0 /\ runTuner interval maxSamples freq est app forever is t0 = Some (t, outs) /\
      length outs = length is /\ Forall (fun o => app (fst (fst o)) = true) outs.
  Proof.
    intros is F.
    assert (LT : (length is <= length is * interval)%nat) by (destruct (length is); [lia|nia]).
    set (pad := repeat (mkInput [] [] 0 false false) (length is * interval - length is)).
    assert (FP : Forall (tame app) (is ++ pad)).
    { apply Forall_app. split; [exact F|]. apply Forall_forall. intros x X. apply repeat_spec in X. subst x. repeat split; try constructor. cbn. unfold longMax. lia. }
    destruct (tuner_phases (length is) (is ++ pad)) as (t0 & t & outs & C & E & LO & D); [rewrite app_length; unfold pad; rewrite repeat_length; lia|exact FP|].
    rewrite runTuner_app in E. destruct (runTuner interval maxSamples freq est app forever is t0) as [[t1 o1]|] eqn:E1; [|discriminate].
    exists t0, t1, o1. split; [exact C|]. split; [exact E1|]. pose proof (runTuner_length _ _ _ _ _ _ _ _ _ _ E1) as L1. split; [exact L1|].
    assert (G : forall i ts fs t t' o, compute interval maxSamples est app forever i t = Some (t', ts, fs) -> o = ts -> app o = true).
    { intros i c fl u u' o H ->. unfold compute in H. destruct (getNextConfig _ _ _ _ _) as [[[u1 c1] s1]|]; [|discriminate].
      assert (GL : forall fuel u c1 s1 u2 c2 s2, rejectLoop app forever fuel (inOpts i) u c1 s1 = Some (u2, c2, s2) -> app c2 = true).
      { induction fuel as [|fuel IHf]; intros v d s v2 d2 s2; cbn [rejectLoop]; destruct (app d) eqn:A; try (now intros [= _ <- _]); try discriminate.
        destruct (rejectConfig _ _ _ _) as [[[v1 d1] s3]|]; [|discriminate]. apply IHf. }
      destruct (rejectLoop _ _ _ _ _ _ _) as [[[u2 c2] s2]|] eqn:RL; [|discriminate]. apply GL in RL.
      destruct s2; [destruct (addMeasurement _ _ _ _ _); [|discriminate]; now injection H as _ <- _|now injection H as _ <- _]. }
    clear - E1 G. revert t0 t1 o1 E1. induction is as [|i is IH]; intros t0 t1 o1; cbn [runTuner]; [now intros [= _ <-]|].
    destruct (timeStep _ _ _ _ _ _ i t0) as [[u o]|] eqn:TS; [|discriminate].
    destruct (runTuner _ _ _ _ _ _ is u) as [[u2 os]|] eqn:E; [|discriminate]. cbn. intros [= _ <-]. constructor; [|eauto].
    unfold timeStep in TS. destruct (compute _ _ _ _ _ _ _) as [[[u3 c] s]|] eqn:CC; [|discriminate]. injection TS as _ <-. cbn. eauto.
  Qed.
End Histories.
